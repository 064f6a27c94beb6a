{
 "claims": [
  {
   "property": "C01",
   "status": "proved",
   "theorems": [
    "C01_ttas_atomic",
    "C01_tas_atomic",
    "C01_ttas_exclusion",
    "C01_tas_exclusion"
   ],
   "note": "Both spin mutexes (test-test-and-set and atomic_flag): every history of every schedule with any number of threads is linearizable to an atomic mutex; holders <= 1 read off the history."
  },
  {
   "property": "C02",
   "status": "proved",
   "theorems": [
    "C02_shared_lock_progress",
    "C02_shared_lock_shared_progress",
    "C02_ttas_progress",
    "C02_tas_progress",
    "C02_ttas_unlock_assertion"
   ],
   "note": "Any reachable configuration without a possessor: a thread inside lock() running alone returns within 3 steps (both spin mutexes, shared_spin_mutex; lock_shared up to 2^31 threads)."
  },
  {
   "property": "C03",
   "status": "proved",
   "theorems": [
    "C03_ttas",
    "C03_tas",
    "C03_shared_exclusive",
    "C03_shared_shared"
   ],
   "note": "Everything the owner of a spin mutex knows at unlock is known to the next owner; exclusive and shared sections of the shared spin mutex both ways. Simplification: one interleaving order, a load reads the latest value; memory orders decide only what knowledge is transferred."
  },
  {
   "property": "C04",
   "status": "proved",
   "theorems": [
    "C04_atomic",
    "C04_exclusion"
   ],
   "note": "Linearizable to an atomic readers-writer mutex whose try_lock_shared may fail spuriously (C05), any number of threads; exclusion read off the history."
  },
  {
   "property": "C05",
   "status": "partial",
   "theorems": [
    "C05_refuted",
    "C05_solo_partial"
   ],
   "note": "False of the code as documented: C05_refuted exhibits two readers and no writer with try_lock_shared returning false. C05_solo_partial: without interference the result is exact."
  },
  {
   "property": "C06",
   "status": "partial",
   "theorems": [
    "C06_full_reader_field_blocks_refuted",
    "C06_full_reader_field_try_refuted",
    "C06_exclusion_partial"
   ],
   "note": "Exclusion holds for every number of readers (C06_exclusion_partial, no bound on n), but 2^31 simultaneous readers make the word equal to the exclusive state: the two _refuted theorems show lock_shared spinning for ever and try_lock_shared failing with no writer in the whole history."
  },
  {
   "property": "C07",
   "status": "proved",
   "theorems": [
    "C07_atomic",
    "C07_atomic_few_threads",
    "C07_conservation"
   ],
   "note": "Linux auto_reset_event: linearizable to a counter of undelivered posts (post absorbed only if positive) and completed waits <= posts, for every schedule in which at most 1022 threads are inside waits at a time (the waiter capacity; beyond it see C10_refuted). All three timed overloads (system time, duration, chrono loop), EINTR, spurious wake-ups, weak CAS failures."
  },
  {
   "property": "C08",
   "status": "proved",
   "theorems": [
    "C08_no_lost_wakeup",
    "C08_enough_awake",
    "C08_quiescent",
    "C08_solo"
   ],
   "note": "min(undelivered posts, registered waiters) <= awake registered waiters + posts about to call FUTEX_WAKE, in every reachable configuration; quiescence corollary; solo completion."
  },
  {
   "property": "C09",
   "status": "partial",
   "theorems": [
    "C09_refuted",
    "C09_post_again_partial",
    "C09_bounded_partial"
   ],
   "note": "False of the code as documented: C09_refuted gives a history (one registered waiter, two sequential posts, two successful sequential try_waits) that no binary event has. Positive: no effect when nobody is waiting; never more than waiters+1 posts remembered."
  },
  {
   "property": "C10",
   "status": "partial",
   "theorems": [
    "C10_refuted",
    "C10_no_loss_partial"
   ],
   "note": "False of the code: C10_refuted (1023 sleeping waiters, 1024 posts, nobody released). Positive: with at most 1022 waiting threads no post is lost."
  },
  {
   "property": "C11",
   "status": "proved",
   "theorems": [
    "C11_atomic",
    "C11_waiters_exact"
   ],
   "note": "Linux manual_reset_event: linearizable to an atomic boolean for every schedule with fewer than 2^31 threads (all timed overloads, EINTR, spurious wake-ups); the waiter field is exact."
  },
  {
   "property": "C12",
   "status": "proved",
   "theorems": [
    "C12_no_lost_wakeup",
    "C12_broadcast_wakes_all",
    "C12_quiescent",
    "C12_solo"
   ],
   "note": "Signalled and a sleeper implies a set() about to broadcast; the broadcast wakes everybody; quiescence; solo completion."
  },
  {
   "property": "C13",
   "status": "proved",
   "theorems": [
    "C13_atomic",
    "C13_conservation",
    "C13_no_lost_wakeup",
    "C13_post_effect",
    "C13_quiescent"
   ],
   "note": "Semaphore-based auto_reset_event, any schedule with fewer than 2^31-1 threads: conservation, atomicity as an absorbing counter (try/timed may fail spuriously), waiter-token balance, no needed post dropped. The semaphore is an atomic counter; semaphore calls that throw are not modelled."
  },
  {
   "property": "C14",
   "status": "partial",
   "theorems": [
    "C14_refuted",
    "C14_early_return_refuted",
    "C14_post_again_partial",
    "C14_bounded_partial"
   ],
   "note": "False of the code as documented: C14_refuted (failing try_wait overlapping two posts leaves two units), C14_early_return_refuted (post returns before the event is signalled). Positive: exact when no thread is inside a wait; bounded."
  },
  {
   "property": "C15",
   "status": "partial",
   "theorems": [
    "C15_atomic",
    "C15_no_lost_wakeup_partial",
    "C15_progress",
    "C15_chrono_refuted"
   ],
   "note": "Emulated auto_reset_event: linearizable to a binary event and never deadlocked on its mutex, all schedules and overloads; no lost wake-up for system-time/duration timed waits. C15_chrono_refuted: the condition variable's chrono loop waits again after a timeout without rechecking, so a consumed notification leaves the event signalled with every waiter asleep."
  },
  {
   "property": "C16",
   "status": "partial",
   "theorems": [
    "C16_atomic",
    "C16_no_lost_wakeup_partial",
    "C16_notify_all",
    "C16_progress",
    "C16_chrono_refuted"
   ],
   "note": "Emulated manual_reset_event: linearizable to a boolean, all schedules and overloads; no lost wake-up for system-time/duration waits; C16_chrono_refuted as for C15."
  },
  {
   "property": "C17",
   "status": "partial",
   "theorems": [
    "C17_atomic",
    "C17_conservation",
    "C17_enough_awake_partial",
    "C17_progress",
    "C17_overflow_refuted",
    "C17_chrono_refuted"
   ],
   "note": "Emulated semaphore: linearizable to a counter and conservation while the count stays below UINT_MAX; enough waiters awake for system-time/duration waits. Refuted beyond: C17_overflow_refuted (count wraps to 0), C17_chrono_refuted."
  },
  {
   "property": "C18",
   "status": "proved",
   "theorems": [
    "C18_atomic",
    "C18_exclusion",
    "C18_no_lost_wakeup",
    "C18_progress"
   ],
   "note": "timed_mutex without pthread_mutex_timedlock: linearizable to an atomic mutex, exclusion, no lost wake-up, progress; all schedules, all overloads including the chrono loop. pthread calls that fail are not modelled."
  },
  {
   "property": "C19",
   "status": "proved",
   "theorems": [
    "C19_atomic",
    "C19_exclusion",
    "C19_idle_word"
   ],
   "note": "WinMutexModel.v: every access to m_active_count and m_event and every Windows call is a step; timeouts, failed waits, failed event creation and failed timer set-up at every point. Atomicity (linearizable to the mutex specification with failures), exclusion, and the packed word when idle. Fewer than 2^30 threads (the waiter field has 30 bits)."
  },
  {
   "property": "C20",
   "status": "proved",
   "theorems": [
    "C20_no_lost_wakeup",
    "C20_progress"
   ],
   "note": "Invariant over all reachable states plus a progress theorem from every such state."
  },
  {
   "property": "C21",
   "status": "partial",
   "theorems": [
    "C21_refuted",
    "C21_event_refuted",
    "C21_try_lock_partial",
    "C21_first_attempt_partial",
    "C21_with_acquire_partial"
   ],
   "note": "False: the compare-exchange operations of mark_waiting/clear_waiting are relaxed (C21_refuted, C21_event_refuted). Proved for try_lock, for a lock whose first attempt succeeds, and for the program with acquire order in the two operations; fewer than 2^30 threads."
  },
  {
   "property": "C22",
   "status": "proved",
   "theorems": [
    "C22_unique_event",
    "C22_no_double_close",
    "C22_no_leak"
   ],
   "note": "All threads past get_event use the one stored, open handle; no handle is closed twice in any reachable state; after the destructor exactly the created handles are closed."
  },
  {
   "property": "C23",
   "status": "proved",
   "theorems": [
    "C23_exactly_one",
    "C23_takes_effect",
    "C23_delivered",
    "C23_none_forgotten"
   ],
   "note": "WinCvModel.v: every section under the internal mutex, every unprotected load and every semaphore wait is a step; timeouts, failing waits and allocation failures anywhere. Up to 2^30 threads, executions in which locking the internal mutex does not throw. ReleaseSemaphore saturation at LONG_MAX is modelled."
  },
  {
   "property": "C24",
   "status": "proved",
   "theorems": [
    "C24_matched",
    "C24_results"
   ],
   "note": "An explicit assignment of notifications to released waits: each wait gets a notification issued strictly inside it, no notification serves more waits than it released, and undelivered notifications are reserved for threads that were already waiting."
  },
  {
   "property": "C25",
   "status": "proved",
   "theorems": [
    "C25_counts_all",
    "C25_all_released",
    "C25_terminates"
   ],
   "note": "For every thread waiting when notify_all took effect the next event of its wait is a notified end, and at every later point it can reach it in three own steps. Loops terminate (no state of the ring is null or dangling)."
  },
  {
   "property": "C26",
   "status": "partial",
   "theorems": [
    "C26_exact",
    "C26_idle",
    "C26_destructor",
    "C26_mutex_failure_refuted",
    "C26_phantom_refuted"
   ],
   "note": "Exact bookkeeping, idle state and destructor proved for executions in which locking the internal mutex does not throw; if it throws during a wait the registration leaks (C26_mutex_failure_refuted) and a later notify_one is spent on the phantom waiter while a real one stays blocked (C26_phantom_refuted)."
  },
  {
   "property": "C27",
   "status": "proved",
   "theorems": [
    "C27_not_missed"
   ],
   "note": "CvAnyModel.v: interleaving model of the waits and notifications with the internal mutex, the condition variable wait set and a user lock that may throw; theorem over histories for both notify_one and notify_all. Rests on the POSIX contract that cond_wait releases and joins atomically."
  },
  {
   "property": "C28",
   "status": "partial",
   "theorems": [
    "C28_lock_held_partial",
    "C28_relock_failure_refuted"
   ],
   "note": "CvWaitModel.v: every waiting function of the POSIX, Windows and generic condition variables in an exception monad with an oracle for every internal call. C28_lock_held_partial: on every return and every exception the lock is held again, the internal mutex is not, and the internal mutex is never held while re-locking - except when re-acquiring the caller lock itself throws. C28_relock_failure_refuted: in that case the wait exits by exception without the lock, or terminates if another exception is in flight."
  },
  {
   "property": "C29",
   "status": "proved",
   "theorems": [
    "C29_timed_wait_pred",
    "C29_wait_pred"
   ],
   "note": "CvWaitModel.v; for all implementations, kinds of time and oracle answers: returned value = last predicate evaluation, false only after a reported timeout, nothing but one evaluation is done when the predicate is already true, all evaluations with the lock held; wait(lock, pred) returns exactly at the first true evaluation."
  },
  {
   "property": "C30",
   "status": "partial",
   "theorems": [
    "C30_single_deadline",
    "C30_result",
    "C30_bounded",
    "C30_generic_refuted"
   ],
   "note": "DeadlineModel.v. Holds for POSIX and Windows (C30_single_deadline, C30_bounded). False for the generic condition_variable_any (C30_generic_refuted): each wake-up restarts the full duration, so for every bound there is a perfectly prompt environment in which the call is still waiting."
  },
  {
   "property": "C31",
   "status": "proved",
   "theorems": [
    "C31_ownership",
    "C31_no_double_unlock",
    "C31_no_leak",
    "C31_destructor",
    "C31_queries",
    "C31_move",
    "C31_constructors_exact",
    "C31_conversions_exist",
    "C31_conversions_exact",
    "C31_convert_assign_exact",
    "C31_release_swap_exact"
   ],
   "note": "All programs over any number of lock objects and mutexes, arbitrary environment deciding every mutex outcome including exceptions. Converting constructors are modelled as written although they do not compile as the headers stand (private members of another class template, C86). Every constructor, conversion, converting assignment, release and swap is characterised completely (C31_constructors_exact, C31_conversions_exist, C31_conversions_exact, C31_convert_assign_exact, C31_release_swap_exact). An unlock that throws from a destructor terminates the program (C++11)."
  },
  {
   "property": "C32",
   "status": "proved",
   "theorems": [
    "C32_misuse",
    "C32_proper_use",
    "C32_proper_unlock"
   ],
   "note": "Every state, every operation; error codes distinguished."
  },
  {
   "property": "C33",
   "status": "proved",
   "theorems": [
    "C33_balanced",
    "C33_nested",
    "C33_no_terminate",
    "C33_exceptions",
    "C33_relock_failure"
   ],
   "note": "Every tree of scopes, exceptions anywhere. The only imbalance possible is a failed re-lock in ~unlock_guard (the mutex itself throws), which the theorem accounts for exactly (C33_relock_failure)."
  },
  {
   "property": "C34",
   "status": "partial",
   "theorems": [
    "C34_add_exact_partial",
    "C34_add_borrow_wrong",
    "C34_add_negative_refuted",
    "C34_add_overflow_refuted",
    "C34_sub_exact_partial",
    "C34_sub_borrow_wrong",
    "C34_diff_exact",
    "C34_now_exact",
    "C34_now_coarse_partial",
    "C34_now_coarse_refuted"
   ],
   "note": "Differences exact always; additions exact iff tv_nsec + d >= 0 (all d >= 0, no int64 overflow). False otherwise: C34_add_borrow_wrong / C34_sub_borrow_wrong show every borrow from the seconds lands exactly 2^64 ns too late (unsigned / and %; the tv_nsec<0 branch is dead); overflow near INT64_MAX is undefined. now(): exact with gettimeofday (C34_now_exact); where only ::time() exists it lags by the fraction of the second and a relative wait may end that much early (C34_now_coarse_partial, C34_now_coarse_refuted). LP64."
  },
  {
   "property": "C35",
   "status": "partial",
   "theorems": [
    "C35_add_exact_partial",
    "C35_sub_exact_partial",
    "C35_diff_exact_partial",
    "C35_make_exact",
    "C35_of_dur_exact",
    "C35_epoch",
    "C35_overflow_refuted"
   ],
   "note": "Exact for every duration whose value in 100 ns units fits int64 and every difference that fits int64; C35_overflow_refuted covers the remaining representable cases (signed overflow; differences above 2^63)."
  },
  {
   "property": "C36",
   "status": "partial",
   "theorems": [
    "C36_chrono_duration",
    "C36_date_time_duration",
    "C36_timespec",
    "C36_point_posix_partial",
    "C36_point_before_1970_wrong",
    "C36_point_refuted",
    "C36_point_windows",
    "C36_chrono_point_posix_partial",
    "C36_date_time_point_posix_partial",
    "C36_chrono_point_windows",
    "C36_date_time_point_windows"
   ],
   "note": "Durations (Boost.Chrono/std::chrono any ratio, Boost.DateTime) and timespec: exact or truncated by less than a unit (timespec on Windows rounds down). Points of system_clock and Boost.DateTime end to end: exact or truncated at/after 1970 on POSIX (C36_chrono_point_posix_partial, C36_date_time_point_posix_partial) and on Windows; every point before 1970 on POSIX is moved 2^64 ns into the future (refuted). Floating-point Rep: C93."
  },
  {
   "property": "C37",
   "status": "proved",
   "theorems": [
    "C37_event_semaphore",
    "C37_condition_mutex",
    "C37_terminates",
    "C37_event_semaphore_result",
    "C37_condition_mutex_result"
   ],
   "note": "All four Windows relative loops (event, semaphore, condition variable, timed_mutex), every 64-bit duration and every sequence of kernel results; slices never infinite; timeout implies the whole duration was waited; termination."
  },
  {
   "property": "C38",
   "status": "partial",
   "theorems": [
    "C38_do",
    "C38_while",
    "C38_do_exact",
    "C38_while_exact",
    "C38_system_clock_exact",
    "C38_system_clock_partial",
    "C38_system_clock_set_back_refuted"
   ],
   "note": "Both chrono loop shapes: proved for every clock behaviour. Linux events with a system clock deadline: proved if the clock is not set back during the futex wait, refuted otherwise (relative futex timeout, no recheck after ETIMEDOUT)."
  },
  {
   "property": "C39",
   "status": "partial",
   "theorems": [
    "C39_posix_wait_partial",
    "C39_posix_try_wait_partial",
    "C39_posix_timed_wait_partial",
    "C39_posix_post",
    "C39_posix_invalid_refuted",
    "C39_mutex",
    "C39_condition_variable",
    "C39_mach_wait",
    "C39_mach_timed_wait",
    "C39_windows_event",
    "C39_windows_semaphore",
    "C39_windows_semaphore_exception_refuted",
    "C39_posix_semaphore_exact",
    "C39_mach_exact",
    "C39_windows_event_exact",
    "C39_windows_semaphore_exact"
   ],
   "note": "Total characterisation for pthread mutex/condvar calls, Mach semaphores, Windows events and semaphores. Refuted: POSIX semaphores swallow unexpected errors (wait returns as if successful); Windows semaphore timed wait throws lock_error. NDEBUG build."
  },
  {
   "property": "C40",
   "status": "partial",
   "theorems": [
    "C40_futex",
    "C40_mach_partial",
    "C40_mach_refuted",
    "C40_dispatch",
    "C40_posix_partial",
    "C40_posix_negative_waits_for_centuries",
    "C40_posix_refuted",
    "C40_posix_semaphore_expired_deadline_waits_for_centuries",
    "C40_windows_timer_partial",
    "C40_windows_min_refuted"
   ],
   "note": "Linux futex and dispatch: proved for all 64-bit durations. Refuted: Mach seconds narrowed to 32 bits; POSIX relative timeouts below minus tv_nsec become absolute deadlines 584 years ahead (so does an expired chrono deadline given to the POSIX semaphore); Windows time_point::min() becomes a relative timer of 28000 years."
  },
  {
   "property": "C41",
   "status": "proved",
   "theorems": [
    "C41_exact",
    "C41_isolated",
    "C41_fresh"
   ],
   "note": "get() returns the value the thread last set through this pointer for every history before the thread begins to exit (C41_isolated), and exactly what the history of this thread and pointer determines at any time on each platform (C41_exact); a pointer reusing a recycled key starts as null everywhere (C41_fresh)."
  },
  {
   "property": "C42",
   "status": "partial",
   "theorems": [
    "C42_balance_partial",
    "C42_not_twice_partial",
    "C42_all_exited_partial",
    "C42_destroyed_partial",
    "C42_leak_refuted",
    "C42_alien_refuted",
    "C42_rounds_refuted",
    "C42_compiler_tls_refuted"
   ],
   "note": "Exact balance installed = cleaned + taken + held for executions in which no pointer is destroyed while an exiting thread has a value of it in hand; nothing left after all threads exited or all pointers destroyed. False in general: leak (C42_leak_refuted), foreign cleanup through a recycled key (C42_alien_refuted), POSIX round limit (C42_rounds_refuted), compiler TLS (C42_compiler_tls_refuted)."
  },
  {
   "property": "C43",
   "status": "partial",
   "theorems": [
    "C43_at_most_once",
    "C43_all_run_partial",
    "C43_reverse_order",
    "C43_exit_order",
    "C43_windows_late_refuted",
    "C43_posix_depth_refuted",
    "C43_compiler_tls_refuted"
   ],
   "note": "At most once, on the registering thread, reverse order, and all run when the exit is complete, except functions registered by cleanup functions of values on Windows. Refuted: Windows late registration, POSIX round limit, compiler TLS back end."
  },
  {
   "property": "C44",
   "status": "partial",
   "theorems": [
    "C44_last",
    "C44_windows_last",
    "C44_once",
    "C44_accounted",
    "C44_posix_order_refuted",
    "C44_posix_depth_refuted",
    "C44_compiler_tls_refuted"
   ],
   "note": "Windows: the notification follows every exit function and cleanup, each exactly once, in order; failed registrations unlock at once and exactly once. POSIX: true within one round of key destructors only; C44_posix_order_refuted, C44_posix_depth_refuted, C44_compiler_tls_refuted."
  },
  {
   "property": "C45",
   "status": "partial",
   "theorems": [
    "C45_windows_values_after_functions",
    "C45_windows",
    "C45_posix_refuted"
   ],
   "note": "True on Windows (C45_windows, C45_windows_values_after_functions); false on POSIX, where get() returns null in exit functions (C45_posix_refuted)."
  },
  {
   "property": "C46",
   "status": "partial",
   "theorems": [
    "C46_only_these_partial",
    "C46_reset_destroy_refuted",
    "C46_get_destroy_refuted",
    "C46_create_exit_refuted"
   ],
   "note": "False: reset/get race with the destruction of another pointer and creation races with the exit of another thread; C46_only_these_partial: every race involves a destruction or a creation concurrent with a thread exit."
  },
  {
   "property": "C47",
   "status": "proved",
   "theorems": [
    "C47_attempts_exclude",
    "C47_completes_once",
    "C47_own_attempt",
    "C47_use_after_done",
    "C47_retry",
    "C47_attempt_enabled",
    "C47_attempt_bounded",
    "C47_tss_once",
    "C47_tss_ready"
   ],
   "note": "Attempts exclude each other, complete at most once, are ended by the thread that began them, no caller uses the slot before completion, a failed attempt can be retried, a running one ends within eight steps of its thread; init_tss_once: one manager, seen by every caller that proceeds. Interlocked operations are taken as sequentially consistent; the ordering of the plain read is not modelled."
  },
  {
   "property": "C48",
   "status": "partial",
   "theorems": [
    "C48_without_workaround",
    "C48_workaround_partial",
    "C48_uninterrupted",
    "C48_lost_refuted"
   ],
   "note": "Proved without the workaround, for uninterrupted executions, and with the workaround when nobody notifies between an interruption and the next wait; false otherwise: C48_lost_refuted (with the workaround the wait starts again without re-testing the predicate, so a notification that arrives during the interruption is lost)."
  },
  {
   "property": "C49",
   "status": "partial",
   "theorems": [
    "C49_manual",
    "C49_manual_now",
    "C49_manual_some",
    "C49_auto_refuted",
    "C49_auto_handoff_partial",
    "C49_auto_some_partial",
    "C49_auto_counted_partial",
    "C49_sem_refuted",
    "C49_sem_handoff_partial",
    "C49_sem_some_partial",
    "C49_sem_counted_partial"
   ],
   "note": "manual_reset_event: proved in full (C49_manual, C49_manual_now, C49_manual_some). auto_reset_event: false for a post on an event that is signalled already (C49_auto_refuted, C49_sem_refuted: only a release fence, no store); proved for posts that are counted and for hand-offs, n <= 1022 (futex) / 2^31-2 (semaphore). Loads read the latest value."
  },
  {
   "property": "C50",
   "status": "proved",
   "theorems": [
    "C50_waiters_exact",
    "C50_timed_atomic"
   ],
   "note": "Timed waits are atomic (false: count was zero and unchanged; true: exactly one unit) and the waiter field counts exactly the registered threads; same capacity condition as C07. Duration, absolute and chrono overloads."
  },
  {
   "property": "C51",
   "status": "partial",
   "theorems": [
    "C51_unlock_terminates_refuted",
    "C51_only_cause"
   ],
   "note": "False: unlock() creates the event lazily and std::terminate follows if that fails (C51_unlock_terminates_refuted, two threads). C51_only_cause: this is the only way in any state."
  },
  {
   "property": "C52",
   "status": "partial",
   "theorems": [
    "C52_notify_noexcept_refuted",
    "C52_only_cause"
   ],
   "note": "False: the internal mutex may fail to allocate its event inside the noexcept notify functions (C52_notify_noexcept_refuted); C52_only_cause: that is the only way."
  },
  {
   "property": "C53",
   "status": "partial",
   "theorems": [
    "C53_chrono_wait_misses_notification_refuted",
    "C53_single_registration"
   ],
   "note": "False for time points of clocks other than the system clock (C53_chrono_wait_misses_notification_refuted); every other waiting function registers exactly once per call (C53_single_registration)."
  },
  {
   "property": "C54",
   "status": "partial",
   "theorems": [
    "C54_one_key",
    "C54_slots",
    "C54_semaphore_handles",
    "C54_same_timer",
    "C54_one_key_refuted",
    "C54_handle_leak_refuted",
    "C54_name",
    "C54_name_injective",
    "C54_name_terminated"
   ],
   "note": "Proved when the semaphore can be created and its count be read (every other call may fail). The name of the semaphore is proved to be the process id in hexadecimal, different for different processes and terminated within its array (C54_name*). False otherwise: C54_one_key_refuted (two slots, two timers for a thread) and C54_handle_leak_refuted (a failed attempt leaks its semaphore handle)."
  },
  {
   "property": "C55",
   "status": "proved",
   "theorems": [
    "C55_own_timer",
    "C55_same_timer",
    "C55_open_while_alive",
    "C55_closed_at_most_once",
    "C55_no_leak",
    "C55_cleanup"
   ],
   "note": "Owner, repeatability, lifetime, no double close, no leak when no call is in progress, complete cleanup by the callback after the thread ended; for every outcome of every system call."
  },
  {
   "property": "C56",
   "status": "partial",
   "theorems": [
    "C56_posix",
    "C56_windows_event_semaphore",
    "C56_futex_emulation_refuted",
    "C56_windows_mutex_refuted",
    "C56_clock_refuted",
    "C56_undisturbed_partial",
    "C56_not_early",
    "C56_clock_not_early",
    "C56_clock_undisturbed_partial"
   ],
   "note": "Proved for the POSIX semaphore and timed mutex (deadline computed once) and for Windows events and semaphores (slices are subtracted). False for futex events and emulations (full duration again after each lost wake-up), for the Windows mutex and condition variable (a slice ended by a lost wake-up is not subtracted), and for waits on another clock built on these; without lost wake-ups all are bounded (C56_undisturbed_partial, C56_clock_undisturbed_partial). No call returns false before its duration has passed or the clock has reached the time point (C56_not_early, C56_clock_not_early)."
  },
  {
   "property": "C57",
   "status": "partial",
   "theorems": [
    "C57_auto_futex",
    "C57_manual_futex",
    "C57_auto_semaphore",
    "C57_emulations",
    "C57_windows_mutex",
    "C57_windows_event_semaphore",
    "C57_clock_do",
    "C57_mach_clock_refuted",
    "C57_mach_clock_never_looks"
   ],
   "note": "Proved for futex, semaphore-based and emulated objects, Windows mutexes, events and semaphores, and for the clock loops of do-while form; false for the Mach semaphore with a clock time point (C57_mach_clock_refuted): it reports the timeout without looking at the semaphore."
  },
  {
   "property": "C58",
   "status": "partial",
   "theorems": [
    "C58_spin",
    "C58_shared_spin",
    "C58_timed_mutex_emulation",
    "C58_auto_futex_partial",
    "C58_auto_futex_refuted",
    "C58_auto_semaphore",
    "C58_semaphore_emulation",
    "C58_auto_emulation",
    "C58_manual_futex_partial",
    "C58_manual_futex_refuted",
    "C58_manual_emulation",
    "C58_windows_mutex_refuted",
    "C58_cv_windows_refuted",
    "C58_cv_any_generic_refuted"
   ],
   "note": "Proved for spin_mutex, shared_spin_mutex, the emulated timed_mutex, semaphore and events, and the semaphore-based auto-reset event (the semaphore itself atomic). Futex events: proved for the memory accesses (\u2026_partial), but post()/set() can still be about to issue a wake-up on the address (\u2026_refuted). Windows mutex: false, unlock() sets a bit after it has released the mutex (C58_windows_mutex_refuted, with lock/unlock only). Condition variables on Windows and condition_variable_any: false for waiters that have been notified but have not returned."
  },
  {
   "property": "C59",
   "status": "proved",
   "theorems": [
    "C59_spin_exclusion",
    "C59_spin_publish",
    "C59_spin_progress",
    "C59_shared_exclusion",
    "C59_shared_publish"
   ],
   "note": "RC11-style machine with stale reads (Weak.v), arbitrary client accesses to other atomics between the calls: exclusion and publication for both mutexes, both configurations of spin_mutex (exchange loop / atomic_flag); a thread in lock() of a free spin_mutex finishes in at most three steps if its accesses see the newest value."
  },
  {
   "property": "C60",
   "status": "partial",
   "theorems": [
    "C60_enough_awake",
    "C60_quiescent",
    "C60_conservation",
    "C60_lost_refuted",
    "C60_absorbed_partial",
    "C60_counted_partial",
    "C60_some_partial",
    "C60_handoff_partial"
   ],
   "note": "Wake-ups, counters and conservation hold with stale reads (n <= 1022). The notification property is false: C60_lost_refuted, a post() whose relaxed load returns the state before the last consumption is absorbed and the waiter sleeps for ever. What holds: a post absorbed although its caller knows all consumptions leaves the event signalled (C60_absorbed_partial), counted posts publish (C60_counted_partial), hand-offs (C60_handoff_partial), every successful wait knows some post (C60_some_partial)."
  },
  {
   "property": "C61",
   "status": "partial",
   "theorems": [
    "C61_wakeup",
    "C61_quiescent",
    "C61_some",
    "C61_slow",
    "C61_visible",
    "C61_visible_nosleep",
    "C61_unordered_refuted",
    "C61_nostale",
    "C61_reset_refuted",
    "C61_reset_acquire"
   ],
   "note": "Wake-ups, counters, publication by set() to waits, set() before wait and reset() before wait are proved with stale reads. The last clause is false: C61_reset_refuted, reset() is relaxed, so the consumer loop can miss the data and sleep for ever; it is proved for the program with acquire order in reset() (C61_reset_acquire). C61_unordered_refuted: without a happens-before edge a try_wait() after a completed set() can fail."
  },
  {
   "property": "C62",
   "status": "partial",
   "theorems": [
    "C62_balanced",
    "C62_library",
    "C62_timed_mutex_refuted",
    "C62_timed_mutex_repaired",
    "C62_succeeds_iff",
    "C62_initial_count",
    "C62_int_max_supported",
    "C62_dispatch_release",
    "C62_dispatch_release_needed"
   ],
   "note": "Proved for every class whose constructor acquires through members or releases on failure, for every failure pattern (C62_balanced, C62_library). False for the emulated POSIX timed_mutex: C62_timed_mutex_refuted, its pthread mutex leaks when pthread_cond_init fails; C62_timed_mutex_repaired proves the corrected constructor. Dispatch semaphore release rule and initial counts proved."
  },
  {
   "property": "C63",
   "status": "proved",
   "theorems": [
    "C63_spin",
    "C63_spin_never_stuck",
    "C63_shared_spin",
    "C63_shared_spin_never_stuck",
    "C63_auto",
    "C63_auto_never_stuck",
    "C63_manual",
    "C63_manual_never_stuck",
    "C63_auto_sem",
    "C63_auto_sem_never_stuck",
    "C63_windows_mutex",
    "C63_windows_mutex_never_stuck",
    "C63_emulated_semaphore",
    "C63_emulated_auto",
    "C63_emulated_manual",
    "C63_emulated_timed_mutex",
    "C63_emulated_never_stuck"
   ],
   "note": "spin_mutex, shared_spin_mutex, both Linux events, the semaphore-based event and the Windows mutex: step bounds from every configuration, and a call that has not returned can always run. Blocking of the Windows mutex in unlock() is limited to the event creation calls, one step each. The objects emulated with a mutex and a condition variable: at most six steps, never a wait on the condition variable, and held up only while another thread is inside a critical section (each of which is itself bounded)."
  },
  {
   "property": "C64",
   "status": "partial",
   "theorems": [
    "C64_futex",
    "C64_auto_sem",
    "C64_semaphore_partial",
    "C64_emulated_refuted"
   ],
   "note": "Proved for the Linux event (at most 1022 waiting threads at any time) and the event built on a semaphore; for the emulated semaphore in the form that a settled state with a blocked thread has used up every post (C64_semaphore_partial, timed waits by chrono clocks excluded, see C17_chrono_refuted). False of the emulated event: C64_emulated_refuted, two blocked threads, two posts, one thread stays blocked. Kernel events (Windows) are not modelled."
  },
  {
   "property": "C65",
   "status": "partial",
   "theorems": [
    "C65_spin_refuted",
    "C65_spin_flag_refuted",
    "C65_spin_attempts",
    "C65_writer_refuted",
    "C65_reader_refuted",
    "C65_shared_attempts",
    "C65_auto_futex_refuted",
    "C65_auto_sem_refuted",
    "C65_auto_emulated_refuted",
    "C65_semaphore_refuted",
    "C65_timed_mutex_refuted",
    "C65_windows_mutex_refuted"
   ],
   "note": "False of every implementation modelled (C65_*_refuted: for every N an execution in which the waiting thread is passed N times). Proved: a spin_mutex lock() needs at most one exchange more than the number of times others took the lock meanwhile (C65_spin_attempts), and lock()/lock_shared() of shared_spin_mutex one compare-exchange more than the changes by others and spurious failures (C65_shared_attempts)."
  },
  {
   "property": "C66",
   "status": "partial",
   "theorems": [
    "C66_all_run_partial",
    "C66_exact",
    "C66_values_partial",
    "C66_orderly",
    "C66_own_context_safe",
    "C66_other_thread_refuted",
    "C66_library_call_refuted",
    "C66_destroy_ptr_refuted",
    "C66_stopped_refuted",
    "C66_late_thread_exit_refuted"
   ],
   "note": "Process exit is a machine of its own that starts in any state reached by TssModel's machine. Proved: every exit function of a thread that had not begun to exit runs exactly once whatever the called functions do; if they do not call the library, the exact sequence of calls, absence of crashes, a bound on the number of steps, and the balance of values; nothing happens if all threads exited before, also on repeated calls. Refuted with witnesses: functions run on the thread that registered them; the functions called may use the library (tss_mgr is null by then); functions of a thread stopped inside its exit are run; on_thread_exit after on_process_exit is harmless with compiler TLS."
  },
  {
   "property": "C67",
   "status": "partial",
   "theorems": [
    "C67_event_post",
    "C67_delete_key_partial",
    "C67_delete_key_ok",
    "C67_delete_key_refuted"
   ],
   "note": "auto_reset_event::post on a semaphore: proved for any number of threads below SEM_VALUE_MAX. delete_thread_specific_key: modelled with a failing lock and failing allocations; it aborts exactly when one of them fails (refuted as a no-abort claim, with witness), and refines TssModel's delete_key otherwise. Windows unlock and notify are C51 and C52."
  },
  {
   "property": "C68",
   "status": "partial",
   "theorems": [
    "C68_balance",
    "C68_no_lost_post",
    "C68_conserved",
    "C68_lost_refuted",
    "C68_absorbed_partial",
    "C68_counted_partial",
    "C68_registered_partial",
    "C68_some_partial",
    "C68_handoff_partial"
   ],
   "note": "Proved with stale reads: m_state balances registered waiters and posts under way and cannot overflow (C68_balance), a counted post is not lost (C68_no_lost_post), no wait returns without a post (C68_conserved). The notification property is false: C68_lost_refuted, a post() whose relaxed load returns the negative value from before the last wait is absorbed and the waiter blocks for ever. What holds: a post absorbed although its caller knows all consumptions finds a post still under way (C68_absorbed_partial), posts that reach the semaphore publish (C68_counted_partial), counted posts publish to every wait that registers later (C68_registered_partial), hand-offs (C68_handoff_partial), every successful wait knows some post (C68_some_partial)."
  },
  {
   "property": "C69",
   "status": "partial",
   "theorems": [
    "C69_atomic",
    "C69_exclusion",
    "C69_no_lost_wakeup",
    "C69_progress",
    "C69_unique_event",
    "C69_no_leak",
    "C69_publish_refuted",
    "C69_publish_event_refuted",
    "C69_try_lock_partial",
    "C69_first_attempt_partial",
    "C69_with_acquire_partial"
   ],
   "note": "Proved with stale reads, fewer than 2^30 threads: linearizability, exclusion, no lost wake-up and progress, uniqueness and disposal of the event. Publication is false: C69_publish_refuted and C69_publish_event_refuted, the two compare-exchanges that may take the mutex are relaxed. What holds: try_lock() and first attempts publish (C69_try_lock_partial, C69_first_attempt_partial), and with acquire order in the two compare-exchanges every lock does (C69_with_acquire_partial)."
  },
  {
   "property": "C70",
   "status": "partial",
   "theorems": [
    "C70_released",
    "C70_exact",
    "C70_known_waiter",
    "C70_try_lock_partial",
    "C70_with_acquire_partial",
    "C70_lost_refuted",
    "C70_wake_publishes",
    "C70_lock_held",
    "C70_registers_first"
   ],
   "note": "The condition variable and the Windows mutex in one machine with stale reads; m_internal_mutex is assumed to publish (in the code's favour), locking it does not throw. The notification property is false of the code: C70_lost_refuted, the notifying thread takes the user's mutex through a relaxed compare-exchange, reads 0 waiters, and the registered waiter blocks for ever. What holds: a thread that knows of the registration does not miss the waiter (C70_known_waiter), hence not if it took the mutex with try_lock() (C70_try_lock_partial) or if the mutex had acquire order (C70_with_acquire_partial). Counting, lock discipline and publication to woken waiters are proved in full."
  },
  {
   "property": "C71",
   "status": "partial",
   "theorems": [
    "C71_one_value",
    "C71_with_acquire_partial",
    "C71_slow_path_partial",
    "C71_happens_before_partial",
    "C71_stale_refuted"
   ],
   "note": "Ordinary accesses are modelled as relaxed ones. Proved: all callers that get a result get the same one (C71_one_value); a caller that goes through the interlocked operations gets it (C71_slow_path_partial); a call that happens after a completed one gets the same result (C71_happens_before_partial); with acquire order in the test of the flag every initialising caller does (C71_with_acquire_partial). False of the code, whose test is an ordinary read: C71_stale_refuted, a caller sees the flag set and the initial content behind it."
  },
  {
   "property": "C72",
   "status": "partial",
   "theorems": [
    "C72_thread_exit",
    "C72_process_exit",
    "C72_calls",
    "C72_last",
    "C72_progress",
    "C72_all_run_partial",
    "C72_thread_run_partial",
    "C72_mingw_refuted",
    "C72_old_mingw_refuted",
    "C72_static_last_refuted",
    "C72_static_crash_refuted",
    "C72_prepare"
   ],
   "note": "Proved: on_thread_exit runs on every thread that ends, all builds but the old MinGW one (C72_thread_exit); on_process_exit runs on the ending thread after its on_thread_exit, all builds but MinGW (C72_process_exit); nothing else calls them (C72_calls); nothing follows on_process_exit in the shared library and in a DLL (C72_last); the calls do not get stuck (C72_progress); functions registered for thread exit run exactly once by the end of the thread or process (C72_thread_run_partial, C72_all_run_partial: while no library call comes after on_process_exit); the compaction of the TLS callback array keeps exactly the set entries (C72_prepare). False of the code: MinGW never calls on_process_exit nor on_thread_exit for the ending thread (C72_mingw_refuted); old MinGW calls nothing when a thread ends and runs its functions on another thread at the end (C72_old_mingw_refuted); in a static MSVC executable threads are still running and ending after on_process_exit (C72_static_last_refuted) and then use freed memory (C72_static_crash_refuted)."
  },
  {
   "property": "C73",
   "status": "proved",
   "theorems": [
    "C73_semaphore",
    "C73_auto_event",
    "C73_manual_event",
    "C73_timed_mutex",
    "C73_semaphore_wakeup",
    "C73_auto_event_wakeup",
    "C73_manual_event_wakeup",
    "C73_timed_mutex_wakeup",
    "C73_semaphore_progress",
    "C73_auto_event_progress",
    "C73_manual_event_progress",
    "C73_timed_mutex_progress"
   ],
   "note": "For each of the four emulated objects: the history without the calls that threw is linearizable with respect to the plain atomic object (C73_semaphore, C73_auto_event, C73_manual_event, C73_timed_mutex with mutual exclusion), in every mode including chrono deadlines; a sleeper that could go on implies a woken thread, a waiter inside the mutex or a pending notification, whatever calls failed (*_wakeup; chrono loops excluded, see C15-C17); the internal mutex is never left locked (*_progress). Failing calls that the code checks only with BOOST_VERIFY (lock and unlock of timed_mutex, notify) are taken to succeed. Failing Windows calls are in C19-C26 and C51-C52."
  },
  {
   "property": "C74",
   "status": "partial",
   "theorems": [
    "C74_posix_semaphore",
    "C74_posix_semaphore_spurious",
    "C74_windows_semaphore",
    "C74_mach_semaphore_partial",
    "C74_mach_semaphore_spurious",
    "C74_dispatch_semaphore",
    "C74_windows_auto_event",
    "C74_windows_manual_event",
    "C74_posix_mutex",
    "C74_exceptions",
    "C74_posix_semaphore_progress",
    "C74_windows_semaphore_progress",
    "C74_mach_semaphore_progress_partial",
    "C74_dispatch_semaphore_progress",
    "C74_windows_auto_event_progress",
    "C74_windows_manual_event_progress",
    "C74_posix_mutex_progress",
    "C74_posix_wait_error_refuted",
    "C74_posix_post_error_refuted",
    "C74_posix_try_refuted",
    "C74_mach_clock_refuted",
    "C74_mach_post_refuted",
    "C74_posix_unlock_refuted"
   ],
   "note": "Proved for every interleaving: Windows semaphore and events, whatever fails (C74_windows_semaphore, C74_windows_auto_event, C74_windows_manual_event); libdispatch (C74_dispatch_semaphore); POSIX mutex and timed_mutex with pthread_mutex_timedlock, whatever fails but unlock (C74_posix_mutex, with mutual exclusion); sem_t with signals and a full counter (C74_posix_semaphore), and up to spurious failures of try_wait and timed waits also with a signal in sem_trywait and errors (C74_posix_semaphore_spurious); Mach without foreign clocks (C74_mach_semaphore_partial), with them up to spurious timeouts (C74_mach_semaphore_spurious); no thread is held up while the object is available (*_progress); an operation throws only if one of its system calls fails, is interrupted or finds the counter full (C74_exceptions). False of the code: a sem_wait that fails counts as a unit taken (C74_posix_wait_error_refuted); a sem_post or semaphore_signal that fails is a lost post (C74_posix_post_error_refuted, C74_mach_post_refuted); EINTR from sem_trywait makes try_wait return false with a unit there (C74_posix_try_refuted); the Mach wait_until with an expired time point of another clock does not look at the count (C74_mach_clock_refuted); a pthread_mutex_unlock that fails leaves the mutex locked (C74_posix_unlock_refuted). The system objects themselves are atomic by assumption."
  },
  {
   "property": "C75",
   "status": "proved",
   "theorems": [
    "C75_wait_result",
    "C75_timed_result",
    "C75_slices",
    "C75_wakeup_reported",
    "C75_throws_only_on_failure",
    "C75_while_waiting",
    "C75_woken_does_not_wait",
    "C75_deadlines",
    "C75_timeout_possible",
    "C75_wakeup_possible"
   ],
   "note": "Of CvWaitModel, for every implementation, kind of time value, sequence of answers and fuel: what a returned status is based on (C75_wait_result, C75_timed_result), the slices of a relative wait on Windows (C75_slices), a wake-up is reported, and after it the function does not wait again (C75_wakeup_reported, C75_woken_does_not_wait; if a kernel wait on Windows fails, a notification found then is consumed and the call throws), failures and exceptions (C75_throws_only_on_failure, including the predicate forms), locks held during a kernel wait and when the caller's lock is released (C75_while_waiting), deadlines (C75_deadlines). One thread's control flow with an adversarial environment; the notification counters and their interleavings are in C23-C26 and C70."
  },
  {
   "property": "C76",
   "status": "partial",
   "theorems": [
    "C76_platform_exact",
    "C76_selected_available",
    "C76_needs_complete",
    "C76_selected_exact",
    "C76_semaphore_exact",
    "C76_events_exact",
    "C76_auto_semaphore_not_emulated",
    "C76_mutexes_exact",
    "C76_atomic_exact",
    "C76_spin_exact",
    "C76_clock_exact",
    "C76_clock_refuted",
    "C76_tls_exact",
    "C76_library_exact",
    "C76_stops_exact",
    "C76_static_msvc_refuted"
   ],
   "note": "Proved for all values of the macros: the platform (C76_platform_exact), the selected implementations and what they call are available (C76_selected_available, any depth of includes; C76_needs_complete), exactly the file on Mach semaphores is never selected (C76_selected_exact), when each implementation, clock and atomics library is chosen (C76_semaphore_exact, C76_mutexes_exact, C76_atomic_exact, C76_events_exact, C76_auto_semaphore_not_emulated, C76_spin_exact, C76_clock_exact), thread-local variables (C76_tls_exact), the sources of the library (C76_library_exact, C76_stops_exact). False: the clock has whole seconds in some configurations (C76_clock_refuted), and the static library does not compile with MSVC for processors other than three (C76_static_msvc_refuted)."
  },
  {
   "property": "C77",
   "status": "partial",
   "theorems": [
    "C77_tag_platform",
    "C77_tag_exact",
    "C77_same_layout_partial",
    "C77_timed_mutex_exact",
    "C77_semaphore_exact",
    "C77_auto_event_exact",
    "C77_spin_exact",
    "C77_layouts",
    "C77_members_complete",
    "C77_same_layout_refuted",
    "C77_link_exact",
    "C77_link_refuted"
   ],
   "note": "Proved for all pairs of configurations: tags separate platforms (C77_tag_platform, C77_tag_exact); all members (C77_layouts); mutex, both condition variables and the manual-reset event agree everywhere, all tagged classes on Windows (C77_same_layout_partial); exactly when the others agree (C77_timed_mutex_exact, C77_semaphore_exact, C77_auto_event_exact, C77_spin_exact; C77_members_complete). False in general for timed_mutex, semaphore, auto_reset_event, spin_mutex and shared_spin_mutex (C77_same_layout_refuted). Linking: exactly when everything is found (C77_link_exact); false for <threadapi>pthread on Linux with notify_all_at_thread_exit (C77_link_refuted)."
  },
  {
   "property": "C78",
   "status": "partial",
   "theorems": [
    "C78_one_key",
    "C78_same_timer",
    "C78_handles",
    "C78_slots_exact",
    "C78_slots_refuted",
    "C78_callback_refuted",
    "C78_callback_partial",
    "C78_closed_at_most_once",
    "C78_after_destroy",
    "C78_handles_failures",
    "C78_handle_leak_refuted"
   ],
   "note": "Of ModModel (OnceModel with modules that are loaded and unloaded while no thread runs in them), for all schedules; the first four with CreateSemaphore and NtQuerySemaphore not failing: one slot (C78_one_key), one timer per thread in all modules until the semaphore is lost (C78_same_timer), the handles of the semaphore are those of initialised modules (C78_handles), the slots in use are exactly one per semaphore lost, plus the current one (C78_slots_exact). With every call failing: no handle of a context is closed twice (C78_closed_at_most_once), a module that has run its exit handler still finds the timer (C78_after_destroy), no module closes a handle of the semaphore it does not have, and handles are lost only by initialisations that failed (C78_handles_failures; C78_handle_leak_refuted: a repeated initialisation writes over the handle of the failed one). False: that nothing accumulates (C78_slots_refuted: i slots and i timers after i cycles, for every i) and that the clean-up finds its code (C78_callback_refuted, also after reloading); true if a module is unloaded only after all records it made are gone (C78_callback_partial), which nothing in the library arranges."
  },
  {
   "property": "C79",
   "status": "partial",
   "theorems": [
    "C79_checked",
    "C79_one_version",
    "C79_first_wins",
    "C79_refuted"
   ],
   "note": "Of ModModel with any assignment of versions to copies of modules: a timer is returned exactly in modules of the version of the maker, otherwise logic_error (C79_checked); never with one version (C79_one_version); the first version a thread uses decides (C79_first_wins). That mixed programs work is false for every two versions (C79_refuted)."
  },
  {
   "property": "C80",
   "status": "partial",
   "theorems": [
    "C80_own_deadline",
    "C80_cv_partial",
    "C80_prompt",
    "C80_cv_early_refuted",
    "C80_cv_never_refuted"
   ],
   "note": "Of TimerModel, for all sequences of calls, clocks and answers: events, semaphores and timed_mutex time out only after their own time point (C80_own_deadline) and can do so as soon as the clock shows it (C80_prompt). Condition variables too if unlocking the user's lock does not itself wait for a time point (C80_cv_partial, C80_prompt); otherwise false, since the timer is set before the lock is unlocked: C80_cv_early_refuted (time-out too early), C80_cv_never_refuted (no time-out ever)."
  },
  {
   "property": "C81",
   "status": "partial",
   "theorems": [
    "C81_number",
    "C81_compiles",
    "C81_std_compiles_partial",
    "C81_std_compiles_refuted",
    "C81_posix_condition",
    "C81_windows_condition",
    "C81_windows_lock_refuted",
    "C81_other_platforms_refuted",
    "C81_windows_pthread_refuted",
    "C81_is_error",
    "C81_default_exact",
    "C81_lock_classes_agree",
    "C81_example"
   ],
   "note": "Of ExcModel, over all 87 throws of the library and all error numbers: class, category and number (C81_number), never 'no error' (C81_is_error, C81_default_exact); with Boost.System every throw compiles (C81_compiles); on POSIX platforms the code compares equal to exactly the condition that occurred (C81_posix_condition), on Windows too for the throws of the Windows headers (C81_windows_condition); the three lock classes agree (C81_lock_classes_agree). False: with the documented BOOST_SYNC_USE_STD_SYSTEM_ERROR the throws of lock objects and of the Mach semaphore's waits do not compile (C81_std_compiles_refuted; exactly which: C81_std_compiles_partial); on Windows errors of lock objects, and with BOOST_SYNC_USE_PTHREAD those of pthread functions, carry errno values in the system category and compare equal to other conditions (C81_windows_lock_refuted, C81_other_platforms_refuted, C81_windows_pthread_refuted)."
  },
  {
   "property": "C82",
   "status": "partial",
   "theorems": [
    "C82_balance",
    "C82_once",
    "C82_only_real",
    "C82_members_exact",
    "C82_self_reset_refuted",
    "C82_not_invalid_refuted",
    "C82_example"
   ],
   "note": "Of HandleModel, for all sequences of calls: takings-over balance closings, handings-out and holders (C82_balance); a handle taken over once is closed at most once, not while held (C82_once); only real handles that were taken over are closed (C82_only_real); every member completely (C82_members_exact). False if an object is reset to the handle it holds (C82_self_reset_refuted); operator! does not recognise INVALID_HANDLE_VALUE (C82_not_invalid_refuted)."
  },
  {
   "property": "C83",
   "status": "partial",
   "theorems": [
    "C83_windows_cv_notify_all",
    "C83_windows_cv_notify_one",
    "C83_windows_cv_starvation_refuted",
    "C83_cv_any_notify_ends",
    "C83_cv_any_notify_all",
    "C83_cv_any_notify_one",
    "C83_cv_any_wait_returns",
    "C83_cv_any_notify_one_refuted",
    "C83_cv_any_weak_refuted",
    "C83_semaphore_calls_return",
    "C83_semaphore_unit_taken_partial",
    "C83_semaphore_chrono_refuted",
    "C83_auto_event_calls_return",
    "C83_auto_event_signal_taken_partial",
    "C83_manual_event_calls_return",
    "C83_manual_event_all_return_partial",
    "C83_manual_event_chrono_refuted",
    "C83_timed_mutex_calls_return",
    "C83_timed_mutex_acquired",
    "C83_auto_futex_signal_taken",
    "C83_auto_futex_starvation_refuted",
    "C83_manual_futex_all_return",
    "C83_manual_futex_pulse_refuted",
    "C83_auto_semaphore_unit_taken",
    "C83_auto_semaphore_served",
    "C83_auto_semaphore_starvation_refuted",
    "C83_shared_spin_shared_acquired",
    "C83_shared_spin_exclusive_acquired",
    "C83_shared_spin_writer_starvation_refuted",
    "C83_spin_acquired",
    "C83_spin_flag_acquired",
    "C83_spin_starvation_refuted",
    "C83_windows_mutex_acquired",
    "C83_windows_mutex_starvation_refuted"
   ],
   "note": "Of all fair infinite executions of the models of C01-C22, any number of threads. Weak fairness: spin_mutex (C83_spin_acquired, C83_spin_flag_acquired), shared_spin_mutex (C83_shared_spin_shared_acquired, C83_shared_spin_exclusive_acquired), futex events (C83_auto_futex_signal_taken, C83_manual_futex_all_return; the latter for an event that stays signalled). Strong fairness (the internal mutex need not be granted to a particular thread under weak fairness): the emulated semaphore, events and timed_mutex (\u2026_calls_return, \u2026_taken_partial, \u2026_all_return_partial, C83_timed_mutex_acquired). The weak compare-exchange must not fail without reason for ever. False with chrono time points, for the reason shown in C17_chrono_refuted: the wake-up is lost in the internal wait (C83_semaphore_chrono_refuted, C83_manual_event_chrono_refuted), and false of single threads even under strong fairness: starvation of a thread in spin_mutex::lock, of a writer, of a waiter on the auto-reset event, and of a waiter on a manual-reset event that is reset again (C83_\u2026_starvation_refuted, C83_manual_futex_pulse_refuted). The semaphore-based auto-reset event (C14's model): under weak fairness some thread takes a unit that is available or about to be posted (C83_auto_semaphore_unit_taken); under strong fairness every single waiter is served if there are units again and again (C83_auto_semaphore_served), under weak fairness not (C83_auto_semaphore_starvation_refuted). The Windows mutex under weak fairness (C83_windows_mutex_acquired; unless unlock() terminates the program, C51), single threads may starve even under strong fairness (C83_windows_mutex_starvation_refuted). In both, the wait of the thread itself may time out or fail instead. The condition variable on Windows under weak fairness, with nothing assumed of the user's lock: every thread waiting when notify_all takes effect comes to the end of its wait, not by a time-out (C83_windows_cv_notify_all); after a notification that releases a waiter some thread's wait ends by a notification (C83_windows_cv_notify_one); at most 2^30 threads, locking the internal mutex does not fail (C26) and a thread that wants it gets it (its critical sections are single steps of the model). A single waiter may starve under notify_one (C83_windows_cv_starvation_refuted). The generic condition_variable_any under strong fairness (it locks an internal mutex of the system; weak fairness does not suffice, C83_cv_any_weak_refuted): every notification call ends (C83_cv_any_notify_ends); a later notify_all that does not throw brings a thread that has released the user's lock in wait() back to re-locking it (C83_cv_any_notify_all), notify_one brings it or a thread woken by that call back (C83_cv_any_notify_one), and the wait returns if the user's lock is granted (C83_cv_any_wait_returns); a single waiter may starve under notify_one (C83_cv_any_notify_one_refuted). Not done: Windows events and semaphores and the POSIX condition variable (wrappers of one system object each)."
  },
  {
   "property": "C84",
   "status": "partial",
   "theorems": [
    "C84_as_without_exceptions",
    "C84_value_exact",
    "C84_balance_partial",
    "C84_exit_functions_once",
    "C84_outcomes",
    "C84_reset_throws",
    "C84_destructor_terminates",
    "C84_exit_terminates",
    "C84_destructor_refuted",
    "C84_exit_refuted"
   ],
   "note": "For reset(): C84_reset_throws (the state and events when its cleanup function throws, from every reachable state), C84_as_without_exceptions (every execution with exceptions has a history and a state that are possible without them), and from it C84_value_exact, C84_balance_partial (under the condition of C42_balance_partial), C84_exit_functions_once. C84_outcomes: every other exception ends the program. For the destructor and thread exit the statement is false: the program is always ended (C84_destructor_terminates, C84_exit_terminates) and values of other threads or other pointers are then never cleaned (C84_destructor_refuted, C84_exit_refuted). The documentation forbids exceptions in exit functions only (at_thread_exit.hpp). BOOST_NOEXCEPT is taken to be noexcept; process exit on Windows (C66) is modelled with functions that return."
  },
  {
   "property": "C85",
   "status": "partial",
   "theorems": [
    "C85_one_overload",
    "C85_depth",
    "C85_calls_exact",
    "C85_undocumented_rejected",
    "C85_documented_compile",
    "C85_header_needed",
    "C85_mutexes_exact",
    "C85_native_exact",
    "C85_documented_refuted"
   ],
   "note": "False on Linux: timed_wait and wait_until of manual_reset_event with a time point of a clock other than the system clock are documented and viable, and their body does not compile (C85_documented_refuted; manual_reset_event_futex.hpp 196 calls timed_wait where priv_timed_wait is meant). Apart from that the calls that compile and their types are exactly the documented ones (C85_calls_exact, C85_documented_compile), never ambiguous (C85_one_overload), all others are rejected by overload resolution and not inside a body (C85_undocumented_rejected), whatever the depth of instantiation (C85_depth); C85_header_needed, C85_mutexes_exact and C85_native_exact spell out three parts. The statements over all macros are reduced to a finite set of configurations, headers, functions and argument types, which the kernel evaluates completely. Overload resolution is modelled for the member functions of the mutexes, condition variables, semaphore and events; durations of all representations are one type; lock objects, thread_specific_ptr and constructors are not part of it."
  },
  {
   "property": "C86",
   "status": "partial",
   "theorems": [
    "C86_members_exact",
    "C86_guards_exact",
    "C86_try_conversions_exact",
    "C86_plain_conversions_never",
    "C86_conversions_refuted",
    "C86_library_locks",
    "C86_library_timed",
    "C86_library_conversions"
   ],
   "note": "False for the plain conversions (unique_lock from upgrade_lock, shared_lock from unique_lock and upgrade_lock, upgrade_lock from unique_lock, and the assignments made of them): they name private members of another class template that declares no friends, so they compile for no mutex (C86_conversions_refuted, C86_plain_conversions_never). Everything else holds for every mutex class: C86_members_exact, C86_guards_exact, C86_try_conversions_exact. For the mutexes of the library, in every configuration: C86_library_locks, C86_library_timed, C86_library_conversions. The access rules of C++ are modelled as 'same class or friend'."
  },
  {
   "property": "C87",
   "status": "partial",
   "theorems": [
    "C87_terminates",
    "C87_read_once",
    "C87_guards_distinct",
    "C87_complete",
    "C87_order",
    "C87_names_declared",
    "C87_gaps",
    "C87_self_contained_refuted",
    "C87_after_assert_and_cstdint",
    "C87_public_declares",
    "C87_public_documented",
    "C87_locks_complete",
    "C87_locks_declared",
    "C87_defined_once",
    "C87_selected",
    "C87_regions_closed",
    "C87_warnings_restored",
    "C87_warnings_restored_refuted"
   ],
   "note": "Two parts are false. 'Declared before use' fails for names of other projects in three places that a public include can reach: uint64_t in detail/futex.hpp, BOOST_ASSERT in detail/mutexes/shared_spin_mutex.hpp and spin_mutex.hpp (C87_self_contained_refuted); C87_gaps shows that these, and a fourth one for direct includes of detail/waitable_timer.hpp, are all, C87_names_declared that no name of the library is affected, C87_after_assert_and_cstdint that two includes before them cure it. The warning settings are not restored with Intel compilers (C87_warnings_restored_refuted: header.hpp pushes not, footer.hpp pops); for all others they are (C87_warnings_restored). Proved without exception: C87_terminates, C87_read_once, C87_guards_distinct, C87_complete, C87_order, C87_public_declares, C87_public_documented, C87_locks_complete, C87_locks_declared, C87_defined_once, C87_selected, C87_regions_closed. A simulation between a header on its own and after others reduces translation units to single headers; those are evaluated in all configurations. External headers provide what they are documented to provide, which is less than what a given implementation lets through; macro bodies and the Doxygen branches are not searched."
  },
  {
   "property": "C88",
   "status": "partial",
   "theorems": [
    "C88_as_other_thread",
    "C88_stores_succeed",
    "C88_compiler_tls",
    "C88_value_invisible",
    "C88_function_never_runs",
    "C88_notification_lost",
    "C88_objects",
    "C88_reachable",
    "C88_never_deleted",
    "C88_left_over",
    "C88_windows_left_over",
    "C88_exception_no_effect",
    "C88_process_exit",
    "C88_value_lost_refuted",
    "C88_function_lost_refuted",
    "C88_unbounded_leak_refuted",
    "C88_lock_leak_refuted"
   ],
   "note": "False when the context pointer cannot be stored, whose result src/tss_pthread.cpp 92 and src/tss_windows.cpp 127 ignore: the call returns without an error and its value, function or notification is lost (C88_value_lost_refuted, C88_function_lost_refuted), a context more each time (C88_unbounded_leak_refuted); and when locking m_mutex throws in create_thread_context the new context is leaked (C88_lock_leak_refuted). Everything else holds: such a call is exactly as if made by a further thread that never exits (C88_as_other_thread), so the theorems C41 to C45 go on to hold for the others; what is seen, run, notified and left over is characterised exactly (C88_value_invisible, C88_function_never_runs, C88_notification_lost, C88_objects, C88_reachable, C88_never_deleted, C88_left_over); a call that throws has no effect (C88_exception_no_effect); on Windows process exit still runs the function (C88_process_exit)."
  },
  {
   "property": "C89",
   "status": "partial",
   "theorems": [
    "C89_not_held",
    "C89_held_never_returns",
    "C89_held_hangs",
    "C89_returns_iff_partial",
    "C89_all_run_partial",
    "C89_returns_refuted",
    "C89_exiting_thread_refuted",
    "C89_any_section_refuted",
    "C89_where"
   ],
   "note": "False: a thread stopped inside a section of m_mutex (new_key, delete_key, create_thread_context, end of destroy_thread_context) makes on_process_exit wait for ever, and functions still due are not called (C89_returns_refuted, C89_exiting_thread_refuted; C89_any_section_refuted: in each of the sections; C89_where: nowhere else). C89_returns_iff_partial: it can return exactly if the mutex is free or no context is left; C89_held_never_returns and C89_held_hangs say what is done before it hangs (the oldest context, nothing else); C89_not_held and C89_all_run_partial give the claim when no thread was stopped inside. A state half written by the stopped thread is not modelled: the state is that before its section."
  },
  {
   "property": "C90",
   "status": "partial",
   "theorems": [
    "C90_values_fit",
    "C90_deadline_iff",
    "C90_never_later",
    "C90_broadcast_wakes_all",
    "C90_signal_wakes_one",
    "C90_arguments",
    "C90_mismatch_wakes_nobody",
    "C90_old_kernel_never_sleeps",
    "C90_refines_partial",
    "C90_timeout_not_early_partial",
    "C90_reaches_refuted",
    "C90_half_second_refuted",
    "C90_long_waits_refuted"
   ],
   "note": "C90_arguments: the numbers handed to the system call. False on some platforms: with headers that define only one of FUTEX_WAIT_PRIVATE and FUTEX_WAKE_PRIVATE, tested separately at futex.hpp 61, 79 and 95, 110, no wake-up call reaches anybody (C90_mismatch_wakes_nobody, C90_reaches_refuted: a posted event whose waiter sleeps for ever); a process with a 64-bit time_t whose SYS_futex takes 32-bit fields times out half-second waits at once (C90_half_second_refuted); with a 32-bit time_t waits of 2^31 seconds and more are refused or end early (C90_long_waits_refuted). C90_refines_partial: on the remaining platforms every history returns exactly what the specification says and leaves the same waiters; C90_timeout_not_early_partial needs only equal time types. C90_broadcast_wakes_all and C90_signal_wakes_one need only matching macros; C90_deadline_iff says exactly when the deadline is the requested one, C90_never_later holds on every platform, and C90_old_kernel_never_sleeps covers kernels without private futexes. The kernel itself is modelled from its documentation, not from /repo."
  },
  {
   "property": "C91",
   "status": "partial",
   "theorems": [
    "C91_add",
    "C91_deadline_iff",
    "C91_relative_partial",
    "C91_relative_64",
    "C91_relative_early",
    "C91_relative_at_once",
    "C91_absolute_iff",
    "C91_absolute_partial",
    "C91_make",
    "C91_difference_32",
    "C91_same_as_64",
    "C91_long_wait_refuted"
   ],
   "note": "False with a 32-bit time_t for deadlines after January 2038: tv_sec wraps and the wait is told at once that it timed out (C91_long_wait_refuted; C91_relative_early and C91_relative_at_once: for every such deadline). C91_deadline_iff and C91_absolute_iff: exact if and only if the deadline can be represented, never later; C91_relative_partial and C91_absolute_partial: then the timeout is reported at the right times; C91_relative_64: with 64 bits that is always. C91_add gives the result of the addition for negative durations too (2^64 ns too much, see C34). Overflow of tv_nsec + dur beyond 2^63 is C34_add_overflow_refuted."
  },
  {
   "property": "C92",
   "status": "proved",
   "theorems": [
    "C92_spin_mutex",
    "C92_shared_spin_mutex",
    "C92_timed_mutex",
    "C92_windows_mutex",
    "C92_posix_mutex",
    "C92_each_mutex",
    "C92_exclusion",
    "C92_proper_use",
    "C92_all_released",
    "C92_accounting"
   ],
   "note": "For every number of threads, every program of lock objects per thread and every interleaving. Assumptions, stated as hypotheses (fair_play): the mutexes grant only compatible locks (what C01, C04, C18, C19, C74 prove of the library's mutexes; upgrade mutexes are the user's), the user's direct calls and adopt_lock use only what the thread has outside its lock objects, and a lock object stays with one thread. C92_exclusion, C92_proper_use, C92_accounting, C92_all_released. C92_spin_mutex, C92_shared_spin_mutex, C92_timed_mutex, C92_windows_mutex and C92_posix_mutex prove that assumption of every linearizable history of the library's mutexes, C92_each_mutex for any mix of them."
  },
  {
   "property": "C93",
   "status": "proved",
   "theorems": [
    "C93_any_whole",
    "C93_any_defined",
    "C93_any_accuracy",
    "C93_any_exact",
    "C93_any_within_unit",
    "C93_whole",
    "C93_defined",
    "C93_exact",
    "C93_within_unit",
    "C93_accuracy",
    "C93_forever_refuted",
    "C93_nearest_refuted",
    "C93_point_posix",
    "C93_point_windows",
    "C93_point_undefined",
    "C93_point_past_wrong",
    "C93_point_past_refuted",
    "C93_single_point_posix",
    "C93_single_point_windows",
    "C93_single_point_refuted",
    "C93_single_whole",
    "C93_single_defined",
    "C93_single_exact",
    "C93_single_within_unit",
    "C93_single_accuracy",
    "C93_single_forever_refuted",
    "C93_single_short_refuted",
    "C93_single_minutes_refuted",
    "C93_single_long",
    "C93_single_any_whole",
    "C93_single_any_defined",
    "C93_single_any_accuracy",
    "C93_single_any_exact",
    "C93_single_any_within_unit"
   ],
   "note": "C93_whole, C93_defined, C93_exact, C93_within_unit and C93_accuracy for every double and every period that is a whole multiple or fraction of the unit (all periods named in <chrono>); C93_any_whole, C93_any_defined, C93_any_accuracy, C93_any_exact and C93_any_within_unit for all other periods, where the conversion rounds twice. double is IEEE 754 binary64 as specified in Coq's SpecFloat, rounding to nearest. For float (binary32): C93_single_whole, C93_single_defined, C93_single_exact, C93_single_within_unit, C93_single_accuracy, for every float and every period that is a whole multiple or fraction of the unit with a ratio exact in a float, and C93_single_any_whole, C93_single_any_defined, C93_single_any_accuracy, C93_single_any_exact and C93_single_any_within_unit for other periods; C93_single_long for minutes and hours on POSIX, whose ratio is not exact in a float. Time points of system_clock: C93_point_posix, C93_point_windows, C93_point_undefined (double), C93_single_point_posix, C93_single_point_windows (float). long double is not covered. Claims that one might expect and that fail: C93_forever_refuted (duration<double>::max() is undefined behaviour, as are infinity and NaN, see C93_defined), C93_nearest_refuted (1.001 s becomes 1000 ms; 0.3 s becomes more than the double 0.3), C93_single_forever_refuted, C93_single_short_refuted (4.5f seconds become 4499999744 ns), C93_single_minutes_refuted (five minutes of float are 18432 ns too long on POSIX), C93_point_past_wrong and C93_point_past_refuted (POSIX: a point before 1970 is moved centuries ahead), C93_single_point_refuted (the exact float 1700000000 s is missed by 7.7 s on POSIX and 38.9 s on Windows)."
  },
  {
   "property": "C94",
   "status": "proved",
   "theorems": [
    "C94_no_deadlock",
    "C94_any_order_refuted"
   ],
   "note": "C94_no_deadlock, for every history of LockThreads with fair_play (as for C92); 'can grant' is admissibility at the mutex, that it then does is C02, C18, C74 and C83. At most one thread converts an upgrade lock of a mutex at a time because upgrade locks exclude each other. C94_any_order_refuted shows that the order is needed (two mutexes; two shared locks of one mutex whose holders wait for an exclusive one)."
  },
  {
   "property": "C95",
   "status": "partial",
   "theorems": [
    "C95_while_partial",
    "C95_do_partial",
    "C95_ends",
    "C95_nan",
    "C95_infinity",
    "C95_never_early_refuted",
    "C95_any_double",
    "C95_any_single",
    "C95_any_ends",
    "C95_any_served"
   ],
   "note": "False as stated, C95_never_early_refuted: with float seconds, 20 days after the start of a nanosecond clock, the wait gives up 129 ms early; with double seconds 247 ns early at 1.7 billion seconds. Proved instead, for both forms of the loop: C95_any_double and C95_any_single (all periods, all int64 readings except the smallest: no early end beyond one part in 2^50 of the reading for double, 2^21 for float; inner waits only before the deadline with that accuracy; success only from an inner wait); C95_any_ends (past the deadline by that margin the wait ends); C95_any_served (before it by that margin the wait goes on, and the first inner wait that succeeds makes it succeed); C95_while_partial, C95_do_partial, C95_ends: double, periods of whole ticks, readings below 2^53: one part in 2^53, and exact if the period is the clock's tick; C95_nan, C95_infinity: deadlines that are not numbers. Not covered: long double."
  }
 ]
}