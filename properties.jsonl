{"id": "C01", "title": "spin_mutex is an atomic mutex", "statement": "Whatever threads call lock, try_lock and unlock on one spin_mutex (unlocking only what they hold), the calls behave as if each took effect at one instant between its call and return: at most one thread holds the mutex at any time, try_lock returns true exactly when it takes a free mutex and false exactly when the mutex is held.", "quantifier": "every number of threads, every interleaving of atomic accesses, every history of lock/try_lock/unlock calls, both implementations (test-test-and-set and atomic_flag)", "why_tests_cant": "A test samples a handful of schedules; the claim is about every interleaving of any number of threads and any number of calls.", "anchors": ["include/boost/sync/detail/mutexes/spin_mutex.hpp: spin_mutex::lock, try_lock, unlock"]}
{"id": "C02", "title": "spin_mutex never loses a release", "statement": "Once a spin_mutex has been unlocked, threads that are inside lock() can never be left spinning for ever with nobody holding the mutex: in every reachable situation where nobody holds the mutex, any thread inside lock() that runs alone returns after a bounded number of its own steps.", "quantifier": "every reachable state, every contending thread", "why_tests_cant": "Absence of a stuck state needs all reachable states; tests only time out on the ones they happen to hit.", "anchors": ["include/boost/sync/detail/mutexes/spin_mutex.hpp: spin_mutex::lock"]}
{"id": "C03", "title": "Locking a spin mutex publishes the previous owner's writes", "statement": "Everything a thread did before calling unlock() (or unlock_shared()) on a spin_mutex or shared_spin_mutex happens-before the return of every later successful lock()/try_lock() on that mutex, and everything before an exclusive unlock() happens-before the return of every later successful shared lock.", "quantifier": "every history of lock/unlock calls by any number of threads, with the memory orders used by the code", "why_tests_cant": "A missing release or acquire is invisible on strongly ordered hardware and only a happens-before argument over all executions excludes it.", "anchors": ["include/boost/sync/detail/mutexes/spin_mutex.hpp", "include/boost/sync/detail/mutexes/shared_spin_mutex.hpp"]}
{"id": "C04", "title": "shared_spin_mutex excludes writers from readers and writers", "statement": "While a thread holds a shared_spin_mutex exclusively no other thread holds it in either mode, and while any thread holds it shared no thread holds it exclusively; every call takes effect atomically between its call and return, try_lock fails only if the mutex is held at that instant.", "quantifier": "every interleaving, any number of threads below 2^31-1, every history of the six operations", "why_tests_cant": "A test samples a handful of schedules; the claim is about every interleaving of any number of threads and any number of calls.", "anchors": ["include/boost/sync/detail/mutexes/shared_spin_mutex.hpp: lock, try_lock, unlock, lock_shared, try_lock_shared, unlock_shared"]}
{"id": "C05", "title": "try_lock_shared succeeds when no writer holds the mutex", "statement": "As documented: if the shared_spin_mutex is not exclusively locked, try_lock_shared acquires a shared lock and returns true.", "quantifier": "every call of try_lock_shared in every interleaving", "why_tests_cant": "The failing schedule needs another reader to arrive between two instructions; no unit test forces it.", "anchors": ["include/boost/sync/mutexes/shared_spin_mutex.hpp: try_lock_shared documentation", "include/boost/sync/detail/mutexes/shared_spin_mutex.hpp: try_lock_shared"]}
{"id": "C06", "title": "Exclusion of shared_spin_mutex does not depend on the number of readers", "statement": "No number of simultaneous shared holders makes shared_spin_mutex misbehave (grant an exclusive-looking state or lose readers).", "quantifier": "every number of simultaneous readers, including 2^31-1 and more", "why_tests_cant": "Creating 2^31 readers in a test is impractical; the boundary is settled only by arithmetic on the state word.", "anchors": ["include/boost/sync/detail/mutexes/shared_spin_mutex.hpp: reader_mask, locked_state, lock_shared"]}
{"id": "C07", "title": "auto_reset_event (futex): every completed wait consumes its own post", "statement": "On the Linux implementation, at every moment the number of waits (wait, successful try_wait, successful timed waits) that have completed never exceeds the number of post() calls that have begun; no post ever releases two waits.", "quantifier": "every interleaving, every number of threads up to the waiter capacity, every history of calls, every pattern of spurious wake-ups, signals and timeouts", "why_tests_cant": "A test samples a handful of schedules; the claim is about every interleaving of any number of threads and any number of calls.", "anchors": ["include/boost/sync/detail/events/auto_reset_event_futex.hpp: post, wait, try_wait, priv_timed_wait, on_wait_timed_out"]}
{"id": "C08", "title": "auto_reset_event (futex): no lost wake-up", "statement": "On the Linux implementation the event is never left signalled while a thread sleeps in wait() with nobody about to wake it: whenever a signal is pending and waiters are asleep, at least one waiter is already awake inside the call or some post() call is still about to issue the kernel wake-up.", "quantifier": "every reachable state under every interleaving of posts, waits, try-waits, timeouts, spurious wake-ups", "why_tests_cant": "Lost wake-ups appear only under rare schedules between user-space state updates and kernel calls.", "anchors": ["include/boost/sync/detail/events/auto_reset_event_futex.hpp: post, wait, on_wait_timed_out", "include/boost/sync/detail/futex.hpp: futex_wait, futex_signal"]}
{"id": "C09", "title": "auto_reset_event (futex): posting a signalled event has no effect", "statement": "As documented: posting an already signalled auto_reset_event has no effect, so after any number of posts exactly one thread completes waiting.", "quantifier": "every history of posts and waits, including threads registered as waiters but not yet running", "why_tests_cant": "Depends on the schedule of a registered waiter relative to several posts and try_waits.", "anchors": ["include/boost/sync/events/auto_reset_event.hpp: post documentation", "include/boost/sync/detail/events/auto_reset_event_futex.hpp: post, try_wait"]}
{"id": "C10", "title": "auto_reset_event (futex): counters never overflow", "statement": "No number of waiting threads and no number of posts makes the event lose posts that should have released a waiting thread.", "quantifier": "every number of waiters and posts", "why_tests_cant": "The packed counters overflow only with more than a thousand simultaneously blocked threads, which tests do not create.", "anchors": ["include/boost/sync/detail/events/auto_reset_event_futex.hpp: wait_count_bits, post"]}
{"id": "C11", "title": "manual_reset_event (futex) is an atomic flag", "statement": "On the Linux implementation set, reset, wait, try_wait and timed waits behave as atomic operations on one boolean: a wait or successful timed/try wait returns only if the event was signalled at some instant during the call, and an unsuccessful try_wait or timed wait returns false only if the event was not signalled at some instant during the call.", "quantifier": "every interleaving, every number of threads below 2^31, every history of calls, every pattern of spurious wake-ups and timeouts", "why_tests_cant": "A test samples a handful of schedules; the claim is about every interleaving of any number of threads and any number of calls.", "anchors": ["include/boost/sync/detail/events/manual_reset_event_futex.hpp: set, reset, wait, try_wait, priv_timed_wait"]}
{"id": "C12", "title": "manual_reset_event (futex): set releases every waiting thread unless reset intervenes", "statement": "On the Linux implementation, as long as the event is signalled no thread can be asleep in wait() without some set() call still about to issue the broadcast; hence after set() returns, and until reset() is called, nobody is left sleeping.", "quantifier": "every reachable state under every interleaving", "why_tests_cant": "Lost wake-ups appear only under rare schedules.", "anchors": ["include/boost/sync/detail/events/manual_reset_event_futex.hpp: set, wait"]}
{"id": "C13", "title": "auto_reset_event (semaphore-based): conservation and no lost wake-up", "statement": "On platforms where auto_reset_event is built on a semaphore, completed waits never outnumber posts, and a thread cannot stay blocked in wait() while the event records an undelivered post, unless the poster is still inside post().", "quantifier": "every interleaving, any number of threads, every history of post, wait, try_wait and timed waits", "why_tests_cant": "A test samples a handful of schedules; the claim is about every interleaving of any number of threads and any number of calls.", "anchors": ["include/boost/sync/detail/events/auto_reset_event_semaphore.hpp: post, wait, try_wait, timed_wait"]}
{"id": "C14", "title": "auto_reset_event (semaphore-based): exactly one wait per signalled state", "statement": "As documented: a signalled event stays signalled until exactly one thread completes waiting, and posting a signalled event has no effect.", "quantifier": "every history of post and try_wait calls", "why_tests_cant": "The violating schedule interleaves a failing try_wait with two posts at instruction level.", "anchors": ["include/boost/sync/events/auto_reset_event.hpp: post documentation", "include/boost/sync/detail/events/auto_reset_event_semaphore.hpp: post, try_wait"]}
{"id": "C15", "title": "auto_reset_event (mutex/condvar emulation) is an atomic binary event", "statement": "The emulated auto_reset_event behaves as an atomic boolean: post sets it, a completed wait atomically tests and clears it, a false try_wait/timed wait means it was clear at some instant; and a signalled event never coexists with sleeping waiters unless a waiter has been notified and is on its way.", "quantifier": "every interleaving including spurious condition variable wake-ups and timeouts, any number of threads, every history", "why_tests_cant": "A test samples a handful of schedules; the claim is about every interleaving of any number of threads and any number of calls.", "anchors": ["include/boost/sync/detail/events/auto_reset_event_emulation.hpp: post, wait, try_wait, timed_wait"]}
{"id": "C16", "title": "manual_reset_event (mutex/condvar emulation) is an atomic flag", "statement": "The emulated manual_reset_event behaves as an atomic boolean, and once set is called every thread waiting at that time is notified; a signalled event never coexists with an un-notified sleeping waiter.", "quantifier": "every interleaving including spurious wake-ups and timeouts, any number of threads, every history", "why_tests_cant": "A test samples a handful of schedules; the claim is about every interleaving of any number of threads and any number of calls.", "anchors": ["include/boost/sync/detail/events/manual_reset_event_emulation.hpp: set, reset, wait, try_wait, timed_wait"]}
{"id": "C17", "title": "semaphore (mutex/condvar emulation) is an atomic counter", "statement": "The emulated semaphore behaves as an atomic counter: post adds one, a completed wait atomically takes one from a positive counter, false try_wait/timed_wait means the counter was zero at some instant; with counter c and sleeping waiters there are always enough notified waiters to use up min(c, waiters) units.", "quantifier": "every interleaving including spurious wake-ups and timeouts, any number of threads, every initial value, every history without exceeding the documented maximum", "why_tests_cant": "A test samples a handful of schedules; the claim is about every interleaving of any number of threads and any number of calls.", "anchors": ["include/boost/sync/detail/semaphore/semaphore_emulation.hpp: post, wait, try_wait, timed_wait"]}
{"id": "C18", "title": "timed_mutex (POSIX emulation) is an atomic mutex", "statement": "timed_mutex emulated with a pthread mutex and condition variable grants the lock to at most one thread, a failed try_lock or timed lock means it was held at some instant, and after unlock a sleeping locker is never left un-notified while the mutex is free.", "quantifier": "every interleaving including spurious wake-ups and timeouts, any number of threads, every history", "why_tests_cant": "A test samples a handful of schedules; the claim is about every interleaving of any number of threads and any number of calls.", "anchors": ["include/boost/sync/detail/mutexes/timed_mutex_posix.hpp: lock, unlock, try_lock, priv_timed_lock"]}
{"id": "C19", "title": "Windows mutex and timed_mutex are atomic mutexes", "statement": "The Windows mutex/timed_mutex grants the lock to at most one thread; try_lock false and timed-lock false only happen when the mutex was held by some thread at some instant during the call; a timed-out or failed lock leaves the mutex state as if the call had not been made.", "quantifier": "every interleaving, fewer than 2^30 threads, every history including timeouts, stale events and failed waits", "why_tests_cant": "A test samples a handful of schedules; the claim is about every interleaving of any number of threads and any number of calls.", "anchors": ["include/boost/sync/detail/mutexes/basic_mutex_windows.hpp: basic_mutex", "include/boost/sync/detail/mutexes/timed_mutex_windows.hpp: timed_mutex"]}
{"id": "C20", "title": "Windows mutex: no lost wake-up", "statement": "On Windows, a mutex is never free with all of its waiters blocked on the event unless the event is signalled or an unlock call is still about to signal it.", "quantifier": "every reachable state under every interleaving including timeouts and failed waits", "why_tests_cant": "Requires the right schedule between three atomic read-modify-writes and two kernel calls.", "anchors": ["include/boost/sync/detail/mutexes/basic_mutex_windows.hpp: unlock, mark_waiting_and_try_lock, clear_waiting_and_try_lock"]}
{"id": "C21", "title": "Windows mutex: lock acquires the previous owner's writes", "statement": "Everything done before unlock() of a Windows mutex happens-before the return of the next successful lock(), by whichever path the lock was obtained.", "quantifier": "every history of lock/unlock calls, with the memory orders used by the code", "why_tests_cant": "x86 hides missing acquire ordering; only the ordering argument settles it.", "anchors": ["include/boost/sync/detail/mutexes/basic_mutex_windows.hpp: mark_waiting_and_try_lock, clear_waiting_and_try_lock (memory_order_relaxed)"]}
{"id": "C22", "title": "Windows mutex: the lazily created event is unique and not leaked", "statement": "However many threads race to block on a Windows mutex for the first time, they all use the same kernel event, and every other event created in the race is closed; the destructor closes the remaining one, so each created handle is closed exactly once.", "quantifier": "every interleaving of concurrent first-time blockers and unlockers, every pattern of creation failures", "why_tests_cant": "The race window is a few instructions wide.", "anchors": ["include/boost/sync/detail/mutexes/basic_mutex_windows.hpp: get_event, ~basic_mutex"]}
{"id": "C23", "title": "Windows condition variable: notifications are delivered", "statement": "notify_one() called while n>0 threads wait un-notified marks exactly one more of them for release and never fewer, and a notified thread can never be left blocked for ever: whenever some notification is undelivered, the semaphore has a unit available or some thread has already taken one and is about to re-check.", "quantifier": "every interleaving of waits, timed waits, timeouts, failed waits and notifications; any number of threads", "why_tests_cant": "A test samples a handful of schedules; the claim is about every interleaving of any number of threads and any number of calls.", "anchors": ["include/boost/sync/detail/condition_variables/basic_condition_variable_windows.hpp: notify_one, wake_waiters, initiate_wait, priv_wait, priv_timed_wait"]}
{"id": "C24", "title": "Windows condition variable: notifications cannot be stolen", "statement": "A thread that starts waiting after a notify call has returned is not released by that notification while a thread that was waiting before it stays blocked; every non-timeout return is matched with a distinct notification issued after the wait began.", "quantifier": "every history and interleaving", "why_tests_cant": "The stealing schedule described in the source comment needs OS-level timing.", "anchors": ["include/boost/sync/detail/condition_variables/basic_condition_variable_windows.hpp: waiter_state comment, initiate_wait, wake_waiters"]}
{"id": "C25", "title": "Windows condition variable: notify_all releases everyone who was waiting", "statement": "After notify_all() every thread that was waiting when it was called is marked for release (none remain un-notified), no thread that starts waiting later is, and the internal loop that distributes the wake-ups terminates.", "quantifier": "every reachable state and any number of threads and internal semaphores", "why_tests_cant": "Needs all reachable shapes of the internal list.", "anchors": ["include/boost/sync/detail/condition_variables/basic_condition_variable_windows.hpp: notify_all, wake_waiters"]}
{"id": "C26", "title": "Windows condition variable: bookkeeping is exact", "statement": "The number of threads the condition variable believes are waiting un-notified always equals the number that are; it returns to zero when all waits have finished, so the destructor's precondition is met and no wake-up is issued for a thread that is not waiting.", "quantifier": "every history of waits, timeouts, errors and notifications", "why_tests_cant": "Counter drift only shows after particular races of timeouts with notifications.", "anchors": ["include/boost/sync/detail/condition_variables/basic_condition_variable_windows.hpp: m_total_waiter_count, m_waiter_count, m_notify_count"]}
{"id": "C27", "title": "condition_variable_any (generic): unlock-and-wait is atomic", "statement": "If a thread has released the user's lock inside wait(), any notify_one()/notify_all() that starts afterwards sees it as a waiter: no notification issued after the user lock was released can be missed by that wait.", "quantifier": "every interleaving of waiters and notifiers, any user lock type", "why_tests_cant": "The window between releasing the user's lock and blocking is only hit by rare schedules.", "anchors": ["include/boost/sync/detail/condition_variables/condition_variable_any_generic.hpp: wait, notify_one, notify_all"]}
{"id": "C28", "title": "Condition variable waits return with the lock held", "statement": "On every way out of wait, timed_wait, wait_for, wait_until (notification, timeout, spurious wake-up, thrown error) of every condition variable the user's lock is held by the caller again, exactly as on entry, and internal locks are released before the user's lock is re-acquired.", "quantifier": "every outcome of every internal call, every condition variable implementation", "why_tests_cant": "Error paths of kernel calls cannot be triggered in tests.", "anchors": ["include/boost/sync/detail/condition_variables/condition_variable_any_generic.hpp: relocker", "include/boost/sync/detail/condition_variables/basic_condition_variable_windows.hpp: relocker", "include/boost/sync/detail/condition_variables/condition_variable_posix.hpp: priv_wait"]}
{"id": "C29", "title": "Predicate waits", "statement": "wait(lock, pred) returns only after pred() returned true with the lock held; wait_for/wait_until/timed_wait with a predicate return exactly the value of their last evaluation of pred(), never return false without a timeout having occurred, and never wait when pred() is already true.", "quantifier": "every sequence of predicate values, wake-ups and timeouts", "why_tests_cant": "Ranges over all sequences of wake-ups and predicate values.", "anchors": ["include/boost/sync/detail/condition_variables/condition_variable_any_generic.hpp: wait, timed_wait, wait_for, wait_until", "include/boost/sync/detail/condition_variables/condition_variable_posix.hpp", "include/boost/sync/detail/condition_variables/condition_variable_windows.hpp"]}
{"id": "C30", "title": "wait_for with a predicate honours one overall deadline", "statement": "As documented, wait_for(lock, rel_time, pred) is equivalent to wait_until(lock, now + rel_time, pred): it does not keep waiting beyond rel_time from the call because of intermediate wake-ups.", "quantifier": "every sequence of notifications/spurious wake-ups and their times, every implementation (POSIX, Windows, generic)", "why_tests_cant": "Needs an adversarial sequence of wake-ups arriving just before each timeout.", "anchors": ["include/boost/sync/condition_variables/condition_variable_any.hpp: wait_for documentation", "include/boost/sync/detail/condition_variables/condition_variable_any_generic.hpp: wait_for, timed_wait", "include/boost/sync/detail/condition_variables/condition_variable_posix.hpp: wait_for", "include/boost/sync/detail/condition_variables/condition_variable_windows.hpp: wait_for"]}
{"id": "C31", "title": "Lock objects own each acquired lock exactly once", "statement": "Through any sequence of constructions, lock/try_lock/timed lock calls, unlocks, releases, moves, swaps, move-assignments and destructions of unique_lock, shared_lock and upgrade_lock objects, every mutex lock obtained is recorded by exactly one lock object until it is unlocked or explicitly released, and the destructor unlocks it exactly once: no double unlock and no leak, also when mutex operations throw.", "quantifier": "every finite program over any number of lock objects and mutexes, every point where a mutex operation throws", "why_tests_cant": "The space of operation sequences and throw points is unbounded.", "anchors": ["include/boost/sync/locks/unique_lock.hpp", "include/boost/sync/locks/shared_lock.hpp", "include/boost/sync/locks/upgrade_lock.hpp"]}
{"id": "C32", "title": "Lock objects report misuse instead of acting", "statement": "lock, try_lock and timed locks on a lock object without a mutex throw lock_error (operation not permitted); on an object that already owns, throw lock_error (deadlock would occur); unlock on a non-owning object throws lock_error (operation not permitted); in all these cases neither the mutex nor the lock object changes.", "quantifier": "every state of a lock object, every operation", "why_tests_cant": "Must hold in every reachable ownership state and for all three wrappers and all timed variants.", "anchors": ["include/boost/sync/locks/unique_lock.hpp: lock, try_lock, timed_lock, unlock", "include/boost/sync/locks/shared_lock.hpp", "include/boost/sync/locks/upgrade_lock.hpp"]}
{"id": "C33", "title": "Scope guards are balanced", "statement": "lock_guard, shared_lock_guard and unlock_guard leave the mutex, at the end of the scope, in the state it had at the beginning, for any properly nested combination of scopes and wherever the scope body throws.", "quantifier": "every nesting of guards, every body, every throw point", "why_tests_cant": "Ranges over all nestings and throw points.", "anchors": ["include/boost/sync/locks/lock_guard.hpp", "include/boost/sync/locks/unlock_guard.hpp", "include/boost/sync/locks/shared_lock_guard.hpp", "include/boost/sync/detail/pthread_mutex_locks.hpp"]}
{"id": "C34", "title": "POSIX time point arithmetic is exact", "statement": "Adding a duration (positive, zero or negative) to a time point, subtracting one, and subtracting two time points give the mathematically exact result with the nanosecond field in 0..999999999, whenever the result is representable.", "quantifier": "every time point and every duration of any sign", "why_tests_cant": "Only extreme or sign-changing values fail; the input space is 2^128.", "anchors": ["include/boost/sync/detail/time_units.hpp: system_time_point (POSIX) operator+=, operator-=, operator-, constructors"]}
{"id": "C35", "title": "Windows time point arithmetic is exact", "statement": "On Windows adding and subtracting durations and subtracting time points give the exact result in 100 ns units (differences truncated toward zero to milliseconds) whenever the result is representable, for durations of any sign.", "quantifier": "every time point and every duration of any sign", "why_tests_cant": "The input space is 2^128; wrap-around happens only at extreme values.", "anchors": ["include/boost/sync/detail/time_units.hpp: system_time_point (Windows)"]}
{"id": "C36", "title": "Conversion of user time units never lengthens and at most truncates a sub-unit", "statement": "Converting a user duration or time point (Boost.Chrono, std::chrono, Boost.DateTime, timespec) to the library's units keeps its value exactly when the native unit is at least as fine, and otherwise truncates toward zero by less than one native unit.", "quantifier": "every duration/time value and every tick ratio that divides or is divided by the native one", "why_tests_cant": "Numeric domain is unbounded; rounding errors appear at boundaries.", "anchors": ["include/boost/sync/support/boost_chrono.hpp", "include/boost/sync/support/std_chrono.hpp", "include/boost/sync/support/boost_date_time.hpp", "include/boost/sync/support/posix_time.hpp"]}
{"id": "C37", "title": "Long relative waits are not cut short or wrapped", "statement": "On Windows a relative timed wait on an event, semaphore, mutex or condition variable reports a timeout only after the whole requested duration has been waited, however long it is, and never passes the 'infinite' sentinel to the kernel for a finite wait.", "quantifier": "every 64-bit duration and every sequence of kernel wait results", "why_tests_cant": "Durations above 49.7 days cannot be tested by waiting.", "anchors": ["include/boost/sync/detail/events/basic_event_windows.hpp: timed_wait", "include/boost/sync/detail/semaphore/semaphore_windows.hpp: priv_timed_wait", "include/boost/sync/detail/mutexes/timed_mutex_windows.hpp: priv_timed_lock", "include/boost/sync/detail/condition_variables/basic_condition_variable_windows.hpp: priv_timed_wait"]}
{"id": "C38", "title": "Waits with a chrono deadline do not time out early", "statement": "A timed wait given a time point of any clock reports a timeout only if that clock has reached the deadline, whatever the rounding of the intermediate relative waits and however the clock is adjusted meanwhile.", "quantifier": "every sequence of clock readings and inner wait results", "why_tests_cant": "Clock jumps and rounding cannot be exhausted by tests.", "anchors": ["include/boost/sync/detail/events/auto_reset_event_futex.hpp: priv_timed_wait(chrono)", "include/boost/sync/detail/events/basic_event_windows.hpp", "include/boost/sync/detail/semaphore/semaphore_posix.hpp", "include/boost/sync/detail/mutexes/timed_mutex_posix.hpp", "include/boost/sync/detail/condition_variables/condition_variable_posix.hpp"]}
{"id": "C39", "title": "Semaphore and mutex system call results are mapped faithfully", "statement": "wait() on POSIX and Mach semaphores returns only when the kernel wait succeeded however often it is interrupted by signals; try_wait/timed_wait/try_lock/timed_lock return true only on success, false only on would-block/timeout (or interruption for try_wait), and raise the documented exception carrying the system error code otherwise; an overflowing post raises overflow_error.", "quantifier": "every sequence of system call results", "why_tests_cant": "Signal interruption counts and error codes are unbounded and not producible in tests.", "anchors": ["include/boost/sync/detail/semaphore/semaphore_posix.hpp", "include/boost/sync/detail/semaphore/basic_semaphore_mach.hpp", "include/boost/sync/detail/mutexes/mutex_posix.hpp", "include/boost/sync/detail/mutexes/timed_mutex_posix.hpp", "include/boost/sync/detail/pthread.hpp"]}
{"id": "C40", "title": "Kernel timeouts are well formed", "statement": "The relative timeout handed to the kernel for a timed wait has its nanosecond part below one second and represents exactly the requested number of nanoseconds; expired or negative timeouts are never handed to the kernel as huge waits.", "quantifier": "every 64-bit duration", "why_tests_cant": "2^64 inputs; only extreme values fail.", "anchors": ["include/boost/sync/detail/futex.hpp: futex_timedwait", "include/boost/sync/detail/events/auto_reset_event_futex.hpp: priv_timed_wait", "include/boost/sync/detail/events/manual_reset_event_futex.hpp: priv_timed_wait", "include/boost/sync/detail/semaphore/basic_semaphore_mach.hpp: timed_wait"]}
{"id": "C41", "title": "thread_specific_ptr: values are isolated per thread and per pointer", "statement": "get() returns the value last set by the calling thread through the same thread_specific_ptr and null if none was set since the pointer was created, whatever other threads and other pointers do, including pointers created after others were destroyed.", "quantifier": "every history of creations, destructions, sets and gets by any number of threads", "why_tests_cant": "Key recycling interacts with arbitrary histories.", "anchors": ["src/tss_manager.hpp: new_key, delete_key, get_value, set_value", "include/boost/sync/thread_specific/thread_specific_ptr.hpp: get, reset, release"]}
{"id": "C42", "title": "thread_specific_ptr: every owned value is cleaned exactly once, by its own cleanup", "statement": "Every non-null value left in a thread_specific_ptr is passed exactly once to that pointer's cleanup function - on reset to another value, at thread exit or at destruction of the pointer, whichever comes first - and never to another pointer's cleanup; released values never are.", "quantifier": "every history, including cleanup functions that use, create or destroy thread_specific_ptr objects", "why_tests_cant": "Re-entrant histories are unbounded.", "anchors": ["src/tss_manager.hpp: destroy_thread_context, delete_key", "include/boost/sync/thread_specific/thread_specific_ptr.hpp: reset, release, destructor"]}
{"id": "C43", "title": "at_thread_exit functions all run, in reverse order of registration", "statement": "Every function registered with at_thread_exit by a thread, including ones registered by exit functions themselves, is called exactly once when the thread exits; functions registered before the exit run in reverse order of registration.", "quantifier": "every finite tree of registrations", "why_tests_cant": "Registration trees are unbounded.", "anchors": ["src/tss_manager.hpp: destroy_thread_context, add_at_exit_entry", "include/boost/sync/thread_specific/at_thread_exit.hpp", "src/tss_pthread.cpp", "src/tss_windows.cpp"]}
{"id": "C44", "title": "notify_all_at_thread_exit signals last", "statement": "notify_all_at_thread_exit unlocks the mutex exactly once and notifies only after all at_thread_exit functions have run and all thread-specific values of the thread have been destroyed; if registration throws, the mutex is unlocked during unwinding.", "quantifier": "every history of registrations and re-registrations during exit, every failure point", "why_tests_cant": "Ordering across re-entrant cleanup is unbounded.", "anchors": ["src/tss_manager.hpp: destroy_thread_context", "include/boost/sync/condition_variables/notify_all_at_thread_exit.hpp", "src/tss_pthread.cpp: tss_cleanup"]}
{"id": "C45", "title": "Exit functions can use thread-specific values", "statement": "While at_thread_exit functions run, get() still returns the value the thread had set before exiting.", "quantifier": "every thread, every pointer, every exit function, each platform back end", "why_tests_cant": "Platform-specific exit protocol; not visible in single-platform tests.", "anchors": ["src/tss_pthread.cpp: tss_cleanup, get_thread_context", "src/tss_windows.cpp: on_thread_exit"]}
{"id": "C46", "title": "Different thread_specific_ptr objects can be used concurrently without data races", "statement": "Using one thread_specific_ptr in one thread while another thread creates, destroys or uses a different thread_specific_ptr is free of data races.", "quantifier": "every pair of concurrent calls on different objects", "why_tests_cant": "Races are schedule dependent and silent.", "anchors": ["src/tss_manager.hpp: set_value, delete_key, new_key, destroy_thread_context"]}
{"id": "C47", "title": "One-time initialisation", "statement": "The process-wide initialisation used for thread-specific storage on old Windows and for waitable timers runs to successful completion exactly once, no caller proceeds before it has completed, and if an attempt fails another caller may retry.", "quantifier": "every interleaving of any number of callers, every pattern of failures", "why_tests_cant": "A test samples a handful of schedules; the claim is about every interleaving of any number of threads and any number of calls.", "anchors": ["include/boost/sync/detail/waitable_timer.hpp: init_waitable_timer", "src/tss_windows.cpp: init_tss_once"]}
{"id": "C48", "title": "Interrupted condition waits do not lose notifications", "statement": "On platforms where pthread_cond_wait may be interrupted by a signal, the workaround does not lose notifications: a thread whose predicate was made true and notified is never left sleeping.", "quantifier": "every interleaving of waits, signals (EINTR) and notifications", "why_tests_cant": "Needs a signal and a notification in a narrow window.", "anchors": ["include/boost/sync/detail/pthread.hpp: pthread_cond_wait, pthread_cond_timedwait"]}
{"id": "C49", "title": "post/set publish the poster's writes to the released waiter", "statement": "Everything a thread did before post()/set() on an event happens-before the return of a wait that observes the event as signalled because of it, also when the event was already signalled.", "quantifier": "every history of posts and waits, with the memory orders used by the code", "why_tests_cant": "Weak-memory effects are invisible on common hardware.", "anchors": ["include/boost/sync/events/auto_reset_event.hpp: post documentation (release ordering)", "include/boost/sync/detail/events/auto_reset_event_futex.hpp: post", "include/boost/sync/detail/events/manual_reset_event_futex.hpp: set, wait"]}
{"id": "C50", "title": "Absolute-deadline waits on events leave no trace when they time out", "statement": "A timed wait that returns false leaves the event exactly as if the call had not been made (no waiter stays registered, no post is consumed), and one that returns true consumes exactly one post.", "quantifier": "every interleaving of timed waits with posts, every timing of the timeout", "why_tests_cant": "Leaks of the packed waiter counter only show after particular races.", "anchors": ["include/boost/sync/detail/events/auto_reset_event_futex.hpp: on_wait_timed_out", "include/boost/sync/detail/events/manual_reset_event_futex.hpp: priv_timed_wait"]}
{"id": "C51", "title": "unlock() of the Windows mutexes cannot fail", "statement": "unlock(), which is declared noexcept, of a mutex or timed_mutex held by the caller always completes on Windows, whatever the state of other threads and of the system: it never terminates the program.", "quantifier": "every reachable state of the mutex, every outcome of the system calls made", "why_tests_cant": "Resource exhaustion at one exact moment cannot be provoked by a test.", "anchors": ["include/boost/sync/detail/mutexes/basic_mutex_windows.hpp: unlock, get_event"]}
{"id": "C52", "title": "notify_one() and notify_all() cannot fail on Windows", "statement": "notify_one() and notify_all(), declared noexcept, always complete: they never terminate the program.", "quantifier": "every reachable state of the condition variable, every outcome of the system calls made", "why_tests_cant": "Resource exhaustion at one exact moment cannot be provoked by a test.", "anchors": ["include/boost/sync/detail/condition_variables/basic_condition_variable_windows.hpp: notify_one, notify_all"]}
{"id": "C53", "title": "One call of a timed wait is one wait", "statement": "During one call of a condition variable waiting function on Windows the thread is registered as a waiter once, until the call ends, so a notification issued between the start of the wait and its return is not missed.", "quantifier": "every interleaving of waits, early timeouts and notifications; every waiting function", "why_tests_cant": "Needs the inner wait to time out just before the deadline and a notification in the window before it is restarted.", "anchors": ["include/boost/sync/detail/condition_variables/basic_condition_variable_windows.hpp: timed_wait (chrono_time_point overload)"]}
{"id": "C54", "title": "Waitable timers of a thread are shared by all modules of the process", "statement": "All modules of a process agree on one TLS slot for waitable timers: a thread gets the same timer in every module, exactly one slot stays allocated, and every open handle of the rendezvous semaphore is kept by one module.", "quantifier": "any number of modules and threads, every interleaving, every outcome of the system calls", "why_tests_cant": "Needs several dynamically linked modules initialising at the same time and failing system calls.", "anchors": ["include/boost/sync/detail/waitable_timer.hpp: waitable_timer_state::init, get_waitable_timer"]}
{"id": "C55", "title": "Each thread has its own waitable timer; its handles are closed exactly once", "statement": "get_waitable_timer returns a timer used by no other thread, always the same one, open as long as the thread lives; no handle of a thread's context is closed twice and none is leaked, also when making the context fails half-way or the thread has ended.", "quantifier": "any number of threads and calls, every interleaving with exits and callbacks, every outcome of the system calls", "why_tests_cant": "Handle leaks and double closes only show after particular failures.", "anchors": ["include/boost/sync/detail/waitable_timer.hpp: thread_local_context, thread_local_context::destroy, create_thread_local_context"]}
{"id": "C56", "title": "A relative timed wait has one overall deadline", "statement": "A timed wait, acquisition or lock given a relative duration returns at most that duration (plus scheduling latency) after it was called, however often it is woken, loses the race for the object, or is interrupted.", "quantifier": "every sequence of wake-ups, lost races and timeouts, every duration and start time, every implementation", "why_tests_cant": "Needs a long run of wake-ups each lost to another thread; a test sees one or two.", "anchors": ["include/boost/sync/detail/events/auto_reset_event_futex.hpp: priv_timed_wait (system_duration)", "include/boost/sync/detail/events/manual_reset_event_emulation.hpp", "include/boost/sync/detail/mutexes/timed_mutex_windows.hpp: priv_timed_lock", "include/boost/sync/detail/semaphore/semaphore_posix.hpp"]}
{"id": "C57", "title": "A timed function whose deadline has passed still takes an available object", "statement": "A timed wait, acquisition or lock called with a deadline in the past, a zero or a negative duration succeeds if the object is available at that moment, instead of reporting a timeout unconditionally.", "quantifier": "every state of the object in which it is available, every deadline, every implementation", "why_tests_cant": "Depends on the position of the availability check relative to the clock check in each of a dozen overloads.", "anchors": ["include/boost/sync/detail/events/auto_reset_event_futex.hpp", "include/boost/sync/detail/events/auto_reset_event_semaphore.hpp", "include/boost/sync/detail/semaphore/basic_semaphore_mach.hpp", "include/boost/sync/detail/mutexes/timed_mutex_windows.hpp", "include/boost/sync/detail/events/basic_event_windows.hpp"]}
{"id": "C58", "title": "An object can be destroyed by its last user", "statement": "A thread that knows it is the last user of an object (it holds the mutex, or all posts have been consumed, or the only set has been seen) may destroy it after its own operations, although the unlock(), post() or set() calls made earlier by other threads have not returned: they do not touch the object any more.", "quantifier": "any number of threads, every interleaving, every implementation of the primitives", "why_tests_cant": "A use after free by a pre-empted unlock() or post() needs the whole life of the object to end within that pre-emption.", "anchors": ["include/boost/sync/detail/mutexes/spin_mutex.hpp: unlock", "include/boost/sync/detail/mutexes/shared_spin_mutex.hpp: unlock, unlock_shared", "include/boost/sync/detail/mutexes/basic_mutex_windows.hpp: unlock", "include/boost/sync/detail/mutexes/timed_mutex_posix.hpp: unlock", "include/boost/sync/detail/events/auto_reset_event_futex.hpp: post", "include/boost/sync/detail/events/auto_reset_event_semaphore.hpp: post", "include/boost/sync/detail/events/manual_reset_event_futex.hpp: set", "include/boost/sync/detail/semaphore/semaphore_emulation.hpp: post", "include/boost/sync/detail/condition_variables/basic_condition_variable_windows.hpp", "include/boost/sync/detail/condition_variables/condition_variable_any_generic.hpp"]}
{"id": "C59", "title": "Spin mutexes are correct on weakly ordered memory", "statement": "On a machine where relaxed loads may return old values and stores become visible late, spin_mutex and shared_spin_mutex still exclude each other's critical sections, and everything done before an unlock is visible after every later conflicting lock; a free spin_mutex can be taken by a thread that runs.", "quantifier": "any number of threads, every execution of the C++ memory model (release/acquire with stale reads), every behaviour of the threads between the calls", "why_tests_cant": "On x86 stale reads and late stores hardly occur; the test machine hides a missing memory order.", "anchors": ["include/boost/sync/detail/mutexes/spin_mutex.hpp: lock, try_lock, unlock", "include/boost/sync/detail/mutexes/shared_spin_mutex.hpp: lock, try_lock, unlock, lock_shared, try_lock_shared, unlock_shared"]}
{"id": "C60", "title": "A post to auto_reset_event is not lost on weakly ordered memory", "statement": "On a machine where loads may return old values and stores become visible late, the counters and wake-ups of auto_reset_event stay correct, and no notification is lost: if a thread stores data and then calls post(), a thread that waits, looks for the data and waits again if there is none does not sleep for ever once post() has returned.", "quantifier": "up to 1022 threads, every execution of the C++ memory model (release/acquire with stale reads), every use of other atomics between the calls", "why_tests_cant": "The window is the time a store stays in a store buffer; it needs three threads and exact timing.", "anchors": ["include/boost/sync/detail/events/auto_reset_event_futex.hpp: post, wait, try_wait, priv_timed_wait, on_wait_timed_out"]}
{"id": "C61", "title": "manual_reset_event is correct on weakly ordered memory", "statement": "On a machine where loads may return old values and stores become visible late: no thread sleeps on a signalled event; a set() that happens before a wait makes it succeed unless a reset() intervenes; a reset() that happens before a wait shields it from older sets; a successful wait sees what was written before the set() that let it pass; and a consumer that calls reset(), looks for data and waits if there is none does not miss data stored before a set() that the reset() cleared.", "quantifier": "fewer than 2^31 threads, every execution of the C++ memory model (release/acquire with stale reads), every use of other atomics between the calls", "why_tests_cant": "Which old value a load may return depends on the machine; x86 hides most of it.", "anchors": ["include/boost/sync/detail/events/manual_reset_event_futex.hpp: set, reset, wait, try_wait, timed_wait, priv_timed_wait"]}
{"id": "C62", "title": "Construction and destruction balance the OS objects", "statement": "Constructing an object and destroying it releases every OS object it acquired exactly once; a constructor that throws has released what it acquired before; the constructor succeeds exactly if every acquisition succeeds. The dispatch semaphore is destroyed with the count its release function demands, and constructors reject initial counts above the supported range.", "quantifier": "every class that owns OS objects, every pattern of failing acquisitions, every initial count, every sequence of posts and waits before destruction", "why_tests_cant": "Creation calls fail only under resource exhaustion; leaks and double releases stay silent.", "anchors": ["include/boost/sync/detail/mutexes/timed_mutex_posix.hpp: timed_mutex", "include/boost/sync/detail/mutexes/mutex_posix.hpp: mutex", "include/boost/sync/detail/condition_variables/condition_variable_posix.hpp", "include/boost/sync/detail/condition_variables/condition_variable_any_generic.hpp", "include/boost/sync/detail/condition_variables/basic_condition_variable_windows.hpp: ~basic_condition_variable", "include/boost/sync/detail/mutexes/basic_mutex_windows.hpp: ~basic_mutex", "include/boost/sync/detail/semaphore/semaphore_dispatch.hpp", "include/boost/sync/detail/semaphore/basic_semaphore_mach.hpp", "include/boost/sync/detail/semaphore/semaphore_windows.hpp", "include/boost/sync/detail/events/basic_event_windows.hpp"]}
{"id": "C63", "title": "Operations that are not documented to block finish after boundedly many steps", "statement": "try_lock(), unlock(), try_lock_shared(), unlock_shared(), post(), set(), reset() and try_wait() do not wait for other threads: a call takes a constant number of steps, plus, where the code retries a compare-exchange, one per change made by another thread or spurious failure; it is never stuck, except that the emulated objects wait for the thread that is inside the internal critical section, which is itself bounded.", "quantifier": "every configuration (reachable or not), any number of threads, every schedule", "why_tests_cant": "A retry loop that does not reload or waits for a flag set by another thread shows only under a pre-emption at one instruction.", "anchors": ["include/boost/sync/detail/mutexes/spin_mutex.hpp: try_lock, unlock", "include/boost/sync/detail/mutexes/shared_spin_mutex.hpp: try_lock, unlock, try_lock_shared, unlock_shared", "include/boost/sync/detail/events/auto_reset_event_futex.hpp: post, try_wait", "include/boost/sync/detail/events/manual_reset_event_futex.hpp: set, reset, try_wait", "include/boost/sync/detail/events/auto_reset_event_semaphore.hpp: post, try_wait", "include/boost/sync/detail/mutexes/basic_mutex_windows.hpp: try_lock, unlock", "include/boost/sync/detail/events/auto_reset_event_emulation.hpp: post, try_wait", "include/boost/sync/detail/events/manual_reset_event_emulation.hpp: set, reset, try_wait", "include/boost/sync/detail/semaphore/semaphore_emulation.hpp: post, try_wait", "include/boost/sync/detail/mutexes/timed_mutex_posix.hpp: try_lock, unlock"]}
{"id": "C64", "title": "Posting releases as many blocked threads as there are posts", "statement": "If k threads are blocked in wait() on an auto_reset_event or semaphore and post() is called m times while no other thread waits, then min(k, m) of them return; no post is wasted on a thread that stays blocked.", "quantifier": "every k and m, every history before, every interleaving of the posts and of the threads woken, every implementation", "why_tests_cant": "Two posts must fall between the wake-up of a thread and its next instruction.", "anchors": ["include/boost/sync/events/auto_reset_event.hpp: post documentation", "include/boost/sync/semaphore.hpp: post documentation", "include/boost/sync/detail/events/auto_reset_event_futex.hpp: post, wait", "include/boost/sync/detail/events/auto_reset_event_semaphore.hpp: post, wait", "include/boost/sync/detail/events/auto_reset_event_emulation.hpp: post, wait", "include/boost/sync/detail/semaphore/semaphore_emulation.hpp: post, wait"]}
{"id": "C65", "title": "A waiting thread is not overtaken without bound", "statement": "A thread waiting in lock(), lock_shared() or wait() gets the object after other threads have released or posted it a bounded number of times; at least, its attempts fail only because another thread changed the object in between.", "quantifier": "every number of releases, every schedule in which the waiting thread keeps running", "why_tests_cant": "Starvation is the absence of an event in runs of every length.", "anchors": ["include/boost/sync/detail/mutexes/spin_mutex.hpp: lock", "include/boost/sync/detail/mutexes/shared_spin_mutex.hpp: lock, lock_shared", "include/boost/sync/detail/events/auto_reset_event_futex.hpp: post, wait", "include/boost/sync/detail/events/auto_reset_event_semaphore.hpp", "include/boost/sync/detail/events/auto_reset_event_emulation.hpp", "include/boost/sync/detail/semaphore/semaphore_emulation.hpp", "include/boost/sync/detail/mutexes/timed_mutex_posix.hpp", "include/boost/sync/detail/mutexes/basic_mutex_windows.hpp: lock, unlock"]}
{"id": "C66", "title": "When the process ends on Windows, everything still registered is disposed of once", "statement": "On Windows, when on_process_exit runs, every exit function still registered runs exactly once, every thread-specific value still stored is passed to its cleanup function exactly once, and every pending notify_all_at_thread_exit is carried out; the call returns; the functions called may use the library; they run on the thread that registered them; on_process_exit and on_thread_exit may be called again (tss_windows_hooks.hpp).", "quantifier": "all executions of any number of threads before the process exit, stopped anywhere; all behaviours of the functions called; both ways of keeping the context pointer", "why_tests_cant": "The process ends once per test run, with the other threads stopped at positions the test cannot choose, and what goes wrong shows up after main has returned, when no test framework is watching.", "anchors": ["src/tss_windows.cpp: on_process_exit, on_thread_exit", "src/tss_manager.hpp: ~tss_manager, destroy_thread_context", "src/tss_windows_dll.cpp: DllMain", "src/tss_windows_hooks.hpp"]}
{"id": "C67", "title": "Functions declared noexcept do not terminate the program", "statement": "The noexcept functions that call throwing ones never let an exception escape into std::terminate or std::abort: auto_reset_event::post built on a semaphore never overflows the semaphore, and destroying a thread_specific_ptr does not abort.", "quantifier": "all interleavings of any number of threads using the event; all states of the thread-specific storage and all failures of locks and allocations", "why_tests_cant": "The semaphore overflows only at 2^31-1 and the allocation failures happen only under memory exhaustion; neither is reachable in a test.", "anchors": ["include/boost/sync/detail/events/auto_reset_event_semaphore.hpp: post", "include/boost/sync/detail/semaphore/semaphore_posix.hpp: post", "src/tss_manager.hpp: delete_key", "src/tss_pthread.cpp: delete_thread_specific_key", "src/tss_windows.cpp: delete_thread_specific_key"]}
{"id": "C68", "title": "A post to the semaphore-based auto_reset_event is not lost on weakly ordered memory", "statement": "On hardware that lets threads read old values, the semaphore-based auto_reset_event still works: every counted post reaches a wait, no wait returns without a post, and data stored before post() is either seen by a wait that returns afterwards or a wait that starts afterwards does not block for ever.", "quantifier": "all executions of any number of threads on a memory with stale reads, including the program's own atomic operations between the calls", "why_tests_cant": "x86 hides most stale reads, and those that remain need a store buffer that drains late; a test run on one machine says nothing about another.", "anchors": ["include/boost/sync/detail/events/auto_reset_event_semaphore.hpp: post, wait, try_wait, timed_wait"]}
{"id": "C69", "title": "The Windows mutexes keep excluding, waking and publishing when loads return old values", "statement": "Under the C++ memory model with stale reads, the Windows mutex and timed_mutex behave as one atomic mutex (exclusion; failure only while held), no waiter sleeps for ever on a free mutex, all threads use one kernel event although m_event may still read as null, every created event is closed exactly once, and whatever happened before an unlock() happens before the return of every later successful lock.", "quantifier": "all schedules, all choices of the message each load or compare-exchange reads that coherence allows, any number of threads below 2^30, all failures and timeouts of the Windows API, arbitrary other atomic accesses of the program", "why_tests_cant": "Stale reads and relaxed orders have no effect on x86, where Windows tests run; on ARM they need particular timings.", "anchors": ["include/boost/sync/detail/mutexes/basic_mutex_windows.hpp: lock, unlock, try_lock, get_event, mark_waiting_and_try_lock, clear_waiting_and_try_lock", "include/boost/sync/detail/mutexes/timed_mutex_windows.hpp: timed_lock, priv_timed_lock"]}
{"id": "C70", "title": "A notification on Windows is not lost when the number of waiters is read without a lock", "statement": "On memory with stale reads, with a Windows mutex as the user's lock: if a thread enters wait() and releases the mutex, and another thread then locks the mutex and calls notify_one() or notify_all(), the notification is not dropped while that waiter is waiting un-notified, although notify_* first reads m_total_waiter_count without a lock. A notification that takes effect releases the right number of waiters, wait() registers before it releases the mutex and returns with it held, and a woken waiter sees what the notifying thread did before.", "quantifier": "all schedules and all stale reads that coherence allows, any number of threads below 2^30, all failures and timeouts of the Windows API except failures of the internal mutex, the mutex of the library and the same mutex with acquire order", "why_tests_cant": "The load needs to return an old value although the waiter's registration is long past in real time; x86 never does this and on ARM it depends on the cache.", "anchors": ["include/boost/sync/detail/condition_variables/basic_condition_variable_windows.hpp: notify_one, notify_all, wait, initiate_wait, wake_waiters, relocker", "include/boost/sync/detail/mutexes/basic_mutex_windows.hpp: lock, unlock"]}
{"id": "C71", "title": "One-time initialisation is complete for every caller when loads return old values", "statement": "On memory with stale reads, a caller that passes the one-time initialisation of the thread-specific storage manager (Windows versions without InitOnceExecuteOnce) or of the waitable-timer functions uses what the initialisation wrote: the initialisation takes effect once, all callers see its one result, and nobody goes on with the initial content of the memory it fills in.", "quantifier": "all schedules and all stale reads that coherence allows, any number of threads, failing and repeated attempts, callers that initialise and callers that only use, arbitrary other atomic accesses of the program", "why_tests_cant": "The test of the flag is an ordinary read; that the memory behind it can still be old needs a weakly ordered processor or a compiler that reorders, and a window of a few instructions once per process.", "anchors": ["src/tss_windows.cpp: init_tss_once, on_thread_exit, new_thread_specific_key, get_thread_specific", "include/boost/sync/detail/waitable_timer.hpp: get_waitable_timer, waitable_timer_state::init"]}
{"id": "C72", "title": "The thread and process exit notifications of Windows reach the library", "statement": "Whatever way the library is linked (shared library; static library in an executable or a DLL with MSVC; MinGW), on_thread_exit runs on every thread that ends, once effectively, and on_process_exit runs once, on the thread that ends the process, after that thread's on_thread_exit and after every other call of the library; so that every function registered for thread exit runs exactly once, at the latest at process exit. The TLS callback of the library is called although other entries of the callback array are empty.", "quantifier": "all builds, all numbers of threads, all orders in which threads and the process end relative to the library calls of other threads, all contents of the TLS callback array", "why_tests_cant": "Each build needs its own toolchain; what happens between the end of main and the end of the process, with other threads running or stopped, is outside what a test can observe or choose.", "anchors": ["src/tss_windows_dll.cpp: DllMain", "src/tss_windows_pe.cpp: on_tls_callback, on_process_init, on_process_term, dll_callback, on_tls_prepare", "src/tss_windows_hooks.hpp", "src/tss_windows.cpp: on_process_exit, on_thread_exit"]}
{"id": "C73", "title": "An operation that ends with an exception leaves the object as if it had not been called", "statement": "If locking the internal mutex or waiting on the internal condition variable fails, so that post(), wait(), try_wait(), timed_wait(), set(), reset() or timed_lock() of the emulated semaphore, events and timed_mutex throws, the object behaves exactly as if that call had not been made: the history without the calls that threw is a history of the atomic object, the internal mutex is not left locked, and no notification meant for another waiter is lost.", "quantifier": "all numbers of threads, all schedules, failures of any call at any of the points where the code can throw, counters below UINT_MAX; loss of notifications: all functions but those with chrono deadlines, which lose notifications without any failure (C15-C17)", "why_tests_cant": "pthread_mutex_lock and pthread_cond_wait do not fail in a test; the failure must come at a chosen point while other threads wait.", "anchors": ["include/boost/sync/detail/semaphore/semaphore_emulation.hpp: post, wait, try_wait, timed_wait", "include/boost/sync/detail/events/auto_reset_event_emulation.hpp: post, wait, try_wait, timed_wait", "include/boost/sync/detail/events/manual_reset_event_emulation.hpp: set, reset, wait, try_wait, timed_wait", "include/boost/sync/detail/mutexes/timed_mutex_posix.hpp: priv_timed_lock"]}
{"id": "C74", "title": "Objects that wrap one object of the operating system behave as that atomic object", "statement": "Semaphores on sem_t, Windows, Mach and libdispatch semaphores, the Windows events, and mutex and timed_mutex on pthread_mutex_t (with pthread_mutex_timedlock) behave, through all their functions and overloads (durations cut into slices, system time points, loops over other clocks), as one atomic counter, flag or lock: a call takes effect at most once, exactly when it reports success; it returns false only if the object was unavailable at some instant of the call; a call that throws has no effect; and no thread is held up inside the library while the system object is available.", "quantifier": "all numbers of threads, all schedules, all initial counts and maxima, all overloads, signals, timeouts and failures of system calls at any instant", "why_tests_cant": "Failures, interruptions and timeouts that race with a post need system calls that fail at chosen instants, on platforms that one test run does not have together.", "anchors": ["include/boost/sync/detail/semaphore/semaphore_posix.hpp", "include/boost/sync/detail/semaphore/semaphore_windows.hpp", "include/boost/sync/detail/semaphore/basic_semaphore_mach.hpp", "include/boost/sync/detail/semaphore/semaphore_mach.hpp", "include/boost/sync/detail/semaphore/semaphore_dispatch.hpp", "include/boost/sync/detail/events/basic_event_windows.hpp", "include/boost/sync/detail/mutexes/mutex_posix.hpp", "include/boost/sync/detail/mutexes/timed_mutex_posix.hpp: lock, unlock, try_lock, priv_timed_lock", "include/boost/sync/detail/pthread.hpp: EINTR workaround"]}
{"id": "C75", "title": "A wait on a condition variable tells the truth", "statement": "wait() returns, and a timed wait reports no_timeout, only because the thread was woken (on Windows: because a notification for its waiting state was found); a timed wait reports a timeout only after its whole time has passed by the last thing it was told, and on Windows only if no notification was found; a function returns only if no call it made failed and throws only if one did; while it waits the caller's lock is released, and it is released only once the thread can be notified; the deadline passed on is the one asked for.", "quantifier": "all waiting functions of the three implementations, with and without predicate, all kinds of time values, all sequences of answers of the system, the clocks, the locks and the predicate, all time values", "why_tests_cant": "The answers (errors, stale wake-ups, clocks that jump, failing locks) cannot be produced at chosen points in a test, and three platforms are involved.", "anchors": ["include/boost/sync/detail/condition_variables/condition_variable_posix.hpp: priv_wait, priv_timed_wait, wait, timed_wait", "include/boost/sync/detail/condition_variables/basic_condition_variable_windows.hpp: wait, timed_wait, initiate_wait, priv_wait, priv_timed_wait", "include/boost/sync/detail/condition_variables/condition_variable_any_generic.hpp: wait, timed_wait, wait_until, wait_for", "include/boost/sync/detail/condition_variables/condition_variable_windows.hpp", "include/boost/sync/detail/condition_variables/condition_variable_any_windows.hpp"]}
{"id": "C76", "title": "Every configuration selects an implementation that the system supports", "statement": "For every combination of the macros the headers test, exactly one platform is chosen, every class gets one implementation, and this implementation calls only interfaces that the configuration offers; every implementation can be selected; now() has a resolution finer than a second; compiler thread-local variables are used only where there is a keyword; and every build of the library contains exactly one implementation of thread-specific storage and, on Windows, one set of exit hooks, and compiles.", "quantifier": "all values of the 22 macros and version numbers tested by the headers, all nine classes, all builds of the Jamfile, all compilers", "why_tests_cant": "One test run has one configuration; the combinations are many, most on systems a test machine is not.", "anchors": ["include/boost/sync/detail/config.hpp", "include/boost/sync/detail/semaphore_config.hpp", "include/boost/sync/detail/pthread.hpp: BOOST_SYNC_DETAIL_PTHREAD_HAS_TIMEDLOCK", "include/boost/sync/detail/atomic.hpp", "include/boost/sync/detail/time_units.hpp: now", "include/boost/sync/detail/mutexes/spin_mutex.hpp: BOOST_SYNC_DETAIL_SPINLOCK_BOOL", "include/boost/sync/semaphore.hpp", "include/boost/sync/events/auto_reset_event.hpp", "build/Jamfile.v2", "src/tss_windows_pe.cpp"]}
{"id": "C77", "title": "Classes with the same compiled name have the same members", "statement": "Two translation units of one program that are compiled with different macros and name the same class (same class, same ABI namespace) agree on its data members; and a program built with the library by its Jamfile finds all functions it calls under the names the library gives them.", "quantifier": "all pairs of configurations, all nine classes; all builds of the Jamfile on all systems", "why_tests_cant": "A disagreement shows only in programs linked from units compiled with different settings, as undefined behaviour or as a link error, not in a test suite compiled with one setting.", "anchors": ["include/boost/sync/detail/config.hpp: BOOST_SYNC_DETAIL_ABI_NAMESPACE", "include/boost/sync/detail/atomic.hpp", "include/boost/sync/detail/mutexes/timed_mutex_posix.hpp", "include/boost/sync/detail/mutexes/spin_mutex.hpp", "include/boost/sync/detail/mutexes/shared_spin_mutex.hpp", "include/boost/sync/detail/events/auto_reset_event_futex.hpp: m_state", "include/boost/sync/condition_variables/notify_all_at_thread_exit.hpp: add_thread_exit_notify_entry", "build/Jamfile.v2: requirements, usage-requirements"]}
{"id": "C78", "title": "Waitable timers survive the loading and unloading of modules", "statement": "In a process whose DLLs use timed waits and are loaded and unloaded at any time, all initialised modules use one thread-local slot and every thread gets one timer in all of them (as long as the process-wide semaphore exists); the semaphore exists exactly while initialised modules hold it; no handle is closed twice; nothing accumulates when modules come and go, and the clean-up at the end of a thread runs code that is still there.", "quantifier": "all numbers of modules and threads, all interleavings of calls, failures of system calls, ends of threads, loading and unloading of modules not in use", "why_tests_cant": "Modules have to be unloaded between particular steps of other threads; what is lost (a slot, a handle, a callback into unloaded code) shows up long afterwards.", "anchors": ["include/boost/sync/detail/waitable_timer.hpp: waitable_timer_state::init, destroy, create_thread_local_context, thread_local_context::destroy, get_waitable_timer"]}
{"id": "C79", "title": "Modules built against different versions of Boost are told apart", "statement": "get_waitable_timer hands out a timer only if its per-thread record was made by a module of the caller's Boost version, and otherwise throws std::logic_error; programs of one version never see this exception; a program mixing versions can use timed waits in all its modules.", "quantifier": "all numbers of modules and threads, all assignments of versions to the copies of modules, all interleavings with loading and unloading", "why_tests_cant": "A test program is compiled against one version of Boost.", "anchors": ["include/boost/sync/detail/waitable_timer.hpp: thread_local_context, get_waitable_timer"]}
{"id": "C80", "title": "Timed waits of a thread do not end by each other's time points", "statement": "All waits of a Windows thread with a system time point use the one waitable timer of the thread. Still, a wait reports a time-out only after the clock has shown its own time point since the call began, never because of an earlier wait's time point, and it is released when its own time comes.", "quantifier": "all sequences of timed waits of a thread on all objects, nested in the unlock function of a user's lock or not, all clocks, all answers of system calls", "why_tests_cant": "An earlier wait has to get its object so shortly before its time-out that the timer expires afterwards, and the nested case needs a user's lock that itself waits.", "anchors": ["include/boost/sync/detail/waitable_timer.hpp: get_waitable_timer", "include/boost/sync/detail/events/basic_event_windows.hpp: timed_wait", "include/boost/sync/detail/semaphore/semaphore_windows.hpp: priv_timed_wait", "include/boost/sync/detail/mutexes/timed_mutex_windows.hpp: priv_timed_lock", "include/boost/sync/detail/condition_variables/basic_condition_variable_windows.hpp: timed_wait, priv_timed_wait"]}
{"id": "C81", "title": "Exceptions say which error occurred", "statement": "Every exception the library throws compiles in every configuration, is of the class named where it is thrown, its native_error() is the number the failed call reported, and its code() compares equal to an error condition exactly if that is the condition that occurred; in particular misuse of a lock object is reported as operation_not_permitted or resource_deadlock_would_occur.", "quantifier": "all 87 places that throw, all error numbers, Boost.System and std::system_error, all platforms", "why_tests_cant": "Tests run with one error library on one platform and do not compare the codes of exceptions with conditions; most of the errors cannot be provoked.", "anchors": ["include/boost/sync/exceptions/runtime_exception.hpp: runtime_exception", "include/boost/sync/exceptions/lock_error.hpp: lock_error", "include/boost/sync/exceptions/resource_error.hpp: resource_error", "include/boost/sync/detail/system_error.hpp: errc_t", "include/boost/sync/detail/throw_exception.hpp: BOOST_SYNC_DETAIL_THROW", "include/boost/sync/locks/unique_lock.hpp: lock, unlock"]}
{"id": "C82", "title": "auto_handle closes every handle it took over exactly once", "statement": "A handle taken over by an auto_handle is closed exactly once, unless it is handed out by release(); NULL and INVALID_HANDLE_VALUE are never closed; a handle is not closed while an auto_handle still holds it.", "quantifier": "all numbers of auto_handle objects, all sequences of calls of their members, all handles", "why_tests_cant": "Sequences of calls are unbounded, and the class is used by no other header, so no test reaches it.", "anchors": ["include/boost/sync/detail/auto_handle.hpp: auto_handle"]}
{"id": "C83", "title": "Under fair scheduling, blocked calls come to an end", "statement": "If every thread that can go on is eventually scheduled, then: calls that do not wait return; as long as a spin mutex, shared spin mutex or timed_mutex is free and a thread wants it, some thread acquires it; as long as a semaphore or event is signalled and a thread waits, some thread takes the unit; if a manual-reset event stays signalled, all waits return; all threads waiting on a condition variable when notify_all is called are woken, and after notify_one one of them is. The same holds for each single thread.", "quantifier": "all infinite executions that are weakly fair (spin mutexes, futex-based events, semaphore-based auto-reset event, Windows mutexes and condition variables) or strongly fair (objects with an internal mutex), all numbers of threads", "why_tests_cant": "Liveness is a property of infinite executions; a test ends after finitely many steps and cannot choose the scheduler.", "anchors": ["include/boost/sync/detail/mutexes/spin_mutex.hpp: lock", "include/boost/sync/detail/mutexes/shared_spin_mutex.hpp: lock, lock_shared", "include/boost/sync/detail/mutexes/timed_mutex_posix.hpp: lock, timed_lock", "include/boost/sync/detail/events/auto_reset_event_futex.hpp: post, wait", "include/boost/sync/detail/events/manual_reset_event_futex.hpp: set, wait", "include/boost/sync/detail/semaphore/semaphore_emulation.hpp", "include/boost/sync/detail/events/auto_reset_event_emulation.hpp", "include/boost/sync/detail/events/manual_reset_event_emulation.hpp", "include/boost/sync/detail/events/auto_reset_event_semaphore.hpp: post, wait, timed_wait", "include/boost/sync/detail/mutexes/basic_mutex_windows.hpp: basic_mutex", "include/boost/sync/detail/mutexes/timed_mutex_windows.hpp: timed_mutex", "include/boost/sync/detail/condition_variables/basic_condition_variable_windows.hpp: basic_condition_variable", "include/boost/sync/detail/condition_variables/condition_variable_any_generic.hpp: wait, notify_one, notify_all"]}
{"id": "C84", "title": "Cleanup functions and exit functions that throw", "statement": "If a cleanup function called by thread_specific_ptr::reset() throws, the exception reaches the caller of reset(), the old value has been passed to the cleanup function once, the pointer holds the new value, and everything promised of values, exit functions and notifications (C41-C45) holds as if the function had returned. The same is true of cleanup functions called by the destructor or at thread exit, and of exit functions.", "quantifier": "all numbers of threads and pointers, all sequences of calls and exits, all cleanup and exit functions, nested calls to any depth, every point at which they throw", "why_tests_cant": "A function can throw at any of unboundedly many nested calls; a test shows one of them, and a terminated process shows nothing of what was left undone.", "anchors": ["include/boost/sync/thread_specific/thread_specific_ptr.hpp: reset, ~thread_specific_ptr", "src/tss_manager.hpp: destroy_thread_context, delete_key", "src/tss_pthread.cpp: delete_thread_specific_key", "src/tss_windows.cpp: delete_thread_specific_key"]}
{"id": "C85", "title": "Every documented call compiles, resolves to one function, and has the documented type, in every configuration", "statement": "For every setting of the configuration macros, every choice of included support headers, every class, public member function and type of arguments: a call compiles exactly if it is documented for those arguments (the lock is one the function takes, the time argument is a duration or time point as documented and the support header for its type is included), it then has the documented result type, and overload resolution is never ambiguous. condition_variable takes unique_lock of mutex and of every timed_mutex that wraps one system mutex, and of no other; native_handle() exists exactly where the macro that announces it is defined.", "quantifier": "All settings of the configuration macros, all subsets of the support headers, all classes and member functions, all types of lock and time arguments, any depth of template instantiation", "why_tests_cant": "Members of class templates and function templates are only checked when they are instantiated with particular types, on the platform where the test is compiled; a test program that compiles says nothing about the combinations it does not contain, and one that does not compile cannot be run.", "anchors": ["include/boost/sync/detail/events/manual_reset_event_futex.hpp: priv_timed_wait", "include/boost/sync/detail/time_traits.hpp: time_traits, enable_if_tag, is_time_tag_of", "include/boost/sync/traits/is_condition_variable_compatible.hpp", "include/boost/sync/support/*.hpp: time_traits", "include/boost/sync/detail/mutexes/timed_mutex_posix.hpp", "include/boost/sync/detail/condition_variables/*.hpp", "include/boost/sync/detail/semaphore/*.hpp", "include/boost/sync/detail/events/*.hpp"]}
{"id": "C86", "title": "The members of the lock classes compile exactly for mutexes that have the functions they are named after", "statement": "For any mutex class, given by the set of its member functions: a member of unique_lock, shared_lock, upgrade_lock, lock_guard, shared_lock_guard or unlock_guard compiles exactly if the mutex has the function that the naming scheme pairs with it (and a time argument is supported and of the right kind); in particular the declared conversions between lock classes compile for a mutex that has the conversion functions. Of the library's own mutexes, all four work with unique_lock, lock_guard and unlock_guard, only shared_spin_mutex with shared_lock and shared_lock_guard, none with upgrade_lock, and timed locking needs timed_mutex.", "quantifier": "All mutex classes (any set of functions and argument types), all lock classes and members, all subsets of the support headers, all configurations", "why_tests_cant": "Members of a class template are checked only when instantiated; the conversions between lock classes can only be instantiated with a mutex that no test and no part of the library provides.", "anchors": ["include/boost/sync/locks/unique_lock.hpp", "include/boost/sync/locks/shared_lock.hpp", "include/boost/sync/locks/upgrade_lock.hpp", "include/boost/sync/locks/lock_guard.hpp", "include/boost/sync/locks/shared_lock_guard.hpp", "include/boost/sync/locks/unlock_guard.hpp"]}
{"id": "C87", "title": "The headers can be included in any order; each class is defined once, by the header the configuration selects", "statement": "Whatever headers of the library a translation unit includes, in whatever order, how often, and mixed with other headers: reading ends; every header is read once; everything a header uses is declared before it, by that header or by one it includes; every public header brings what it is documented to bring, in full (in C++03 the three lock templates together); nothing is defined twice, and each class comes from the header selected for the platform; what is known at the end does not depend on the order; the compiler's warning settings are afterwards as before, and no region between abi_prefix.hpp and abi_suffix.hpp is open or contains another header.", "quantifier": "All translation units (any sequence of includes of public, detail and external headers), all settings of the configuration macros, all compilers and warning settings", "why_tests_cant": "There are 84! orders and 2048 configurations on four platforms; a test compiles one translation unit on one platform, where names that another header happens to bring hide a missing include.", "anchors": ["include/boost/sync/*.hpp: include guards, #include directives", "include/boost/sync/detail/header.hpp", "include/boost/sync/detail/footer.hpp", "include/boost/sync/detail/futex.hpp: futex_timedwait", "include/boost/sync/detail/mutexes/shared_spin_mutex.hpp: shared_spin_mutex", "include/boost/sync/locks/unique_lock.hpp", "include/boost/sync/locks/shared_lock.hpp", "include/boost/sync/locks/upgrade_lock.hpp"]}
{"id": "C88", "title": "Thread-specific storage loses nothing, whatever the operating system refuses", "statement": "A call of reset(), at_thread_exit() or notify_all_at_thread_exit() either has its effect or throws and has none; no value, function or notification is lost and no object is left behind, whichever of its allocations, the store of the thread's context pointer (pthread_setspecific, TlsSetValue) and the lock of the manager's mutex fail.", "quantifier": "All platforms and ways to keep the context pointer, all numbers of threads, all interleavings, all combinations of failing operations", "why_tests_cant": "The failing calls are system calls that a test cannot make fail at will, and a lost function or a leaked context is noticed only after the thread has gone.", "anchors": ["src/tss_pthread.cpp: set_thread_context", "src/tss_windows.cpp: set_thread_context", "src/tss_manager.hpp: tss_manager::create_thread_context", "include/boost/sync/thread_specific/thread_specific_ptr.hpp: reset", "include/boost/sync/thread_specific/at_thread_exit.hpp"]}
{"id": "C89", "title": "When the process ends on Windows the clean-up returns, wherever the other threads were stopped", "statement": "When Windows ends a process it stops all threads but one where they are; on_process_exit, called on the remaining one, returns and has called every exit function and cleanup function that was still due, also if a thread was stopped while it held the manager's mutex.", "quantifier": "All reachable states of thread-specific storage, all places where the other threads can be stopped, everything the functions called may do", "why_tests_cant": "The moment at which Windows stops a thread is not under a test's control; the sections protected by the mutex are a few instructions long.", "anchors": ["src/tss_windows.cpp: on_process_exit", "src/tss_manager.hpp: tss_manager::~tss_manager, destroy_thread_context, create_thread_context, new_key, delete_key"]}
{"id": "C90", "title": "The futex calls reach exactly the threads waiting on the same word, after exactly the requested time", "statement": "A waiting call sleeps exactly if the word has the expected value (also with the top bit set); futex_signal wakes the thread that has slept longest on the word and futex_broadcast all of them, and no thread of another word; a wait with a timeout is told that it timed out only after the requested number of nanoseconds, and a call never sleeps past its timeout.", "quantifier": "All histories of calls by any number of threads (up to INT_MAX) on any number of words, with any interruptions and any clock, all 64-bit timeouts, all combinations of the header macros FUTEX_WAIT_PRIVATE and FUTEX_WAKE_PRIVATE, of the widths of time_t and of the system call's time fields, and kernels with or without private futexes", "why_tests_cant": "A test runs on one platform with one set of headers and one width of time_t; the failing combinations are other platforms, or timeouts of decades.", "anchors": ["include/boost/sync/detail/futex.hpp: futex_invoke, futex_wait, futex_timedwait, futex_broadcast, futex_signal", "include/boost/sync/detail/events/auto_reset_event_futex.hpp: post, wait, priv_timed_wait", "include/boost/sync/detail/events/manual_reset_event_futex.hpp: set, wait, priv_timed_wait"]}
{"id": "C91", "title": "The deadlines handed to the POSIX waits are the requested ones, whatever the width of time_t", "statement": "On a system with a 64-bit or a 32-bit time_t, the deadline computed for a wait of a given length from now, or until a given time since 1970, is a valid timespec that denotes exactly that moment, so that the wait reports a timeout at and after that moment and not before.", "quantifier": "All clock readings, all 64-bit timeouts, both widths of time_t", "why_tests_cant": "2^64 timeouts and 2^63 clock readings; the ones that fail on a 32-bit system lie after January 2038.", "anchors": ["include/boost/sync/detail/time_units.hpp: system_time_point", "include/boost/sync/detail/mutexes/timed_mutex_posix.hpp: priv_timed_lock", "include/boost/sync/detail/condition_variables/condition_variable_posix.hpp: priv_timed_wait", "include/boost/sync/detail/semaphore/semaphore_posix.hpp: priv_timed_wait"]}
{"id": "C92", "title": "Threads that use lock objects exclude each other, and the mutex only sees proper use", "statement": "If the mutexes grant only compatible locks and the users do not unlock or adopt what they do not have, then two lock objects that own the same mutex at the same time, in one thread or in two, are both shared or one shared and the other an upgrade lock; every unlock and every change of mode that a lock object makes is of a lock it has; what a mutex has out is what the lock objects own and what users hold outside them; when all lock objects are gone and nothing is held outside, the mutex is free.", "quantifier": "All numbers of threads and mutexes, all programs of operations on lock objects (also after exceptions), all interleavings of their mutex calls with direct calls by users", "why_tests_cant": "Composition of arbitrary programs of several threads: the property is about all interleavings and all programs, including those where a mutex throws.", "anchors": ["include/boost/sync/locks/unique_lock.hpp: unique_lock", "include/boost/sync/locks/shared_lock.hpp: shared_lock", "include/boost/sync/locks/upgrade_lock.hpp: upgrade_lock"]}
{"id": "C93", "title": "A timeout given as a floating-point duration is converted to the right number of units", "statement": "A std::chrono or boost::chrono duration that counts in double, of a period that is a whole multiple or fraction of the library's unit, is converted to less than one unit off up to 2^53 units (104 days of nanoseconds), exactly if it is a whole number of units, never to the other side of a whole number of units, and with a relative error of one part in 2^53 beyond; other periods, such as 1/60 second, with one part in 2^51 and the same guarantees for correspondingly smaller numbers; the conversion is defined for all durations up to 2^63 - 2^10 units, but not for infinity, NaN or duration::max().  Durations that count in float: the same with 2^24 instead of 2^53, for periods whose ratio to the unit is exact in a float.  A system_clock time point that counts in double, from 1970 to 2043, becomes a valid point less than 257 ns off on POSIX and less than one millisecond off on Windows.", "quantifier": "All doubles, all periods whose ratio to the unit is exact in a double, both platforms' units; all floats, all periods whose ratio is exact in a float", "why_tests_cant": "2^64 values; the ones that fall on the wrong side of a boundary or overflow are sparse.", "anchors": ["include/boost/sync/support/std_chrono.hpp: time_traits::to_sync_unit", "include/boost/sync/support/boost_chrono.hpp: time_traits::to_sync_unit", "include/boost/sync/detail/time_units.hpp: system_duration"]}
{"id": "C94", "title": "Threads that use lock objects in a fixed order of the mutexes do not deadlock", "statement": "If every thread waits only for mutexes that come after all those it has locked (or waits to turn its upgrade lock of the last one into an exclusive lock), then at any time the mutex of some waiting thread can grant its lock, whatever the threads did before with their lock objects: failed and timed attempts, exceptions, conversions, release() and adopt_lock leave no lock behind that nobody would give back.", "quantifier": "All numbers of threads and mutexes, all programs of operations on lock objects, all interleavings, all three modes", "why_tests_cant": "A deadlock needs several threads to meet in a particular order; a lock that an object loses after an exception only shows when somebody waits for it.", "anchors": ["include/boost/sync/locks/unique_lock.hpp: unique_lock", "include/boost/sync/locks/shared_lock.hpp: shared_lock", "include/boost/sync/locks/upgrade_lock.hpp: upgrade_lock"]}
{"id": "C95", "title": "A wait until a time point that counts in floating point does not give up before the deadline", "statement": "A wait until a std::chrono or boost::chrono time point of a clock other than system_clock, whose duration counts in double or float, gives up only at a reading of the clock that has reached the deadline, starts its inner waits only at readings before it, and reports success only if an inner wait succeeded; the conversion of the reading to floating point does not make it give up early.", "quantifier": "All deadlines, all sequences of clock readings and of results of the inner waits, both forms of the loop", "why_tests_cant": "Depends on how each reading rounds next to the deadline and on how long the clock has been running; on a freshly started machine nothing shows.", "anchors": ["include/boost/sync/detail/time_units.hpp: chrono_time_point", "include/boost/sync/detail/mutexes/timed_mutex_posix.hpp: priv_timed_lock", "include/boost/sync/detail/events/auto_reset_event_futex.hpp: priv_timed_wait", "include/boost/sync/detail/condition_variables/condition_variable_posix.hpp: priv_timed_wait"]}
