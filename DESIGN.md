# Formal model of boostorg/sync: design

The deliverable is the Rocq (Coq 8.16.1) development in `rocq/theories` (logical name `Verif`).
`properties.jsonl` lists the properties, `MANIFEST.json` maps each to theorems, `seeded/LOG.jsonl`
records the wrong programs the theorems were tried against.

## 1. How the code is modelled

* **Concurrent primitives** are executable interleaving models. A configuration holds the shared
  words/kernel objects and a list with one program counter (plus locals) per thread; the number of
  threads is arbitrary. `step : config -> action -> option (config * list event)` performs one
  atomic access or one system call of one thread; the action names the thread and resolves every
  nondeterministic choice (which call an idle thread makes, spurious failure of a weak CAS, spurious
  wake-up or signal, timeout, which sleeper the kernel wakes, whether a kernel call fails).
  `exec step init sched` runs a schedule (a list of actions of any length); all theorems quantify over
  every schedule. API calls and returns are emitted as events `Call t o` / `Ret t o r`.
* **Word arithmetic** is explicit: state words are `Z` with `mod 2^32` wrap-around at every
  addition/subtraction the code performs on them; masks and shifts are `Z.land`, `Z.lor`, `Z.shiftr`.
* **Specifications** are independent of the models. "Behaves atomically" is linearizability, defined once
  in `Lin.v` by a reference system over a tiny sequential specification (a boolean, a counter, an
  owner). Counting/conservation statements are functions of the event history alone.
* **No lost wake-up** is stated over all reachable configurations: a configuration in which the
  object is available and a thread sleeps always has someone who will act without outside help; and where
  useful as "a configuration in which no thread inside the library can move has no such sleeper".
* **Memory orders** are modelled separately (`Hb*.v`): each step is annotated with the atomic accesses
  it performs and their C++ memory orders, and a generic instrumentation tracks, for each thread and
  each location, the set of earlier operations that happen-before it (release/acquire, release
  sequences, fences). Loads read the latest value in this model (see 3); `Weak*.v` repeats the main results on a
  machine with stale reads.
* **Sequential code** (time arithmetic, lock objects, error mapping, wait loops, thread-specific storage)
  is modelled as total functions; loops that depend on the environment take the environment's answers
  as an input list (oracle) of any length.

## 2. Property by property

The theorems of a property carry its number (`C07_…`) and live in the `Props*.v` files; `MANIFEST.json` lists
them. The proofs proper are in the `*Proof.v` files next to each model.

| Id | Model | Theorems | How proved |
|----|-------|----------|------------|
| C01 C02 | `SpinModel`: both spin mutexes | `PropsSpin`, `PropsSharedSpin` | forward simulation to an atomic mutex; solo-run argument |
| C03 | `Hb` + `HbSpin`, `HbSharedSpin` annotations | `PropsHb` | invariant on knowledge sets |
| C04 C05 C06 | `SharedSpinModel` (32-bit word, weak CAS) | `PropsSharedSpin` | forward simulation with counting invariant; refutations by schedule |
| C07-C10 C50 | `AutoFutexModel` (22/10 bit word, futex queue) | `PropsAutoFutex` | counting invariants; refutations by schedule (C10 by a parametric schedule of 1023 threads) |
| C11 C12 | `ManualFutexModel` | `PropsManualFutex` | forward simulation, counting invariant |
| C13 C14 | `AutoSemModel` | `PropsAutoSem` | counting invariants; refutation by schedule |
| C15-C18 | `Monitor` (mutex + wait set, spurious wake-ups, timeouts) instantiated in `EmuModel` | `PropsEmu` | one generic simulation and one generic token invariant in `MonitorProof`, instantiated four times |
| C19 C20 C22 C51 | `WinMutexModel` (lock/event/waiter word, auto-reset kernel event, lazily created handle) | `PropsWinMutex` | forward simulation, token invariant |
| C21 | `Hb` + `HbWinMutex` | `PropsHb` | refutation by schedule; knowledge invariant for the fast path and for the repaired program |
| C23-C26 C52 C53 | `WinCvModel` (ring of semaphores) | `PropsWinCv` | invariants over ring and waiting threads; explicit matching of notifications and waits |
| C27 | `CvAnyModel` (interleaving) | `PropsCvAny` | invariant, then a history argument |
| C28 C29 | `CvWaitModel`: control flow of every wait function in an exception monad with oracle | `PropsCvWait` | Hoare-style lemmas for each function, induction over fuel |
| C30 | `DeadlineModel` | `PropsDeadline` | induction over the environment; parametric refutation |
| C31 C32 | `LockModel`: store of lock objects, arbitrary mutexes | `PropsLock` | invariant over operation lists |
| C33 | `GuardModel`: nested scopes | `PropsGuard` | induction over programs |
| C34 C35 C36 | `TimeModel` | `PropsTime` | arithmetic |
| C37 C38 C40 | `TimedLoops` | `PropsTimed` | induction over oracle |
| C39 | `ErrModel` | `PropsErr` | induction over oracle |
| C41-C46 | `TssModel` (contexts, keys, key recycling, exit loops, user code in callbacks) | `PropsTss` | invariants over histories; refutations by schedule |
| C47 C54 C55 | `OnceModel` | `PropsOnce` | invariants over histories; refutations by schedule |
| C54 (name of the semaphore) | `TimerName` | `PropsTimerName` | the loop of waitable_timer.hpp:148-162 writes the process id in hexadecimal; arithmetic |
| C48 | `EintrModel` | `PropsEintr` | token invariant; refutation by schedule |
| C49 | `Hb` + `HbManual`, `HbTokens`, `HbAuto`, `HbAutoSem` | `PropsHbEvents` | knowledge invariant (generic for token events); refutation for absorbed posts |
| C56 | `RelWaitModel` | `PropsRelWait` | induction over the environment; refutations for every number of lost wake-ups |
| C57 | the object models, `TimedLoops` | `PropsExpired` | case analysis from every state in which the object is available; refutation for one overload |
| C58 | the object models | `PropsDestroy` | ownership invariants; conservation of posts with the final state kept; "the updater keeps the internal mutex until its last access"; explicit executions for the three refutations |
| C59 | `Weak` (weak memory machine), `WeakSpin`, `WeakShared` | `PropsWeak` | invariant over message histories and knowledge sets: who owns the mutex holds the newest message, whose release view covers all earlier unlocks |
| C60 | `Weak`, `WeakAuto` | `PropsWeakAuto` | every write is a read-modify-write, so successful updates are steps of `AutoFutexModel` and its invariant carries over; each drop of the post count is known to the wait that made it; explicit execution for the refutation |
| C61 | `Weak`, `WeakManual` | `PropsWeakManual` | as C60 over `ManualFutexModel`; the message written by a set() or reset() that happens before a wait bounds what the waiter can read (`mark`); explicit executions for the refutations; the parameter `racq` (acquire order in reset(), false in the code) gives the corrected variant |
| C62 | `ResModel` | `PropsRes` | constructors as lists of acquisitions in the order of the source, in three shapes (wrapper members, class with members, raw handles); acquisition results come from an oracle; a ledger of acquired and released objects must balance. Refuted for the emulated timed_mutex by an explicit failure pattern |
| C63 | the models of C01, C04, C07, C11, C13, C15-C19 | `Progress`, `PropsProgress` | a potential on program counters (and on whether the remembered value is still current) that each own step decreases and only a change by another thread or a spurious failure increases; `bounded_steps` sums it along any schedule |
| C64 | `AutoFutexModel`, `AutoSemModel`, `EmuModel` | `PropsRelease` | invariant over any schedule that adds posts only, from any settled state: registered waiters + returned waits = k, and recorded posts either equal posts made minus waits served, or exceed the registered waiters; for the semaphore exact conservation in the specification (`count_exact`). Explicit execution for the emulated event |
| C65 | the models of C01, C04, C07, C13, C15, C17, C18, C19 | `PropsBypass` | a schedule that leads back to the same configuration is repeated N times (`repeat_block`, `overtake`); potentials along executions for the bounds on attempts |
| C66 | tss_windows.cpp on_process_exit/on_thread_exit, ~tss_manager, destroy_thread_context; starts in any state of `TssModel` | `ProcExit`, `ProcExitProof`, `PropsProcExit` | remaining calls as a function of the state for functions that do not call the library; accounting of registered functions otherwise; `_refuted`: other thread, null manager, stopped threads, dangling context |
| C67 | `AutoSemModel`'s semaphore value; delete_key with failing lock and allocations | `DelKey`, `PropsNoexcept` | bound on the semaphore from the invariant of C13; characterisation of the failures, refinement of `TssModel.delete_key`; `_refuted`: abort on allocation failure |
| C68 | `Weak`, `WeakSem` | `PropsWeakSem` | all writes to m_state are read-modify-writes, so the invariant of C13 holds of the newest values; since any old message m_state has risen by at most the number of waits that know of a later change (`SL`), which bounds what a thread knowing all consumptions can read; explicit execution for the refutation |
| C69 | `Weak`, `WeakWin` | `PropsWeakWin` | every weak execution is one of the machine of C19 in which a load may also give any value (`wwm_sim`), because m_active_count is changed by read-modify-writes only and m_event is set at most once; that machine still refines the atomic mutex (`vm_lin`); publication by an invariant on the newest message; explicit executions for the refutations |
| C70 | `Weak`, `WeakWin`, `WinCvModel`, `WeakCv` | `WeakCvProof`, `PropsWeakCv` | the condition variable and the user's mutex are one machine that projects to that of C69 (`x_proj`); invariant: the messages of m_total_waiter_count are its values over time, one per registration, departure and notification, and a registered thread knows its own; a reader that knows a message reads that or a newer one; explicit execution for the lost notification |
| C71 | `Weak`, `WeakOnce` | `WeakOnce`, `PropsWeakOnce` | tss_windows.cpp:85-104 and waitable_timer.hpp:123-318 have one shape: an ordinary test of a flag, interlocked operations, ordinary memory written once; invariant: every message "done" releases the one write; explicit execution for the stale read |
| C72 | `HooksModel` (contains `TssModel` and `ProcExit`) | `HooksProof`, `PropsHooks` | table of the hooks each build calls for each loader notification, executed by a machine around the models of C43 and C66; projection to those models, counting invariants, refutations by schedule; `prepare` is the MSVC 6 compaction of the callback array, by induction |
| C73 | `Monitor` with `MThrow` + `EmuThrow` (specification `xspec`: a call may also end with an exception and no effect) | `MonitorProof`, `PropsEmuThrow` | the monitor invariants with failing calls; then removal of the calls that threw from a linearizable history, by induction over the reference execution |
| C74 | `KernModel`: programs of system calls over one atomic system object, with the results the environment may give them | `KernProof`, `PropsKern` | forward simulation to the deferred-choice reference system, from conditions on the labels of each program (what is known about the object there); removal of throwing calls as in C73 |
| C75 | `CvWaitModel`: all waiting functions as programs with exceptions and scope guards over an oracle that answers every call | `PropsCvTruth` | weakest preconditions for all four outcomes (returns, throws, terminates, still waiting), induction on the rounds of each loop |
| C76 C77 | `ConfigModel`: the preprocessor conditions as functions of a record of macros; data members and compiled names of the classes; sources, macros and link requirements of a build by the Jamfile | `PropsConfig` | case analysis over unbounded macro values, induction on the depth of the includes; exact conditions (iff), refutations with realistic configurations |
| C78 C79 | `ModModel`: `OnceModel` with modules that are loaded and unloaded (zero-initialised state on loading, `destroy` on unloading, only while no thread runs in the module), copies of modules with versions, the version check, callbacks into copies that are gone | `ModProof`, `ModKey`, `PropsMod`, `PropsModHandles` (handles when system calls fail) | simulation of the steps by `OnceModel` (a history of `OnceModel` without the forgotten modules), invariant over slots lost and slots in use; refutations by schedule, one by induction on the number of cycles |
| C80 | `TimerModel`: one thread, its auto-reset timer, the calls in progress as a stack (a user's unlock function may wait), any clock; SetWaitableTimer stops the timer and resets its state | `PropsTimer` | invariant over histories: the last setting of the timer; refutations by schedule |
| C81 | `ExcModel`: all 87 throws (file, line, class, argument), overload resolution among the constructors, the code, its comparison with conditions; a platform is its errno values and its mapping of system codes | `PropsExc` | case analysis over the throws, for all numbers and platforms; refutations for Windows numbers and for the option of std::system_error |
| C82 | `HandleModel`: any number of auto_handle objects, any sequence of calls | `PropsHandle` | conservation law by induction over the calls |
| C83 | `Fair`: infinite executions, weak and strong fairness; over `SpinModel`, `SharedSpinModel`, `AutoFutexModel`, `ManualFutexModel`, `AutoSemModel`, `WinMutexModel`, `WinCvModel`, `CvAnyModel`, `EmuModel` | `FairSpin`, `FairShared`, `FairAuto`, `FairManual`, `FairMon`, `FairSem`, `FairWin`, `FairCv`, `FairCvAny`, `PropsFairSpin`, `PropsFairShared`, `PropsFairFutex`, `PropsFairSem`, `PropsFairWin`, `PropsFairCv`, `PropsFairCvAny`, `PropsFairEmu` | ranking arguments on infinite executions (a rank that every step of the thread lowers and no other step raises); starvation by executions that repeat a round of steps for ever |
| C84 | `TssThrow`: `TssModel` with exceptions leaving the user functions the library calls, and for each frame the function that made it | `PropsTssThrow` | simulation: an exception leaving reset() is matched by return and pop of `TssModel`; invariant relating frames and their makers; `_refuted`: the destructor and thread exit end the program |
| C85 | `IfaceModel`: the overloads of every public member function with their enable_if conditions, and the calls in their bodies, for every file `ConfigModel` can select; time_traits; the documented signatures | `PropsIface` | reduction of the macros to the finite set of selections and of the headers to the one the argument needs (lemmas by induction on the depth), then one boolean check of all remaining cases evaluated by the kernel (`vm_compute`); depth of instantiation by a fixed point; `_refuted` for chrono time points of other clocks on the futex-based manual_reset_event |
| C86 | `LockIface`: the members of the lock classes, what their bodies use of the mutex, of private data and of other lock classes; the mutex is an arbitrary set of functions | `PropsLockIface` | case analysis over members, for an arbitrary mutex class; `_refuted` for the plain conversions; for the library's mutexes from C85 |
| C87 | `HeaderModel`: the 84 headers as lists of includes, declarations and uses under preprocessor conditions, include guards, detail/header.hpp and footer.hpp, any translation unit | `HeaderProof`, `PropsHeader` | invariant 'what is read is complete'; simulation between including a header first and after others; the configuration matters only through the conditions a header meets, then evaluation of each header in all configurations; `_refuted` for missing includes and for Intel compilers |
| C88 | `TssFail`: `TssModel` with the store of the context pointer failing (its result is ignored) and the lock of m_mutex throwing in create_thread_context; objects of class thread_context counted | `PropsTssFail` | simulation by `TssModel` with one further thread per failed store, which carries C41 to C45 over; invariants for objects and contexts; `_refuted`: value and function lost, contexts leaked |
| C89 | `ExitHeld`: `ProcExit` with m_mutex held by a stopped thread; `section` says which steps hold it | `PropsExitHeld` | invariant 'the destructor is at the oldest context'; the remaining calls of C66 give what was done before it hangs; `_refuted` by a reachable state |
| C90 | `FutexModel`: the arguments of the four futex calls for every combination of macros and time types, a kernel with wait queues keyed by (private, address), histories of calls, stores, signals and time | `PropsFutexApi` | refinement of a specification without keys and with exact deadlines, by induction on the history; arithmetic of the timespec; `_refuted` by platforms |
| C91 | `Time32`: system_time_point with a time_t and long of 32 or 64 bits; the deadlines of the POSIX waits | `PropsTime32` | modular arithmetic; complete characterisation of the addition; `_refuted` for deadlines after 2038 |
| C92 | `LockThreads`: any number of threads, each with its own program on lock objects (`LockModel`), interleaved with direct calls by users, on mutexes that grant only compatible locks | `PropsLockThreads`, `PropsLockMutexes` | accounting over histories, invariant on the locks a mutex has out, on top of C31; assumption: lock objects are not shared between threads |
| C93 | `FloatDur`: to_sync_unit of durations, and of system_clock time points, that count in double or float; IEEE binary64 and binary32 (Coq's `SpecFloat`), undefined casts are `None` | `PropsFloatDur`, `PropsFloatAny`, `PropsFloatSingle`, `PropsFloatSingleAny`, `PropsFloatPoint` | rounding to nearest characterised in integers (error, monotone on representable numbers), carried through the product, the quotient or both, and the cut; `_refuted` for max(), for "nearest" for whole units and minutes of float, for points before 1970 and for present-day points in float |
| C94 | as C92 | `PropsLockOrder` | the accounting of C92 and the thread that waits for the last mutex; `_refuted` without the order |
| C95 | `FloatClock`: the loops that wait for a deadline of an arbitrary clock, with time points that count in double or float: conversion of each reading, floating-point comparison | `PropsFloatClock`, `PropsFloatClockAny` | comparison of canonical IEEE numbers is that of their values; every rounding of the conversion characterised in integers for both formats at once, errors of the five roundings added up; induction over the readings; `_refuted` for "never early" without a margin; `_partial`: exact or one part in 2^53 for readings below 2^53 |

Every property that is false of the code gets a `…_refuted` theorem (an existential statement with a concrete
schedule or input as witness) together with the strongest positive theorem found (suffix `_partial` where it is
less than the property). Positive theorems are accompanied by `…_example` lemmas or `Example`s: concrete
executions that meet the hypotheses.

## 3. Trusted base

* Coq's kernel, including `vm_compute` (used to check concrete schedules, for C85 the complete finite set of configurations, functions and argument types, and for C87 every header in every configuration).
* Axioms: none. Every property theorem is followed by `Print Assumptions` in its file and prints "Closed under
  the global context". `coqchk` additionally lists `Coq.ssr.ssrunder.Under_rel.*` (seven fields of a module type
  of the standard library that is loaded with `ssreflect`); no theorem depends on them.
* No functors, module types, plugins, or changes to kernel flags.
* The reading of the code: every definition cites the lines of /repo it stands for.
* The memory model used for C03, C21 and C49: operations are interleaved (a load reads the latest value of its
  location in the interleaving); C++ memory orders decide what an operation synchronises with: a release operation
  publishes what its thread knows, a read-modify-write continues a release sequence, a plain store ends it,
  fences as in the standard. Stale reads are not modelled there; the non-atomic reads in one-time initialisation (C47) are
  treated as atomic, and as relaxed in C71.
* The memory model used from C59 on (`Weak.v`): per location a list of messages in modification order, per thread the
  set of messages and pieces of work that happen before it; loads may return any message not overwritten by a known
  one, stores may be inserted in the middle of the modification order, read-modify-writes are adjacent to what they
  read. This is C++20 for relaxed/acquire/release and release fences, with program order and reads-from together
  acyclic (RC11). FUTEX_WAIT compares with the newest value.
* The contracts assumed of the environment: `futex` (atomic compare-and-block, wakes at most the requested number of
  sleepers, spurious returns and EINTR allowed; in `FutexModel` also: private and shared futexes are different queues, the oldest sleeper
  is woken first, timespec fields are checked and read little endian with the system call's width), POSIX condition variables (waiting releases the mutex and joins
  the wait set atomically, spurious wake-ups allowed, a waiter may time out after being signalled), POSIX/Mach/Windows semaphores (atomic
  counters), Windows auto-reset events (atomic flags), waitable timers (SetWaitableTimer stops a running timer and makes it unsignalled; a wait takes the signal), TLS slots, interlocked operations.
  For C72: the Windows loader notifies an ending thread on that thread, stops the other threads before notifying a DLL
  that the process ends, and exit() runs atexit functions and terminators in the order given at the top of `HooksModel.v`.
  Fairness is a hypothesis of the theorems of C83 (weak: a thread that from some time on can always go on, goes on; strong: a
  thread that can go on again and again, goes on again and again) and assumed nowhere else; the other liveness statements are of the form "running this thread alone for k steps finishes
  the call" or "no reachable configuration is stuck in this way".
* For C87: an external header declares the names listed for it in `HeaderModel.provides` (what its documentation gives), whatever else
  an implementation lets through (only sys/time.h is taken to bring timespec, as it does on Linux and macOS); a pop of warning settings without a push resets them (GCC) or does nothing (MSVC).

## 4. What is and is not modelled

Paths are relative to /repo/include/boost/sync unless they start with src.

| File | Model | Left out or simplified |
|------|-------|------------------------|
| detail/mutexes/spin_mutex.hpp | `SpinModel` all functions, `WeakSpin` with stale reads | `pause()` is no step |
| detail/mutexes/shared_spin_mutex.hpp | `SharedSpinModel` all functions, `WeakShared` with stale reads | same |
| detail/events/auto_reset_event_futex.hpp | `AutoFutexModel` all functions, `HbAuto` memory orders, `WeakAuto` with stale reads; timeouts' values in `TimedLoops` | C++ exceptions cannot occur there |
| detail/events/manual_reset_event_futex.hpp | `ManualFutexModel`, `HbManual`, `WeakManual` with stale reads, `TimedLoops` | the overload for chrono time points does not compile as it stands (misspelt name); modelled as intended |
| detail/events/auto_reset_event_semaphore.hpp | `AutoSemModel`, `HbAutoSem`, `WeakSem`, with interrupted and failing semaphore waits | semaphore calls that throw: the waits of the two semaphores it is compiled with do not (C76_auto_semaphore_not_emulated), post() only at the maximum (C14_bounded_partial) |
| detail/events/*_emulation.hpp, detail/semaphore/semaphore_emulation.hpp | `Monitor` + `EmuModel`; failing calls that throw: `EmuThrow` | failing calls checked only with BOOST_VERIFY (unlock, notify) |
| detail/mutexes/timed_mutex_posix.hpp | emulated branch: `EmuModel`, failing pthread_cond_timedwait: `EmuThrow`; pthread_mutex_timedlock branch: `ErrModel`, `TimedLoops`, `KernModel` (interleavings); construction and destruction: `ResModel` | |
| detail/mutexes/mutex_posix.hpp, detail/pthread.hpp, detail/pthread_mutex_locks.hpp | `ErrModel`, `EintrModel`, `KernModel` (interleavings) | same; `pthread_mutex_lock_guard` is a scope guard like C33's |
| detail/mutexes/basic_mutex_windows.hpp, timed_mutex_windows.hpp, mutex_windows.hpp | `WinMutexModel`, `HbWinMutex`, `WeakWin` with stale reads, `TimedLoops` | waiter field beyond 2^30 threads |
| detail/condition_variables/condition_variable_posix.hpp | `CvWaitModel`, `DeadlineModel`, `EintrModel`, `Monitor` | |
| detail/condition_variables/basic_condition_variable_windows.hpp | `WinCvModel`, `WeakCv` with stale reads, `CvWaitModel`, `TimedLoops` | the doubly linked list's `m_prev` (never read); in `WeakCv` m_internal_mutex is taken to publish and a throwing lock() in ~relocker is repeated |
| detail/condition_variables/condition_variable_windows.hpp, condition_variable_any_windows.hpp | `CvWaitModel`, `DeadlineModel` | |
| detail/condition_variables/condition_variable_any_generic.hpp | `CvAnyModel`, `CvWaitModel`, `DeadlineModel` | |
| detail/semaphore/semaphore_posix.hpp, basic_semaphore_mach.hpp, semaphore_mach.hpp, semaphore_dispatch.hpp, semaphore_windows.hpp | `ErrModel` (results), `TimedLoops` (timeouts), `ResModel` (construction), `KernModel` (interleavings) | the system objects are atomic by assumption |
| detail/events/basic_event_windows.hpp, *_event_windows.hpp | `ErrModel`, `TimedLoops`, `ResModel` (construction), `KernModel` (interleavings) | same |
| detail/time_units.hpp, detail/time_traits.hpp, support/*.hpp | `TimeModel`, `Time32` (32-bit time_t), `FloatDur` (double and float representations), `FloatClock` (chrono_time_point of such) | long double representations, FILETIME/timeval system calls |
| locks/unique_lock.hpp, shared_lock.hpp, upgrade_lock.hpp | `LockModel` all functions; `LockThreads` several threads | lock objects shared between threads |
| locks/lock_guard.hpp, shared_lock_guard.hpp, unlock_guard.hpp | `GuardModel` | |
| detail/waitable_timer.hpp | `OnceModel`, `TimerName` (composing the name), `WeakOnce` (stale reads), `ModModel` (`destroy`, loading and unloading, Boost version check), `TimerModel` (use of the timer by successive waits) | the order of atexit handlers at process exit |
| src/tss_manager.hpp, src/tss_pthread.cpp, src/tss_windows.cpp, thread_specific/*.hpp, condition_variables/notify_all_at_thread_exit.hpp | `TssModel`, `OnceModel` part 2, `WeakOnce` (stale reads), `ProcExit` (process exit, destructor of the manager), `DelKey` (bad_alloc inside `delete_key`), `TssThrow` (cleanup and exit functions that throw), `TssFail` (failing stores of the context pointer and a throwing lock), `ExitHeld` (threads stopped while holding m_mutex at process exit) | a state half written by a thread stopped at process exit; functions that throw during process exit on Windows; a failing TlsSetValue at thread exit |
| src/tss_windows_pe.cpp, src/tss_windows_dll.cpp, tss_windows_hooks.hpp | `HooksModel` | linker section placement, page protection in on_tls_prepare, the MFC chaining of `_pRawDllMainOrig`, Borland and CE entry names |
| exceptions/*.hpp, detail/throw_exception.hpp, detail/system_error.hpp | `ExcModel` (constructors, codes, all places that throw); the classes are constructors of `ErrModel.exn` | message strings, boost::throw_exception |
| detail/auto_handle.hpp | `HandleModel` all members | - |
| detail/weak_linkage.hpp | its names in `HeaderModel` only | linkage attributes |
| detail/config.hpp, semaphore_config.hpp, atomic.hpp, the conditions in pthread.hpp and time_units.hpp, the public wrapper headers, build/Jamfile.v2 | `ConfigModel` | constants of other headers are taken over (BOOST_WINAPI_VERSION_WIN6 = 0x0600, __MAC_10_6 = 1060, __IPHONE_4_0 = 40000); a 64-bit target for the widths of atomics; link_config.hpp, constexpr and inline-namespace spellings (config.hpp 83-117), BOOST_SYNC_HAS_PTHREAD_EINTR_BUG (modelled in `EintrModel`), the paths of pthreads-win32 |
| the declarations of all public member functions of mutexes/*.hpp, condition_variables/*.hpp, semaphore.hpp, events/*.hpp and the detail/ files behind them, time_traits.hpp, support/*.hpp, traits/is_condition_variable_compatible.hpp | `IfaceModel` | which overload is viable and what its body calls; system functions, the user's lock, unique_lock and arithmetic of time units are taken to compile; const, references, noexcept left out; all durations of a library are one type |
| the declarations of locks/*.hpp | `LockIface` | queries and swap are one member; access control as "same class or friend" |
| all headers of include/boost/sync: guards, includes, first use and declaration of names; detail/header.hpp, detail/footer.hpp, detail/link_config.hpp, locks/*_fwd.hpp, the umbrella headers | `HeaderModel` | macro bodies, later uses in the same header, the Doxygen branches; conditions that decide about neither an include nor a declaration count as both cases |
| detail/futex.hpp | `FutexModel` all functions; contract of the system call in `AutoFutexModel`, `ManualFutexModel`, timeouts in `TimedLoops` | which system call number is selected (only its time type); big-endian machines |
| detail/pause.hpp | not modelled | a hint to the processor |
| detail/lockable_wrapper.hpp | its name in `HeaderModel` only | used by no other header |
Further simplifications are stated at the top of each model file.

## 5. Wrong programs

`seeded/LOG.jsonl` has one line per attempt: the model definition edited, the edit, the English claim it breaks, the property
theorems whose proof (or a lemma it rests on) no longer goes through, and what was tightened. The attempts are run in a
scratch copy: the edit is applied, everything that depends on it is recompiled, a proof that fails is recorded and
skipped so that every other theorem is still tried. An attempt counts as caught only if a theorem about the broken claim
fails. Proof breakage alone does not show a statement to be strong; survivors were therefore looked at one by one.
