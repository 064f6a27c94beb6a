(** Which calls compile: the overloads of the member functions, their enable_if conditions, and what their bodies call.
      /repo/include/boost/sync/..., cited by file name; "traits": detail/time_traits.hpp; "T:" detail/mutexes/timed_mutex_posix.hpp, "TW:" detail/mutexes/timed_mutex_windows.hpp,
      "P:" detail/condition_variables/condition_variable_posix.hpp, "CW:" detail/condition_variables/condition_variable_windows.hpp, "AG:" condition_variable_any_generic.hpp,
      "AW:" condition_variable_any_windows.hpp, "B:" basic_condition_variable_windows.hpp, "E:" detail/events/basic_event_windows.hpp.
    A call compiles if exactly one overload is viable and the calls in its body compile and have the type the body needs.  Simplified: functions of the system, of the user's lock and
    of unique_lock are taken to exist; the number of arguments (with or without a predicate) is part of the name; const, references and noexcept are left out; durations of all
    representations and periods are one type, and so are all clocks but the system clock. *)
From Coq Require Import List Bool Arith ZArith.
From Verif Require Import ConfigModel.
Import ListNotations.

(** The chrono libraries, support/boost_chrono.hpp, support/std_chrono.hpp. *)
Inductive chrono := LibBoost | LibStd.
(** Types of time arguments: duration, time point of the system clock, time point of another clock (boost_chrono.hpp 36 51 65, std_chrono.hpp 34 49 63); duration and time point of
    Boost.DateTime (boost_date_time.hpp 35 59); timespec (posix_time.hpp 34); system_duration, system_time_point, chrono_time_point (detail/time_units.hpp); any other type; no time argument. *)
Inductive ty := TDur (l : chrono) | TSys (l : chrono) | TClock (l : chrono) | TDateDur | TDatePoint | TTimespec | UDur | UPoint | UClock (l : chrono) | TOther | TNone.
(** time_duration_tag and time_point_tag, traits:33-34. *)
Inductive tag := TagDur | TagPoint.
(** The headers of support/ that the program includes. /repo/include/boost/sync/support/*.hpp, one include each. *)
Record supports := Sup { inc_boost : bool; inc_std : bool; inc_date : bool; inc_posix : bool }.
(** support/boost_chrono.hpp or support/std_chrono.hpp is included. *)
Definition inc_chrono (h : supports) (l : chrono) : bool := match l with LibBoost => inc_boost h | LibStd => inc_std h end.

(** time_traits< T >: tag and unit_type, [None]: not specialized (traits:36-40). boost_chrono.hpp 36-78, std_chrono.hpp 34-81, boost_date_time.hpp 35-75, posix_time.hpp 34-52. *)
Definition traits (h : supports) (t : ty) : option (tag * ty) :=
  match t with
  | TDur l => if inc_chrono h l then Some (TagDur, UDur) else None
  | TSys l => if inc_chrono h l then Some (TagPoint, UPoint) else None
  | TClock l => if inc_chrono h l then Some (TagPoint, UClock l) else None
  | TDateDur => if inc_date h then Some (TagDur, UDur) else None
  | TDatePoint => if inc_date h then Some (TagPoint, UPoint) else None
  | TTimespec => if inc_posix h then Some (TagPoint, UPoint) else None
  | UDur | UPoint | UClock _ | TOther | TNone => None
  end.

(** Result types: void, bool, cv_status (cv_status.hpp), native_handle_type. *)
Inductive ret := RVoid | RBool | RStatus | RHandle.
(** The lock argument of a wait on a condition variable: none; unique_lock of a mutex class of the library; another lock class. condition_variable.hpp 80, condition_variable_any.hpp 69. *)
Inductive lockarg := NoLock | UniqueLock (o : obj) | UserLock.
(** The arguments of a call that matter here: T:177, P:117. *)
Record arg := Arg { a_lock : lockarg; a_time : ty }.

(** Member functions; ...Pred: the overloads with a predicate; [NPriv]: priv_timed_lock, priv_timed_wait (T:205-263, P:213-244). mutexes/*.hpp, condition_variables/*.hpp, semaphore.hpp, events/*.hpp. *)
Inductive name :=
| NLock | NTryLock | NUnlock | NLockShared | NTryLockShared | NUnlockShared | NTimedLock | NTryLockFor | NTryLockUntil
| NNotifyOne | NNotifyAll | NWait | NWaitPred | NTimedWait | NTimedWaitPred | NWaitFor | NWaitForPred | NWaitUntil | NWaitUntilPred
| NPost | NSet | NReset | NTryWait | NNative | NPriv.

(** Which implementations are selected: what [select] (ConfigModel.v) makes of config.hpp 26-48, semaphore_config.hpp 18-44, pthread.hpp 31-37, detail/mutexes/spin_mutex.hpp 28-33. *)
Record conf := Conf { c_platform : platform; c_dispatch : bool; c_sem : bool; c_timedlock : bool; c_spinbool : bool }.
(** config.hpp 26-48, semaphore_config.hpp 18-44, pthread.hpp 31-37, detail/mutexes/spin_mutex.hpp 28-33. *)
Definition conf_of (m : macros) : conf := Conf (platform_of m) (dispatch_sem m) (posix_semaphores m) (has_timedlock m) (spinlock_bool m).
(** [select] (ConfigModel.v) as a function of these: the #if chains of mutex.hpp 101-105, timed_mutex.hpp 149-153 and the others cited there. *)
Definition sel (c : conf) (o : obj) : file :=
  match o with
  | OMutex => match c_platform c with PWinapi => FMutexWindows | _ => FMutexPosix end
  | OTimedMutex => match c_platform c with PWinapi => FTimedWindows | _ => if c_timedlock c then FTimedNative else FTimedEmulated end
  | OSpin => if c_spinbool c then FSpinBool else FSpinFlag
  | OShared => FShared
  | OCond => match c_platform c with PWinapi => FCondWindows | _ => FCondPosix end
  | OCondAny => match c_platform c with PWinapi => FCondAnyWindows | _ => FCondAnyGeneric end
  | OSem => match c_platform c with PWinapi => FSemWindows | _ => if c_dispatch c then FSemDispatch else if c_sem c then FSemPosix else FSemEmulation end
  | OAuto => match c_platform c with PWinapi => FAutoWindows | PLinux => FAutoFutex | _ => if c_sem c || c_dispatch c then FAutoSemaphore else FAutoEmulation end
  | OManual => match c_platform c with PWinapi => FManualWindows | PLinux => FManualFutex | _ => FManualEmulation end
  end.

(** Classes: the public ones, by file, and basic_mutex, basic_condition_variable, basic_event, basic_semaphore. basic_mutex_windows.hpp 48, B:54, E:42, basic_semaphore_mach.hpp 41. *)
Inductive cls := K (f : file) | KMutex | KCond | KEvent | KSem.
(** A call in a body, and the type the body needs (e.g. "== cv_status::no_timeout", P:120); [Bad]: use of a member that is not there, e.g. time_traits< T >::to_sync_unit (traits:36-40). *)
Inductive call := Call (c : cls) (n : name) (a : arg) (r : ret) | Bad.
(** An overload: [None] if it is not viable (arguments do not fit, or enable_if removes it, traits:42-58), else its result type and the calls of its body. *)
Definition overload : Type := arg -> option (ret * list call).

(** A function of no arguments, e.g. mutex_posix.hpp 87. *)
Definition plain (r : ret) (b : list call) : overload := fun a => match a with Arg NoLock TNone => Some (r, b) | _ => None end.
(** A function of a lock, e.g. P:99-104; [lg]: which locks. *)
Definition locked (lg : lockarg -> bool) (r : ret) (b : lockarg -> list call) : overload :=
  fun a => match a_time a with TNone => if lg (a_lock a) then Some (r, b (a_lock a)) else None | _ => None end.
(** A template over types with time_traits, e.g. T:176-192; [tg]: the tags it is enabled for (enable_if_c, enable_if_tag and is_time_tag_of, traits:42-58); the body sees the lock, the argument's type, and unit_type. *)
Definition timed (h : supports) (lg : lockarg -> bool) (tg : tag -> bool) (r : ret) (b : lockarg -> ty -> ty -> list call) : overload :=
  fun a => match traits h (a_time a) with
           | Some (g, u) => if tg g && lg (a_lock a) then Some (r, b (a_lock a) (a_time a) u) else None
           | None => None
           end.
(** A function of system_duration, e.g. T:205. *)
Definition of_dur (lg : lockarg -> bool) (r : ret) (b : lockarg -> list call) : overload :=
  fun a => match a_time a with UDur => if lg (a_lock a) then Some (r, b (a_lock a)) else None | _ => None end.
(** A function of system_time_point, e.g. T:210. *)
Definition of_point (lg : lockarg -> bool) (r : ret) (b : lockarg -> list call) : overload :=
  fun a => match a_time a with UPoint => if lg (a_lock a) then Some (r, b (a_lock a)) else None | _ => None end.
(** A template over chrono_time_point< TimePoint >, e.g. T:246-263; the body sees time_traits< duration >::to_sync_unit of a duration of the same library (T:258). *)
Definition of_clock (h : supports) (lg : lockarg -> bool) (r : ret) (b : lockarg -> ty -> list call) : overload :=
  fun a => match a_time a with
           | UClock l => if lg (a_lock a) then Some (r, match traits h (TDur l) with Some (_, u) => b (a_lock a) u | None => [Bad] end) else None
           | _ => None
           end.

(** enable_if_c< is_specialized >, e.g. T:177. *)
Definition any_tag (g : tag) : bool := true.
(** time_duration_tag, e.g. T:183. *)
Definition dur_tag (g : tag) : bool := match g with TagDur => true | TagPoint => false end.
(** time_point_tag, e.g. T:189. *)
Definition point_tag (g : tag) : bool := match g with TagPoint => true | TagDur => false end.
(** No lock argument, e.g. T:177. *)
Definition no_lock (l : lockarg) : bool := match l with NoLock => true | _ => false end.
(** A lock of any type, e.g. AG:90. *)
Definition any_lock (l : lockarg) : bool := match l with NoLock => false | _ => true end.
(** is_condition_variable_compatible (traits/is_condition_variable_compatible.hpp 28-32): the typedef is in mutex_posix.hpp 45, T:53-55, mutex_windows.hpp 37, TW:51. *)
Definition compatible (c : conf) (l : lockarg) : bool :=
  match l with
  | UniqueLock o => match sel c o with FMutexPosix | FTimedNative | FMutexWindows | FTimedWindows => true | _ => false end
  | _ => false
  end.
(** A call without arguments, e.g. mutex_windows.hpp 51. *)
Definition c0 (k : cls) (n : name) (r : ret) : call := Call k n (Arg NoLock TNone) r.
(** lock.mutex()->native_handle(), P:103 P:110 P:222. *)
Definition native (c : conf) (l : lockarg) : list call := match l with UniqueLock o => [c0 (K (sel c o)) NNative RHandle] | _ => [Bad] end.
(** timed_X, X_for, X_until that convert the argument and call [f] of class [k]: semaphore_posix.hpp 120-136, T:176-192 and the like. *)
Definition conv (h : supports) (k : cls) (f : name) (tg : tag -> bool) : overload := timed h no_lock tg RBool (fun _ _ u => [Call k f (Arg NoLock u) RBool]).
(** timed_wait of the emulated objects: semaphore_emulation.hpp 70-87, auto_reset_event_emulation.hpp 74-91, manual_reset_event_emulation.hpp 75-91. *)
Definition emu_timed (h : supports) (c : conf) : overload := timed h no_lock any_tag RBool (fun _ t _ => [c0 (K (sel c OMutex)) NLock RVoid; Call (K (sel c OCond)) NTimedWait (Arg (UniqueLock OMutex) t) RBool]).
(** Their wait_for and wait_until: semaphore_emulation.hpp 89-99. *)
Definition again (h : supports) (k : cls) (tg : tag -> bool) : overload := timed h no_lock tg RBool (fun _ t _ => [Call k NTimedWait (Arg NoLock t) RBool]).
(** Taking and releasing the internal mutex through lock_guard or unique_lock: semaphore_emulation.hpp 46. *)
Definition guarded (c : conf) (b : list call) : list call := c0 (K (sel c OMutex)) NLock RVoid :: c0 (K (sel c OMutex)) NUnlock RVoid :: b.
(** m_cond.wait(lock) on the internal mutex: semaphore_emulation.hpp 55. *)
Definition internal_wait (c : conf) : call := Call (K (sel c OCond)) NWait (Arg (UniqueLock OMutex) TNone) RVoid.

(** The overloads of [n] in class [k]. *)
Definition overloads (h : supports) (c : conf) (k : cls) (n : name) : list overload :=
  let self f u r := Call k f (Arg NoLock u) r in
  match k with
  | KMutex => match n with NLock | NUnlock => [plain RVoid []] | NTryLock => [plain RBool []] | _ => [] end                        (* basic_mutex_windows.hpp 76-98 *)
  | K FMutexPosix => match n with NLock | NUnlock => [plain RVoid []] | NTryLock => [plain RBool []] | NNative => [plain RHandle []] | _ => [] end   (* mutex_posix.hpp 87-115 *)
  | K FMutexWindows => match n with NLock | NUnlock => [plain RVoid [c0 KMutex n RVoid]] | NTryLock => [plain RBool [c0 KMutex NTryLock RBool]] | _ => [] end   (* mutex_windows.hpp 49-62 *)
  | K FTimedNative | K FTimedEmulated =>
      match n with
      | NLock | NUnlock => [plain RVoid []] | NTryLock => [plain RBool []]                                                        (* T:121-174 *)
      | NTimedLock => [conv h k NPriv any_tag] | NTryLockFor => [conv h k NPriv dur_tag] | NTryLockUntil => [conv h k NPriv point_tag]   (* T:176-192 *)
      | NNative => match k with K FTimedNative => [plain RHandle []] | _ => [] end                                                (* T:194-199 *)
      | NPriv => [of_dur no_lock RBool (fun _ => [self NPriv UPoint RBool]); of_point no_lock RBool (fun _ => []);
                  of_clock h no_lock RBool (fun _ u => [self NTryLock TNone RBool; self NPriv u RBool])]                          (* T:205-263 *)
      | _ => []
      end
  | K FTimedWindows =>
      let conv' tg := timed h no_lock tg RBool (fun _ _ u => [c0 KMutex NTryLock RBool; self NPriv u RBool]) in
      match n with
      | NLock | NUnlock => [plain RVoid [c0 KMutex n RVoid]] | NTryLock => [plain RBool [c0 KMutex NTryLock RBool]]               (* TW:65-78 *)
      | NTimedLock => [conv' any_tag] | NTryLockFor => [conv' dur_tag] | NTryLockUntil => [conv' point_tag]                       (* TW:80-105 *)
      | NPriv => [of_point no_lock RBool (fun _ => []); of_dur no_lock RBool (fun _ => []); of_clock h no_lock RBool (fun _ u => [self NPriv u RBool])]   (* TW:111-224 *)
      | _ => []
      end
  | K FSpinBool | K FSpinFlag => match n with NLock | NUnlock => [plain RVoid []] | NTryLock => [plain RBool []] | _ => [] end     (* detail/mutexes/spin_mutex.hpp 57-78, 100-118 *)
  | K FShared => match n with NLock | NUnlock | NLockShared | NUnlockShared => [plain RVoid []] | NTryLock | NTryLockShared => [plain RBool []] | _ => [] end   (* detail/mutexes/shared_spin_mutex.hpp 57-121 *)
  | K FCondPosix =>
      let lg := compatible c in
      let rel := fun l (_ : ty) u => [Call k NPriv (Arg l u) RStatus] in
      let abs := fun l (_ _ : ty) => [Call k NPriv (Arg l UPoint) RStatus] in
      match n with
      | NNotifyOne | NNotifyAll => [plain RVoid []]                                                                               (* P:89-97 *)
      | NWait | NWaitPred => [locked lg RVoid (native c)]                                                                         (* P:99-113 *)
      | NTimedWait => [timed h lg any_tag RBool rel]                                                                              (* P:115-121 *)
      | NTimedWaitPred => [timed h lg point_tag RBool rel; timed h lg dur_tag RBool abs]                                          (* P:123-150 *)
      | NWaitUntil => [timed h lg point_tag RStatus rel] | NWaitUntilPred => [timed h lg point_tag RBool rel]                     (* P:152-173 *)
      | NWaitFor => [timed h lg dur_tag RStatus rel] | NWaitForPred => [timed h lg dur_tag RBool abs]                             (* P:175-195 *)
      | NNative => [plain RHandle []]                                                                                             (* P:197-200 *)
      | NPriv => [of_dur any_lock RStatus (fun l => [Call k NPriv (Arg l UPoint) RStatus]); of_point any_lock RStatus (native c);
                  of_clock h any_lock RStatus (fun l u => [Call k NPriv (Arg l u) RStatus])]                                      (* P:213-244 *)
      | _ => []
      end
  | K FCondWindows =>
      let lg := compatible c in
      let rel := fun l (_ : ty) u => [Call KCond NTimedWait (Arg l u) RStatus] in
      let abs := fun l (_ _ : ty) => [Call KCond NTimedWait (Arg l UPoint) RStatus] in
      match n with
      | NNotifyOne | NNotifyAll => [plain RVoid [c0 KCond n RVoid]]                                                               (* CW:56-64 *)
      | NWait | NWaitPred => [locked lg RVoid (fun l => [Call KCond NWait (Arg l TNone) RVoid])]                                  (* CW:66-79 *)
      | NTimedWait => [timed h lg any_tag RBool rel]                                                                              (* CW:81-87 *)
      | NTimedWaitPred => [timed h lg point_tag RBool rel; timed h lg dur_tag RBool abs]                                          (* CW:89-116 *)
      | NWaitUntil => [timed h lg point_tag RStatus rel] | NWaitUntilPred => [timed h lg point_tag RBool rel]                     (* CW:118-139 *)
      | NWaitFor => [timed h lg dur_tag RStatus rel] | NWaitForPred => [timed h lg dur_tag RBool abs]                             (* CW:141-161 *)
      | _ => []
      end
  | K FCondAnyGeneric =>
      let inner := fun n' r (_ : lockarg) t (_ : ty) => guarded c [Call (K (sel c OCond)) n' (Arg (UniqueLock OMutex) t) r] in
      let loop := fun n' r l t (_ : ty) => [Call k n' (Arg l t) r] in
      match n with
      | NNotifyOne | NNotifyAll => [plain RVoid (guarded c [c0 (K (sel c OCond)) n RVoid])]                                       (* AG:78-88 *)
      | NWait => [locked any_lock RVoid (fun _ => guarded c [internal_wait c])]                                                   (* AG:90-97 *)
      | NWaitPred => [locked any_lock RVoid (fun l => [Call k NWait (Arg l TNone) RVoid])]                                        (* AG:99-104 *)
      | NTimedWait => [timed h any_lock any_tag RBool (inner NTimedWait RBool)]                                                   (* AG:106-114 *)
      | NTimedWaitPred => [timed h any_lock any_tag RBool (loop NTimedWait RBool)]                                                (* AG:116-126 *)
      | NWaitUntil => [timed h any_lock point_tag RStatus (inner NWaitUntil RStatus)]                                             (* AG:128-136 *)
      | NWaitUntilPred => [timed h any_lock point_tag RBool (loop NWaitUntil RStatus)]                                            (* AG:138-148 *)
      | NWaitFor => [timed h any_lock dur_tag RStatus (inner NWaitFor RStatus)]                                                   (* AG:150-158 *)
      | NWaitForPred => [timed h any_lock dur_tag RBool (loop NWaitFor RStatus)]                                                  (* AG:160-170 *)
      | _ => []
      end
  | K FCondAnyWindows =>
      let rel := fun l (_ : ty) u => [Call KCond NTimedWait (Arg l u) RStatus] in
      let abs := fun l (_ _ : ty) => [Call KCond NTimedWait (Arg l UPoint) RStatus] in
      match n with
      | NNotifyOne | NNotifyAll => [plain RVoid [c0 KCond n RVoid]]                                                               (* AW:52-60 *)
      | NWait | NWaitPred => [locked any_lock RVoid (fun l => [Call KCond NWait (Arg l TNone) RVoid])]                            (* AW:62-73 *)
      | NTimedWait => [timed h any_lock any_tag RBool rel]                                                                        (* AW:75-80 *)
      | NTimedWaitPred => [timed h any_lock point_tag RBool rel; timed h any_lock dur_tag RBool abs]                              (* AW:82-107 *)
      | NWaitUntil => [timed h any_lock point_tag RStatus rel] | NWaitUntilPred => [timed h any_lock point_tag RBool rel]         (* AW:109-128 *)
      | NWaitFor => [timed h any_lock dur_tag RStatus rel] | NWaitForPred => [timed h any_lock dur_tag RBool abs]                 (* AW:130-148 *)
      | _ => []
      end
  | KCond =>
      match n with
      | NNotifyOne | NNotifyAll => [plain RVoid (guarded c [])]                                                                   (* B:170-193 *)
      | NWait => [locked any_lock RVoid (fun _ => guarded c [])]                                                                  (* B:195-205 *)
      | NTimedWait => [of_dur any_lock RStatus (fun _ => guarded c []); of_point any_lock RStatus (fun _ => guarded c []);
                       of_clock h any_lock RStatus (fun l u => [Call k NTimedWait (Arg l u) RStatus])]                            (* B:207-253 *)
      | _ => []
      end
  | K FSemWindows | K FSemDispatch =>
      match n with
      | NPost | NWait => [plain RVoid []] | NTryWait => [plain RBool []]                                                          (* semaphore_windows.hpp 64-94, semaphore_dispatch.hpp 61-74 *)
      | NTimedWait => [conv h k NPriv any_tag] | NWaitFor => [conv h k NPriv dur_tag] | NWaitUntil => [conv h k NPriv point_tag]   (* semaphore_windows.hpp 96-112, semaphore_dispatch.hpp 76-92 *)
      | NPriv => [of_dur no_lock RBool (fun _ => []); of_point no_lock RBool (fun _ => []); of_clock h no_lock RBool (fun _ u => [self NPriv u RBool])]   (* semaphore_windows.hpp 115-195, semaphore_dispatch.hpp 95-140 *)
      | _ => []
      end
  | K FSemPosix =>
      match n with
      | NPost | NWait => [plain RVoid []] | NTryWait => [plain RBool []]                                                          (* semaphore_posix.hpp 58-118 *)
      | NTimedWait => [conv h k NPriv any_tag] | NWaitFor => [conv h k NPriv dur_tag] | NWaitUntil => [conv h k NPriv point_tag]   (* semaphore_posix.hpp 120-136 *)
      | NPriv => [of_dur no_lock RBool (fun _ => [self NPriv UPoint RBool]); of_point no_lock RBool (fun _ => []);
                  of_clock h no_lock RBool (fun _ u => [self NPriv u RBool])]                                                     (* semaphore_posix.hpp 139-183 *)
      | _ => []
      end
  | K FSemMach =>
      match n with
      | NPost | NWait => [plain RVoid [c0 KSem n RVoid]] | NTryWait => [plain RBool [c0 KSem NTryWait RBool]]                      (* semaphore_mach.hpp 39-41 *)
      | NTimedWait => [conv h KSem NTimedWait any_tag] | NWaitFor => [conv h KSem NTimedWait dur_tag] | NWaitUntil => [conv h KSem NTimedWait point_tag]   (* semaphore_mach.hpp 43-59 *)
      | _ => []
      end
  | KSem =>
      match n with
      | NPost | NWait => [plain RVoid []] | NTryWait => [plain RBool []]                                                          (* basic_semaphore_mach.hpp 59-100 *)
      | NTimedWait => [of_dur no_lock RBool (fun _ => []); of_point no_lock RBool (fun _ => [self NTimedWait UDur RBool]);
                       of_clock h no_lock RBool (fun _ u => [self NTimedWait u RBool])]                                           (* basic_semaphore_mach.hpp 102-148 *)
      | _ => []
      end
  | K FSemEmulation =>
      match n with
      | NPost => [plain RVoid (guarded c [c0 (K (sel c OCond)) NNotifyOne RVoid])]                                                (* semaphore_emulation.hpp 44-49 *)
      | NWait => [plain RVoid (guarded c [internal_wait c])] | NTryWait => [plain RBool (guarded c [])]                           (* semaphore_emulation.hpp 51-68 *)
      | NTimedWait => [emu_timed h c] | NWaitFor => [again h k dur_tag] | NWaitUntil => [again h k point_tag]                     (* semaphore_emulation.hpp 70-99 *)
      | _ => []
      end
  | K FAutoSemaphore =>
      match n with
      | NPost => [plain RVoid [c0 (K (sel c OSem)) NPost RVoid]] | NWait => [plain RVoid [c0 (K (sel c OSem)) NWait RVoid]]       (* auto_reset_event_semaphore.hpp 43-70 *)
      | NTryWait => [plain RBool [c0 (K (sel c OSem)) NTryWait RBool]]                                                            (* auto_reset_event_semaphore.hpp 72-82 *)
      | NTimedWait => [timed h no_lock any_tag RBool (fun _ t _ => [Call (K (sel c OSem)) NTimedWait (Arg NoLock t) RBool])]      (* auto_reset_event_semaphore.hpp 84-95 *)
      | NWaitFor => [again h k dur_tag] | NWaitUntil => [again h k point_tag]                                                     (* auto_reset_event_semaphore.hpp 97-107 *)
      | _ => []
      end
  | K FAutoFutex =>
      match n with
      | NPost | NWait => [plain RVoid []] | NTryWait => [plain RBool []]                                                          (* auto_reset_event_futex.hpp 58-144 *)
      | NTimedWait => [conv h k NPriv any_tag] | NWaitFor => [conv h k NPriv dur_tag] | NWaitUntil => [conv h k NPriv point_tag]   (* auto_reset_event_futex.hpp 146-162 *)
      | NPriv => [of_point no_lock RBool (fun _ => []); of_dur no_lock RBool (fun _ => []); of_clock h no_lock RBool (fun _ u => [self NPriv u RBool])]   (* auto_reset_event_futex.hpp 165-292 *)
      | _ => []
      end
  | K FManualFutex =>
      match n with
      | NSet | NReset | NWait => [plain RVoid []] | NTryWait => [plain RBool []]                                                  (* manual_reset_event_futex.hpp 56-87 *)
      | NTimedWait => [conv h k NPriv any_tag] | NWaitFor => [conv h k NPriv dur_tag] | NWaitUntil => [conv h k NPriv point_tag]   (* manual_reset_event_futex.hpp 89-105 *)
      | NPriv => [of_point no_lock RBool (fun _ => []); of_dur no_lock RBool (fun _ => []);
                  of_clock h no_lock RBool (fun _ u => [self NTimedWait u RBool])]                                                (* manual_reset_event_futex.hpp 108-203; line 196 calls timed_wait *)
      | _ => []
      end
  | K FAutoEmulation =>
      match n with
      | NPost => [plain RVoid (guarded c [c0 (K (sel c OCond)) NNotifyOne RVoid])]                                                (* auto_reset_event_emulation.hpp 44-53 *)
      | NWait => [plain RVoid (guarded c [internal_wait c])] | NTryWait => [plain RBool (guarded c [])]                           (* auto_reset_event_emulation.hpp 55-72 *)
      | NTimedWait => [emu_timed h c] | NWaitFor => [again h k dur_tag] | NWaitUntil => [again h k point_tag]                     (* auto_reset_event_emulation.hpp 74-103 *)
      | _ => []
      end
  | K FManualEmulation =>
      match n with
      | NSet => [plain RVoid (guarded c [c0 (K (sel c OCond)) NNotifyAll RVoid])] | NReset => [plain RVoid (guarded c [])]        (* manual_reset_event_emulation.hpp 44-59 *)
      | NWait => [plain RVoid (guarded c [internal_wait c])] | NTryWait => [plain RBool (guarded c [])]                           (* manual_reset_event_emulation.hpp 61-73 *)
      | NTimedWait => [emu_timed h c] | NWaitFor => [again h k dur_tag] | NWaitUntil => [again h k point_tag]                     (* manual_reset_event_emulation.hpp 75-103 *)
      | _ => []
      end
  | K FAutoWindows =>
      match n with
      | NPost => [plain RVoid [c0 KEvent NSet RVoid]] | NWait => [plain RVoid [c0 KEvent NWait RVoid]] | NTryWait => [plain RBool [c0 KEvent NTryWait RBool]]   (* auto_reset_event_windows.hpp 39-41 *)
      | NTimedWait => [conv h KEvent NTimedWait any_tag] | NWaitFor => [conv h KEvent NTimedWait dur_tag] | NWaitUntil => [conv h KEvent NTimedWait point_tag]   (* auto_reset_event_windows.hpp 43-59 *)
      | _ => []
      end
  | K FManualWindows =>
      match n with
      | NSet | NReset | NWait => [plain RVoid [c0 KEvent n RVoid]] | NTryWait => [plain RBool [c0 KEvent NTryWait RBool]]          (* manual_reset_event_windows.hpp 39-42 *)
      | NTimedWait => [conv h KEvent NTimedWait any_tag] | NWaitFor => [conv h KEvent NTimedWait dur_tag] | NWaitUntil => [conv h KEvent NTimedWait point_tag]   (* manual_reset_event_windows.hpp 44-60 *)
      | _ => []
      end
  | KEvent =>
      match n with
      | NSet | NReset | NWait => [plain RVoid []] | NTryWait => [plain RBool []]                                                  (* E:63-106 *)
      | NTimedWait => [of_dur no_lock RBool (fun _ => []); of_point no_lock RBool (fun _ => []); of_clock h no_lock RBool (fun _ u => [self NTimedWait u RBool])]   (* E:108-187 *)
      | _ => []
      end
  end.

(** The overloads that are viable for the arguments; the rules of C++ for traits:42-58. *)
Definition viable (h : supports) (c : conf) (k : cls) (n : name) (a : arg) : list (ret * list call) :=
  flat_map (fun f : overload => match f a with Some b => [b] | None => [] end) (overloads h c k n).
(** Equality of result types, P:120. *)
Definition ret_eqb (a b : ret) : bool := match a, b with RVoid, RVoid | RBool, RBool | RStatus, RStatus | RHandle, RHandle => true | _, _ => false end.
(** The type of a call, [None] if it does not compile; the rules of C++; [fuel]: the depth to which bodies are instantiated (T:176-263), eight levels are enough (C85_depth). *)
Fixpoint type_of (fuel : nat) (h : supports) (c : conf) (k : cls) (n : name) (a : arg) : option ret :=
  match fuel with
  | O => None
  | S m =>
      match viable h c k n a with
      | [(r, b)] => if forallb (fun x => match x with Call k' n' a' r' => match type_of m h c k' n' a' with Some r'' => ret_eqb r' r'' | None => false end | Bad => false end) b then Some r else None
      | _ => None
      end
  end.

(** BOOST_SYNC_DEFINES_*_NATIVE_HANDLE is defined: mutex_posix.hpp 34, T:40-42, P:40. *)
Definition native_macro (c : conf) (o : obj) : bool := match sel c o with FMutexPosix | FTimedNative | FCondPosix => true | _ => false end.

(** ** The documentation *)
(** The time argument: none; a duration or time point; a duration; a time point. timed_mutex.hpp 86 102 118. *)
Inductive tkind := KNone | KAny | KDur | KPoint.
(** The lock argument: none; unique_lock of a compatible mutex (condition_variable.hpp 73 80); any lock (condition_variable_any.hpp 69). *)
Inductive lkind := LNone | LUnique | LAny.
(** The documented signatures. mutex.hpp 61-86; timed_mutex.hpp 61-134; mutexes/spin_mutex.hpp 51-67; mutexes/shared_spin_mutex.hpp 51-90; condition_variable.hpp 58-263; condition_variable_any.hpp 51-217; semaphore.hpp 52-123;
    auto_reset_event.hpp 52-125; manual_reset_event.hpp 54-132.  native_handle only if the macro is defined (mutex.hpp 84, timed_mutex.hpp 132, condition_variable.hpp 261). *)
Definition doc (c : conf) (o : obj) (n : name) : option (lkind * tkind * ret) :=
  match o, n with
  | (OMutex | OTimedMutex | OSpin | OShared), (NLock | NUnlock) => Some (LNone, KNone, RVoid)
  | (OMutex | OTimedMutex | OSpin | OShared), NTryLock => Some (LNone, KNone, RBool)
  | OShared, (NLockShared | NUnlockShared) => Some (LNone, KNone, RVoid)
  | OShared, NTryLockShared => Some (LNone, KNone, RBool)
  | OTimedMutex, NTimedLock => Some (LNone, KAny, RBool)
  | OTimedMutex, NTryLockFor => Some (LNone, KDur, RBool)
  | OTimedMutex, NTryLockUntil => Some (LNone, KPoint, RBool)
  | (OMutex | OTimedMutex | OCond), NNative => if native_macro c o then Some (LNone, KNone, RHandle) else None
  | (OCond | OCondAny), (NNotifyOne | NNotifyAll) => Some (LNone, KNone, RVoid)
  | (OCond | OCondAny), _ =>
      let l := match o with OCond => LUnique | _ => LAny end in
      match n with
      | NWait | NWaitPred => Some (l, KNone, RVoid)
      | NTimedWait | NTimedWaitPred => Some (l, KAny, RBool)
      | NWaitFor => Some (l, KDur, RStatus) | NWaitForPred => Some (l, KDur, RBool)
      | NWaitUntil => Some (l, KPoint, RStatus) | NWaitUntilPred => Some (l, KPoint, RBool)
      | _ => None
      end
  | (OSem | OAuto), NPost => Some (LNone, KNone, RVoid)
  | OManual, (NSet | NReset) => Some (LNone, KNone, RVoid)
  | (OSem | OAuto | OManual), NWait => Some (LNone, KNone, RVoid)
  | (OSem | OAuto | OManual), NTryWait => Some (LNone, KNone, RBool)
  | (OSem | OAuto | OManual), NTimedWait => Some (LNone, KAny, RBool)
  | (OSem | OAuto | OManual), NWaitFor => Some (LNone, KDur, RBool)
  | (OSem | OAuto | OManual), NWaitUntil => Some (LNone, KPoint, RBool)
  | _, _ => None
  end.
(** "a supplementary header must be included from boost/sync/support to enable support for particular time units", e.g. timed_mutex.hpp 83. *)
Definition supported (h : supports) (t : ty) : bool :=
  match t with TDur l | TSys l | TClock l => inc_chrono h l | TDateDur | TDatePoint => inc_date h | TTimespec => inc_posix h | _ => false end.
(** Durations and time points, support/*.hpp as cited at [ty]. *)
Definition is_dur (t : ty) : bool := match t with TDur _ | TDateDur => true | _ => false end.
(** Time points, support/*.hpp as cited at [ty]. *)
Definition is_point (t : ty) : bool := match t with TSys _ | TClock _ | TDatePoint | TTimespec => true | _ => false end.
(** The time argument is as documented, timed_mutex.hpp 86 102 118. *)
Definition time_fits (h : supports) (k : tkind) (t : ty) : bool :=
  match k with
  | KNone => match t with TNone => true | _ => false end
  | KAny => supported h t && (is_dur t || is_point t)
  | KDur => supported h t && is_dur t
  | KPoint => supported h t && is_point t
  end.
(** The mutex types compatible with condition_variable: mutex and, if it wraps one system mutex, timed_mutex. condition_variable.hpp 73, T:53-55. *)
Definition goes_with_cond (c : conf) (o : obj) : bool :=
  match o with OMutex => true | OTimedMutex => match c_platform c with PWinapi => true | _ => c_timedlock c end | _ => false end.
(** The lock argument is as documented, condition_variable.hpp 73 80, condition_variable_any.hpp 69. *)
Definition lock_fits (c : conf) (k : lkind) (l : lockarg) : bool :=
  match k, l with
  | LNone, NoLock => true
  | LUnique, UniqueLock o => goes_with_cond c o
  | LAny, (UniqueLock _ | UserLock) => true
  | _, _ => false
  end.
(** The type of a call according to the documentation cited at [doc]; [None]: not documented. The documentation comments in /repo cited at [doc]. *)
Definition documented (h : supports) (c : conf) (o : obj) (n : name) (a : arg) : option ret :=
  match doc c o n with
  | Some (lk, tk, r) => if lock_fits c lk (a_lock a) && time_fits h tk (a_time a) then Some r else None
  | None => None
  end.
