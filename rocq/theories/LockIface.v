(** Which members of the lock classes compile, for which mutex classes.
      "U:" /repo/include/boost/sync/locks/unique_lock.hpp, "S:" locks/shared_lock.hpp, "G:" locks/upgrade_lock.hpp, "L:" locks/lock_guard.hpp, "H:" locks/shared_lock_guard.hpp, "N:" locks/unlock_guard.hpp.
    The mutex is any class, given by which of its functions can be called with which time argument; a member of a lock class compiles if exactly one overload is viable and everything its body uses can be used.
    Simplified: as in IfaceModel.v; the queries (operator!, owns_lock, mutex) and swap, which use nothing, are one member [XQuery]. *)
From Coq Require Import List Bool.
From Verif Require Import ConfigModel IfaceModel.
Import ListNotations.

(** Functions of a mutex that the lock classes call: U:170 U:194 U:206 U:220 U:234 U:248 U:109 U:119 U:137 U:155; S:125 S:156 S:168 S:182 S:196 S:210 S:110 S:118; G:152 G:176 G:188 G:202 G:216 G:230 G:109 G:119 G:137. *)
Inductive mfun :=
| unlock | lock | try_lock | timed_lock | try_lock_for | try_lock_until
| unlock_shared | lock_shared | try_lock_shared | timed_lock_shared | try_lock_shared_for | try_lock_shared_until
| unlock_upgrade | lock_upgrade | try_lock_upgrade | timed_lock_upgrade | try_lock_upgrade_for | try_lock_upgrade_until
| unlock_upgrade_and_lock | try_unlock_upgrade_and_lock | try_unlock_shared_and_lock | timed_unlock_shared_and_lock
| unlock_and_lock_shared | unlock_upgrade_and_lock_shared
| unlock_and_lock_upgrade | try_unlock_shared_and_lock_upgrade | timed_unlock_shared_and_lock_upgrade.
(** A mutex class: the functions that can be called with an argument of the type ([TNone]: without); the Mutex parameter of U:53. *)
Definition mutex_class : Type := mfun -> ty -> bool.

(** The lock classes: U:54, S:54, G:54, L:38, H:37, N:35. *)
Inductive lk := Unique | Shared | Upgrade | Guard | SharedGuard | UnlockGuard.
(** Their members; the argument of constructors and functions is part of the name. U:67-263, S:67-225, G:67-245, L:47-59, H:46-58, N:45-53. *)
Inductive member :=
| XDefault | XMutex | XAdopt | XDefer | XTryTo | XTimed (t : ty)                        (* constructors from nothing or a mutex *)
| XMove | XFrom (k : lk) | XFromTry (k : lk) | XFromTimed (k : lk) (t : ty)              (* constructors from a lock *)
| XAssign | XAssignFrom (k : lk)                                                         (* operator= *)
| XLock | XTryLock | XTimedLock (t : ty) | XTryLockFor (t : ty) | XTryLockUntil (t : ty) | XUnlock
| XQuery | XRelease | XDestroy.

(** What a body uses: a function of the mutex; private data members of a lock class (U:106); a public member of a lock class. *)
Inductive use := UMutex (f : mfun) (t : ty) | UPrivate (k : lk) | UMember (k : lk) (x : member).

(** time_traits< Time >::is_specialized, detail/time_traits.hpp 36-40, support/*.hpp. *)
Definition any_time (h : supports) (t : ty) : bool := match traits h t with Some _ => true | None => false end.
(** enable_if_tag with the duration tag, detail/time_traits.hpp 42-50. *)
Definition dur_time (h : supports) (t : ty) : bool := match traits h t with Some (g, _) => dur_tag g | None => false end.
(** enable_if_tag with the time point tag, detail/time_traits.hpp 42-50. *)
Definition point_time (h : supports) (t : ty) : bool := match traits h t with Some (g, _) => point_tag g | None => false end.
(** An overload that is there under the condition, U:92. *)
Definition when (b : bool) (u : list use) : list (list use) := if b then [u] else [].
(** sl.owns_lock(), sl.mutex(), sl.release(): U:117-127, G:117-127. *)
Definition handover (k : lk) : list use := [UMember k XQuery; UMember k XRelease].

(** The overloads of a member that are viable for its arguments, each with what it uses.  The body of a converting assignment constructs and destroys a temporary (U:181-183). *)
Definition bodies (h : supports) (k : lk) (x : member) : list (list use) :=
  match k, x with
  | (Unique | Shared | Upgrade), (XDefault | XAdopt | XDefer) => [[]]                                                            (* U:67-84, S:67-84, G:67-84 *)
  | (Unique | Shared | Upgrade), XMutex => [[UMember k XLock]]                                                                   (* U:72-76, S:72-76, G:72-76 *)
  | (Unique | Shared | Upgrade), XTryTo => [[UMember k XTryLock]]                                                                (* U:85-89, S:85-89, G:85-89 *)
  | (Unique | Shared | Upgrade), XTimed t => when (any_time h t) [UMember k (XTimedLock t)]                                      (* U:91-96, S:91-96, G:91-96 *)
  | (Unique | Shared | Upgrade), XMove => [[UPrivate k]]                                                                         (* U:98-103, S:98-103, G:98-103 *)
  | (Unique | Shared | Upgrade), XAssign => [[UPrivate k]]                                                                       (* U:173-177 with swap U:290-298; S:128-132, G:155-159 *)
  | (Unique | Shared | Upgrade), XQuery => [[]]                                                                                  (* U:265-280, S:227-242, G:247-262 *)
  | (Unique | Shared | Upgrade), XRelease => [[]]                                                                                (* U:282-288, S:244-250, G:264-270 *)
  (* unique_lock *)
  | Unique, XFrom Upgrade => [[UPrivate Upgrade; UMutex unlock_upgrade_and_lock TNone; UMember Upgrade XRelease]]                (* U:105-111 *)
  | Unique, XFromTry Upgrade => [UMutex try_unlock_upgrade_and_lock TNone :: handover Upgrade]                                   (* U:114-129 *)
  | Unique, XFromTry Shared => [UMutex try_unlock_shared_and_lock TNone :: handover Shared]                                      (* U:132-147 *)
  | Unique, XFromTimed Shared t => when (any_time h t) (UMutex timed_unlock_shared_and_lock t :: handover Shared)                (* U:149-165 *)
  | Unique, XAssignFrom Upgrade => [[UMember Unique (XFrom Upgrade); UMember Unique XDestroy]]                                   (* U:179-184 *)
  | Unique, XLock => [[UMutex lock TNone]] | Unique, XTryLock => [[UMutex try_lock TNone]]                                       (* U:186-209 *)
  | Unique, XTimedLock t => when (any_time h t) [UMutex timed_lock t]                                                            (* U:211-223 *)
  | Unique, XTryLockFor t => when (dur_time h t) [UMutex try_lock_for t]                                                         (* U:225-237 *)
  | Unique, XTryLockUntil t => when (point_time h t) [UMutex try_lock_until t]                                                   (* U:239-251 *)
  | Unique, (XUnlock | XDestroy) => [[UMutex unlock TNone]]                                                                      (* U:253-263, U:167-171 *)
  (* shared_lock *)
  | Shared, XFrom Unique => [[UPrivate Unique; UMutex unlock_and_lock_shared TNone; UMember Unique XRelease]]                    (* S:106-112 *)
  | Shared, XFrom Upgrade => [[UPrivate Upgrade; UMutex unlock_upgrade_and_lock_shared TNone; UMember Upgrade XRelease]]         (* S:114-120 *)
  | Shared, XAssignFrom Unique => [[UMember Shared (XFrom Unique); UMember Shared XDestroy]]                                     (* S:134-139 *)
  | Shared, XAssignFrom Upgrade => [[UMember Shared (XFrom Upgrade); UMember Shared XDestroy]]                                   (* S:141-146 *)
  | Shared, XLock => [[UMutex lock_shared TNone]] | Shared, XTryLock => [[UMutex try_lock_shared TNone]]                         (* S:148-171 *)
  | Shared, XTimedLock t => when (any_time h t) [UMutex timed_lock_shared t]                                                     (* S:173-185 *)
  | Shared, XTryLockFor t => when (dur_time h t) [UMutex try_lock_shared_for t]                                                  (* S:187-199 *)
  | Shared, XTryLockUntil t => when (point_time h t) [UMutex try_lock_shared_until t]                                            (* S:201-213 *)
  | Shared, (XUnlock | XDestroy) => [[UMutex unlock_shared TNone]]                                                               (* S:215-225, S:122-126 *)
  (* upgrade_lock *)
  | Upgrade, XFrom Unique => [[UPrivate Unique; UMutex unlock_and_lock_upgrade TNone; UMember Unique XRelease]]                  (* G:105-111 *)
  | Upgrade, XFromTry Shared => [UMutex try_unlock_shared_and_lock_upgrade TNone :: handover Shared]                             (* G:114-129 *)
  | Upgrade, XFromTimed Shared t => when (any_time h t) (UMutex timed_unlock_shared_and_lock_upgrade t :: handover Shared)       (* G:131-147 *)
  | Upgrade, XAssignFrom Unique => [[UMember Upgrade (XFrom Unique); UMember Upgrade XDestroy]]                                  (* G:161-166 *)
  | Upgrade, XLock => [[UMutex lock_upgrade TNone]] | Upgrade, XTryLock => [[UMutex try_lock_upgrade TNone]]                     (* G:168-191 *)
  | Upgrade, XTimedLock t => when (any_time h t) [UMutex timed_lock_upgrade t]                                                   (* G:193-205 *)
  | Upgrade, XTryLockFor t => when (dur_time h t) [UMutex try_lock_upgrade_for t]                                                (* G:207-219 *)
  | Upgrade, XTryLockUntil t => when (point_time h t) [UMutex try_lock_upgrade_until t]                                          (* G:221-233 *)
  | Upgrade, (XUnlock | XDestroy) => [[UMutex unlock_upgrade TNone]]                                                             (* G:235-245, G:149-153 *)
  (* the guards *)
  | Guard, XMutex => [[UMutex lock TNone]] | Guard, XAdopt => [[]] | Guard, XDestroy => [[UMutex unlock TNone]]                  (* L:47-59 *)
  | SharedGuard, XMutex => [[UMutex lock_shared TNone]] | SharedGuard, XAdopt => [[]] | SharedGuard, XDestroy => [[UMutex unlock_shared TNone]]   (* H:46-58 *)
  | UnlockGuard, XMutex => [[UMutex unlock TNone]] | UnlockGuard, XDestroy => [[UMutex lock TNone]]                              (* N:45-53 *)
  | _, _ => []
  end.

(** Equality of lock classes; U:54. *)
Definition lk_eqb (a b : lk) : bool :=
  match a, b with Unique, Unique | Shared, Shared | Upgrade, Upgrade | Guard, Guard | SharedGuard, SharedGuard | UnlockGuard, UnlockGuard => true | _, _ => false end.
(** The classes a lock class declares as friends: none. U:53-64, S:53-64, G:53-64. *)
Definition friends (k : lk) : list lk := [].
(** Whether the body of a member of [k] may use the private members of [k'] (the same class template with the same mutex_type): the access rules of C++; U:59-61, S:59-61, G:59-61. *)
Definition may_access (k k' : lk) : bool := lk_eqb k k' || existsb (lk_eqb k) (friends k').
(** The member compiles; the rules of C++, [fuel] as in IfaceModel.v: U:179-184 goes deepest. *)
Fixpoint member_ok (fuel : nat) (h : supports) (mx : mutex_class) (k : lk) (x : member) : bool :=
  match fuel with
  | O => false
  | S n =>
      match bodies h k x with
      | [b] => forallb (fun u => match u with UMutex f t => mx f t | UPrivate k' => may_access k k' | UMember k' x' => member_ok n h mx k' x' end) b
      | _ => false
      end
  end.

(** The functions of the mutex classes of the library, by the names of IfaceModel.v: mutexes/*.hpp as cited there; none has a function not listed. *)
Definition name_of (f : mfun) : option name :=
  match f with
  | lock => Some NLock | try_lock => Some NTryLock | unlock => Some NUnlock | lock_shared => Some NLockShared | try_lock_shared => Some NTryLockShared | unlock_shared => Some NUnlockShared
  | timed_lock => Some NTimedLock | try_lock_for => Some NTryLockFor | try_lock_until => Some NTryLockUntil | _ => None
  end.
(** A mutex class of the library as a mutex class, by [type_of]: mutexes/*.hpp as cited at [overloads]. *)
Definition lib_mutex (m : macros) (h : supports) (o : obj) : mutex_class :=
  fun f t => match name_of f with
             | Some n => match type_of 8 h (conf_of m) (K (select m o)) n (Arg NoLock t) with Some _ => true | None => false end
             | None => false
             end.
