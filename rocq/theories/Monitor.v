(** Semantics of code written as "lock an internal mutex; while (!ready) wait on a condition variable; update; notify; unlock",
    the shape of every emulated primitive:
      /repo/include/boost/sync/detail/semaphore/semaphore_emulation.hpp
      /repo/include/boost/sync/detail/events/auto_reset_event_emulation.hpp
      /repo/include/boost/sync/detail/events/manual_reset_event_emulation.hpp
      /repo/include/boost/sync/detail/mutexes/timed_mutex_posix.hpp, lines 146-263 (no pthread_mutex_timedlock).
    The objects themselves are the [body] functions in EmuModel.v.

    One step is one operation on the internal mutex, one condition variable operation, or one read / one write of the
    protected data.  The condition variable follows POSIX (condition_variable_posix.hpp lines 186-244, pthread.hpp 132-152):
    waiting releases the mutex and joins the wait set atomically; a waiter may wake spuriously or by timeout; a waiter that was
    notified may still report a timeout (POSIX allows a timed-out waiter to consume a signal); returning re-acquires the
    mutex.  [inner] enables the loop of the chrono overload of the condition variable (condition_variable_posix.hpp 229-244),
    which waits again after a timeout without looking at the data; [outer] the loop of timed_mutex's chrono overload
    (timed_mutex_posix.hpp 246-263), which starts over with the mutex released.
    [thr] says which operations can end with an exception, and with which result: locking the internal mutex fails (mutex_posix.hpp 87-92), or the
    wait fails, which it does without having waited and with the mutex held (condition_variable_posix.hpp 206-227); the guard then unlocks. *)
From Coq Require Import List Bool Arith ZArith.
From Verif Require Import ListSum Exec Lin Thr.
Import ListNotations.

(** m_cond.notify_one: semaphore_emulation.hpp 48, auto_reset_event_emulation.hpp 51, timed_mutex_posix.hpp 162; notify_all: manual_reset_event_emulation.hpp 51. *)
Inductive notif := NNone | NOne | NAll.

(** What a critical section does with the data it read. Critical sections of semaphore_emulation.hpp 44-87, auto_reset_event_emulation.hpp 44-91, manual_reset_event_emulation.hpp 44-91, timed_mutex_posix.hpp 148-172, 224-241. *)
Inductive bout (D R : Type) : Type :=
| BDone (d : D) (r : R) (nt : notif)   (* store [d], notify, unlock, return [r] *)
| BWait                                (* not ready: wait on the condition variable *)
| BFail (r : R).                       (* timed out: unlock, return [r] *)
Arguments BDone {D R} d r nt.
Arguments BWait {D R}.
Arguments BFail {D R} r.

(** Choices left to the environment: spurious wake-up, timeout (condition_variable_posix.hpp 223), another turn of a chrono loop (condition_variable_posix.hpp 237-242, timed_mutex_posix.hpp 256-261), the thread woken by pthread_cond_signal (condition_variable_posix.hpp 91), a failing call (mutex_posix.hpp 91, condition_variable_posix.hpp 210, 226). *)
Inductive mchoice := MNorm | MSpur | MTimeout | MAgain | MWake (u : nat) | MThrow.

(** No call fails. *)
Notation nothrow := (fun _ => None).

Section Monitor.
  Variable SP : spec.
  Notation D := (ost SP).
  (** [body t o b d]: thread [t] in operation [o] read [d]; [b] tells whether its wait has just timed out. *)
  Variable body : nat -> op SP -> bool -> D -> bout D (res SP).
  Variable timed : op SP -> bool.
  Variables inner outer : bool.
  Variable thr : op SP -> option (res SP).

  Inductive mpc : Type :=
  | PRest (m : mode SP)
  | PLock (m : mode SP) (o : op SP) (ob : list (res SP))           (* about to lock the internal mutex *)
  | PRead (m : mode SP) (o : op SP) (ob : list (res SP)) (b : bool) (* mutex held: read the data *)
  | PComp (m : mode SP) (o : op SP) (ob : list (res SP)) (b : bool) (d : D) (* mutex held: act on what was read *)
  | PResleep (m : mode SP) (o : op SP) (ob : list (res SP))        (* mutex held: wait again ([inner]) *)
  | PSleep (m : mode SP) (o : op SP) (ob : list (res SP))          (* in the wait set *)
  | PWoken (m : mode SP) (o : op SP) (ob : list (res SP)) (b : bool) (* woken, [b]: by timeout; must re-lock *)
  | PNotify (m : mode SP) (o : op SP) (r : res SP) (nt : notif)    (* mutex held: notify_one / notify_all *)
  | PFail (m : mode SP) (o : op SP) (ob : list (res SP)) (r : res SP) (* mutex held: unlock after a timeout *)
  | PUnlock (m : mode SP) (o : op SP) (r : res SP)                 (* mutex held: unlock *)
  | PDone (m : mode SP) (o : op SP) (r : res SP).

  Definition mon_call (p : mpc) (o : op SP) : option mpc :=
    match p with
    | PRest m => if pre SP m o then Some (PLock m o []) else None
    | _ => None
    end.

  Definition mon_ret (p : mpc) : option (op SP * res SP * mpc) :=
    match p with PDone m o r => Some (o, r, PRest (next SP m o r)) | _ => None end.

  Definition asleep (p : mpc) : bool := match p with PSleep _ _ _ => true | _ => false end.
  Definition wake (p : mpc) : mpc := match p with PSleep m o ob => PWoken m o ob false | _ => p end.

  (** Shared state: internal mutex held?, data. *)
  Definition mon_run (s : bool * D) (ths : list mpc) (t : nat) (p : mpc) (ch : mchoice) : option ((bool * D) * list mpc) :=
    let '(held, d) := s in
    match p with
    | PRest _ | PDone _ _ _ => None
    | PLock m o ob =>
        match thr o, ch with
        | Some r, MThrow => Some (s, upd ths t (PDone m o r))
        | _, _ => if held then None else Some ((true, d), upd ths t (PRead m o ob false))
        end
    | PRead m o ob b => Some (s, upd ths t (PComp m o ob b d))
    | PComp m o ob b d0 =>
        match body t o b d0 with
        | BDone d' r nt =>
            Some ((held, d'), upd ths t match nt with NNone => PUnlock m o r | _ => PNotify m o r nt end)
        | BFail r => Some (s, upd ths t (PFail m o ob r))
        | BWait =>
            match thr o, ch with
            | Some r, MThrow => Some (s, upd ths t (PUnlock m o r))
            | _, _ =>
                match timed o, ch with
                | true, MTimeout => Some (s, upd ths t (PRead m o ob true))   (* deadline already passed: no wait at all *)
                | _, _ => Some ((false, d), upd ths t (PSleep m o ob))
                end
            end
        end
    | PResleep m o ob =>
        match thr o, ch with
        | Some r, MThrow => Some (s, upd ths t (PUnlock m o r))
        | _, _ => Some ((false, d), upd ths t (PSleep m o ob))
        end
    | PSleep m o ob =>
        match timed o, ch with
        | true, MTimeout => Some (s, upd ths t (PWoken m o ob true))
        | _, MSpur => Some (s, upd ths t (PWoken m o ob false))
        | _, _ => None
        end
    | PWoken m o ob b =>
        if held then None else
        match timed o, b, ch with
        | true, true, MAgain => if inner then Some ((true, d), upd ths t (PResleep m o ob)) else None
        | true, false, MTimeout => Some (s, upd ths t (PWoken m o ob true))  (* notified, but reports a timeout *)
        | _, _, _ => Some ((true, d), upd ths t (PRead m o ob b))
        end
    | PNotify m o r nt =>
        match nt with
        | NAll => Some (s, upd (map wake ths) t (PUnlock m o r))
        | NOne =>
            if existsb asleep ths
            then match ch with
                 | MWake u =>
                     match nth_error ths u with
                     | Some (PSleep m' o' ob') => Some (s, upd (upd ths u (PWoken m' o' ob' false)) t (PUnlock m o r))
                     | _ => None
                     end
                 | _ => None
                 end
            else Some (s, upd ths t (PUnlock m o r))
        | NNone => Some (s, upd ths t (PUnlock m o r))
        end
    | PFail m o ob r =>
        match outer, ch with
        | true, MAgain => Some ((false, d), upd ths t (PLock m o (r :: ob)))
        | _, _ => Some ((false, d), upd ths t (PDone m o r))
        end
    | PUnlock m o r => Some ((false, d), upd ths t (PDone m o r))
    end.

  Definition mon_step := tstep mon_call mon_ret mon_run.
  Definition mon_init (n : nat) : (bool * D) * list mpc := ((false, oinit SP), repeat (PRest (minit SP)) n).
End Monitor.
Arguments PRest {SP}. Arguments PLock {SP}. Arguments PRead {SP}. Arguments PComp {SP}. Arguments PResleep {SP}.
Arguments PSleep {SP}. Arguments PWoken {SP}. Arguments PNotify {SP}. Arguments PFail {SP}. Arguments PUnlock {SP}.
Arguments PDone {SP}.
Arguments asleep {SP}. Arguments wake {SP}.
