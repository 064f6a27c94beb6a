(** Model of timed waits with a system time point on Windows, as far as the waitable timer of the thread is concerned.
    All such waits of a thread, on all objects, use one timer: get_waitable_timer (detail/waitable_timer.hpp 301-318) returns the timer of
    the calling thread (C54, C78), created with manual reset off (272).
    "E": /repo/include/boost/sync/detail/events/basic_event_windows.hpp, "S": detail/semaphore/semaphore_windows.hpp,
    "M": detail/mutexes/timed_mutex_windows.hpp, "V": detail/condition_variables/basic_condition_variable_windows.hpp.

    One thread; what other threads do to the objects is in the answers of the waits.  Time points are non-negative as 64-bit numbers
    (the others are in TimedLoops, timer_due).  The system clock shows any sequence of values: it may jump forward and back. *)
From Coq Require Import List Bool Arith ZArith.
From Verif Require Import Exec.
Import ListNotations.
Local Open Scope Z_scope.

(** The functions that wait for an object or the timer: event E:140-171 and semaphore S:147-179 (one wait), timed_mutex M:111-156, condition variable V:219-236 and V:412-469. *)
Inductive tkind := KEvent | KSem | KMut | KCv.
(** Program points.  [FSet]: E:144-150 S:151-157 M:122-128 V:224-230; [FUnlock]: V:232-234 (the user's lock is being unlocked: any code); [FWait]: E:152 S:159 M:132 V:420. *)
Inductive fpc := FSet | FUnlock | FWait.
(** A call in progress: its number, function, time point, program point. E:140-171 S:147-179 M:111-156 V:219-236 V:412-469. *)
Record frame := FR { fid : nat; fk : tkind; fd : Z; fat : fpc }.
(** The calls in progress (the innermost first: a user's unlock function may wait for other objects), the due time of the timer if it is running,
    whether it is signalled, and the number of calls made.  The timer: detail/waitable_timer.hpp 85, 272. *)
Record tstate := TS { stk : list frame; due : option Z; sgn : bool; calls : nat }.

(** What can be observed: a call; SetWaitableTimer; a reading of the system clock; the end of a call: what was waited for, time-out, exception. E:165-170, S:162-178, M:140-158, V:437-463. *)
Inductive tres := TGot | TTimeout | TThrow.
(** As above: E:140-171 S:147-179 M:111-156 V:219-236 V:412-469. *)
Inductive tev := TCall (i : nat) (k : tkind) (d : Z) | TSet (i : nat) (d : Z) | TTick (c : Z) | TRet (i : nat) (r : tres).

(** Answers of WaitForMultipleObjects: the object ([got] if that ends the call: M:141-142, V:440), the timer ([notified]: the condition variable finds a notification all the same, V:454), an error. E:152-170, S:159-178, M:132-149, V:420-466. *)
Inductive twait := WObj (got : bool) | WTimer (notified : bool) | WFail.
(** The thread calls a function with a time point; SetWaitableTimer (or get_waitable_timer) succeeds or fails; the user's unlock function ends; WaitForMultipleObjects ends; the clock. As above; the clock has no counterpart in /repo. *)
Inductive tact := TaCall (k : tkind) (d : Z) | TaSet (ok : bool) | TaUnlocked | TaWait (w : twait) | TaTick (c : Z).

(** Does an answer with the object end the call: always for events and semaphores (E:161, S:162), otherwise if the mutex was taken (M:141) or a notification found (V:440). *)
Definition ends (k : tkind) (got : bool) : bool := match k with KEvent | KSem => true | _ => got end.

(** One step. *)
Definition t_step (s : tstate) (a : tact) : option (tstate * list tev) :=
  match a with
  | TaTick c =>                                                       (* the timer expires: signalled until a wait takes it *)
      match due s with
      | Some d => if d <=? c then Some (TS (stk s) None true (calls s), [TTick c]) else Some (s, [TTick c])
      | None => Some (s, [TTick c])
      end
  | TaCall k d =>
      match stk s with
      | [] | FR _ KCv _ FUnlock :: _ => Some (TS (FR (calls s) k d FSet :: stk s) (due s) (sgn s) (S (calls s)), [TCall (calls s) k d])
      | _ => None
      end
  | TaSet ok =>
      match stk s with
      | FR i k d FSet :: l =>
          if ok then Some (TS (FR i k d (match k with KCv => FUnlock | _ => FWait end) :: l) (Some d) false (calls s), [TSet i d])   (* a running timer is stopped; not signalled *)
          else Some (TS l (due s) (sgn s) (calls s), [TRet i TThrow])                                             (* E:146-150 S:153-157 M:124-128 V:226-230 *)
      | _ => None
      end
  | TaUnlocked =>
      match stk s with
      | FR i k d FUnlock :: l => Some (TS (FR i k d FWait :: l) (due s) (sgn s) (calls s), [])
      | _ => None
      end
  | TaWait w =>
      match stk s with
      | FR i k d FWait :: l =>
          match w with
          | WObj got => if ends k got then Some (TS l (due s) (sgn s) (calls s), [TRet i TGot]) else Some (s, [])
          | WTimer notified => if sgn s then Some (TS l (due s) false (calls s), [TRet i (match k with KCv => if notified then TGot else TTimeout | _ => TTimeout end)]) else None
          | WFail => Some (TS l (due s) (sgn s) (calls s), [TRet i TThrow])
          end
      | _ => None
      end
  end.
(** A thread that has not waited yet: the new timer is not running (detail/waitable_timer.hpp 272). *)
Definition t_init : tstate := TS [] None false 0.
