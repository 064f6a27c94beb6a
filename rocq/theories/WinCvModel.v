(** Model of the Windows condition variable (condition_variable and condition_variable_any use it).
    /repo/include/boost/sync/detail/condition_variables/basic_condition_variable_windows.hpp ("W:").

    A section protected by m_internal_mutex is one step (the mutex is atomic and exclusive, C19); the unprotected load of
    m_total_waiter_count in notify_*, the semaphore waits and the operations on the user's lock are separate steps.  Taking the
    internal mutex can throw ([CMutex]).  Waiter states are numbered in order of creation and refer to each other by number; m_prev is
    never read and is left out.  m_total_waiter_count is an unbounded integer; the theorems show it stays between 0 and the
    number of threads.  A thread can be blocked in the user's lock for any time, which is the same as not being scheduled. *)
From Coq Require Import List Bool Arith ZArith.
From Verif Require Import ListSum Exec.
Import ListNotations.
Local Open Scope Z_scope.

(** W:88, W:302. *)
Definition long_max : Z := 2 ^ 31 - 1.   (* LONG_MAX, Windows *)

(** W:76-104.  [tokens] is the count of the semaphore m_semaphore. *)
Record wst := WS { waiter : Z; notify : Z; tokens : Z; nxt : nat }.

(** W:136-142. *)
Record csh := CS { sts : list wst; nstate : option nat; wstate : option nat; total : Z; cdead : bool }.

(** Which waiting function: wait, timed_wait with a duration, with a system time point, with a time point of another clock. W:196, W:208, W:220, W:240. *)
Inductive ckind := KInf | KRel | KAbs | KChrono.
(** Returns normally / no_timeout, timeout, wait_error (W:343 W:395 W:432 or an exception of W:286-325). *)
Inductive cres := RNotified | RTimeout | RError.

(** Program points of W:170-253, W:284-469. *)
Inductive cpc :=
| CIdle
| CClock                            (* W:245-246 W:250: now < t ? (only KChrono) *)
| CInit (k : ckind)                 (* W:200 W:212 W:224-232: timer set-up, initiate_wait *)
| CUnlockU (k : ckind) (s : nat)    (* W:202: the user's lock is released *)
| CBlk (k : ckind) (s : nat)        (* in WaitForSingleObject / WaitForMultipleObjects, W:331 W:364 W:420 *)
| CTok (k : ckind) (s : nat)        (* took a unit of the semaphore, W:346 W:369 W:439 *)
| CErr (k : ckind) (s : nat)        (* the wait failed, W:334-342 W:386-394 W:423-431 *)
| CTmo (k : ckind) (s : nat)        (* the time is over, W:400 W:452 *)
| CRelock (k : ckind) (r : cres)    (* ~relocker, W:118-122 *)
| CNLoad (all : bool)               (* W:172 W:184 *)
| CNSec (all : bool)                (* W:174-178 W:186-191 *)
| CHung.                            (* would be: a loop does not terminate or a dangling pointer is used *)

(** Observable steps of W:170-469. *)
Inductive cev :=
| EJoin (t : nat)                              (* t is registered as a waiter (end of initiate_wait) *)
| EEnd (t : nat) (r : cres) (c : bool)         (* t is no longer a waiter; [c]: it consumed a notification *)
| ENotify (t : nat) (all : bool) (k : Z)       (* t's notify_* took effect, releasing [k] waiters *)
| EWaitCall (t : nat) | EWaitRet (t : nat) (r : cres)
| ENotifyCall (t : nat) (all : bool) | ENotifyRet (t : nat).

(** [CNorm]; [CFail]: the allocation, timer or wait fails; [CTime]: the wait times out; [CMutex]: locking the internal mutex throws. W:226, W:291, W:314, W:331, W:364, W:420; m_internal_mutex: W:174, W:186, W:286, W:336-452. *)
Inductive cchoice := CNorm | CFail | CTime | CMutex.
(** Calls of W:170-253, or the next step of a thread. *)
Inductive cact := AWait (t : nat) (k : ckind) | ANotify (t : nat) (all : bool) | ARun (t : nat) (ch : cchoice).

(** Assignment to a member of a waiter state, W:76-83. *)
Definition set_st (s : csh) (i : nat) (w : wst) : csh := CS (upd (sts s) i w) (nstate s) (wstate s) (total s) (cdead s).

(** ReleaseSemaphore(sem, n): fails without effect if the count would exceed the maximum (the result is ignored, W:273). *)
Definition sem_release (k n : Z) : Z := if k + n <=? long_max then k + n else k.

(** wake_waiters, W:262-281, from state [i] with [count] > 0 to go; [None]: still running after [fuel] rounds (or a dangling pointer). *)
Fixpoint wake (fuel : nat) (l : list wst) (i : nat) (count : Z) : option (list wst * nat) :=
  match fuel with
  | O => None
  | S fuel' =>
      match nth_error l i with
      | None => None
      | Some w =>
          let n := waiter w - notify w in
          let n' := if 0 <? n then (if count <? n then count else n) else 0 in
          let w' := if 0 <? n then WS (waiter w) (notify w + n') (sem_release (tokens w) n') (nxt w) else w in
          if 0 <? count - n' then wake fuel' (upd l i w') (nxt w) (count - n') else Some (upd l i w', i)
      end
  end.

(** The search of initiate_wait, W:299-311: a state without ongoing notification, starting at [i]; [endp] is where it stops. *)
Inductive fres := Found (i : nat) | NotFound | Lost.
(** W:299-311. *)
Fixpoint find (fuel : nat) (l : list wst) (i endp : nat) : fres :=
  match fuel with
  | O => Lost
  | S fuel' =>
      match nth_error l i with
      | None => Lost
      | Some w => if (notify w =? 0) && (waiter w <? long_max) then Found i
                  else if Nat.eqb (nxt w) endp then NotFound else find fuel' l (nxt w) endp
      end
  end.

(** initiate_wait, W:284-325, when nothing throws: the new shared state and the waiter state to block on. *)
Definition initiate (s : csh) : option (csh * nat) :=
  match wstate s with
  | None => Some (CS (sts s ++ [WS 1 0 0 (length (sts s))]) (Some (length (sts s))) (Some (length (sts s))) 1 (cdead s), length (sts s))
  | Some e =>
      match find (length (sts s)) (sts s) e e with
      | Found i =>
          match nth_error (sts s) i with
          | Some w => Some (CS (upd (sts s) i (WS (waiter w + 1) (notify w) (tokens w) (nxt w))) (nstate s) (Some i) (total s + 1) (cdead s), i)
          | None => None
          end
      | NotFound =>
          match nth_error (sts s) e with
          | Some w => let x := length (sts s) in
              Some (CS (upd (sts s) e (WS (waiter w) (notify w) (tokens w) x) ++ [WS 1 0 0 (nxt w)]) (nstate s) (Some x) (total s + 1) (cdead s), x)
          | None => None
          end
      | Lost => None
      end
  end.

(** The section run after taking a semaphore unit, W:346-353 W:369-377 W:439-447: [Some] when it ends the wait. *)
Definition sec_token (w : wst) : option wst :=
  if 0 <? notify w then Some (WS (waiter w - 1) (notify w - 1) (tokens w) (nxt w)) else None.
(** The section run on timeout or failure, W:336-342 W:388-394 W:400-409 W:425-431 W:452-462: the new state, whether a notification was consumed. *)
Definition sec_leave (w : wst) : wst * bool :=
  if 0 <? notify w then (WS (waiter w - 1) (notify w - 1) (tokens w) (nxt w), true)
  else (WS (waiter w - 1) (notify w) (tokens w) (nxt w), false).

(** W:336-342 W:388-394 W:400-409 W:425-431 W:452-462: the counters, with opaque_sub on m_total_waiter_count. *)
Definition leave (s : csh) (i : nat) (w : wst) : csh * bool :=
  let (w', c) := sec_leave w in
  (CS (upd (sts s) i w') (nstate s) (wstate s) (if c then total s else total s - 1) (cdead s), c).

(** An exception leaves notify_* (BOOST_NOEXCEPT, W:170 W:182): std::terminate. *)
Definition dead_now (s : csh) : csh := CS (sts s) (nstate s) (wstate s) (total s) true.

(** One step of one thread: W:170-253, W:284-469. *)
Definition cv_run (s : csh) (t : nat) (p : cpc) (ch : cchoice) : option (csh * cpc * list cev) :=
  match p with
  | CIdle | CHung => None
  | CClock => match ch with CTime => Some (s, CIdle, [EWaitRet t RTimeout]) | _ => Some (s, CInit KChrono, []) end   (* W:246 W:252 *)
  | CInit k =>
      match ch with
      | CFail | CMutex => Some (s, CRelock k RError, [])     (* throws before anything changed; the lock was not released *)
      | _ => match initiate s with
             | Some (s', i) => Some (s', CUnlockU k i, [EJoin t])
             | None => Some (s, CHung, [])
             end
      end
  | CUnlockU k i => Some (s, match ch, k with CTime, KRel => CTmo k i | CTime, KChrono => CTmo k i | _, _ => CBlk k i end, [])   (* W:360: time_left <= 0 at once *)
  | CBlk k i =>
      match ch, k with
      | CFail, _ => Some (s, CErr k i, [])
      | CTime, KInf => None
      | CTime, _ => Some (s, CTmo k i, [])
      | _, _ => match nth_error (sts s) i with
                | Some w => if 0 <? tokens w then Some (set_st s i (WS (waiter w) (notify w) (tokens w - 1) (nxt w)), CTok k i, []) else None   (* blocked *)
                | None => Some (s, CHung, [])
                end
      end
  | CTok k i =>
      match ch with
      | CMutex => Some (s, CRelock k RError, [])
      | _ => match nth_error (sts s) i with
             | Some w => match sec_token w with
                         | Some w' => Some (set_st s i w', CRelock k RNotified, [EEnd t RNotified true])
                         | None => Some (s, CBlk k i, [])
                         end
             | None => Some (s, CHung, [])
             end
      end
  | CErr k i =>
      match ch with
      | CMutex => Some (s, CRelock k RError, [])
      | _ => match nth_error (sts s) i with
             | Some w => let (s', c) := leave s i w in Some (s', CRelock k RError, [EEnd t RError c])
             | None => Some (s, CHung, [])
             end
      end
  | CTmo k i =>
      match ch with
      | CMutex => Some (s, CRelock k RError, [])
      | _ => match nth_error (sts s) i with
             | Some w => let (s', c) := leave s i w in
                         let r := if c then RNotified else RTimeout in Some (s', CRelock k r, [EEnd t r c])
             | None => Some (s, CHung, [])
             end
      end
  | CRelock KChrono RTimeout => Some (s, CClock, [])           (* W:248-250: the loop goes on *)
  | CRelock _ r => Some (s, CIdle, [EWaitRet t r])
  | CNLoad all => if 0 <? total s then Some (s, CNSec all, []) else Some (s, CIdle, [ENotify t all 0; ENotifyRet t])
  | CNSec all =>
      match ch with
      | CMutex => Some (dead_now s, CNSec all, [])             (* notify_* are noexcept *)
      | _ =>
          if total s =? 0 then Some (s, CIdle, [ENotify t all 0; ENotifyRet t]) else
          let k := if all then total s else 1 in
          match nstate s with
          | None => Some (s, CHung, [])
          | Some i =>
              match wake (length (sts s)) (sts s) i k with
              | Some (l, j) => Some (CS l (Some j) (wstate s) (total s - k) (cdead s), CIdle, [ENotify t all k; ENotifyRet t])
              | None => Some (s, CHung, [])
              end
          end
      end
  end.

(** The object (W:136-142) and the program point of every thread. *)
Definition cv_st : Type := csh * list cpc.
(** One call, or one step of one thread, W:170-253. *)
Definition cv_step (c : cv_st) (a : cact) : option (cv_st * list cev) :=
  let (s, ths) := c in
  match a with
  | AWait t k => match nth_error ths t with Some CIdle => Some ((s, upd ths t (match k with KChrono => CClock | _ => CInit k end)), [EWaitCall t]) | _ => None end
  | ANotify t all => match nth_error ths t with Some CIdle => Some ((s, upd ths t (CNLoad all)), [ENotifyCall t all]) | _ => None end
  | ARun t ch =>
      if cdead s then None else
      match nth_error ths t with
      | Some p => match cv_run s t p ch with
                  | Some (s', q, e) => Some ((s', upd ths t q), e)
                  | None => None
                  end
      | None => None
      end
  end.

(** W:145-148. *)
Definition cv_init (n : nat) : cv_st := (CS [] None None 0 false, repeat CIdle n).

(** ~basic_condition_variable, W:150-168: the waiter states deleted, in order; [None]: does not stop (or touches a deleted state). *)
Fixpoint cv_del (fuel : nat) (l : list wst) (p endp : nat) : option (list nat) :=
  match fuel with
  | O => None
  | S fuel' =>
      match nth_error l p with
      | None => None
      | Some w => if Nat.eqb (nxt w) endp then Some [p]
                  else match cv_del fuel' l (nxt w) endp with Some d => Some (p :: d) | None => None end
      end
  end.
(** W:150-168. *)
Definition cv_dtor (s : csh) : option (list nat) :=
  match nstate s with None => Some [] | Some p => cv_del (length (sts s)) (sts s) p p end.
