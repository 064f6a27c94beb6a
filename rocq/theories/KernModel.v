(** Objects that wrap one object of the operating system: every function is a small program around its system calls.
      /repo/include/boost/sync/detail/semaphore/semaphore_posix.hpp ("P:"), semaphore_windows.hpp ("W:"), basic_semaphore_mach.hpp ("M:"),
      semaphore_dispatch.hpp ("D:"), events/basic_event_windows.hpp ("E:"), mutexes/mutex_posix.hpp ("L:"), mutexes/timed_mutex_posix.hpp ("T:", with
      pthread_mutex_timedlock), pthread.hpp ("H:").
    A system call acts on the object at one instant. A wait that finds the object unavailable joins the waiters; it then takes the object, or times out
    (a wait with a deadline; at any instant), or is interrupted, or fails. Which of the unexpected results occur is a parameter [env].
    Values of deadlines are not modelled here (TimedLoops.v, DeadlineModel.v): how long a wait lasts and what the clock says is left to the environment.
    Messages and codes of exceptions are in ErrModel.v; an exception is the result [None] here. *)
From Coq Require Import List Bool Arith ZArith.
From Verif Require Import ListSum Exec Lin Thr EventSpec FlagSpec MutexSpec EmuThrow.
Import ListNotations.
Local Open Scope Z_scope.

(** How long a system call may wait: P:83 P:103 P:148; W:76 W:86 W:125 W:159; M:73 M:153; D:68 D:73 D:116 D:123; E:85 E:95 E:118 E:152; L:89 L:103; T:125 T:137 T:214. *)
Inductive kwait := WForever | WZero | WUntil.
(** [KDo]: sem_post, ReleaseSemaphore, semaphore_signal, dispatch_semaphore_signal, SetEvent, ResetEvent, pthread_mutex_unlock: P:60 W:66 M:61 D:63 E:65 E:75 L:98 T:132. [KWait]: the others. *)
Inductive kcall := KDo | KWait (w : kwait).
(** Results as the library tells them apart: done; unavailable or timed out (EAGAIN P:110, ETIMEDOUT P:154, WAIT_TIMEOUT W:131, KERN_OPERATION_TIMED_OUT M:158, EBUSY L:107);
    interrupted (EINTR P:89, KERN_ABORTED M:84, H:75-84); counter at its maximum (EOVERFLOW P:67, W:67); anything else. *)
Inductive kres := KOk | KBusy | KIntr | KFull | KErr.

(** Instructions: a system call and where to go on for each result; asking a clock (again / expired): P:176-181; return; throw. *)
Inductive instr (R : Type) := ICall (c : kcall) (k : kres -> nat) | IClock (again expired : nat) | IRet (r : R) | IThrow | IStuck.
Arguments ICall {R}. Arguments IClock {R}. Arguments IRet {R}. Arguments IThrow {R}. Arguments IStuck {R}.

(** The overloads of a timed function: P:139 duration, P:144 system time, P:170 other clocks. *)
Inductive ovl := VDur | VAbs | VClk.
(** Choices left to the environment: the overload called, an unexpected result, a timeout, the clock not there yet. P:83 P:148 P:181. *)
Inductive hchoice := HNorm | HOvl (v : ovl) | HErr (r : kres) | HTimeout | HAgain.

(** Where a thread is: outside; inside, at a label of the overload called; in a waiting system call; about to return. P:79-99 and the others.
    [ob]: the object has been unavailable at some instant of this call; not part of the code, used in proofs only. *)
Inductive kpc (M O R : Type) :=
| QRest (m : M) | QStart (m : M) (o : O)
| QAt (m : M) (o : O) (v : ovl) (l : nat) (ob : bool)
| QSleep (m : M) (o : O) (v : ovl) (l : nat) (ob : bool)
| QDone (m : M) (o : O) (r : option R).
Arguments QRest {M O R}. Arguments QStart {M O R}. Arguments QAt {M O R}. Arguments QSleep {M O R}. Arguments QDone {M O R}.

(** Any of the objects at the top of this file. *)
Section Kern.
  Variable SP : spec.
  (** The system object: what a [KDo] call does ([None]: counter at its maximum), what a wait takes ([None]: unavailable). *)
  Variables sig take : nat -> op SP -> ost SP -> option (ost SP).
  Variable code : op SP -> ovl -> nat -> instr (res SP).
  (** Unexpected results that occur; overloads that are called. *)
  Variable env : op SP -> kcall -> kres -> bool.
  Variable venv : op SP -> ovl -> bool.

  Notation pcs := (kpc (mode SP) (op SP) (res SP)).
  Definition k_call (p : pcs) (o : op SP) : option pcs := match p with QRest m => if pre SP m o then Some (QStart m o) else None | _ => None end.
  Definition k_ret (p : pcs) : option (op SP * option (res SP) * pcs) :=
    match p with QDone m o r => Some (o, r, QRest (match r with Some r => next SP m o r | None => m end)) | _ => None end.
  Definition unexpected (r : kres) : bool := match r with KIntr | KErr => true | _ => false end.

  Definition k_run1 (s : ost SP) (t : nat) (p : pcs) (ch : hchoice) : option (ost SP * pcs) :=
    match p with
    | QRest _ | QDone _ _ _ => None
    | QStart m o => match ch with HOvl v => if venv o v then Some (s, QAt m o v 0 false) else None | _ => None end
    | QAt m o v l ob =>
        match code o v l with
        | ICall c k =>
            match ch with
            | HErr r => if unexpected r && env o c r then Some (s, QAt m o v (k r) ob) else None
            | HNorm =>
                match c with
                | KDo => match sig t o s with
                         | Some s' => Some (s', QAt m o v (k KOk) ob)
                         | None => if env o c KFull then Some (s, QAt m o v (k KFull) ob) else None
                         end
                | KWait w => match take t o s with
                             | Some s' => Some (s', QAt m o v (k KOk) ob)
                             | None => match w with WZero => Some (s, QAt m o v (k KBusy) true) | _ => Some (s, QSleep m o v l true) end
                             end
                end
            | _ => None
            end
        | IClock a e => Some (s, QAt m o v (match ch with HAgain => a | _ => e end) ob)
        | IRet r => Some (s, QDone m o (Some r))
        | IThrow => Some (s, QDone m o None)
        | IStuck => None
        end
    | QSleep m o v l ob =>
        match code o v l with
        | ICall (KWait w) k =>
            match ch with
            | HNorm => match take t o s with Some s' => Some (s', QAt m o v (k KOk) ob) | None => None end
            | HTimeout => match w with WUntil => Some (s, QAt m o v (k KBusy) ob) | _ => None end
            | HErr r => if unexpected r && env o (KWait w) r then Some (s, QAt m o v (k r) ob) else None
            | _ => None
            end
        | _ => None
        end
    end.
  Definition k_run (s : ost SP) (ths : list pcs) (t : nat) (p : pcs) (ch : hchoice) : option (ost SP * list pcs) :=
    match k_run1 s t p ch with Some (s', p') => Some (s', upd ths t p') | None => None end.
  Definition k_step := tstep k_call k_ret k_run.
  Definition k_init (n : nat) : ost SP * list pcs := (oinit SP, repeat (QRest (minit SP)) n).
End Kern.

(** ** The system objects *)
(** A counter with maximum [mx] (SEM_VALUE_MAX P:67; LONG_MAX W:51). *)
Definition cnt_sig (mx : Z) (t : nat) (o : eop) (k : Z) : option Z := if k <? mx then Some (k + 1) else None.
(** P:83 W:76 M:73 D:68: decrements a positive counter. *)
Definition cnt_take (t : nat) (o : eop) (k : Z) : option Z := if 0 <? k then Some (k - 1) else None.
(** SetEvent on an auto-reset event, E:65. *)
Definition ev_sig (t : nat) (o : eop) (k : Z) : option Z := Some 1.
(** SetEvent and ResetEvent on a manual-reset event, E:65, E:75. *)
Definition fl_sig (t : nat) (o : fop) (k : bool) : option bool := match o with FReset => Some false | _ => Some true end.
(** Waiting for a manual-reset event leaves it signalled: E:85 E:95 E:118 E:152. *)
Definition fl_take (t : nat) (o : fop) (k : bool) : option bool := if k then Some true else None.
(** pthread_mutex_unlock, L:98, T:132; the state names the owner for the specification only. *)
Definition mx_sig (t : nat) (o : mop) (k : option nat) : option (option nat) := Some None.
(** pthread_mutex_lock, _trylock, _timedlock: L:89 L:103 T:125 T:137 T:214. *)
Definition mx_take (t : nat) (o : mop) (k : option nat) : option (option nat) := match k with None => Some (Some t) | Some _ => None end.

(** ** The programs *)
(** P:58-77: sem_post; EOVERFLOW throws, other errors are ignored. *)
Definition p_post (l : nat) : instr eres :=
  match l with
  | 0 => ICall KDo (fun r => match r with KOk => 1 | KFull => 2 | _ => 1 end)
  | 1 => IRet EOk | 2 => IThrow | _ => IStuck
  end%nat.
(** P:79-99: sem_wait, again after EINTR; other errors end the function as if it had succeeded. *)
Definition p_wait (l : nat) : instr eres :=
  match l with
  | 0 => ICall (KWait WForever) (fun r => match r with KOk => 1 | KIntr => 0 | _ => 1 end)
  | 1 => IRet EOk | _ => IStuck
  end%nat.
(** P:101-118: sem_trywait. *)
Definition p_try (l : nat) : instr eres :=
  match l with
  | 0 => ICall (KWait WZero) (fun r => match r with KOk => 1 | _ => 2 end)
  | 1 => IRet ETrue | 2 => IRet EFalse | _ => IStuck
  end%nat.
(** P:139-167, with the loop P:169-183 for other clocks: label 2 asks the clock. *)
Definition p_timed (v : ovl) (l : nat) : instr eres :=
  match l with
  | 0 => ICall (KWait WUntil) (fun r => match r with KOk => 1 | KIntr => 0 | _ => match v with VClk => 2 | _ => 3 end end)
  | 1 => IRet ETrue | 2 => IClock 0 3 | 3 => IRet EFalse | _ => IStuck
  end%nat.
(** P:58-183. *)
Definition p_code (o : eop) (v : ovl) : nat -> instr eres := match o with EPost => p_post | EWait => p_wait | ETry => p_try | ETimed => p_timed v end.

(** W:64-72: ReleaseSemaphore, every failure throws. *)
Definition w_post (l : nat) : instr eres :=
  match l with 0 => ICall KDo (fun r => match r with KOk => 1 | _ => 2 end) | 1 => IRet EOk | 2 => IThrow | _ => IStuck end%nat.
(** W:74-81 and E:83-91. *)
Definition w_wait (l : nat) : instr eres :=
  match l with 0 => ICall (KWait WForever) (fun r => match r with KOk => 1 | _ => 2 end) | 1 => IRet EOk | 2 => IThrow | _ => IStuck end%nat.
(** W:84-94 and E:93-106. *)
Definition w_try (l : nat) : instr eres :=
  match l with
  | 0 => ICall (KWait WZero) (fun r => match r with KOk => 1 | KBusy => 2 | _ => 3 end)
  | 1 => IRet ETrue | 2 => IRet EFalse | 3 => IThrow | _ => IStuck
  end%nat.
(** W:115-145 (durations, in slices; label 2: is any time left), W:147-177 (time points: the timer, then one wait; getting or setting the timer may throw),
    W:179-195 (other clocks, label 2 also asks the clock). E:108-138, E:140-169, E:171-187. *)
Definition w_timed (v : ovl) (l : nat) : instr eres :=
  match v, l with
  | VAbs, 0 => ICall (KWait WUntil) (fun r => match r with KOk => 1 | KBusy => 3 | _ => 4 end)
  | _, 0 => ICall (KWait WUntil) (fun r => match r with KOk => 1 | KBusy => 2 | _ => 4 end)
  | _, 1 => IRet ETrue | _, 2 => IClock 0 3 | _, 3 => IRet EFalse | _, 4 => IThrow | _, _ => IStuck
  end%nat.
(** W:64-195; E:63-187 for the auto-reset event. *)
Definition w_code (o : eop) (v : ovl) : nat -> instr eres := match o with EPost => w_post | EWait => w_wait | ETry => w_try | ETimed => w_timed v end.

(** M:59-62: the result of semaphore_signal is only checked by BOOST_VERIFY. *)
Definition m_post (l : nat) : instr eres := match l with 0 => ICall KDo (fun _ => 1) | 1 => IRet EOk | _ => IStuck end%nat.
(** M:69-94: again after KERN_ABORTED; other errors throw. *)
Definition m_wait (l : nat) : instr eres :=
  match l with 0 => ICall (KWait WForever) (fun r => match r with KOk => 1 | KIntr => 0 | _ => 2 end) | 1 => IRet EOk | 2 => IThrow | _ => IStuck end%nat.
(** M:96-100, M:151-176: KERN_ABORTED throws too. *)
Definition m_try (l : nat) : instr eres :=
  match l with 0 => ICall (KWait WZero) (fun r => match r with KOk => 1 | KBusy => 2 | _ => 3 end) | 1 => IRet ETrue | 2 => IRet EFalse | 3 => IThrow | _ => IStuck end%nat.
(** M:102-127, M:129-132; M:134-148: the loop for other clocks asks the clock first (label 0). *)
Definition m_timed (v : ovl) (l : nat) : instr eres :=
  match v, l with
  | VClk, 0 => IClock 5 3
  | VClk, 5 => ICall (KWait WUntil) (fun r => match r with KOk => 1 | KBusy => 0 | _ => 4 end)
  | _, 0 => ICall (KWait WUntil) (fun r => match r with KOk => 1 | KBusy => 3 | _ => 4 end)
  | _, 1 => IRet ETrue | _, 3 => IRet EFalse | _, 4 => IThrow | _, _ => IStuck
  end%nat.
(** M:59-176, called by semaphore_mach.hpp 39-63. *)
Definition m_code (o : eop) (v : ovl) : nat -> instr eres := match o with EPost => m_post | EWait => m_wait | ETry => m_try | ETimed => m_timed v end.

(** D:61-64. *)
Definition d_post (l : nat) : instr eres := match l with 0 => ICall KDo (fun _ => 1) | 1 => IRet EOk | _ => IStuck end%nat.
(** D:66-69: the result of dispatch_semaphore_wait is not looked at. *)
Definition d_wait (l : nat) : instr eres := match l with 0 => ICall (KWait WForever) (fun _ => 1) | 1 => IRet EOk | _ => IStuck end%nat.
(** D:71-74. *)
Definition d_try (l : nat) : instr eres :=
  match l with 0 => ICall (KWait WZero) (fun r => match r with KOk => 1 | _ => 2 end) | 1 => IRet ETrue | 2 => IRet EFalse | _ => IStuck end%nat.
(** D:95-124, D:126-140. *)
Definition d_timed (v : ovl) (l : nat) : instr eres :=
  match l with
  | 0 => ICall (KWait WUntil) (fun r => match r with KOk => 1 | _ => match v with VClk => 2 | _ => 3 end end)
  | 1 => IRet ETrue | 2 => IClock 0 3 | 3 => IRet EFalse | _ => IStuck
  end%nat.
(** D:61-140. *)
Definition d_code (o : eop) (v : ovl) : nat -> instr eres := match o with EPost => d_post | EWait => d_wait | ETry => d_try | ETimed => d_timed v end.

(** E:63-187 for the manual-reset event: set E:63-71, reset E:73-81. *)
Definition f_code (o : fop) (v : ovl) (l : nat) : instr fres :=
  match o, v, l with
  | (FSet | FReset), _, 0 => ICall KDo (fun r => match r with KOk => 1 | _ => 2 end)
  | (FSet | FReset), _, 1 => IRet FOk
  | (FSet | FReset), _, 2 => IThrow
  | FWait, _, 0 => ICall (KWait WForever) (fun r => match r with KOk => 1 | _ => 2 end)
  | FWait, _, 1 => IRet FOk
  | FWait, _, 2 => IThrow
  | FTry, _, 0 => ICall (KWait WZero) (fun r => match r with KOk => 1 | KBusy => 2 | _ => 3 end)
  | FTry, _, 1 => IRet FTrue
  | FTry, _, 2 => IRet FFalse
  | FTry, _, 3 => IThrow
  | FTimed, VAbs, 0 => ICall (KWait WUntil) (fun r => match r with KOk => 1 | KBusy => 3 | _ => 4 end)
  | FTimed, _, 0 => ICall (KWait WUntil) (fun r => match r with KOk => 1 | KBusy => 2 | _ => 4 end)
  | FTimed, _, 1 => IRet FTrue
  | FTimed, _, 2 => IClock 0 3
  | FTimed, _, 3 => IRet FFalse
  | FTimed, _, 4 => IThrow
  | _, _, _ => IStuck
  end%nat.

(** L:87-110, T:123-144, T:205-222, T:246-263; [wa]: the EINTR workaround of H:75-127 is compiled in, otherwise EINTR is an error like the others.
    unlock checks only with BOOST_VERIFY. Labels of the loop for other clocks: 0 try_lock (T:249), 2 the clock (T:255-261), 5 pthread_mutex_timedlock. *)
Definition x_code (wa : bool) (o : mop) (v : ovl) (l : nat) : instr mres :=
  match o, v, l with
  | MLock, _, 0 => ICall (KWait WForever) (fun r => match r with KOk => 1 | KIntr => if wa then 0 else 2 | _ => 2 end)
  | MLock, _, 1 => IRet ROk
  | MLock, _, 2 => IThrow
  | MUnlock, _, 0 => ICall KDo (fun r => match r with KIntr => if wa then 0 else 1 | _ => 1 end)
  | MUnlock, _, 1 => IRet ROk
  | MTryLock, _, 0 => ICall (KWait WZero) (fun r => match r with KOk => 1 | KBusy => 3 | KIntr => if wa then 0 else 4 | _ => 4 end)
  | MTryLock, _, 1 => IRet RTrue
  | MTryLock, _, 3 => IRet RFalse
  | MTryLock, _, 4 => IThrow
  | MTimed, VClk, 0 => ICall (KWait WZero) (fun r => match r with KOk => 1 | KBusy => 2 | KIntr => if wa then 0 else 4 | _ => 4 end)
  | MTimed, VClk, 2 => IClock 5 3
  | MTimed, VClk, 5 => ICall (KWait WUntil) (fun r => match r with KOk => 1 | KBusy => 2 | KIntr => if wa then 5 else 4 | _ => 4 end)
  | MTimed, _, 0 => ICall (KWait WUntil) (fun r => match r with KOk => 1 | KBusy => 3 | KIntr => if wa then 0 else 4 | _ => 4 end)
  | MTimed, _, 1 => IRet RTrue
  | MTimed, _, 3 => IRet RFalse
  | MTimed, _, 4 => IThrow
  | _, _, _ => IStuck
  end%nat.

(** ** The objects *)
(** P:37-187. *)
Definition psem_step (i mx : Z) env venv := k_step (ev_spec i post_count) (cnt_sig mx) cnt_take p_code env venv.
(** W:43-199. *)
Definition wsem_step (i mx : Z) env venv := k_step (ev_spec i post_count) (cnt_sig mx) cnt_take w_code env venv.
(** M:41-179; semaphore_mach.hpp 29-67. *)
Definition msem_step (i mx : Z) env venv := k_step (ev_spec i post_count) (cnt_sig mx) cnt_take m_code env venv.
(** D:37-144. *)
Definition dsem_step (i mx : Z) env venv := k_step (ev_spec i post_count) (cnt_sig mx) cnt_take d_code env venv.
(** auto_reset_event_windows.hpp 29-65. *)
Definition wauto_step env venv := k_step (ev_spec 0 post_binary) ev_sig cnt_take w_code env venv.
(** manual_reset_event_windows.hpp 29-66. *)
Definition wmanual_step env venv := k_step (flag_spec false) fl_sig fl_take f_code env venv.
(** L:42-119, T:50-264. *)
Definition pmutex_step (wa : bool) env venv := k_step (mutex_spec false) mx_sig mx_take (x_code wa) env venv.
