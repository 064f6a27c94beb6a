(** The emulated objects when calls of the system fail: locking the internal mutex or waiting on the condition variable throws.
      /repo/include/boost/sync/detail/semaphore/semaphore_emulation.hpp ("S:"), events/auto_reset_event_emulation.hpp ("A:"),
      events/manual_reset_event_emulation.hpp ("R:"), mutexes/timed_mutex_posix.hpp ("M:").
    The critical sections are those of EmuModel.v; Monitor.v says where an exception can start.
    In timed_mutex only the timed functions throw (M:237); its other functions check results with BOOST_VERIFY and are taken to succeed. *)
From Coq Require Import List Bool Arith ZArith.
From Verif Require Import ListSum Exec Lin Thr Word MutexSpec EventSpec FlagSpec Monitor EmuModel.
Import ListNotations.
Local Open Scope Z_scope.

(** A specification in which the operations of [can] may also end with an exception, [None], and then have no effect. For the users of S:44-105, A:44-109, R:44-109, M:148-263. *)
Definition xspec (SP : spec) (can : op SP -> bool) : spec := {|
  op := op SP; res := option (res SP); ost := ost SP; mode := mode SP;
  oinit := oinit SP; minit := minit SP; pre := pre SP;
  next := fun m o r => match r with Some r => next SP m o r | None => m end;
  otrans := fun t o s r s' => match r with Some r => otrans SP t o s r s' | None => can o = true /\ s' = s end |}.

(** The critical sections of S:44-87, A:44-91, R:44-91, M:148-241 as they are. *)
Definition lift {D R} (b : bout D R) : bout D (option R) :=
  match b with BDone d r nt => BDone d (Some r) nt | BWait => BWait | BFail r => BFail (Some r) end.
(** Where the exception of a failing call leaves the function: S:46 S:53 S:55 S:62 S:73 S:76; A:46 A:57 A:60 A:67 A:77 A:80; R:46 R:57 R:63 R:66 R:71 R:78 R:81; M:237. *)
Definition thr_of {SP} (can : op SP -> bool) (o : op SP) : option (option (res SP)) := if can o then Some None else None.

(** S:34-105; every function locks with a guard whose constructor may throw. *)
Definition sem_can (o : eop) : bool := true.
(** S:34-105. *)
Definition semx (i : Z) : spec := xspec (ev_spec i post_count) sem_can.
(** S:34-105. *)
Definition sem_xstep (i : Z) (chr : bool) := mon_step (semx i) (fun t o b d => lift (sem_body t o b d)) ev_timed chr false (thr_of (SP := ev_spec i post_count) sem_can).
(** A:34-109. *)
Definition arex : spec := xspec (ev_spec 0 post_binary) sem_can.
(** A:34-109. *)
Definition are_xstep (chr : bool) := mon_step arex (fun t o b d => lift (are_body t o b d)) ev_timed chr false (thr_of (SP := ev_spec 0 post_binary) sem_can).
(** R:34-109; as [sem_can]. *)
Definition mre_can (o : fop) : bool := true.
(** R:34-109. *)
Definition mrex : spec := xspec (flag_spec false) mre_can.
(** R:34-109. *)
Definition mre_xstep (chr : bool) := mon_step mrex (fun t o b d => lift (mre_body t o b d)) fl_timed chr false (thr_of (SP := flag_spec false) mre_can).
(** M:224-241: the timed functions. *)
Definition tm_can (o : mop) : bool := match o with MTimed => true | _ => false end.
(** M:148-263. *)
Definition tmx : spec := xspec (mutex_spec false) tm_can.
(** M:148-263. *)
Definition tm_xstep := mon_step tmx (fun t o b d => lift (tm_body t o b d)) mu_timed false true (thr_of (SP := mutex_spec false) tm_can).
