(** Property theorems: manual_reset_event on Linux (C11, C12). *)
From Coq Require Import List Bool Arith ZArith.
From Verif Require Import ListSum Exec Lin Word FlagSpec ManualFutexModel ManualFutexProof.
Import ListNotations.
Local Open Scope Z_scope.

(** C11: every history is a history of an atomic boolean: wait and a successful timed/try wait take effect at an
    instant when the flag is true, an unsuccessful one at an instant when it is false. *)
Theorem C11_atomic : forall n sched c tr,
  Z.of_nat n < 2 ^ 31 -> exec man_step (man_init n) sched = Some (c, tr) -> linearizable (flag_spec false) n tr.
Proof. intros n sched c tr Hn H. exact (proj1 (man_lin n sched c tr Hn H)). Qed.
Print Assumptions C11_atomic.

(** C11: a timed-out wait leaves nothing behind: the waiter field is exactly the number of threads registered. *)
Theorem C11_waiters_exact : forall n sched s ths tr,
  Z.of_nat n < 2 ^ 31 -> exec man_step (man_init n) sched = Some ((s, ths), tr) -> s / 2 = sumf freg ths.
Proof. exact man_count. Qed.
Print Assumptions C11_waiters_exact.

Definition man_ex : list fact :=
  [FCall 0 FWait; FRun 0 FNorm; FRun 0 FNorm; FRun 0 FNorm; FCall 1 FTimed; FRun 1 FNorm; FRun 1 FNorm; FRun 1 FNorm;
   FRun 1 FTimeout; FRun 1 FNorm; FRun 1 FNorm; FCall 2 FSet; FRun 2 FNorm; FRun 2 FNorm; FRun 0 FNorm; FRun 0 FNorm; FRun 0 FNorm;
   FRun 2 FNorm; FCall 1 FTry; FRun 1 FNorm; FRun 1 FNorm; FCall 2 FReset; FRun 2 FNorm; FRun 2 FNorm; FCall 1 FTry; FRun 1 FNorm; FRun 1 FNorm]%nat.
Example C11_example : exists c tr, exec man_step (man_init 3) man_ex = Some (c, tr) /\ fst c = 0 /\
  In (Ret 1%nat FTimed FFalse) tr /\ In (Ret 0%nat FWait FOk) tr /\ In (Ret 1%nat FTry FTrue) tr /\ In (Ret 1%nat FTry FFalse) tr.
Proof. eexists. eexists. split; [vm_compute; reflexivity|]. cbn; tauto. Qed.

(** C12: while the event is signalled a thread can be asleep only if some set() is about to broadcast. *)
Theorem C12_no_lost_wakeup : forall n sched s ths tr t k,
  Z.of_nat n < 2 ^ 31 -> exec man_step (man_init n) sched = Some ((s, ths), tr) ->
  s mod 2 = 1 -> nth_error ths t = Some (FSleep k) -> exists u, nth_error ths u = Some FBcast.
Proof. exact man_wake. Qed.
Print Assumptions C12_no_lost_wakeup.

(** C12: the broadcast leaves nobody asleep. *)
Theorem C12_broadcast_wakes_all : forall s ths t ch c e,
  nth_error ths t = Some FBcast -> man_step (s, ths) (FRun t ch) = Some (c, e) ->
  fst c = s /\ forall u k, nth_error (snd c) u <> Some (FSleep k).
Proof. exact man_bcast_all. Qed.
Print Assumptions C12_broadcast_wakes_all.

(** C12: if nobody can act any more and a thread sleeps, the event is not signalled. *)
Theorem C12_quiescent : forall n sched s ths tr t k,
  Z.of_nat n < 2 ^ 31 -> exec man_step (man_init n) sched = Some ((s, ths), tr) ->
  (forall u p, nth_error ths u = Some p -> p = FRest \/ exists k, p = FSleep k) ->
  nth_error ths t = Some (FSleep k) -> s mod 2 = 0.
Proof. exact man_quiescent. Qed.
Print Assumptions C12_quiescent.

(** C12: a woken waiter that runs while the event is signalled returns after three steps. *)
Theorem C12_solo : forall s ths t k,
  s mod 2 = 1 -> nth_error ths t = Some (FReload k) ->
  exists c', exec man_step (s, ths) (repeat (FRun t FNorm) 3) = Some (c', [Ret t (fkop k) (fkres k)]).
Proof. exact man_solo. Qed.
Print Assumptions C12_solo.

Example C12_example : exists s ths tr,
  exec man_step (man_init 2) [FCall 0 FWait; FRun 0 FNorm; FRun 0 FNorm; FRun 0 FNorm; FCall 1 FSet; FRun 1 FNorm]%nat
    = Some ((s, ths), tr) /\ s mod 2 = 1 /\ nth_error ths 0 = Some (FSleep FKWait) /\ nth_error ths 1 = Some FBcast.
Proof. eexists. eexists. eexists. split; [vm_compute; reflexivity|]. repeat split. Qed.
