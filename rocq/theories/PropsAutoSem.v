(** Property theorems: semaphore-based auto_reset_event (C13, C14). *)
From Coq Require Import List Bool Arith ZArith.
From Verif Require Import ListSum Exec Lin Thr Word EventSpec EventSpecFacts AutoSemModel AutoSemProof.
Import ListNotations.
Local Open Scope Z_scope.

(** C13: every history is one of an atomic counter of undelivered posts; a post is absorbed only when the counter is
    positive; a completed wait takes one unit; try and timed waits may fail spuriously (a poster may be between its
    decision and the semaphore). *)
Theorem C13_atomic : forall n sched c tr,
  Z.of_nat n < 2 ^ 31 - 1 -> exec as_step (as_init n) sched = Some (c, tr) ->
  linearizable (ev_spec_sp 0 post_absorb) n tr.
Proof. intros n sched c tr Hn H. exact (proj1 (as_main n sched c tr Hn H)). Qed.
Print Assumptions C13_atomic.

(** C13: completed waits never outnumber posts. *)
Theorem C13_conservation : forall n sched c tr,
  Z.of_nat n < 2 ^ 31 - 1 -> exec as_step (as_init n) sched = Some (c, tr) -> takes tr <= posts_called tr.
Proof. exact as_conserve. Qed.
Print Assumptions C13_conservation.

(** C13: if m_state records fewer units than there are announced waiters (a post is undelivered), a thread waiting on the
    semaphore finds a unit there, unless some poster has yet to post the semaphore. *)
Theorem C13_no_lost_wakeup : forall n sched st v ths tr t k,
  Z.of_nat n < 2 ^ 31 - 1 -> exec as_step (as_init n) sched = Some (((st, v), ths), tr) ->
  nth_error ths t = Some (SSemWait k) -> st < sumf sreg ths ->
  0 < v \/ exists u, nth_error ths u = Some SSemPost.
Proof. exact as_token. Qed.
Print Assumptions C13_no_lost_wakeup.

(** C13: when post() decides, it either produces one more semaphore unit or there are already more units than announced
    waiters: no post that a waiter needs is dropped. *)
Theorem C13_post_effect : forall n sched st v ths tr t p ch st' v' ths' e,
  Z.of_nat n < 2 ^ 31 - 1 -> exec as_step (as_init n) sched = Some (((st, v), ths), tr) ->
  nth_error ths t = Some p -> (p = SLoad \/ exists old, p = SCas old) ->
  as_step ((st, v), ths) (TRun t ch) = Some (((st', v'), ths'), e) ->
  (nth_error ths' t = Some SSemPost /\ v' + sumf spst ths' = v + sumf spst ths + 1) \/
  (nth_error ths' t = Some (SDone EPost EOk) /\ (st', v') = (st, v) /\ sumf sreg ths < v + sumf spst ths) \/
  (exists old, nth_error ths' t = Some (SCas old) /\ (st', v') = (st, v)).
Proof. exact as_post_effect. Qed.
Print Assumptions C13_post_effect.

(** C13: when every thread is outside or blocked on the semaphore, m_state is exactly (waiters - units); with threads
    blocked (no unit) it counts them, so the next post will produce a unit. *)
Theorem C13_quiescent : forall n sched st v ths tr,
  Z.of_nat n < 2 ^ 31 - 1 -> exec as_step (as_init n) sched = Some (((st, v), ths), tr) ->
  (forall u p, nth_error ths u = Some p -> p = SRest \/ (exists k, p = SSemWait k) /\ v = 0) ->
  st = sumf sreg ths - v /\ (v = 0 -> 0 <= st).
Proof. exact as_quiet. Qed.
Print Assumptions C13_quiescent.

Example C13_example : exists c tr,
  exec as_step (as_init 2) [TCall 0 EWait; TRun 0 SNorm; TCall 1 EPost; TRun 1 SNorm; TRun 1 SSpur; TRun 1 SNorm]%nat = Some (c, tr)
  /\ c = ((0, 0), [SSemWait SKWait; SSemPost]).
Proof. eexists. eexists. split; vm_compute; reflexivity. Qed.

(** C14 is false of the code: a failing try_wait overlaps two posts, both are remembered and two later try_waits succeed. *)
Definition as_double : list (tact eop schoice) :=
  [TCall 0 ETry; TRun 0 SNorm; TRun 0 SNorm;
   TCall 1 EPost; TRun 1 SNorm; TRun 1 SNorm; TRun 1 SNorm; TRun 1 SNorm;
   TCall 1 EPost; TRun 1 SNorm; TRun 1 SNorm; TRun 1 SNorm; TRun 1 SNorm;
   TRun 0 SNorm; TRun 0 SNorm;
   TCall 1 ETry; TRun 1 SNorm; TRun 1 SNorm; TRun 1 SNorm;
   TCall 1 ETry; TRun 1 SNorm; TRun 1 SNorm; TRun 1 SNorm]%nat.
Theorem C14_refuted : exists sched c tr,
  exec as_step (as_init 2) sched = Some (c, tr) /\
  tr = [Call 0 ETry; Call 1 EPost; Ret 1 EPost EOk; Call 1 EPost; Ret 1 EPost EOk; Ret 0 ETry EFalse;
        Call 1 ETry; Ret 1 ETry ETrue; Call 1 ETry; Ret 1 ETry ETrue]%nat /\
  ~ linearizable (ev_spec 0 post_binary) 2 tr.
Proof.
  exists as_double. eexists. eexists. split; [vm_compute; reflexivity|]. split; [reflexivity|].
  apply not_binary. vm_compute. reflexivity.
Qed.
Print Assumptions C14_refuted.

(** C14 also fails in the other direction: post() may return while the event is not yet signalled, because another poster
    has announced itself but not posted the semaphore; a following try_wait of the same thread fails. *)
Definition as_early : list (tact eop schoice) :=
  [TCall 0 EPost; TRun 0 SNorm; TRun 0 SNorm;
   TCall 1 EPost; TRun 1 SNorm; TRun 1 SNorm;
   TCall 1 ETry; TRun 1 SNorm; TRun 1 SNorm; TRun 1 SNorm; TRun 1 SNorm]%nat.
Theorem C14_early_return_refuted : exists sched c tr,
  exec as_step (as_init 2) sched = Some (c, tr) /\
  tr = [Call 0 EPost; Call 1 EPost; Ret 1 EPost EOk; Call 1 ETry; Ret 1 ETry EFalse]%nat /\
  ~ linearizable (ev_spec 0 post_binary) 2 tr.
Proof.
  exists as_early. eexists. eexists. split; [vm_compute; reflexivity|]. split; [reflexivity|].
  apply not_binary. vm_compute. reflexivity.
Qed.
Print Assumptions C14_early_return_refuted.

(** C14, what does hold: posting a signalled event has no effect while no thread is inside a wait; never more units
    than threads plus one are remembered (so the semaphore cannot overflow inside the noexcept post()). *)
Theorem C14_post_again_partial : forall n sched st v ths tr t,
  Z.of_nat n < 2 ^ 31 - 1 -> exec as_step (as_init n) sched = Some (((st, v), ths), tr) ->
  0 < v -> nth_error ths t = Some SRest -> (forall u p, nth_error ths u = Some p -> sreg p = 0) ->
  exec as_step ((st, v), ths) [TCall t EPost; TRun t SNorm; TRun t SNorm]
    = Some (((st, v), ths), [Call t EPost; Ret t EPost EOk]).
Proof. exact as_post_again. Qed.
Print Assumptions C14_post_again_partial.

Theorem C14_bounded_partial : forall n sched st v ths tr,
  Z.of_nat n < 2 ^ 31 - 1 -> exec as_step (as_init n) sched = Some (((st, v), ths), tr) ->
  0 <= v /\ v + sumf spst ths <= Z.of_nat (length ths) + 1.
Proof. intros n sched st v ths tr Hn H. destruct (as_main _ _ _ _ Hn H) as (_ & H1 & _ & H2 & _). split; assumption. Qed.
Print Assumptions C14_bounded_partial.

Example C14_example : exists c tr,
  exec as_step (as_init 2) [TCall 1 EPost; TRun 1 SNorm; TRun 1 SNorm; TRun 1 SNorm; TRun 1 SNorm]%nat = Some (c, tr)
  /\ c = ((-1, 1), [SRest; SRest]).
Proof. eexists. eexists. split; vm_compute; reflexivity. Qed.

(** An interrupted try_wait (sem_trywait with EINTR) of a signalled event: it fails, the event stays signalled, and a post in between is counted as well. *)
Example C13_interrupted_example : exists tr,
  exec as_step (as_init 2) [TCall 0 EPost; TRun 0 SNorm; TRun 0 SNorm; TRun 0 SNorm; TRun 0 SNorm;
    TCall 1 ETry; TRun 1 SNorm; TRun 1 SFail; TCall 0 EPost; TRun 0 SNorm; TRun 0 SNorm; TRun 0 SNorm; TRun 0 SNorm; TRun 1 SNorm; TRun 1 SNorm]%nat
  = Some (((-2, 2), [SRest; SRest]), tr).
Proof. eexists. vm_compute. reflexivity. Qed.
