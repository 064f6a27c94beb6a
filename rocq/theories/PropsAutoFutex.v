(** Property theorems: auto_reset_event on Linux (C07-C10, C50). *)
From Coq Require Import List Bool Arith ZArith.
From Verif Require Import ListSum Exec Lin Word EventSpec EventSpecFacts AutoFutexModel AutoFutexProof.
Import ListNotations.
Local Open Scope Z_scope.

(** [light n sched]: in every configuration visited by [sched] at most 1022 of the [n] threads are inside
    wait()/timed waits.  Without it the 10-bit post counter can overflow: [C10_refuted]. *)
Notation light n sched := (along auto_step (at_most_waiting 1022) (auto_init n) sched).

(** C07 / C50: every history is a history of an atomic counter of undelivered posts whose post may be absorbed
    only when the counter is already positive; a timed wait that returns false found the counter at zero and
    left it unchanged, one that returns true took exactly one unit. *)
Theorem C07_atomic : forall n sched c tr,
  light n sched -> exec auto_step (auto_init n) sched = Some (c, tr) ->
  linearizable (ev_spec 0 post_absorb) n tr.
Proof. intros n sched c tr Hl H. exact (proj1 (auto_lin n sched c tr Hl H)). Qed.
Print Assumptions C07_atomic.

(** In particular whenever there are at most 1022 threads. *)
Theorem C07_atomic_few_threads : forall n sched c tr,
  Z.of_nat n <= 1022 -> exec auto_step (auto_init n) sched = Some (c, tr) ->
  linearizable (ev_spec 0 post_absorb) n tr.
Proof. intros n sched c tr Hn. exact (C07_atomic n sched c tr (few_threads_light n sched Hn)). Qed.
Print Assumptions C07_atomic_few_threads.

(** C07: completed waits never outnumber the posts begun. *)
Theorem C07_conservation : forall n sched c tr,
  light n sched -> exec auto_step (auto_init n) sched = Some (c, tr) -> takes tr <= posts_called tr.
Proof. exact auto_conservation. Qed.
Print Assumptions C07_conservation.

(** Non-vacuity: two waiters, one timing out; two posts; spurious wake-up. *)
Definition auto_ex : list aact :=
  [ACall 0 EWait; ARun 0 CNorm; ARun 0 CNorm; ARun 0 CNorm; ACall 1 ETimed; ARun 1 CNorm; ARun 1 CNorm; ARun 1 CNorm;
   ARun 0 CSpur; ACall 2 EPost; ARun 2 CNorm; ARun 2 CNorm; ARun 1 CTime; ARun 2 CNorm; ARun 0 CNorm; ARun 0 CNorm; ARun 0 CNorm;
   ARun 1 CNorm; ARun 1 CNorm; ARun 1 CNorm]%nat.
Example C07_example : light 3 auto_ex /\ exists c tr, exec auto_step (auto_init 3) auto_ex = Some (c, tr) /\
  takes tr = 1 /\ posts_called tr = 1 /\ In (Ret 1%nat ETimed EFalse) tr.
Proof.
  split.
  - apply few_threads_light. discriminate.
  - eexists. eexists. split; [vm_compute; reflexivity|]. repeat split. cbn; tauto.
Qed.

(** C08: if a post is undelivered and a thread sleeps, some registered waiter is awake or some post() call is
    about to issue its kernel wake-up ([aaw p = 1]); quantitatively there are enough of them for
    min(undelivered posts, registered waiters). *)
Theorem C08_no_lost_wakeup : forall n sched s ths tr t k,
  light n sched -> exec auto_step (auto_init n) sched = Some ((s, ths), tr) ->
  0 < posts_of s -> nth_error ths t = Some (WSleep k) ->
  exists u p, nth_error ths u = Some p /\ aaw p = 1.
Proof. exact auto_awake. Qed.
Print Assumptions C08_no_lost_wakeup.

Theorem C08_enough_awake : forall n sched s ths tr,
  light n sched -> exec auto_step (auto_init n) sched = Some ((s, ths), tr) ->
  Z.min (posts_of s) (sumf areg ths) <= sumf aaw ths.
Proof. intros n sched s ths tr Hl H. exact (proj1 (proj2 (proj2 (proj2 (auto_word _ _ _ _ _ Hl H))))). Qed.
Print Assumptions C08_enough_awake.

(** If every thread is outside the library or asleep in the kernel and some thread sleeps, the event is not signalled. *)
Theorem C08_quiescent : forall n sched s ths tr t k,
  light n sched -> exec auto_step (auto_init n) sched = Some ((s, ths), tr) ->
  (forall u p, nth_error ths u = Some p -> p = ARest \/ exists k, p = WSleep k) ->
  nth_error ths t = Some (WSleep k) -> posts_of s = 0.
Proof. exact auto_quiescent. Qed.
Print Assumptions C08_quiescent.

(** An awake waiter that runs while a post is undelivered completes in three steps. *)
Theorem C08_solo : forall n sched s ths tr t k,
  light n sched -> exec auto_step (auto_init n) sched = Some ((s, ths), tr) ->
  0 < posts_of s -> nth_error ths t = Some (WLoad k) ->
  exists c', exec auto_step (s, ths) (repeat (ARun t CNorm) 3) = Some (c', [Ret t (kop k) (kres k)]).
Proof. exact auto_solo. Qed.
Print Assumptions C08_solo.

Example C08_example : exists s ths tr,
  exec auto_step (auto_init 2)
    [ACall 0 EWait; ARun 0 CNorm; ARun 0 CNorm; ARun 0 CNorm; ACall 1 EPost; ARun 1 CNorm; ARun 1 CNorm]%nat
    = Some ((s, ths), tr) /\ 0 < posts_of s /\ nth_error ths 0 = Some (WSleep KWait) /\ nth_error ths 1 = Some PSignal.
Proof. eexists. eexists. eexists. split; [vm_compute; reflexivity|]. repeat split. Qed.

(** C09 is false of the code: with one registered waiter, two sequential posts are both remembered, and two
    later sequential try_wait calls succeed; the history is not one of a binary event. *)
Theorem C09_refuted : exists sched c tr,
  exec auto_step (auto_init 2) sched = Some (c, tr) /\
  tr = [Call 0 EWait; Call 1 EPost; Ret 1 EPost EOk; Call 1 EPost; Ret 1 EPost EOk;
        Call 1 ETry; Ret 1 ETry ETrue; Call 1 ETry; Ret 1 ETry ETrue]%nat /\
  ~ linearizable (ev_spec 0 post_binary) 2 tr.
Proof. exists double_sched. exact auto_double. Qed.
Print Assumptions C09_refuted.

(** C09, what does hold: with no thread in a wait, posting a signalled event changes nothing; in general at most
    one more post is remembered than there are registered waiters. *)
Theorem C09_post_again_partial : forall n sched s ths tr t,
  light n sched -> exec auto_step (auto_init n) sched = Some ((s, ths), tr) ->
  0 < posts_of s -> nth_error ths t = Some ARest -> (forall u p, nth_error ths u = Some p -> in_wait p = 0) ->
  exec auto_step (s, ths) [ACall t EPost; ARun t CNorm; ARun t CNorm] = Some ((s, ths), [Call t EPost; Ret t EPost EOk]).
Proof. exact auto_post_again. Qed.
Print Assumptions C09_post_again_partial.

Theorem C09_bounded_partial : forall n sched s ths tr,
  light n sched -> exec auto_step (auto_init n) sched = Some ((s, ths), tr) ->
  posts_of s <= sumf areg ths + 1.
Proof. intros n sched s ths tr Hl H. exact (proj1 (auto_word _ _ _ _ _ Hl H)). Qed.
Print Assumptions C09_bounded_partial.

(** A signalled event without waiters, posted again by thread 1; and two undelivered posts beside one registered waiter. *)
Example C09_example :
  (exists s ths tr, exec auto_step (auto_init 2) [ACall 0 EPost; ARun 0 CNorm; ARun 0 CNorm; ARun 0 CNorm]%nat = Some ((s, ths), tr) /\ posts_of s = 1 /\
     ths = [ARest; ARest] /\ exec auto_step (s, ths) [ACall 1 EPost; ARun 1 CNorm; ARun 1 CNorm]%nat = Some ((s, ths), [Call 1 EPost; Ret 1 EPost EOk]%nat)) /\
  (exists s ths tr, exec auto_step (auto_init 2) (firstn 12 double_sched) = Some ((s, ths), tr) /\ posts_of s = 2 /\ sumf areg ths = 1).
Proof. split; eexists; eexists; eexists; (split; [vm_compute; reflexivity|]); repeat split. Qed.

(** C10 is false of the code: 1023 threads asleep in wait(), then 1024 posts (all returned, all with their kernel
    wake-up) before the woken threads run; the counter wraps to zero, every waiter goes back to sleep and none
    of the 1024 posts releases anybody. *)
Theorem C10_refuted : exists s1 c1 tr1 s2 c2 tr2,
  exec auto_step (auto_init n1024) s1 = Some (c1, tr1) /\
  exec auto_step c1 s2 = Some (c2, tr2) /\
  (forall t, (t < n1023)%nat -> nth_error (snd c1) t = Some (WSleep KWait)) /\
  (forall t, (t < n1023)%nat -> nth_error (snd c2) t = Some (WSleep KWait)) /\
  posts_returned tr2 = 1024 /\ takes tr2 = 0 /\ posts_of (fst c2) = 0.
Proof. exact auto_overflow. Qed.
Print Assumptions C10_refuted.

(** C10, what does hold: with at most 1022 threads in waits, every post either adds one undelivered post or finds more
    undelivered posts than registered waiters. *)
Theorem C10_no_loss_partial : forall n sched s ths tr t p ch s' ths' e,
  light n sched -> exec auto_step (auto_init n) sched = Some ((s, ths), tr) ->
  nth_error ths t = Some p -> (p = PLoad \/ exists old, p = PCas old) ->
  auto_step (s, ths) (ARun t ch) = Some ((s', ths'), e) ->
  (nth_error ths' t = Some PSignal \/ nth_error ths' t = Some (ADone EPost EOk)) ->
  (posts_of s' = posts_of s + 1 /\ waiters_of s' = waiters_of s) \/ (s' = s /\ posts_of s = sumf areg ths + 1).
Proof. exact auto_post_effect. Qed.
Print Assumptions C10_no_loss_partial.

(** A post beside a sleeping waiter adds one undelivered post. *)
Example C10_example : exists s ths tr s' ths' e, exec auto_step (auto_init 2) [ACall 0 EWait; ARun 0 CNorm; ARun 0 CNorm; ARun 0 CNorm; ACall 1 EPost; ARun 1 CNorm]%nat = Some ((s, ths), tr) /\
  (exists old, nth_error ths 1 = Some (PCas old)) /\ auto_step (s, ths) (ARun 1%nat CNorm) = Some ((s', ths'), e) /\ nth_error ths' 1 = Some PSignal /\
  posts_of s = 0 /\ posts_of s' = 1 /\ waiters_of s' = 1.
Proof. do 6 eexists. split; [vm_compute; reflexivity|]. split; [eexists; reflexivity|]. split; [vm_compute; reflexivity|]. repeat split. Qed.

(** C50: the waiter field counts exactly the threads that are registered inside a wait; nothing stays behind. *)
Theorem C50_waiters_exact : forall n sched s ths tr,
  light n sched -> exec auto_step (auto_init n) sched = Some ((s, ths), tr) ->
  waiters_of s = sumf areg ths.
Proof. intros n sched s ths tr Hl H. exact (proj1 (proj2 (auto_word _ _ _ _ _ Hl H))). Qed.
Print Assumptions C50_waiters_exact.

(** C50: timed waits are atomic: false = "the count was zero and stays", true = "exactly one unit taken" (see [etrans]). *)
Theorem C50_timed_atomic : forall n sched c tr,
  light n sched -> exec auto_step (auto_init n) sched = Some (c, tr) ->
  linearizable (ev_spec 0 post_absorb) n tr.
Proof. exact C07_atomic. Qed.
Print Assumptions C50_timed_atomic.
(** In the history of [auto_ex]: two threads registered after eight steps, none at the end, where the timed wait has given up. *)
Example C50_example : light 3 auto_ex /\ (exists s ths tr, exec auto_step (auto_init 3) (firstn 8 auto_ex) = Some ((s, ths), tr) /\ waiters_of s = 2 /\ sumf areg ths = 2) /\
  exists s ths tr, exec auto_step (auto_init 3) auto_ex = Some ((s, ths), tr) /\ waiters_of s = 0 /\ In (Ret 1%nat ETimed EFalse) tr.
Proof.
  split; [apply few_threads_light; discriminate|]. split; eexists; eexists; eexists; (split; [vm_compute; reflexivity|]); repeat split. cbn; tauto.
Qed.
