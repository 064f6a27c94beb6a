(** Property theorems: auto_reset_event built on a semaphore under fair scheduling (C83). *)
From Coq Require Import List Bool Arith ZArith Lia.
From Verif Require Import ListSum Exec Lin Thr Word EventSpec AutoSemModel AutoSemProof Fair FairSem.
Import ListNotations.
Local Open Scope Z_scope.

(** C83: while the semaphore has a unit, or a thread is about to post one, and a thread is in wait() or timed_wait(), some thread takes a
    unit, or the timed wait of that thread times out or fails.  Weak fairness suffices. *)
Theorem C83_auto_semaphore_unit_taken : forall n cf ac, Z.of_nat n < 2 ^ 31 - 1 ->
  infinite as_step (as_init n) cf ac -> fair as_acts as_enabled cf ac ->
  forall i t p, 0 < snd (fst (cf i)) + sumf spst (snd (cf i)) -> nth_error (snd (cf i)) t = Some p -> as_wants p ->
  exists j, (i <= j)%nat /\ ((exists u, as_taken (cf j) (cf (S j)) u) \/ ac j = Some (TRun t STimeout) \/ ac j = Some (TRun t SFail)).
Proof. exact as_fair_taken. Qed.
Print Assumptions C83_auto_semaphore_unit_taken.

(** Under strong fairness every single waiting thread is served if the semaphore has a unit again and again. *)
Theorem C83_auto_semaphore_served : forall n cf ac, infinite as_step (as_init n) cf ac -> strongly_fair as_acts as_enabled cf ac ->
  forall i t p, nth_error (snd (cf i)) t = Some p -> as_wants p -> (forall j, (i <= j)%nat -> exists k, (j <= k)%nat /\ 0 < snd (fst (cf k))) ->
  exists j, (i <= j)%nat /\ (as_taken (cf j) (cf (S j)) t \/ ac j = Some (TRun t STimeout) \/ ac j = Some (TRun t SFail)).
Proof. exact as_strong_served. Qed.
Print Assumptions C83_auto_semaphore_served.

(** Thread 0 sleeps in wait(); thread 1 posts. *)
Definition sf_ex : list (tact eop schoice) :=
  let r t := TRun t SNorm in [TCall 0 EWait; r 0; TCall 1 EPost; r 1; r 1; r 1; r 1; r 0; r 0]%nat.
Example C83_auto_semaphore_example : exists cf ac, infinite as_step (as_init 2) cf ac /\ fair as_acts as_enabled cf ac /\
  nth_error (snd (cf 5%nat)) 0 = Some (SSemWait SKWait) /\ 0 < snd (fst (cf 5%nat)) + sumf spst (snd (cf 5%nat)).
Proof.
  destruct (exec as_step (as_init 2) sf_ex) as [[c tr]|] eqn:E; [|vm_compute in E; discriminate].
  assert (Ec : c = ((0, 0), [SRest; SRest])) by (vm_compute in E; inversion E; reflexivity).
  destruct (finite_fair as_step as_acts as_enabled _ _ _ _ E) as (cf & ac & H1 & H2 & H3 & H4 & _).
  { rewrite Ec. intros t (c' & e & H). destruct t as [|[|[|t]]]; cbn in H; discriminate. }
  exists cf, ac. split; [exact H1|]. split; [exact H2|].
  destruct (H4 5%nat) as (e & He). clear - He. vm_compute in He. inversion He as [[E1 E2]]. split; reflexivity.
Qed.

(** The units come again and again and thread 0 takes part for ever: the two threads exchange them in turn. *)
Definition sf_turn : list (tact eop schoice) :=
  let r t := TRun t SNorm in [TCall 1 EPost; r 1; r 1; r 1; r 1; r 0; r 0; TCall 0 EWait; r 0]%nat.
Definition sf_cfg : ssh * list spc := ((1, 0), [SSemWait SKWait; SRest]).
Example C83_auto_semaphore_served_example : exists cf ac, infinite as_step (as_init 2) cf ac /\ strongly_fair as_acts as_enabled cf ac /\
  nth_error (snd (cf 2%nat)) 0 = Some (SSemWait SKWait) /\ forall j, exists k, (j <= k)%nat /\ 0 < snd (fst (cf k)).
Proof.
  destruct (exec as_step (as_init 2) (firstn 2 sf_ex)) as [[c tr]|] eqn:E; [|vm_compute in E; discriminate].
  assert (Ec : c = sf_cfg) by (vm_compute in E; inversion E; reflexivity). subst c.
  destruct (exec as_step sf_cfg sf_turn) as [[c tr2]|] eqn:E2; [|vm_compute in E2; discriminate].
  assert (Ec : c = sf_cfg) by (vm_compute in E2; inversion E2; reflexivity). subst c.
  destruct (lasso_fair as_step as_acts as_enabled (as_init 2) _ _ _ sf_turn tr2 E E2) as (cf & ac & H1 & H2 & H0 & H3).
  { cbn. lia. }
  { intros t. destruct t as [|[|t]].
    - left. exists (TRun 0%nat SNorm). split; [cbn; tauto|reflexivity].
    - left. exists (TRun 1%nat SNorm). split; [cbn; tauto|reflexivity].
    - right. intros i Hi (c' & e & H). change (length sf_turn) with 9%nat in Hi. do 9 (destruct i as [|i]; [match type of H with context[at_ ?a ?b ?d ?k] => let v := eval vm_compute in (at_ a b d k) in change (at_ a b d k) with v in H end; cbn in H; destruct t; discriminate|]). lia. }
  exists cf, ac. split; [exact H1|]. split; [exact H2|]. change (length sf_turn) with 9%nat in H3. change (length (firstn 2 sf_ex)) with 2%nat in H3. split.
  - pose proof (proj1 (H3 0%nat 0%nat ltac:(lia))) as Hc. cbn [Nat.mul Nat.add] in Hc. rewrite Hc. vm_compute. reflexivity.
  - intros j. exists (2 + j * 9 + 4)%nat. split; [lia|]. rewrite (proj1 (H3 j 4%nat ltac:(lia))). vm_compute. reflexivity.
Qed.

(** Under weak fairness a thread may starve in wait(): another thread posts and takes the unit back each time. *)
Definition sf_round : list (tact eop schoice) :=
  let r t := TRun t SNorm in [TCall 1 EPost; r 1; r 1; r 1; r 1; TCall 1 EWait; r 1; r 1; r 1; TCall 1 ETry; r 1; r 1; r 1; r 1]%nat.
Theorem C83_auto_semaphore_starvation_refuted : exists cf ac, infinite as_step (as_init 2) cf ac /\ fair as_acts as_enabled cf ac /\
  (forall i, (2 <= i)%nat -> nth_error (snd (cf i)) 0 = Some (SSemWait SKWait)) /\
  (forall i, exists j, (i <= j)%nat /\ 0 < snd (fst (cf j))).
Proof.
  destruct (exec as_step (as_init 2) (firstn 2 sf_ex)) as [[c tr]|] eqn:E; [|vm_compute in E; discriminate].
  assert (Ec : c = sf_cfg) by (vm_compute in E; inversion E; reflexivity). subst c.
  destruct (exec as_step sf_cfg sf_round) as [[c tr2]|] eqn:E2; [|vm_compute in E2; discriminate].
  assert (Ec : c = sf_cfg) by (vm_compute in E2; inversion E2; reflexivity). subst c.
  destruct (lasso_weak as_step as_acts as_enabled (as_init 2) _ _ _ sf_round tr2 E E2) as (cf & ac & H1 & H2 & _ & H3).
  { cbn. lia. }
  { intros t. destruct t as [|[|t]].
    - right. exists 0%nat. split; [cbn; lia|]. intros (c' & e & H). vm_compute in H. discriminate.
    - left. exists (TRun 1%nat SNorm). split; [cbn; tauto|reflexivity].
    - right. exists 0%nat. split; [cbn; lia|]. intros (c' & e & H). cbn in H. destruct t; discriminate. }
  exists cf, ac. split; [exact H1|]. split; [exact H2|]. change (length sf_round) with 14%nat in H3. change (length (firstn 2 sf_ex)) with 2%nat in H3. split.
  - intros i Hi. pose proof (Nat.div_mod (i - 2) 14 ltac:(lia)) as D. pose proof (Nat.mod_upper_bound (i - 2) 14 ltac:(lia)) as U.
    remember ((i - 2) / 14)%nat as k. remember ((i - 2) mod 14)%nat as x. replace i with (2 + k * 14 + x)%nat by lia.
    rewrite (proj1 (H3 k x U)). clear - U. do 14 (destruct x as [|x]; [vm_compute; reflexivity|]). lia.
  - intros i. exists (2 + i * 14 + 4)%nat. split; [lia|]. rewrite (proj1 (H3 i 4%nat ltac:(lia))). vm_compute. reflexivity.
Qed.
Print Assumptions C83_auto_semaphore_starvation_refuted.
