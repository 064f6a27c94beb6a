(** Property theorems: shared_spin_mutex under fair scheduling (C83). *)
From Coq Require Import List Bool Arith ZArith Lia.
From Verif Require Import ListSum Exec Lin Word RwSpec SharedSpinModel SharedSpinProof Fair FairShared.
Import ListNotations.
Local Open Scope Z_scope.

(** C83: while no thread holds the mutex exclusively and a thread is in lock_shared(), some thread acquires the mutex, shared or exclusively;
    from then on that thread's compare-exchange does not fail without reason. *)
Theorem C83_shared_spin_shared_acquired : forall n cf ac i t, Z.of_nat n < 2 ^ 31 ->
  infinite rw_step (rw_init n) cf ac -> fair rw_acts rw_enabled cf ac -> (forall j, (i <= j)%nat -> ac j <> Some (RRun t true)) ->
  fst (cf i) <> rw_locked -> rw_reading (cf i) t ->
  exists j u, (i <= j)%nat /\ rw_taken (cf j) (cf (S j)) u.
Proof. intros n cf ac i t Hn H1 H2 H3. exact (rw_fair_shared n cf ac i t Hn H1 H2 H3). Qed.
Print Assumptions C83_shared_spin_shared_acquired.

(** C83: while the mutex is free and a thread is in lock(), some thread acquires it, shared or exclusively. *)
Theorem C83_shared_spin_exclusive_acquired : forall n cf ac i t, Z.of_nat n < 2 ^ 31 ->
  infinite rw_step (rw_init n) cf ac -> fair rw_acts rw_enabled cf ac -> (forall j, (i <= j)%nat -> ac j <> Some (RRun t true)) ->
  fst (cf i) = rw_unlocked -> (nth_error (snd (cf i)) t = Some XLoad \/ nth_error (snd (cf i)) t = Some XCas) ->
  exists j u, (i <= j)%nat /\ rw_taken (cf j) (cf (S j)) u.
Proof. intros n cf ac i t Hn H1 H2 H3. exact (rw_fair_excl n cf ac i t Hn H1 H2 H3). Qed.
Print Assumptions C83_shared_spin_exclusive_acquired.

Definition r (t : nat) : ract := RRun t false.
Definition rw_fair_ex : list ract :=
  [RCall 0 SLock; r 0; r 0; RCall 1 XLock; r 1; RCall 2 SLock; r 2; r 2; r 2; r 2; r 0; RCall 2 SUnlock; r 2; r 2; r 0; r 0; r 0; r 0; RCall 0 SUnlock; r 0; r 0; r 1; r 1]%nat.
Example C83_shared_spin_example : exists cf ac, infinite rw_step (rw_init 3) cf ac /\ fair rw_acts rw_enabled cf ac /\
  (forall j t, ac j <> Some (RRun t true)) /\ fst (cf 3%nat) <> rw_locked /\ rw_reading (cf 3%nat) 0 /\
  fst (cf 4%nat) = rw_unlocked /\ nth_error (snd (cf 4%nat)) 1 = Some XLoad.
Proof.
  destruct (exec rw_step (rw_init 3) rw_fair_ex) as [[c tr]|] eqn:E; [|vm_compute in E; discriminate].
  destruct (finite_fair rw_step rw_acts rw_enabled _ _ _ _ E) as (cf & ac & H1 & H2 & H3 & H4 & H5).
  { vm_compute in E. inversion E; subst. intros t (c' & e & H). destruct t as [|[|[|[|t]]]]; cbn in H; discriminate. }
  exists cf, ac. split; [exact H1|]. split; [exact H2|]. split.
  - intros j t Hj. rewrite H5 in Hj. apply nth_error_In in Hj. cbn in Hj. unfold r in Hj. repeat (destruct Hj as [Hj|Hj]; [discriminate|]). exact Hj.
  - destruct (H4 3%nat) as (e3 & He3). destruct (H4 4%nat) as (e4 & He4). clear - He3 He4.
    vm_compute in He3. inversion He3 as [[E3 E3']]. vm_compute in He4. inversion He4 as [[E4 E4']].
    split; [discriminate|]. split; [|split; reflexivity]. exists (SCas 0). split; [reflexivity|eauto].
Qed.

(** A writer may starve: in a fair run two readers whose sections overlap keep a thread in lock() for ever, although each of them unlocks again and again. *)
Definition rw_starve_pre : list ract := [RCall 1 SLock; r 1; r 1; r 1; r 1; RCall 0 XLock]%nat.
Definition rw_starve : list ract :=
  [r 0; RCall 2 SLock; r 2; r 2; r 2; r 2; RCall 1 SUnlock; r 1; r 1; RCall 1 SLock; r 1; r 1; r 1; r 1; RCall 2 SUnlock; r 2; r 2]%nat.
Theorem C83_shared_spin_writer_starvation_refuted : exists cf ac, infinite rw_step (rw_init 3) cf ac /\ strongly_fair rw_acts rw_enabled cf ac /\
  (forall i, (6 <= i)%nat -> nth_error (snd (cf i)) 0 = Some XLoad) /\
  (forall i, exists j, (i <= j)%nat /\ ac j = Some (RRun 0 false)) /\
  (forall i t, t = 1%nat \/ t = 2%nat -> exists j, (i <= j)%nat /\ ac j = Some (RCall t SUnlock)).
Proof.
  destruct (exec rw_step (rw_init 3) rw_starve_pre) as [[c tr]|] eqn:E; [|vm_compute in E; discriminate].
  assert (Ec : c = (1, [XLoad; RRest HShared; RRest HNone])) by (vm_compute in E; inversion E; reflexivity). subst c.
  destruct (exec rw_step (1, [XLoad; RRest HShared; RRest HNone]) rw_starve) as [[c tr2]|] eqn:E2; [|vm_compute in E2; discriminate].
  assert (Ec : c = (1, [XLoad; RRest HShared; RRest HNone])) by (vm_compute in E2; inversion E2; reflexivity). subst c.
  destruct (lasso_fair rw_step rw_acts rw_enabled (rw_init 3) _ _ _ rw_starve tr2 E E2) as (cf & ac & H1 & H2 & _ & H3).
  { cbn. lia. }
  { intros t. destruct t as [|[|[|t]]].
    - left. exists (r 0). split; [cbn; tauto|reflexivity].
    - left. exists (r 1). split; [cbn; tauto|reflexivity].
    - left. exists (r 2). split; [cbn; tauto|reflexivity].
    - right. intros i Hi (c' & e & H). change (length rw_starve) with 17%nat in Hi. do 17 (destruct i as [|i]; [match type of H with context[at_ ?a ?b ?d ?k] => let v := eval vm_compute in (at_ a b d k) in change (at_ a b d k) with v in H end; cbn in H; destruct t; discriminate|]). lia. }
  exists cf, ac. split; [exact H1|]. split; [exact H2|]. change (length rw_starve) with 17%nat in H3. change (length rw_starve_pre) with 6%nat in H3. split; [|split].
  - intros i Hi. pose proof (Nat.div_mod (i - 6) 17 ltac:(lia)) as D. pose proof (Nat.mod_upper_bound (i - 6) 17 ltac:(lia)) as U.
    destruct (H3 ((i - 6) / 17)%nat ((i - 6) mod 17)%nat U) as (Ha & _). replace (6 + (i - 6) / 17 * 17 + (i - 6) mod 17)%nat with i in Ha by lia. rewrite Ha.
    revert U. generalize ((i - 6) mod 17)%nat. clear. intros x U. do 17 (destruct x as [|x]; [vm_compute; reflexivity|]). lia.
  - intros i. exists (6 + i * 17 + 0)%nat. split; [lia|]. rewrite (proj2 (H3 i 0%nat ltac:(lia))). reflexivity.
  - intros i t [->| ->].
    + exists (6 + i * 17 + 6)%nat. split; [lia|]. rewrite (proj2 (H3 i 6%nat ltac:(lia))). reflexivity.
    + exists (6 + i * 17 + 14)%nat. split; [lia|]. rewrite (proj2 (H3 i 14%nat ltac:(lia))). reflexivity.
Qed.
Print Assumptions C83_shared_spin_writer_starvation_refuted.
