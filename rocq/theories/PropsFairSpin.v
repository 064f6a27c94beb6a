(** Property theorems: spin_mutex under fair scheduling (C83). *)
From Coq Require Import List Bool Arith Lia.
From Verif Require Import ListSum Exec Lin MutexSpec SpinModel Fair FairSpin.
Import ListNotations.

(** C83: a free spin_mutex that some thread is spinning in lock() for is acquired by some thread, test-test-and-set implementation. *)
Theorem C83_spin_acquired : forall n cf ac, infinite ttas_step (spin_init n) cf ac -> fair spin_acts (spin_enabled ttas_step) cf ac ->
  forall i t p, fst (cf i) = unlocked_state -> nth_error (snd (cf i)) t = Some p -> p = SLoad \/ p = SXchg ->
  exists j u, i <= j /\ spin_taken (cf j) (cf (S j)) u.
Proof. intros n cf ac H1 H2 i t p. exact (ttas_fair_taken (spin_init n) cf ac i t p H1 H2). Qed.
Print Assumptions C83_spin_acquired.

(** C83: the same, atomic_flag implementation. *)
Theorem C83_spin_flag_acquired : forall n cf ac, infinite tas_step (spin_init n) cf ac -> fair spin_acts (spin_enabled tas_step) cf ac ->
  forall i t p, fst (cf i) = unlocked_state -> nth_error (snd (cf i)) t = Some p -> p = SXchg ->
  exists j u, i <= j /\ spin_taken (cf j) (cf (S j)) u.
Proof. intros n cf ac H1 H2 i t p. exact (tas_fair_taken (spin_init n) cf ac i t p H1 H2). Qed.
Print Assumptions C83_spin_flag_acquired.

Definition spin_fair_ex : list sact := [SCall 0 MLock; SRun 0; SCall 1 MLock; SRun 1; SRun 1; SRun 1; SRun 0; SCall 1 MUnlock; SRun 1; SRun 1; SRun 0; SRun 0; SRun 0].
Example C83_spin_example : exists cf ac, infinite ttas_step (spin_init 2) cf ac /\ fair spin_acts (spin_enabled ttas_step) cf ac /\
  fst (cf 9) = unlocked_state /\ nth_error (snd (cf 9)) 0 = Some SLoad.
Proof.
  destruct (exec ttas_step (spin_init 2) spin_fair_ex) as [[c tr]|] eqn:E; [|vm_compute in E; discriminate].
  destruct (finite_fair ttas_step spin_acts (spin_enabled ttas_step) _ _ _ _ E) as (cf & ac & H1 & H2 & H3 & H4 & _).
  { vm_compute in E. inversion E; subst. intros t (c' & e & H). destruct t as [|[|[|t]]]; cbn in H; discriminate. }
  exists cf, ac. destruct (H4 9) as (e & He). clear - H1 H2 He. vm_compute in He. inversion He as [[E1 E2]]. auto.
Qed.

(** A particular thread may starve: in a fair run, with the mutex free again and again, a thread stays in lock() for ever. *)
Definition spin_starve : list sact := [SCall 1 MLock; SRun 1; SRun 1; SRun 1; SRun 0; SCall 1 MUnlock; SRun 1; SRun 1].
Theorem C83_spin_starvation_refuted : exists cf ac, infinite ttas_step (spin_init 2) cf ac /\ strongly_fair spin_acts (spin_enabled ttas_step) cf ac /\
  (forall i, 1 <= i -> nth_error (snd (cf i)) 0 = Some SLoad) /\
  (forall i, exists j, i <= j /\ fst (cf j) = unlocked_state) /\ (forall i, exists j, i <= j /\ ac j = Some (SRun 0)).
Proof.
  destruct (exec ttas_step (spin_init 2) [SCall 0 MLock]) as [[c tr]|] eqn:E; [|vm_compute in E; discriminate].
  assert (Ec : c = (unlocked_state, [SLoad; SRest false])) by (vm_compute in E; inversion E; reflexivity). subst c.
  destruct (lasso_fair ttas_step spin_acts (spin_enabled ttas_step) (spin_init 2) _ _ _ spin_starve [Call 1 MLock; Ret 1 MLock ROk; Call 1 MUnlock; Ret 1 MUnlock ROk] E) as (cf & ac & H1 & H2 & _ & H3).
  { vm_compute. reflexivity. }
  { cbn. lia. }
  { intros t. destruct t as [|[|t]].
    - left. exists (SRun 0). split; [cbn; tauto|reflexivity].
    - left. exists (SRun 1). split; [cbn; tauto|reflexivity].
    - right. intros i Hi (c' & e & H). change (length spin_starve) with 8 in Hi. do 8 (destruct i as [|i]; [cbn in H; destruct t; discriminate|]). lia. }
  exists cf, ac. split; [exact H1|]. split; [exact H2|]. cbn [length] in H3. change (length spin_starve) with 8 in H3. split; [|split].
  - intros i Hi. pose proof (Nat.div_mod (i - 1) 8 ltac:(lia)) as D. pose proof (Nat.mod_upper_bound (i - 1) 8 ltac:(lia)) as U.
    destruct (H3 ((i - 1) / 8) ((i - 1) mod 8) U) as (Ha & _). replace (1 + (i - 1) / 8 * 8 + (i - 1) mod 8) with i in Ha by lia. rewrite Ha.
    revert U. generalize ((i - 1) mod 8). clear. intros x U. do 8 (destruct x as [|x]; [reflexivity|]). lia.
  - intros i. exists (1 + i * 8 + 0). split; [lia|]. rewrite (proj1 (H3 i 0 ltac:(lia))). reflexivity.
  - intros i. exists (1 + i * 8 + 4). split; [lia|]. rewrite (proj2 (H3 i 4 ltac:(lia))). reflexivity.
Qed.
Print Assumptions C83_spin_starvation_refuted.
