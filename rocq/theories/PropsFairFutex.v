(** Property theorems: the futex-based events under fair scheduling (C83). *)
From Coq Require Import List Bool Arith ZArith Lia.
From Verif Require Import ListSum Exec Lin Word EventSpec FlagSpec Fair.
From Verif Require AutoFutexModel AutoFutexProof FairAuto ManualFutexModel ManualFutexProof FairManual.
Import ListNotations.
Local Open Scope Z_scope.

Section Auto.
Import AutoFutexModel AutoFutexProof FairAuto.

(** C83: while the event is signalled and a thread is in wait() or a timed wait, some thread takes the signal and its function reports success;
    with at most 1022 threads waiting at a time, and from some time on no weak compare-exchange failing without reason. *)
Theorem C83_auto_futex_signal_taken : forall n cf ac i0, (forall i, at_most_waiting 1022 (cf i)) ->
  infinite auto_step (auto_init n) cf ac -> fair auto_acts auto_enabled cf ac -> no_spurious_cas cf ac i0 ->
  forall i t p, (i0 <= i)%nat -> 0 < posts_of (fst (cf i)) -> nth_error (snd (cf i)) t = Some p -> in_wait p = 1 ->
  exists j v, (i <= j)%nat /\ auto_taken (cf j) (cf (S j)) v.
Proof. intros n cf ac i0 H1 H2 H3 H4 i t p. exact (auto_fair_taken n cf ac i0 H1 H2 H3 H4 i t p). Qed.

Definition af_ex : list aact :=
  [ACall 0 EWait; ARun 0 CNorm; ARun 0 CNorm; ARun 0 CNorm; ACall 1 EPost; ARun 1 CNorm; ARun 1 CNorm; ARun 1 (CWake 0); ARun 1 CNorm; ARun 0 CNorm; ARun 0 CNorm; ARun 0 CNorm]%nat.
Example C83_auto_futex_example : exists cf ac, (forall i, at_most_waiting 1022 (cf i)) /\
  infinite auto_step (auto_init 2) cf ac /\ fair auto_acts auto_enabled cf ac /\ no_spurious_cas cf ac 0%nat /\
  0 < posts_of (fst (cf 7%nat)) /\ nth_error (snd (cf 7%nat)) 0 = Some (WSleep KWait).
Proof.
  destruct (exec auto_step (auto_init 2) af_ex) as [[c tr]|] eqn:E; [|vm_compute in E; discriminate].
  assert (Ec : c = (0, [ARest; ARest])) by (vm_compute in E; inversion E; reflexivity).
  destruct (finite_fair auto_step auto_acts auto_enabled _ _ _ _ E) as (cf & ac & H1 & H2 & H3 & H4 & H5).
  { rewrite Ec. intros t (ch & c' & e & _ & H). destruct t as [|[|[|t]]]; cbn in H; discriminate. }
  exists cf, ac. split; [|split; [exact H1|split; [exact H2|split]]].
  - intros i. destruct (le_lt_dec 12 i) as [Hl|Hl]; [rewrite H3 by exact Hl; rewrite Ec; unfold at_most_waiting; cbn; lia|].
    destruct (H4 i) as (e & He). clear - He Hl.
    do 12 (destruct i as [|i]; [vm_compute in He; inversion He as [[E1 E2]]; unfold at_most_waiting; cbn; lia|]). lia.
  - intros j u p _ Ha. exfalso. rewrite H5 in Ha. apply nth_error_In in Ha. cbn in Ha. repeat (destruct Ha as [Ha|Ha]; [discriminate|]). exact Ha.
  - destruct (H4 7%nat) as (e & He). clear - He. vm_compute in He. inversion He as [[E1 E2]]. split; reflexivity.
Qed.

(** A particular waiter may starve although the event is signalled again and again and every signal is taken. *)
Definition af_pre : list aact := [ACall 0 EWait; ARun 0 CNorm; ARun 0 CNorm; ARun 0 CNorm]%nat.
Definition af_round : list aact :=
  [ACall 1 EPost; ARun 1 CNorm; ARun 1 CNorm; ACall 2 ETry; ARun 2 CNorm; ARun 2 CNorm; ARun 2 CNorm; ARun 1 (CWake 0); ARun 1 CNorm; ARun 0 CNorm; ARun 0 CNorm]%nat.
Theorem C83_auto_futex_starvation_refuted : exists cf ac, infinite auto_step (auto_init 3) cf ac /\ strongly_fair auto_acts auto_enabled cf ac /\
  no_spurious_cas cf ac 0%nat /\
  (forall i, (4 <= i)%nat -> exists p, nth_error (snd (cf i)) 0 = Some p /\ in_wait p = 1) /\
  (forall i, exists j, (i <= j)%nat /\ 0 < posts_of (fst (cf j))) /\
  (forall i, exists j, (i <= j)%nat /\ ac j = Some (ARun 0 CNorm)).
Proof.
  destruct (exec auto_step (auto_init 3) af_pre) as [[c tr]|] eqn:E; [|vm_compute in E; discriminate].
  assert (Ec : c = (1, [WSleep KWait; ARest; ARest])) by (vm_compute in E; inversion E; reflexivity). subst c.
  destruct (exec auto_step (1, [WSleep KWait; ARest; ARest]) af_round) as [[c tr2]|] eqn:E2; [|vm_compute in E2; discriminate].
  assert (Ec : c = (1, [WSleep KWait; ARest; ARest])) by (vm_compute in E2; inversion E2; reflexivity). subst c.
  destruct (lasso_fair auto_step auto_acts auto_enabled (auto_init 3) _ _ _ af_round tr2 E E2) as (cf & ac & H1 & H2 & H0 & H3).
  { cbn. lia. }
  { intros t. destruct t as [|[|[|t]]].
    - left. exists (ARun 0 CNorm). split; [cbn; tauto|reflexivity].
    - left. exists (ARun 1 CNorm). split; [cbn; tauto|reflexivity].
    - left. exists (ARun 2 CNorm). split; [cbn; tauto|reflexivity].
    - right. intros i Hi (ch & c' & e & _ & H). change (length af_round) with 11%nat in Hi. do 11 (destruct i as [|i]; [match type of H with context[at_ ?a ?b ?d ?k] => let v := eval vm_compute in (at_ a b d k) in change (at_ a b d k) with v in H end; cbn in H; destruct t; discriminate|]). lia. }
  exists cf, ac. split; [exact H1|]. split; [exact H2|]. change (length af_round) with 11%nat in H3. change (length af_pre) with 4%nat in H3.
  assert (Dec : forall i, (4 <= i)%nat -> exists k x, i = (4 + k * 11 + x)%nat /\ (x < 11)%nat).
  { intros i Hi. pose proof (Nat.div_mod (i - 4) 11 ltac:(lia)) as D. pose proof (Nat.mod_upper_bound (i - 4) 11 ltac:(lia)) as U.
    exists ((i - 4) / 11)%nat, ((i - 4) mod 11)%nat. split; [lia|exact U]. }
  split; [|split; [|split]].
  - intros j u p _ Ha Hp. exfalso. destruct (le_lt_dec 4 j) as [Hl|Hl].
    + destruct (Dec j Hl) as (k & x & -> & Hx). rewrite (proj2 (H3 k x Hx)) in Ha. apply nth_error_In in Ha. cbn in Ha. repeat (destruct Ha as [Ha|Ha]; [discriminate|]). exact Ha.
    + rewrite (H0 j Hl) in Ha. apply nth_error_In in Ha. cbn in Ha. repeat (destruct Ha as [Ha|Ha]; [discriminate|]). exact Ha.
  - intros i Hi. destruct (Dec i Hi) as (k & x & -> & Hx). rewrite (proj1 (H3 k x Hx)). clear - Hx.
    do 11 (destruct x as [|x]; [eexists; (split; [vm_compute; reflexivity|reflexivity])|]). lia.
  - intros i. exists (4 + i * 11 + 3)%nat. split; [lia|]. rewrite (proj1 (H3 i 3%nat ltac:(lia))). vm_compute. reflexivity.
  - intros i. exists (4 + i * 11 + 9)%nat. split; [lia|]. rewrite (proj2 (H3 i 9%nat ltac:(lia))). reflexivity.
Qed.
End Auto.
Print Assumptions C83_auto_futex_signal_taken.
Print Assumptions C83_auto_futex_starvation_refuted.

Section Man.
Import ManualFutexModel ManualFutexProof FairManual.

(** C83: if the event stays signalled, every call returns, also of the threads that were asleep. *)
Theorem C83_manual_futex_all_return : forall n cf ac i0, Z.of_nat n < 2 ^ 31 ->
  infinite man_step (man_init n) cf ac -> fair man_acts man_enabled cf ac -> (forall i, (i0 <= i)%nat -> fst (cf i) mod 2 = 1) ->
  forall i t, (i0 <= i)%nat -> (t < n)%nat -> exists j, (i <= j)%nat /\ nth_error (snd (cf j)) t = Some FRest.
Proof. intros n cf ac i0 H1 H2 H3 H4 i t. exact (man_fair_returns n cf ac i0 H1 H2 H3 H4 i t). Qed.

Definition mf_ex : list fact := [FCall 0 FWait; FRun 0 FNorm; FRun 0 FNorm; FRun 0 FNorm; FCall 1 FSet; FRun 1 FNorm; FRun 1 FNorm; FRun 1 FNorm; FRun 0 FNorm; FRun 0 FNorm; FRun 0 FNorm]%nat.
Example C83_manual_futex_example : exists cf ac, infinite man_step (man_init 2) cf ac /\ fair man_acts man_enabled cf ac /\
  (forall i, (6 <= i)%nat -> fst (cf i) mod 2 = 1) /\ nth_error (snd (cf 6%nat)) 0 = Some (FSleep FKWait).
Proof.
  destruct (exec man_step (man_init 2) mf_ex) as [[c tr]|] eqn:E; [|vm_compute in E; discriminate].
  assert (Ec : c = (1, [FRest; FRest])) by (vm_compute in E; inversion E; reflexivity).
  destruct (finite_fair man_step man_acts man_enabled _ _ _ _ E) as (cf & ac & H1 & H2 & H3 & H4 & _).
  { rewrite Ec. intros t (c' & e & H). destruct t as [|[|[|t]]]; cbn in H; discriminate. }
  exists cf, ac. split; [exact H1|]. split; [exact H2|]. split.
  - intros i Hi. destruct (le_lt_dec 11 i) as [Hl|Hl]; [rewrite H3 by exact Hl; rewrite Ec; reflexivity|].
    destruct (H4 i) as (e & He). clear - He Hi Hl.
    do 11 (destruct i as [|i]; [try (exfalso; lia); vm_compute in He; inversion He as [[E1 E2]]; reflexivity|]). lia.
  - destruct (H4 6%nat) as (e & He). clear - He. vm_compute in He. inversion He as [[E1 E2]]. reflexivity.
Qed.

(** If the event is reset soon after every set(), a waiter may stay in wait() for ever although set() is called, and returns, again and again. *)
Definition mf_pre : list fact := [FCall 0 FWait; FRun 0 FNorm; FRun 0 FNorm; FRun 0 FNorm]%nat.
Definition mf_round : list fact := [FCall 1 FSet; FRun 1 FNorm; FRun 1 FNorm; FRun 1 FNorm; FCall 1 FReset; FRun 1 FNorm; FRun 1 FNorm; FRun 0 FNorm; FRun 0 FNorm]%nat.
Theorem C83_manual_futex_pulse_refuted : exists cf ac, infinite man_step (man_init 2) cf ac /\ strongly_fair man_acts man_enabled cf ac /\
  (forall i, (4 <= i)%nat -> exists p, nth_error (snd (cf i)) 0 = Some p /\ p <> FRest /\ forall o r, p <> FDone o r) /\
  (forall i, exists j, (i <= j)%nat /\ fst (cf j) mod 2 = 1) /\
  (forall i, exists j, (i <= j)%nat /\ man_step (cf j) (FRun 1 FNorm) = Some (cf (S j), [Ret 1%nat FSet FOk])) /\
  (forall i, exists j, (i <= j)%nat /\ ac j = Some (FRun 0 FNorm)).
Proof.
  destruct (exec man_step (man_init 2) mf_pre) as [[c tr]|] eqn:E; [|vm_compute in E; discriminate].
  assert (Ec : c = (2, [FSleep FKWait; FRest])) by (vm_compute in E; inversion E; reflexivity). subst c.
  destruct (exec man_step (2, [FSleep FKWait; FRest]) mf_round) as [[c tr2]|] eqn:E2; [|vm_compute in E2; discriminate].
  assert (Ec : c = (2, [FSleep FKWait; FRest])) by (vm_compute in E2; inversion E2; reflexivity). subst c.
  destruct (lasso_fair man_step man_acts man_enabled (man_init 2) _ _ _ mf_round tr2 E E2) as (cf & ac & H1 & H2 & _ & H3).
  { cbn. lia. }
  { intros t. destruct t as [|[|t]].
    - left. exists (FRun 0 FNorm). split; [cbn; tauto|reflexivity].
    - left. exists (FRun 1 FNorm). split; [cbn; tauto|reflexivity].
    - right. intros i Hi (c' & e & H). change (length mf_round) with 9%nat in Hi. do 9 (destruct i as [|i]; [match type of H with context[at_ ?a ?b ?d ?k] => let v := eval vm_compute in (at_ a b d k) in change (at_ a b d k) with v in H end; cbn in H; destruct t; discriminate|]). lia. }
  exists cf, ac. split; [exact H1|]. split; [exact H2|]. change (length mf_round) with 9%nat in H3. change (length mf_pre) with 4%nat in H3.
  split; [|split; [|split]].
  - intros i Hi. pose proof (Nat.div_mod (i - 4) 9 ltac:(lia)) as D. pose proof (Nat.mod_upper_bound (i - 4) 9 ltac:(lia)) as U.
    destruct (H3 ((i - 4) / 9)%nat ((i - 4) mod 9)%nat U) as (Ha & _). replace (4 + (i - 4) / 9 * 9 + (i - 4) mod 9)%nat with i in Ha by lia. rewrite Ha.
    revert U. generalize ((i - 4) mod 9)%nat. clear. intros x U. do 9 (destruct x as [|x]; [eexists; (split; [vm_compute; reflexivity|split; [discriminate|intros o r; discriminate]])|]). lia.
  - intros i. exists (4 + i * 9 + 2)%nat. split; [lia|]. rewrite (proj1 (H3 i 2%nat ltac:(lia))). vm_compute. reflexivity.
  - intros i. exists (4 + i * 9 + 3)%nat. split; [lia|]. rewrite (proj1 (H3 i 3%nat ltac:(lia))). replace (S (4 + i * 9 + 3)) with (4 + i * 9 + 4)%nat by lia.
    rewrite (proj1 (H3 i 4%nat ltac:(lia))). vm_compute. reflexivity.
  - intros i. exists (4 + i * 9 + 7)%nat. split; [lia|]. rewrite (proj2 (H3 i 7%nat ltac:(lia))). reflexivity.
Qed.
End Man.
Print Assumptions C83_manual_futex_all_return.
Print Assumptions C83_manual_futex_pulse_refuted.
