(** Property theorems: mutex and timed_mutex on Windows under fair scheduling (C83). *)
From Coq Require Import List Bool Arith ZArith Lia.
From Verif Require Import ListSum Exec Lin Thr Word MutexSpec WinMutexModel WinMutexProof Fair FairWin.
Import ListNotations.
Local Open Scope Z_scope.

(** C83: while the mutex is free and a thread is in lock() or a timed lock, some thread acquires it, or the wait of that thread
    times out or fails; unless unlock() has terminated the program (C51). *)
Theorem C83_windows_mutex_acquired : forall n cf ac i0, Z.of_nat n < 2 ^ 30 ->
  infinite wm_step (wm_init n) cf ac -> fair win_acts win_enabled cf ac -> win_due cf ac i0 -> (forall i, dead (fst (cf i)) = false) ->
  forall i t p, (i0 <= i)%nat -> locked (word (fst (cf i))) = false -> nth_error (snd (cf i)) t = Some p -> win_wants p ->
  exists j, (i <= j)%nat /\ ((exists u, win_taken (cf j) (cf (S j)) u) \/ ac j = Some (TRun t CTimeout) \/ ac j = Some (TRun t CFail)).
Proof. exact win_fair_taken. Qed.
Print Assumptions C83_windows_mutex_acquired.

(** Thread 0 waits while thread 1 has the mutex; then the mutex is unlocked. *)
Definition wf_ex : list (tact mop wchoice) :=
  let r t := TRun t CNorm in
  [TCall 1 MLock; r 1; r 1; TCall 0 MLock; r 0; r 0; r 0; r 0; r 0; r 0; TCall 1 MUnlock; r 1; r 1; r 1; r 1; r 1; r 0; r 0; r 0]%nat.
Example C83_windows_mutex_example : exists cf ac, infinite wm_step (wm_init 2) cf ac /\ fair win_acts win_enabled cf ac /\ win_due cf ac 0%nat /\
  (forall i, dead (fst (cf i)) = false) /\ locked (word (fst (cf 12%nat))) = false /\
  exists k old h, nth_error (snd (cf 12%nat)) 0 = Some (WWait k old h).
Proof.
  destruct (exec wm_step (wm_init 2) wf_ex) as [[c tr]|] eqn:E; [|vm_compute in E; discriminate].
  assert (Ec : c = (Sh (2 ^ 31) (Some 0%nat) [false] [] false, [WRest true; WRest false])) by (vm_compute in E; inversion E; reflexivity).
  destruct (finite_fair wm_step win_acts win_enabled _ _ _ _ E) as (cf & ac & H1 & H2 & H3 & H4 & H5).
  { rewrite Ec. intros t (c' & e & H). destruct t as [|[|[|t]]]; cbn in H; discriminate. }
  exists cf, ac. split; [exact H1|]. split; [exact H2|]. split; [|split].
  - intros j u p _ _. split; intros Ha; exfalso; rewrite H5 in Ha; apply nth_error_In in Ha; cbn in Ha; repeat (destruct Ha as [Ha|Ha]; [discriminate|]); exact Ha.
  - intros i. destruct (le_lt_dec 19 i) as [Hl|Hl]; [rewrite H3 by exact Hl; rewrite Ec; reflexivity|].
    destruct (H4 i) as (e & He). clear - He Hl. do 19 (destruct i as [|i]; [vm_compute in He; inversion He as [[E1 E2]]; reflexivity|]). lia.
  - destruct (H4 12%nat) as (e & He). clear - He. vm_compute in He. inversion He as [[E1 E2]]. split; [reflexivity|]. eexists _, _, _. reflexivity.
Qed.

(** A particular thread may starve in lock() although the mutex is unlocked again and again: another thread locks it again each time before the
    waiting thread, woken by the event, gets to it. *)
Definition wf_round : list (tact mop wchoice) :=
  let r t := TRun t CNorm in
  [TCall 1 MUnlock; r 1; r 1; r 1; r 1; r 1; TCall 1 MLock; r 1; r 1; r 0; r 0; r 0]%nat.
Definition wf_pre : list (tact mop wchoice) := firstn 10 wf_ex ++ wf_round.
Definition wf_cfg : wsh * list wpc := (Sh (2 ^ 31 + 1) (Some 0%nat) [false] [] false, [WWait KLock (2 ^ 31 + 2 ^ 30 + 1) 0; WRest true]).
Theorem C83_windows_mutex_starvation_refuted : exists cf ac, infinite wm_step (wm_init 2) cf ac /\ strongly_fair win_acts win_enabled cf ac /\
  (forall i, dead (fst (cf i)) = false) /\
  (forall i, (22 <= i)%nat -> exists p, nth_error (snd (cf i)) 0 = Some p /\ win_wants p) /\
  (forall i, exists j, (i <= j)%nat /\ locked (word (fst (cf j))) = false) /\
  (forall i, exists j, (i <= j)%nat /\ ac j = Some (TRun 0%nat CNorm)).
Proof.
  destruct (exec wm_step (wm_init 2) wf_pre) as [[c tr]|] eqn:E; [|vm_compute in E; discriminate].
  assert (Ec : c = wf_cfg) by (vm_compute in E; inversion E; reflexivity). subst c.
  destruct (exec wm_step wf_cfg wf_round) as [[c tr2]|] eqn:E2; [|vm_compute in E2; discriminate].
  assert (Ec : c = wf_cfg) by (vm_compute in E2; inversion E2; reflexivity). subst c.
  destruct (lasso_fair wm_step win_acts win_enabled (wm_init 2) _ _ _ wf_round tr2 E E2) as (cf & ac & H1 & H2 & H0 & H3).
  { cbn. lia. }
  { intros t. destruct t as [|[|t]].
    - left. exists (TRun 0%nat CNorm). split; [cbn; tauto|reflexivity].
    - left. exists (TRun 1%nat CNorm). split; [cbn; tauto|reflexivity].
    - right. intros i Hi (c' & e & H). change (length wf_round) with 12%nat in Hi. do 12 (destruct i as [|i]; [match type of H with context[at_ ?a ?b ?d ?k] => let v := eval vm_compute in (at_ a b d k) in change (at_ a b d k) with v in H end; cbn in H; destruct t; discriminate|]). lia. }
  exists cf, ac. split; [exact H1|]. split; [exact H2|]. change (length wf_round) with 12%nat in H3. change (length wf_pre) with 22%nat in H3.
  assert (Dec : forall i, (22 <= i)%nat -> exists k x, i = (22 + k * 12 + x)%nat /\ (x < 12)%nat).
  { intros i Hi. pose proof (Nat.div_mod (i - 22) 12 ltac:(lia)) as D. pose proof (Nat.mod_upper_bound (i - 22) 12 ltac:(lia)) as U.
    exists ((i - 22) / 12)%nat, ((i - 22) mod 12)%nat. split; [lia|exact U]. }
  split; [|split; [|split]].
  - assert (N : forall i, dead (fst (cf i)) = true -> forall j, (i <= j)%nat -> dead (fst (cf j)) = true).
    { intros i Hd j Hj. induction Hj as [|j Hj IH]; [exact Hd|]. pose proof (proj2 H1 j) as Hh. unfold happens in Hh.
      destruct (ac j) as [a|]; [|rewrite Hh; exact IH]. destruct Hh as (e & He). destruct (cf j) as [s ths]. cbn [fst] in IH.
      destruct (tstep_cases _ _ _ _ _ _ _ _ He) as [(v & o & p1 & p' & _ & _ & _ & -> & _)|[(v & ch & p1 & o & r & p' & _ & _ & _ & -> & _)|(v & ch & p1 & _ & _ & _ & Hr & _)]]; [exact IH|exact IH|].
      unfold wm_run, wm_run1 in Hr. rewrite IH in Hr. discriminate. }
    intros i. destruct (dead (fst (cf i))) eqn:Hd; [|reflexivity]. exfalso.
    pose proof (N i Hd (22 + i * 12 + 0)%nat ltac:(lia)) as Hd'. rewrite (proj1 (H3 i 0%nat ltac:(lia))) in Hd'. vm_compute in Hd'. discriminate.
  - intros i Hi. destruct (Dec i Hi) as (k & x & -> & Hx). rewrite (proj1 (H3 k x Hx)). clear - Hx.
    do 12 (destruct x as [|x]; [eexists; (split; [vm_compute; reflexivity|exact I])|]). lia.
  - intros i. exists (22 + i * 12 + 2)%nat. split; [lia|]. rewrite (proj1 (H3 i 2%nat ltac:(lia))). vm_compute. reflexivity.
  - intros i. exists (22 + i * 12 + 9)%nat. split; [lia|]. rewrite (proj2 (H3 i 9%nat ltac:(lia))). reflexivity.
Qed.
Print Assumptions C83_windows_mutex_starvation_refuted.
