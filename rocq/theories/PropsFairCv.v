(** Property theorems: the condition variable on Windows under fair scheduling (C83). *)
From Coq Require Import List Bool Arith ZArith Lia.
From Verif Require Import ListSum Exec WinCvModel WinCvProof Fair FairCv.
Import ListNotations.
Local Open Scope Z_scope.

(** C83: every thread that is a waiter when notify_all takes effect comes to the end of its wait, and never with a time-out.  Weak fairness
    suffices, nothing is assumed of the user's lock, and other threads may wait and notify for ever. *)
Theorem C83_windows_cv_notify_all : forall n cf ac, Z.of_nat n <= 2 ^ 30 ->
  infinite cv_step (cv_init n) cf ac -> (forall i a, ac i = Some a -> no_mutex_failure a) -> fair cv_acts cv_enabled cf ac ->
  forall i a e u k t, ac i = Some a -> cv_step (cf i) a = Some (cf (S i), e) -> In (ENotify u true k) e -> waits (cf i) t ->
  exists j ch r, (i < j)%nat /\ ac j = Some (ARun t ch) /\ cv_step (cf j) (ARun t ch) = Some (cf (S j), [EEnd t r true]) /\ r <> RTimeout.
Proof.
  intros n cf ac Hn Hinf Hmf HF i a e u k t Ea Hst Hin Hw.
  destruct (after_notify_all n cf ac Hn Hinf Hmf HF i a e u k t Ea Hst Hin Hw) as (j & b & Hj & Hb & ch & r & -> & Hs & Hr). exists j, ch, r. auto.
Qed.
Print Assumptions C83_windows_cv_notify_all.

(** After a notification that releases a waiter, the wait of some thread ends by a notification. *)
Theorem C83_windows_cv_notify_one : forall n cf ac, Z.of_nat n <= 2 ^ 30 ->
  infinite cv_step (cv_init n) cf ac -> (forall i a, ac i = Some a -> no_mutex_failure a) -> fair cv_acts cv_enabled cf ac ->
  forall i a e u al k, ac i = Some a -> cv_step (cf i) a = Some (cf (S i), e) -> In (ENotify u al k) e -> 0 < k ->
  exists j v ch r, (i < j)%nat /\ ac j = Some (ARun v ch) /\ cv_step (cf j) (ARun v ch) = Some (cf (S j), [EEnd v r true]) /\ r <> RTimeout.
Proof.
  intros n cf ac Hn Hinf Hmf HF i a e u al k Ea Hst Hin Hk.
  destruct (after_notify n cf ac Hn Hinf Hmf HF i a e u al k Ea Hst Hin Hk) as (j & b & v & Hj & Hb & ch & r & -> & Hs & Hr). exists j, v, ch, r. auto.
Qed.
Print Assumptions C83_windows_cv_notify_one.

(** Threads 0 and 1 wait; thread 2 calls notify_all; both return. *)
Definition fc_pre : list cact := let r t := ARun t CNorm in [AWait 0 KInf; r 0; r 0; AWait 1 KInf; r 1; r 1]%nat.
Definition fc_all : list cact := let r t := ARun t CNorm in (fc_pre ++ [ANotify 2 true; r 2; r 2; r 0; r 0; r 0; r 1; r 1; r 1])%nat.
Example C83_windows_cv_example : exists cf ac, infinite cv_step (cv_init 3) cf ac /\ (forall i a, ac i = Some a -> no_mutex_failure a) /\ fair cv_acts cv_enabled cf ac /\
  ac 8%nat = Some (ARun 2 CNorm) /\ cv_step (cf 8%nat) (ARun 2 CNorm) = Some (cf 9%nat, [ENotify 2 true 2; ENotifyRet 2]) /\ waits (cf 8%nat) 0 /\ waits (cf 8%nat) 1.
Proof.
  destruct (exec cv_step (cv_init 3) fc_all) as [[c tr]|] eqn:E; [|vm_compute in E; discriminate].
  assert (Ec : c = (CS [WS 0 0 0 0] (Some 0%nat) (Some 0%nat) 0 false, [CIdle; CIdle; CIdle])) by (vm_compute in E; inversion E; reflexivity).
  destruct (finite_fair cv_step cv_acts cv_enabled _ _ _ _ E) as (cf & ac & H1 & H2 & H3 & H4 & H5).
  { rewrite Ec. intros t ((c' & e & H) & _). destruct t as [|[|[|[|t]]]]; cbn in H; discriminate. }
  exists cf, ac. split; [exact H1|]. split.
  { intros i a Ha. rewrite H5 in Ha. apply nth_error_In in Ha. assert (G : Forall no_mutex_failure fc_all) by (repeat constructor). exact (proj1 (Forall_forall _ _) G a Ha). }
  split; [exact H2|]. split; [rewrite H5; reflexivity|].
  destruct (H4 8%nat) as (e8 & E8). destruct (H4 9%nat) as (e9 & E9). vm_compute in E8, E9. inversion E8 as [[C8 T8]]. inversion E9 as [[C9 T9]].
  split; [vm_compute; reflexivity|]. split; (eexists _, _; split; [reflexivity|reflexivity]).
Qed.

(** A single waiter may starve under notify_one, although the calls go on for ever and every one of them releases a waiter: thread 1 comes
    back and takes each notification. *)
Definition fc_round : list cact := let r t := ARun t CNorm in [ANotify 2 false; r 2; r 2; r 1; r 1; r 1; AWait 1 KInf; r 1; r 1]%nat.
Definition fc_cfg : cv_st := (CS [WS 2 0 0 0] (Some 0%nat) (Some 0%nat) 2 false, [CBlk KInf 0; CBlk KInf 0; CIdle]).
Theorem C83_windows_cv_starvation_refuted : exists cf ac, infinite cv_step (cv_init 3) cf ac /\ (forall i a, ac i = Some a -> no_mutex_failure a) /\ fair cv_acts cv_enabled cf ac /\
  (forall i, (6 <= i)%nat -> nth_error (snd (cf i)) 0 = Some (CBlk KInf 0)) /\
  (forall i, exists j, (i <= j)%nat /\ ac j = Some (ARun 2 CNorm) /\ cv_step (cf j) (ARun 2 CNorm) = Some (cf (S j), [ENotify 2 false 1; ENotifyRet 2])).
Proof.
  destruct (exec cv_step (cv_init 3) fc_pre) as [[c tr]|] eqn:E; [|vm_compute in E; discriminate].
  assert (Ec : c = fc_cfg) by (vm_compute in E; inversion E; reflexivity). subst c.
  destruct (exec cv_step fc_cfg fc_round) as [[c tr2]|] eqn:E2; [|vm_compute in E2; discriminate].
  assert (Ec : c = fc_cfg) by (vm_compute in E2; inversion E2; reflexivity). subst c.
  destruct (lasso_weak cv_step cv_acts cv_enabled (cv_init 3) _ _ _ fc_round tr2 E E2) as (cf & ac & H1 & H2 & H0 & H3).
  { cbn. lia. }
  { intros t. destruct t as [|[|[|t]]].
    - right. exists 0%nat. split; [cbn; lia|]. intros ((c' & e & H) & _). vm_compute in H. discriminate.
    - left. exists (ARun 1%nat CNorm). split; [cbn; tauto|reflexivity].
    - left. exists (ARun 2%nat CNorm). split; [cbn; tauto|reflexivity].
    - right. exists 0%nat. split; [cbn; lia|]. intros ((c' & e & H) & _). cbn in H. destruct t; discriminate. }
  exists cf, ac. split; [exact H1|]. change (length fc_round) with 9%nat in *. change (length fc_pre) with 6%nat in *.
  assert (D : forall i, (6 <= i)%nat -> exists k x, i = (6 + k * 9 + x)%nat /\ (x < 9)%nat).
  { intros i Hi. exists ((i - 6) / 9)%nat, ((i - 6) mod 9)%nat. pose proof (Nat.div_mod (i - 6) 9 ltac:(lia)). pose proof (Nat.mod_upper_bound (i - 6) 9 ltac:(lia)). split; lia. }
  split.
  { intros i a Ha. assert (G : Forall no_mutex_failure (fc_pre ++ fc_round)) by (repeat constructor). apply (proj1 (Forall_forall _ _) G a), in_or_app.
    destruct (le_lt_dec 6 i) as [Hi|Hi]; [|left; rewrite (H0 i Hi) in Ha; exact (nth_error_In _ _ Ha)].
    destruct (D i Hi) as (k & x & -> & U). right. rewrite (proj2 (H3 k x U)) in Ha. exact (nth_error_In _ _ Ha). }
  split; [exact H2|]. split.
  - intros i Hi. destruct (D i Hi) as (k & x & -> & U). rewrite (proj1 (H3 k x U)). clear - U. do 9 (destruct x as [|x]; [vm_compute; reflexivity|]). lia.
  - intros i. exists (6 + i * 9 + 2)%nat. split; [lia|]. split; [rewrite (proj2 (H3 i 2%nat ltac:(lia))); reflexivity|].
    replace (S (6 + i * 9 + 2)) with (6 + i * 9 + 3)%nat by lia. rewrite (proj1 (H3 i 2%nat ltac:(lia))), (proj1 (H3 i 3%nat ltac:(lia))). vm_compute. reflexivity.
Qed.
Print Assumptions C83_windows_cv_starvation_refuted.
