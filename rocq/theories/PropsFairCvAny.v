(** Property theorems: the generic condition_variable_any under fair scheduling (C83). *)
From Coq Require Import List Bool Arith Lia.
From Verif Require Import ListSum Exec CvAnyModel PropsCvAny Fair FairCvAny.
Import ListNotations.

(** [t] stands at the end of wait(), re-locking the user's lock; m_mutex and m_cond are behind it. *)
Definition relocking (c : gst) (t : nat) : Prop := nth_error (snd c) t = Some GUser.
(** The step number [i] reports [ev]. *)
Definition reports (cf : nat -> gst) (ac : nat -> option gact) (i : nat) (ev : gev) : Prop :=
  exists a e, ac i = Some a /\ gv_step (cf i) a = Some (cf (S i), e) /\ In ev e.

(** C83: every call of notify_one() and notify_all() ends, whatever the users' locks do and however many other calls there are. *)
Theorem C83_cv_any_notify_ends : forall n cf ac, infinite gv_step (gv_init n) cf ac -> strongly_fair gv_acts gv_enabled cf ac ->
  forall i u al, reports cf ac i (ENotify u al) -> exists j ok, i < j /\ reports cf ac j (ENotified u ok).
Proof.
  intros n cf ac Hinf HF i u al (a & e & Ea & He & Hin).
  assert (Hu : pcof (cf (S i)) u = Some (GNLock al)).
  { destruct (cf i) as [m ths]. unfold pcof. destruct a as [v|v al'|v ch]; cbn [gv_step] in He; destruct (nth_error ths v) as [x|] eqn:Hv; try discriminate.
    - destruct x; inversion He; subst. destruct Hin.
    - destruct x; inversion He; subst. destruct Hin as [Hin|[]]. inversion Hin; subst. cbn [snd]. eapply nth_upd_eq; eauto.
    - exfalso. destruct x; try discriminate; try (destruct ch, m; inversion He; subst; cbn in Hin; intuition discriminate); try (destruct ch; inversion He; subst; cbn in Hin; intuition discriminate).
      destruct all.
      + inversion He; subst. apply in_map_iff in Hin as (y & Ey & _). discriminate.
      + destruct ch as [| |y]; try (destruct (blocked ths); inversion He; subst; destruct Hin).
        destruct (nth_error ths y) as [[]|]; inversion He; subst. cbn in Hin. intuition discriminate. }
  destruct (notify_ret n cf ac Hinf HF (S i) u al Hu) as (j & ch & ok & Hj & Ea' & He'). exists j, ok. split; [lia|]. exists (ARun u ch), [ENotified u ok]. cbn. auto.
Qed.
Print Assumptions C83_cv_any_notify_ends.

(** A thread that has released the user's lock in wait() stays on the way to m_cond or in it until it is woken. *)
Lemma out_until n cf ac : infinite gv_step (gv_init n) cf ac -> forall t i p, pcof (cf i) t = Some p -> out_pc p = true ->
  forall d, (exists j, i <= j /\ pcof (cf j) t = Some GWok) \/ exists q, pcof (cf (i + d)) t = Some q /\ out_pc q = true.
Proof.
  intros Hinf t i p Hp Ho. induction d as [|d [W|(q & Hq & Hoq)]]; [right; exists p; rewrite Nat.add_0_r; auto|auto|].
  pose proof (proj2 Hinf (i + d)) as Hh. unfold happens in Hh. replace (i + S d) with (S (i + d)) by lia.
  destruct (ac (i + d)) as [a|] eqn:Ea; [|right; exists q; rewrite Hh; auto]. destruct Hh as (e & He).
  destruct (in_dec (fun x y : nat => Nat.eq_dec x y) t (map (fun ev => match ev with EWake u => u | _ => S t end) e)) as [Hin|Hno].
  { left. exists (S (i + d)). split; [lia|]. eapply wake_ev; eauto. apply in_map_iff in Hin as (ev & E1 & E2). destruct ev; try lia. subst. exact E2. }
  assert (Hnw : ~ In (EWake t) e) by (intros X; apply Hno; apply in_map_iff; exists (EWake t); auto). right.
  destruct (cf (i + d)) as [m ths], (cf (S (i + d))) as [m' ths']. unfold pcof in *. cbn [snd] in *.
  assert (K : forall u x, u <> t -> exists q0, nth_error (upd ths u x) t = Some q0 /\ out_pc q0 = true) by (intros u x Hne; exists q; rewrite nth_upd_neq by congruence; auto).
  destruct a as [u|u al|u ch]; cbn [gv_step] in He; destruct (nth_error ths u) as [x|] eqn:Hu; try discriminate.
  - destruct x; inversion He; subst. apply K. intros ->. rewrite Hu in Hq. inversion Hq; subst. discriminate.
  - destruct x; inversion He; subst. apply K. intros ->. rewrite Hu in Hq. inversion Hq; subst. discriminate.
  - destruct (Nat.eq_dec u t) as [->|Hne].
    + rewrite Hu in Hq. inversion Hq; subst q. destruct x; try discriminate; inversion He; subst.
      * exists GBlk. split; [eapply nth_upd_eq; eauto|reflexivity].
      * exfalso. apply Hnw. left. reflexivity.
    + destruct x; try discriminate; try (destruct ch, m; inversion He; subst; apply K; assumption); try (destruct ch; inversion He; subst; apply K; assumption).
      destruct all.
      * inversion He; subst. exists q. split; [|exact Hoq]. rewrite nth_upd_neq by congruence. rewrite wake_eq, Hq. destruct q; try reflexivity. exfalso. apply Hnw. apply in_map, blocked_In. exact Hq.
      * destruct ch as [| |y]; try (destruct (blocked ths); inversion He; subst; apply K; assumption).
        destruct (nth_error ths y) as [[]|] eqn:Hy; inversion He; subst. exists q. split; [|exact Hoq]. rewrite nth_upd_neq by congruence. rewrite nth_upd_neq; [exact Hq|]. intros ->. apply Hnw. right; left; reflexivity.
Qed.

Lemma rel_pc c a c' e t : gv_step c a = Some (c', e) -> In (ERel t) e -> pcof c' t = Some GCond.
Proof.
  destruct c as [m ths]. intros H Hin. unfold pcof. destruct a as [u|u al|u ch]; cbn [gv_step] in H; destruct (nth_error ths u) as [x|] eqn:Hu; try discriminate.
  - destruct x; inversion H; subst. destruct Hin.
  - destruct x; inversion H; subst. destruct Hin as [|[]]; discriminate.
  - destruct x; try discriminate; try (destruct ch, m; inversion H; subst; cbn in Hin; intuition discriminate);
      try (inversion H; subst; cbn in Hin; intuition discriminate).
    + destruct ch; inversion H; subst; destruct Hin as [Hin|[]]; inversion Hin; subst; cbn [snd]; eapply nth_upd_eq; eauto.
    + destruct all; [inversion H; subst; apply in_map_iff in Hin as (y & Ey & _); discriminate|].
      destruct ch as [| |y]; try (destruct (blocked ths); inversion H; subst; destruct Hin).
      destruct (nth_error ths y) as [[]|]; inversion H; subst. cbn in Hin. intuition discriminate.
Qed.
Lemma notify_pend n cf ac : infinite gv_step (gv_init n) cf ac -> forall i a e t u al p, ac i = Some a -> gv_step (cf i) a = Some (cf (S i), e) -> In (ENotify u al) e ->
  pcof (cf i) t = Some p -> out_pc p = true -> pending t u al (cf (S i)).
Proof.
  intros Hinf i a e t u al p Ea H Hin Hp Ho. unfold pending. destruct (cf i) as [m ths], (cf (S i)) as [m' ths']. unfold pcof in *. cbn [snd] in *.
  destruct a as [v|v al'|v ch]; cbn [gv_step] in H; destruct (nth_error ths v) as [x|] eqn:Hv; try discriminate.
  - destruct x; inversion H; subst. destruct Hin.
  - destruct x; inversion H; subst. destruct Hin as [Hin|[]]. inversion Hin; subst.
    split; [left; eapply nth_upd_eq; eauto|]. exists p. split; [|exact Ho]. rewrite nth_upd_neq; [exact Hp|]. intros ->. rewrite Hv in Hp. inversion Hp; subst. discriminate.
  - exfalso. destruct x; try discriminate; try (destruct ch, m; inversion H; subst; cbn in Hin; intuition discriminate); try (destruct ch; inversion H; subst; cbn in Hin; intuition discriminate).
    destruct all; [inversion H; subst; apply in_map_iff in Hin as (y & Ey & _); discriminate|].
    destruct ch as [| |y]; try (destruct (blocked ths); inversion H; subst; destruct Hin).
    destruct (nth_error ths y) as [[]|]; inversion H; subst. cbn in Hin. intuition discriminate.
Qed.

Lemma sig_wake c a c' e u w : gv_step c a = Some (c', e) -> In (ESig u w) e -> In (EWake w) e.
Proof.
  destruct c as [m ths]. intros H Hin. destruct a as [v|v al|v ch]; cbn [gv_step] in H; destruct (nth_error ths v) as [x|] eqn:Hv; try discriminate.
  - destruct x; inversion H; subst. destruct Hin.
  - destruct x; inversion H; subst. destruct Hin as [|[]]; discriminate.
  - destruct x; try discriminate; try (destruct ch, m; inversion H; subst; cbn in Hin; intuition discriminate); try (destruct ch; inversion H; subst; cbn in Hin; intuition discriminate).
    destruct all; [inversion H; subst; apply in_map_iff in Hin as (y & Ey & _); discriminate|].
    destruct ch as [| |y]; try (destruct (blocked ths); inversion H; subst; destruct Hin).
    destruct (nth_error ths y) as [[]|]; inversion H; subst. destruct Hin as [Hin|[Hin|[]]]; inversion Hin; subst. right; left; reflexivity.
Qed.

(** C83: after a thread has released the user's lock in wait(), any later call of notify_all() that does not throw brings it back to its lock. *)
Theorem C83_cv_any_notify_all : forall n cf ac, infinite gv_step (gv_init n) cf ac -> strongly_fair gv_acts gv_enabled cf ac ->
  forall i k t u, reports cf ac i (ERel t) -> i < k -> reports cf ac k (ENotify u true) ->
  (exists j, i < j /\ relocking (cf j) t) \/ (exists j, k < j /\ reports cf ac j (ENotified u false)).
Proof.
  intros n cf ac Hinf HF i k t u (a & e & Ea & He & Hin) Hik (b & e2 & Eb & He2 & Hin2). pose proof (rel_pc _ _ _ _ _ He Hin) as Hp.
  assert (Back : forall j, S i <= j -> pcof (cf j) t = Some GWok -> exists j, i < j /\ relocking (cf j) t).
  { intros j Hj Hw. destruct (woken_back n cf ac Hinf HF j t Hw) as (l & Hl & Hu). exists l. split; [lia|exact Hu]. }
  destruct (out_until n cf ac Hinf t (S i) GCond Hp eq_refl (k - S i)) as [(j & Hj & Hw)|(q & Hq & Hoq)]; [left; exact (Back j Hj Hw)|].
  replace (S i + (k - S i)) with k in Hq by lia.
  pose proof (notify_pend n cf ac Hinf k b e2 t u true q Eb He2 Hin2 Hq Hoq) as Hpend.
  destruct (notify_wakes n cf ac Hinf HF (S k) t u true Hpend) as (j & a' & e' & Hj & Ea' & He' & [[Hw|(Hf & _)]|Hf]); [|discriminate|].
  - left. apply (Back (S j)); [lia|]. exact (wake_ev _ _ _ _ _ He' Hw).
  - right. exists j. split; [lia|]. exists a', e'. auto.
Qed.
Print Assumptions C83_cv_any_notify_all.

(** C83: a later call of notify_one() that does not throw brings it or a thread woken by that call back to its lock. *)
Theorem C83_cv_any_notify_one : forall n cf ac, infinite gv_step (gv_init n) cf ac -> strongly_fair gv_acts gv_enabled cf ac ->
  forall i k t u, reports cf ac i (ERel t) -> i < k -> reports cf ac k (ENotify u false) ->
  (exists j, i < j /\ relocking (cf j) t) \/ (exists l j w, k < l < j /\ reports cf ac l (ESig u w) /\ relocking (cf j) w) \/
  (exists j, k < j /\ reports cf ac j (ENotified u false)).
Proof.
  intros n cf ac Hinf HF i k t u (a & e & Ea & He & Hin) Hik (b & e2 & Eb & He2 & Hin2). pose proof (rel_pc _ _ _ _ _ He Hin) as Hp.
  assert (Back : forall j, S i <= j -> pcof (cf j) t = Some GWok -> exists j, i < j /\ relocking (cf j) t).
  { intros j Hj Hw. destruct (woken_back n cf ac Hinf HF j t Hw) as (l & Hl & Hu). exists l. split; [lia|exact Hu]. }
  destruct (out_until n cf ac Hinf t (S i) GCond Hp eq_refl (k - S i)) as [(j & Hj & Hw)|(q & Hq & Hoq)]; [left; exact (Back j Hj Hw)|].
  replace (S i + (k - S i)) with k in Hq by lia.
  pose proof (notify_pend n cf ac Hinf k b e2 t u false q Eb He2 Hin2 Hq Hoq) as Hpend.
  destruct (notify_wakes n cf ac Hinf HF (S k) t u false Hpend) as (j & a' & e' & Hj & Ea' & He' & [[Hw|(_ & w & Hw)]|Hf]).
  - left. apply (Back (S j)); [lia|]. exact (wake_ev _ _ _ _ _ He' Hw).
  - right; left. assert (Hw' : pcof (cf (S j)) w = Some GWok) by (eapply wake_ev; eauto; eapply sig_wake; eauto).
    destruct (woken_back n cf ac Hinf HF (S j) w Hw') as (l & Hl & Hu). exists j, l, w. split; [lia|]. split; [exists a', e'; auto|exact Hu].
  - right; right. exists j. split; [lia|]. exists a', e'. auto.
Qed.
Print Assumptions C83_cv_any_notify_one.

(** If every thread that re-locks its lock goes on some time, the wait returns (or throws what the lock throws). *)
Theorem C83_cv_any_wait_returns : forall n cf ac, infinite gv_step (gv_init n) cf ac -> strongly_fair gv_acts gv_enabled cf ac ->
  (forall j t, relocking (cf j) t -> exists l ch, j <= l /\ ac l = Some (ARun t ch)) ->
  forall i k t u, reports cf ac i (ERel t) -> i < k -> reports cf ac k (ENotify u true) ->
  (exists j ok, i < j /\ reports cf ac j (EDone t ok)) \/ (exists j, k < j /\ reports cf ac j (ENotified u false)).
Proof.
  intros n cf ac Hinf HF HU i k t u H1 Hik H2. destruct (C83_cv_any_notify_all n cf ac Hinf HF i k t u H1 Hik H2) as [(j & Hj & Hr)|Hf]; [left|right; exact Hf].
  destruct (HU j t Hr) as (l & ch & Hl & El).
  assert (W : forall d, (exists j' ch', j <= j' < j + d /\ ac j' = Some (ARun t ch') /\ relocking (cf j') t) \/ relocking (cf (j + d)) t).
  { induction d as [|d [(j' & ch' & Hj' & W)|W]]; [right; rewrite Nat.add_0_r; exact Hr|left; exists j', ch'; split; [lia|exact W]|].
    pose proof (proj2 Hinf (j + d)) as Hh. unfold happens in Hh. replace (j + S d) with (S (j + d)) by lia.
    destruct (ac (j + d)) as [a|] eqn:Ea; [|right; rewrite Hh; exact W]. destruct Hh as (e & He).
    assert (D : (exists c, a = ARun t c) \/ ~ gv_acts a t) by (destruct a as [v|v al|v c]; cbn; auto; destruct (Nat.eq_dec v t) as [->|]; eauto).
    destruct D as [(c & ->)|Hna]; [left; exists (j + d), c; split; [lia|auto]|]. right. unfold relocking in *.
    destruct (cf (j + d)) as [m ths], (cf (S (j + d))) as [m' ths']. cbn [snd] in *. eapply gv_frame; eauto. }
  assert (D : exists j' ch', j <= j' /\ ac j' = Some (ARun t ch') /\ relocking (cf j') t).
  { destruct (W (l - j)) as [(j' & ch' & Hj' & D)|D]; [exists j', ch'; split; [lia|exact D]|]. replace (j + (l - j)) with l in D by lia. exists l, ch. auto. }
  destruct D as (j' & ch' & Hj' & Ea & Hp). pose proof (proj2 Hinf j') as Hh. rewrite Ea in Hh. destruct Hh as (e & He). unfold relocking in Hp.
  exists j', (match ch' with CFail => false | _ => true end). split; [lia|]. exists (ARun t ch'), e. split; [exact Ea|]. split; [exact He|].
  destruct (cf j') as [m ths]. cbn [gv_step snd] in *. rewrite Hp in He. inversion He; subst. left. reflexivity.
Qed.
Print Assumptions C83_cv_any_wait_returns.

(** Threads 0 and 1 wait; thread 2 calls notify_all(); both return. *)
Definition ga_pre : list gact := let r t := ARun t CNorm in [AWait 0; r 0; r 0; r 0; AWait 1; r 1; r 1; r 1].
Definition ga_all : list gact := let r t := ARun t CNorm in ga_pre ++ [ANotify 2 true; r 2; r 2; r 2; r 0; r 0; r 0; r 1; r 1; r 1].
Example C83_cv_any_example : exists cf ac, infinite gv_step (gv_init 3) cf ac /\ strongly_fair gv_acts gv_enabled cf ac /\
  reports cf ac 2 (ERel 0) /\ reports cf ac 6 (ERel 1) /\ reports cf ac 8 (ENotify 2 true) /\ relocking (cf 14) 0 /\ relocking (cf 17) 1.
Proof.
  destruct (exec gv_step (gv_init 3) ga_all) as [[c tr]|] eqn:E; [|vm_compute in E; discriminate].
  assert (Ec : c = (None, [GIdle; GIdle; GIdle])) by (vm_compute in E; inversion E; reflexivity).
  destruct (finite_fair gv_step gv_acts gv_enabled _ _ _ _ E) as (cf & ac & H1 & H2 & H3 & H4 & H5).
  { rewrite Ec. intros t (_ & _ & ch & c' & e & _ & H). destruct t as [|[|[|[|t]]]]; cbn in H; discriminate. }
  exists cf, ac. split; [exact H1|]. split.
  { intros t i. exists (max i (length ga_all)). split; [lia|]. right. intros k Hk. rewrite H3 by lia. rewrite Ec. intros (_ & _ & ch & c' & e & _ & H). destruct t as [|[|[|[|t]]]]; cbn in H; discriminate. }
  assert (C : forall i, exec gv_step (gv_init 3) (firstn i ga_all) <> None /\ forall x, match exec gv_step (gv_init 3) (firstn i ga_all) with Some (y, _) => y = x | None => False end -> cf i = x).
  { intros i. destruct (H4 i) as (e & Hx). rewrite Hx. split; [discriminate|auto]. }
  assert (R : forall i a e x y, nth_error ga_all i = Some a -> match exec gv_step (gv_init 3) (firstn i ga_all) with Some (z, _) => z = x | None => False end ->
     match exec gv_step (gv_init 3) (firstn (S i) ga_all) with Some (z, _) => z = y | None => False end -> gv_step x a = Some (y, e) -> forall ev, In ev e -> reports cf ac i ev).
  { intros i a e x y Ha Hx Hy Hs ev Hin. exists a, e. rewrite H5. split; [exact Ha|]. rewrite (proj2 (C i) x Hx), (proj2 (C (S i)) y Hy). auto. }
  repeat split.
  - eapply R; try reflexivity. left; reflexivity.
  - eapply R; try reflexivity. left; reflexivity.
  - eapply R; try reflexivity. left; reflexivity.
  - unfold relocking. erewrite (proj2 (C 14)) by (vm_compute; reflexivity). reflexivity.
  - unfold relocking. erewrite (proj2 (C 17)) by (vm_compute; reflexivity). reflexivity.
Qed.

(** A single waiter may starve under notify_one(), although the calls go on for ever and each of them wakes a waiter: thread 1 comes back and is woken each time. *)
Definition ga_round : list gact := let r t := ARun t CNorm in [ANotify 2 false; r 2; ARun 2 (CPick 1); r 2; r 1; r 1; r 1; AWait 1; r 1; r 1; r 1].
Definition ga_cfg : gst := (None, [GBlk; GBlk; GIdle]).
Theorem C83_cv_any_notify_one_refuted : exists cf ac, infinite gv_step (gv_init 3) cf ac /\ strongly_fair gv_acts gv_enabled cf ac /\
  (forall i, 8 <= i -> nth_error (snd (cf i)) 0 = Some GBlk) /\ (forall i, exists j, i <= j /\ reports cf ac j (ESig 2 1)).
Proof.
  destruct (exec gv_step (gv_init 3) ga_pre) as [[c tr]|] eqn:E; [|vm_compute in E; discriminate].
  assert (Ec : c = ga_cfg) by (vm_compute in E; inversion E; reflexivity). subst c.
  destruct (exec gv_step ga_cfg ga_round) as [[c tr2]|] eqn:E2; [|vm_compute in E2; discriminate].
  assert (Ec : c = ga_cfg) by (vm_compute in E2; inversion E2; reflexivity). subst c.
  destruct (lasso_fair gv_step gv_acts gv_enabled (gv_init 3) _ _ _ ga_round tr2 E E2) as (cf & ac & H1 & H2 & H0 & H3).
  { cbn. lia. }
  { intros t. destruct t as [|[|[|t]]].
    - right. intros i Hi (Hb & _). apply Hb. change (length ga_round) with 11 in Hi. clear - Hi. do 11 (destruct i as [|i]; [vm_compute; reflexivity|]). lia.
    - left. exists (ARun 1 CNorm). split; [cbn; tauto|reflexivity].
    - left. exists (ARun 2 CNorm). split; [cbn; tauto|reflexivity].
    - right. intros i Hi (_ & _ & ch & c' & e & _ & H). change (length ga_round) with 11 in Hi.
      do 11 (destruct i as [|i]; [vm_compute in H; destruct t; discriminate|]). lia. }
  exists cf, ac. split; [exact H1|]. split; [exact H2|]. change (length ga_round) with 11 in *. change (length ga_pre) with 8 in *. split.
  - intros i Hi. assert (D : exists k x, i = 8 + k * 11 + x /\ x < 11).
    { exists ((i - 8) / 11), ((i - 8) mod 11). pose proof (Nat.div_mod (i - 8) 11 ltac:(lia)). pose proof (Nat.mod_upper_bound (i - 8) 11 ltac:(lia)). split; lia. }
    destruct D as (k & x & -> & U). rewrite (proj1 (H3 k x U)). clear - U. do 11 (destruct x as [|x]; [vm_compute; reflexivity|]). lia.
  - intros i. exists (8 + i * 11 + 2). split; [lia|]. exists (ARun 2 (CPick 1)), [ESig 2 1; EWake 1]. rewrite (proj2 (H3 i 2 ltac:(lia))). split; [reflexivity|].
    replace (S (8 + i * 11 + 2)) with (8 + i * 11 + 3) by lia. rewrite (proj1 (H3 i 2 ltac:(lia))), (proj1 (H3 i 3 ltac:(lia))). split; [vm_compute; reflexivity|left; reflexivity].
Qed.
Print Assumptions C83_cv_any_notify_one_refuted.

(** Weak fairness does not suffice: the internal mutex, being a mutex of the system, may be handed to other callers for ever.  Thread 0 calls
    notify_all() and waits for the internal mutex while thread 1 notifies again and again. *)
Definition gw_round : list gact := let r t := ARun t CNorm in [ANotify 1 true; r 1; r 1; r 1].
Definition gw_cfg : gst := (None, [GNLock true; GIdle]).
Theorem C83_cv_any_weak_refuted : exists cf ac, infinite gv_step (gv_init 2) cf ac /\ fair gv_acts gv_enabled cf ac /\ reports cf ac 0 (ENotify 0 true) /\
  (forall j ok, ~ reports cf ac j (ENotified 0 ok)).
Proof.
  destruct (exec gv_step (gv_init 2) [ANotify 0 true]) as [[c tr]|] eqn:E; [|vm_compute in E; discriminate].
  assert (Ec : c = gw_cfg) by (vm_compute in E; inversion E; reflexivity). subst c.
  destruct (exec gv_step gw_cfg gw_round) as [[c tr2]|] eqn:E2; [|vm_compute in E2; discriminate].
  assert (Ec : c = gw_cfg) by (vm_compute in E2; inversion E2; reflexivity). subst c.
  destruct (lasso_weak gv_step gv_acts gv_enabled (gv_init 2) _ _ _ gw_round tr2 E E2) as (cf & ac & H1 & H2 & H0 & H3).
  { cbn. lia. }
  { intros t. destruct t as [|[|t]].
    - right. exists 2. split; [cbn; lia|]. intros (_ & _ & ch & c' & e & Hc & H). vm_compute in H. destruct ch; [discriminate|congruence|discriminate].
    - left. exists (ARun 1 CNorm). split; [cbn; tauto|reflexivity].
    - right. exists 0. split; [cbn; lia|]. intros (_ & _ & ch & c' & e & _ & H). vm_compute in H. destruct t; discriminate. }
  exists cf, ac. split; [exact H1|]. split; [exact H2|]. change (length gw_round) with 4 in *. cbn [length] in *. split.
  - exists (ANotify 0 true), [ENotify 0 true]. rewrite (H0 0 ltac:(lia)). split; [reflexivity|]. rewrite (proj1 H1).
    pose proof (proj1 (H3 0 0 ltac:(lia))) as E1. cbn in E1. rewrite E1. split; [vm_compute; reflexivity|left; reflexivity].
  - intros j ok (a & e & Ea & He & Hin). destruct j as [|j].
    + rewrite (H0 0 ltac:(lia)) in Ea. inversion Ea; subst a. rewrite (proj1 H1) in He. vm_compute in He. inversion He; subst. destruct Hin as [|[]]; discriminate.
    + assert (D : exists k x, S j = 1 + k * 4 + x /\ x < 4).
      { exists (j / 4), (j mod 4). pose proof (Nat.div_mod j 4 ltac:(lia)). pose proof (Nat.mod_upper_bound j 4 ltac:(lia)). split; lia. }
      destruct D as (k & x & Ej & U). rewrite Ej in *. rewrite (proj2 (H3 k x U)) in Ea. rewrite (proj1 (H3 k x U)) in He. remember (cf (S (1 + k * 4 + x))) as c' eqn:Ec. clear Ec.
      do 4 (destruct x as [|x]; [vm_compute in Ea; inversion Ea; subst a; vm_compute in He; inversion He; subst; cbn in Hin; intuition discriminate|]). lia.
Qed.
Print Assumptions C83_cv_any_weak_refuted.
