(** Property theorems: generic condition_variable_any (C27). *)
From Coq Require Import List Bool Arith Lia.
From Verif Require Import ListSum Exec CvAnyModel.
Import ListNotations.

(** [released t tr]: the last thing the history says about [t]'s wait is that it released the user's lock. *)
Fixpoint released_rev (t : nat) (l : list gev) : bool :=
  match l with
  | [] => false
  | ERel u :: l' => if Nat.eqb u t then true else released_rev t l'
  | EWake u :: l' => if Nat.eqb u t then false else released_rev t l'
  | EDone u _ :: l' => if Nat.eqb u t then false else released_rev t l'
  | _ :: l' => released_rev t l'
  end.
Definition released (t : nat) (tr : list gev) : bool := released_rev t (rev tr).

Definition out_pc (p : gpc) : bool := match p with GCond | GBlk => true | _ => false end.
Definition in_crit (p : gpc) : bool := match p with GUnl | GCond | GRel | GNSig _ | GNUnl _ => true | _ => false end.

Definition GI (c : gst) (tr : list gev) : Prop :=
  (forall t p, nth_error (snd c) t = Some p -> in_crit p = true -> fst c = Some t) /\
  (forall t p, nth_error (snd c) t = Some p -> released t tr = out_pc p) /\
  (forall t, nth_error (snd c) t = None -> released t tr = false).

Definition ev_of (t : nat) (e : gev) : bool := match e with ERel u | EWake u | EDone u _ => Nat.eqb u t | _ => false end.
Lemma rel_other t tr e : forallb (fun x => negb (ev_of t x)) e = true -> released t (tr ++ e) = released t tr.
Proof.
  unfold released. rewrite rev_app_distr. intros H.
  assert (H' : forall x, In x (rev e) -> ev_of t x = false).
  { intros x Hx. apply in_rev in Hx. rewrite forallb_forall in H. specialize (H x Hx). destruct (ev_of t x); [discriminate|reflexivity]. }
  clear H. revert H'. induction (rev e) as [|x l IH]; intros H'; [reflexivity|]. cbn [app released_rev].
  pose proof (H' x (or_introl eq_refl)) as Hx. specialize (IH (fun y Hy => H' y (or_intror Hy))).
  destruct x; cbn [ev_of] in Hx; rewrite ?Hx; exact IH.
Qed.
Lemma rel_last t tr e b : (e = ERel t /\ b = true) \/ (e = EWake t /\ b = false) \/ (exists k, e = EDone t k /\ b = false) -> released t (tr ++ [e]) = b.
Proof.
  unfold released. rewrite rev_app_distr. cbn [rev app]. intros [(-> & ->)|[(-> & ->)|(k & -> & ->)]]; cbn [released_rev]; rewrite Nat.eqb_refl; reflexivity.
Qed.

Lemma blocked_In ths t : In t (blocked ths) <-> nth_error ths t = Some GBlk.
Proof.
  unfold blocked. rewrite filter_In, in_seq. split.
  - intros (_ & H). destruct (nth_error ths t) as [[]|]; cbn in H; try discriminate; reflexivity.
  - intros H. rewrite H. split; [|reflexivity]. split; [lia|]. cbn. apply nth_error_Some. congruence.
Qed.

Lemma rel_wakes t tr l : released t (tr ++ map EWake l) = if existsb (Nat.eqb t) l then false else released t tr.
Proof.
  revert tr. induction l as [|x l IH]; intros tr; cbn [map existsb]; [rewrite app_nil_r; reflexivity|].
  change (EWake x :: map EWake l) with ([EWake x] ++ map EWake l). rewrite app_assoc, IH.
  destruct (Nat.eqb_spec t x) as [->|Hne]; cbn [orb].
  - rewrite (rel_last x tr (EWake x) false) by auto. destruct (existsb (Nat.eqb x) l); reflexivity.
  - destruct (existsb (Nat.eqb t) l); [reflexivity|]. apply rel_other. cbn. rewrite (proj2 (Nat.eqb_neq x t)) by congruence. reflexivity.
Qed.

(** One thread [t] moves from [p] to [q]; the others are unaffected. *)
Lemma GI_move m ths tr t p q m' e :
  GI (m, ths) tr -> nth_error ths t = Some p ->
  (in_crit p = true \/ m = None \/ m' = m) ->
  (in_crit q = true -> m' = Some t) ->
  (forall u, u <> t -> forallb (fun x => negb (ev_of u x)) e = true) ->
  released t (tr ++ e) = out_pc q ->
  GI (m', upd ths t q) (tr ++ e).
Proof.
  intros (H1 & H2 & H3) Ht Hm Hq Hu He. cbn [fst snd] in *. split; [|split]; cbn [fst snd].
  - intros u x Hx Hc. apply nth_upd_inv in Hx. destruct Hx as [(<- & -> & _)|(Hne & Hx)]; [auto|].
    pose proof (H1 u x Hx Hc) as Hown. destruct Hm as [Hp|[Hp|Hp]]; [|congruence|congruence].
    specialize (H1 t p Ht Hp). congruence.
  - intros u x Hx. apply nth_upd_inv in Hx. destruct Hx as [(<- & -> & _)|(Hne & Hx)]; [exact He|].
    rewrite rel_other by (apply Hu; congruence). auto.
  - intros u Hn. assert (u <> t). { intros ->. apply nth_error_None in Hn. rewrite upd_length in Hn. apply nth_error_None in Hn. congruence. }
    rewrite rel_other by auto. apply H3. rewrite nth_upd_neq in Hn by congruence. exact Hn.
Qed.

Lemma wake_nth ths u x : nth_error (wake_all ths) u = Some x ->
  (x = GWok /\ nth_error ths u = Some GBlk) \/ (nth_error ths u = Some x /\ x <> GBlk).
Proof.
  unfold wake_all. intros H. apply nth_map_inv in H. destruct H as (y & Hy & <-). destruct y; cbn; auto; right; split; auto; discriminate.
Qed.

Lemma GI_step c tr a c' e : GI c tr -> gv_step c a = Some (c', e) -> GI c' (tr ++ e).
Proof.
  intros HI H. destruct c as [m ths]. pose proof HI as (H1 & H2 & H3). cbn [fst snd] in H1, H2, H3.
  assert (Hone : forall t p q m' e0, nth_error ths t = Some p -> (in_crit p = true \/ m = None \/ m' = m) -> (in_crit q = true -> m' = Some t) ->
     (e0 = [] \/ (forall u x, In x e0 -> ev_of u x = false)) -> out_pc q = out_pc p -> GI (m', upd ths t q) (tr ++ e0)).
  { intros t p q m' e0 Ht Hm Hq He0 Ho. eapply GI_move; eauto.
    - intros u _. apply forallb_forall. intros x Hx. destruct He0 as [->|He0]; [destruct Hx|]. rewrite (He0 u x Hx). reflexivity.
    - rewrite rel_other; [rewrite Ho; auto|]. apply forallb_forall. intros x Hx. destruct He0 as [->|He0]; [destruct Hx|]. rewrite (He0 t x Hx). reflexivity. }
  assert (Hnon : forall t p q m' e0 b, nth_error ths t = Some p -> (in_crit p = true \/ m = None \/ m' = m) -> (in_crit q = true -> m' = Some t) ->
     (e0 = ERel t /\ b = true) \/ (e0 = EWake t /\ b = false) \/ (exists k, e0 = EDone t k /\ b = false) -> out_pc q = b -> GI (m', upd ths t q) (tr ++ [e0])).
  { intros t p q m' e0 b Ht Hm Hq He0 Ho. eapply GI_move; eauto.
    - intros u Hu. cbn. apply Nat.eqb_neq in Hu. rewrite Nat.eqb_sym in Hu. destruct He0 as [(-> & _)|[(-> & _)|(k & -> & _)]]; cbn; rewrite Hu; reflexivity.
    - rewrite Ho. apply rel_last. exact He0. }
  assert (Hown : forall t p, nth_error ths t = Some p -> in_crit p = true -> m = Some t) by exact H1.
  destruct a as [t|t al|t ch]; cbn [gv_step] in H; destruct (nth_error ths t) as [p|] eqn:Ht; try discriminate.
  - destruct p; inversion H; subst. eapply Hone; eauto; cbn; try discriminate; auto.
  - destruct p; inversion H; subst. eapply Hone; eauto; cbn; try discriminate; auto. right. intros u x [<-|[]]. reflexivity.
  - destruct p; try discriminate.
    + destruct ch, m as [w|]; inversion H; subst;
        try (eapply Hone; eauto; cbn; try discriminate; auto; fail); eapply Hnon; eauto; cbn; try discriminate; auto; right; right; eauto.
    + pose proof (Hown _ _ Ht eq_refl) as Hm. destruct ch; inversion H; subst; eapply Hnon; eauto; cbn; try discriminate; auto; right; right; eauto.
    + pose proof (Hown _ _ Ht eq_refl) as Hm. inversion H; subst. eapply Hone; eauto; cbn; try discriminate; auto.
    + inversion H; subst. eapply Hnon; eauto; cbn; try discriminate; auto.
    + destruct m; inversion H; subst. eapply Hone; eauto; cbn; try discriminate; auto.
    + pose proof (Hown _ _ Ht eq_refl) as Hm. inversion H; subst. eapply Hone; eauto; cbn; try discriminate; auto.
    + inversion H; subst. eapply Hnon; eauto; cbn; try discriminate; auto; right; right; eauto.
    + destruct ch, m as [w|]; inversion H; subst; eapply Hone; eauto; cbn; try discriminate; auto; right; intros u x [<-|[]]; reflexivity.
    + pose proof (Hown _ _ Ht eq_refl) as Hm. destruct all.
      * inversion H; subst. split; [|split]; cbn [fst snd].
        -- intros u x Hx Hc. apply nth_upd_inv in Hx. destruct Hx as [(<- & -> & _)|(Hne & Hx)]; [reflexivity|].
           apply wake_nth in Hx. destruct Hx as [(-> & _)|(Hx & _)]; [discriminate|]. apply (H1 u x Hx Hc).
        -- intros u x Hx. rewrite rel_wakes. apply nth_upd_inv in Hx. destruct Hx as [(<- & -> & _)|(Hne & Hx)].
           ++ rewrite (H2 _ _ Ht). destruct (existsb _ _); reflexivity.
           ++ apply wake_nth in Hx. destruct Hx as [(-> & Hx)|(Hx & Hn)].
              ** apply blocked_In in Hx. replace (existsb (Nat.eqb u) (blocked ths)) with true; [reflexivity|].
                 symmetry. apply existsb_exists. exists u. split; [exact Hx|apply Nat.eqb_refl].
              ** rewrite (H2 _ _ Hx). destruct (existsb (Nat.eqb u) (blocked ths)) eqn:Ex; [|reflexivity].
                 apply existsb_exists in Ex. destruct Ex as (y & Hy & Ey). apply Nat.eqb_eq in Ey. subst y. apply blocked_In in Hy. congruence.
        -- intros u Hn. rewrite rel_wakes. destruct (existsb (Nat.eqb u) (blocked ths)); [reflexivity|]. apply H3.
           apply nth_error_None in Hn. rewrite upd_length in Hn. unfold wake_all in Hn. rewrite map_length in Hn. apply nth_error_None. exact Hn.
      * assert (Hpick : forall u, nth_error ths u = Some GBlk -> GI (m, upd (upd ths u GWok) t (GNUnl false)) (tr ++ [ESig t u; EWake u])).
        { intros u Hu. assert (Hne : u <> t) by congruence. change [ESig t u; EWake u] with ([ESig t u] ++ [EWake u]). rewrite app_assoc, upd_comm by exact Hne.
          eapply GI_move with (p := GBlk) (m := m).
          - eapply (Hone t (GNSig false) (GNUnl false) m [ESig t u]); eauto. right. intros w x [<-|[]]. reflexivity.
          - rewrite nth_upd_neq by congruence. exact Hu.
          - auto.
          - discriminate.
          - intros w Hw. cbn. apply Nat.eqb_neq in Hw. rewrite Nat.eqb_sym in Hw. rewrite Hw. reflexivity.
          - apply rel_last. auto. }
        destruct ch as [| |u].
        -- destruct (blocked ths); inversion H; subst. eapply Hone; eauto; cbn; auto.
        -- destruct (blocked ths); inversion H; subst. eapply Hone; eauto; cbn; auto.
        -- destruct (nth_error ths u) as [[]|] eqn:Hu; try discriminate. inversion H; subst. auto.
    + pose proof (Hown _ _ Ht eq_refl) as Hm. inversion H; subst. eapply Hone; eauto; cbn; try discriminate; auto. right. intros u x [<-|[]]. reflexivity.
Qed.

Lemma GI_exec n sched c tr : exec gv_step (gv_init n) sched = Some (c, tr) -> GI c tr.
Proof.
  apply (exec_inv gv_step GI).
  - split; [|split]; cbn [fst snd gv_init].
    + intros t p Hp Hc. apply nth_repeat in Hp. subst. discriminate.
    + intros t p Hp. apply nth_repeat in Hp. subst. reflexivity.
    + reflexivity.
  - intros c1 t1 a c2 e HP Hs. eapply GI_step; eauto.
Qed.

(** The notifier [u] is between its call and m_cond's signal, and [t] is still waiting. *)
Definition pending (t u : nat) (all : bool) (c : gst) : Prop :=
  (nth_error (snd c) u = Some (GNLock all) \/ nth_error (snd c) u = Some (GNSig all)) /\
  (exists p, nth_error (snd c) t = Some p /\ out_pc p = true).
Definition outcome (t u : nat) (all : bool) (tr : list gev) : Prop := In (EWake t) tr \/ (all = false /\ exists x, In (ESig u x) tr).

Lemma pending_step t u al c tr a c' e : GI c tr -> pending t u al c -> gv_step c a = Some (c', e) ->
  outcome t u al e \/ In (ENotified u false) e \/ (pending t u al c' /\ ~ In (ENotified u true) e).
Proof.
  intros HI (Hu & p & Ht & Hp) H. destruct c as [m ths]. destruct HI as (H1 & _). cbn [fst snd] in *.
  assert (Hut : u <> t). { intros ->. destruct Hu as [Hu|Hu]; rewrite Ht in Hu; inversion Hu; subst; discriminate. }
  assert (Hkeep : forall w q x m', nth_error ths w = Some x -> w <> u -> (w = t -> out_pc q = true) -> pending t u al (m', upd ths w q)).
  { intros w q x m' Hw Hwu Hwt. split; cbn [snd].
    - rewrite nth_upd_neq by congruence. exact Hu.
    - destruct (Nat.eq_dec w t) as [->|Hne]; [exists q; split; [eapply nth_upd_eq; eauto|auto]|].
      exists p. rewrite nth_upd_neq by congruence. auto. }
  destruct a as [w|w al'|w ch]; cbn [gv_step] in H; destruct (nth_error ths w) as [x|] eqn:Hw; try discriminate.
  - destruct x; inversion H; subst. right; right. split; [eapply Hkeep; eauto|intros []].
    + intros ->. destruct Hu as [Hu|Hu]; congruence.
    + intros ->. rewrite Hw in Ht. inversion Ht; subst. discriminate.
  - destruct x; inversion H; subst. right; right. split; [eapply Hkeep; eauto|intros [|[]]; discriminate].
    + intros ->. destruct Hu as [Hu|Hu]; congruence.
    + intros ->. rewrite Hw in Ht. inversion Ht; subst. discriminate.
  - destruct (Nat.eq_dec w u) as [->|Hwu].
    + (* the notifier itself *)
      destruct Hu as [Hu|Hu]; rewrite Hw in Hu; inversion Hu; subst x.
      * destruct ch, m as [o|]; inversion H; subst; try (right; left; left; reflexivity);
          (right; right; split; [|intros []]; split; cbn [snd]; [right; eapply nth_upd_eq; eauto|exists p; rewrite nth_upd_neq by congruence; auto]).
      * pose proof (H1 _ _ Hw eq_refl) as Hm. assert (p = GBlk) as ->.
        { destruct p; try discriminate; [|reflexivity]. pose proof (H1 _ _ Ht eq_refl). congruence. }
        destruct al.
        -- inversion H; subst. left. left. apply in_map. apply blocked_In. exact Ht.
        -- assert (Hb : blocked ths <> []) by (intros E; apply (proj2 (blocked_In ths t)) in Ht; rewrite E in Ht; destruct Ht).
           destruct ch as [| |y]; try (destruct (blocked ths); [congruence|discriminate]).
           destruct (nth_error ths y) as [[]|]; try discriminate. inversion H; subst. left. right. split; [reflexivity|]. exists y. left. reflexivity.
    + destruct x; try discriminate.
      * destruct ch, m as [o|]; inversion H; subst; right; right; (split; [eapply Hkeep; eauto; intros ->; rewrite Hw in Ht; inversion Ht; subst; discriminate|intros Hx; cbn in Hx; intuition discriminate]).
      * destruct ch; inversion H; subst; right; right; (split; [eapply Hkeep; eauto; intros ->; rewrite Hw in Ht; inversion Ht; subst; discriminate|intros Hx; cbn in Hx; intuition discriminate]).
      * inversion H; subst; right; right; (split; [eapply Hkeep; eauto|intros []]).
      * inversion H; subst. destruct (Nat.eq_dec w t) as [->|Hne]; [left; left; left; reflexivity|].
        right; right; (split; [eapply Hkeep; eauto; congruence|intros [|[]]; discriminate]).
      * destruct m; inversion H; subst; right; right; (split; [eapply Hkeep; eauto; intros ->; rewrite Hw in Ht; inversion Ht; subst; discriminate|intros []]).
      * inversion H; subst; right; right; (split; [eapply Hkeep; eauto; intros ->; rewrite Hw in Ht; inversion Ht; subst; discriminate|intros []]).
      * inversion H; subst; right; right; (split; [eapply Hkeep; eauto; intros ->; rewrite Hw in Ht; inversion Ht; subst; discriminate|intros [|[]]; discriminate]).
      * destruct ch, m as [o|]; inversion H; subst; right; right; (split; [eapply Hkeep; eauto; intros ->; rewrite Hw in Ht; inversion Ht; subst; discriminate|intros Hx; cbn in Hx; intuition congruence]).
      * pose proof (H1 _ _ Hw eq_refl) as Hm.
        assert (p = GBlk) as ->. { destruct p; try discriminate; [|reflexivity]. pose proof (H1 _ _ Ht eq_refl). congruence. }
        destruct all; [inversion H; subst; left; left; apply in_map, blocked_In; exact Ht|].
        assert (Hb : blocked ths <> []) by (intros E; apply (proj2 (blocked_In ths t)) in Ht; rewrite E in Ht; destruct Ht).
        destruct ch as [| |y]; try (destruct (blocked ths); [congruence|discriminate]).
        destruct (nth_error ths y) as [[]|] eqn:Hy; try discriminate. inversion H; subst.
        destruct (Nat.eq_dec y t) as [->|Hyt]; [left; left; right; left; reflexivity|].
        right; right. split; [|intros Hx; cbn in Hx; intuition discriminate]. split; cbn [snd].
        -- rewrite !nth_upd_neq by (try congruence; intros ->; destruct Hu; congruence). exact Hu.
        -- exists GBlk. rewrite !nth_upd_neq by (try congruence; intros ->; congruence). auto.
      * inversion H; subst; right; right; (split; [eapply Hkeep; eauto; intros ->; rewrite Hw in Ht; inversion Ht; subst; discriminate|intros Hx; cbn in Hx; intuition congruence]).
Qed.

(** If [t] has released the user's lock inside wait() and has not been woken, then any notify_all() called from now on and
    returning normally has woken it by then; a notify_one() has woken it or another waiting thread. *)
Theorem C27_not_missed : forall n s1 s2 c1 tr1 c2 tr2 t u all,
  exec gv_step (gv_init n) s1 = Some (c1, tr1) -> released t tr1 = true ->
  exec gv_step c1 (ANotify u all :: s2) = Some (c2, tr2) ->
  In (ENotified u true) tr2 -> ~ In (ENotified u false) tr2 ->
  In (EWake t) tr2 \/ (all = false /\ exists x, In (ESig u x) tr2).
Proof.
  intros n s1 s2 c1 tr1 c2 tr2 t u al H1 Hr H2 Hin Hnf. pose proof (GI_exec _ _ _ _ H1) as HI.
  cbn [exec] in H2. destruct (gv_step c1 (ANotify u al)) as [[c3 e3]|] eqn:Hs; [|discriminate].
  destruct (exec gv_step c3 s2) as [[c4 e4]|] eqn:Hx; [|discriminate]. inversion H2; subst c4 tr2. clear H2.
  pose proof (GI_step _ _ _ _ _ HI Hs) as HI3.
  assert (Hp : pending t u al c3 /\ e3 = [ENotify u al]).
  { destruct c1 as [m ths]. cbn [gv_step] in Hs. destruct (nth_error ths u) as [[]|] eqn:Hu; try discriminate. inversion Hs; subst.
    destruct HI as (_ & G2 & G3). cbn [fst snd] in *. split; [|reflexivity]. split; cbn [snd]; [left; eapply nth_upd_eq; eauto|].
    destruct (nth_error ths t) as [p|] eqn:Ht; [|rewrite (G3 t Ht) in Hr; discriminate].
    rewrite (G2 t p Ht) in Hr. exists p. split; [|exact Hr]. rewrite nth_upd_neq; [exact Ht|]. intros ->. rewrite Hu in Ht. inversion Ht; subst. discriminate. }
  destruct Hp as (Hp & ->).
  assert (Hall : GI c2 (tr1 ++ [ENotify u al] ++ e4) /\
     (outcome t u al e4 \/ In (ENotified u false) e4 \/ (pending t u al c2 /\ ~ In (ENotified u true) e4))).
  { revert Hx. apply (exec_inv gv_step (fun c e => GI c (tr1 ++ [ENotify u al] ++ e) /\
       (outcome t u al e \/ In (ENotified u false) e \/ (pending t u al c /\ ~ In (ENotified u true) e)))).
    - split; [rewrite app_nil_r; exact HI3|]. right; right. split; [exact Hp|intros []].
    - intros c5 e5 a c6 e6 (J1 & J2) Hs6. split; [rewrite (app_assoc [ENotify u al]), app_assoc; eapply GI_step; eauto|].
      destruct J2 as [J2|[J2|(J2 & J3)]].
      + left. destruct J2 as [J2|(J2 & x & J3)]; [left; apply in_or_app; auto|right; split; [exact J2|exists x; apply in_or_app; auto]].
      + right; left. apply in_or_app; auto.
      + destruct (pending_step _ _ _ _ _ _ _ _ J1 J2 Hs6) as [K|[K|(K1 & K2)]].
        * left. destruct K as [K|(K & x & K')]; [left; apply in_or_app; auto|right; split; [exact K|exists x; apply in_or_app; auto]].
        * right; left. apply in_or_app; auto.
        * right; right. split; [exact K1|]. intros Hy. apply in_app_or in Hy. tauto. }
  destruct Hall as (_ & [J|[J|(_ & J)]]).
  - destruct J as [J|(J & x & J')]; [left; right; exact J|right; split; [exact J|exists x; right; exact J']].
  - exfalso. apply Hnf. right. exact J.
  - exfalso. apply J. destruct Hin as [Hin|Hin]; [discriminate|exact Hin].
Qed.
Print Assumptions C27_not_missed.

(** Non-vacuity: thread 1 calls notify_all after thread 0 released the user's lock but before it is blocked in m_cond; it is woken. *)
Example C27_example : exists c1 tr1 c2 tr2,
  exec gv_step (gv_init 2) [AWait 0; ARun 0 CNorm; ARun 0 CNorm] = Some (c1, tr1) /\ released 0 tr1 = true /\
  exec gv_step c1 [ANotify 1 true; ARun 0 CNorm; ARun 1 CNorm; ARun 1 CNorm; ARun 1 CNorm] = Some (c2, tr2) /\
  tr2 = [ENotify 1 true; EWake 0; ENotified 1 true].
Proof. eexists _, _, _, _. repeat split; vm_compute; reflexivity. Qed.
