(** Generic proofs about monitor-style code (Monitor.v). *)
From Coq Require Import List Bool Arith ZArith Lia.
From Verif Require Import ListSum Exec Lin Thr Monitor.
Import ListNotations.
Local Open Scope Z_scope.

Definition b2z (b : bool) : Z := if b then 1 else 0.

Lemma nothrow_ok (SP : spec) (mi : nat -> mode SP -> ost SP -> Prop) : forall t o d r m, (nothrow o : option (res SP)) = Some r -> pre SP m o = true -> mi t m d -> otrans SP t o d r d /\ mi t (next SP m o r) d.
Proof. intros; discriminate. Qed.

Section Proof.
  Variable SP : spec.
  Notation D := (ost SP).
  Notation pc := (mpc SP).
  Variable body : nat -> op SP -> bool -> D -> bout D (res SP).
  Variable timed : op SP -> bool.
  Variables inner outer : bool.
  Variable thr : op SP -> option (res SP).
  Notation run := (mon_run SP body timed inner outer thr).
  Notation step := (mon_step SP body timed inner outer thr).
  Notation init := (mon_init SP).

  (** What the mode of a thread (e.g. "holds the mutex") says about the data; guard on the data (capacity). *)
  Variable mi : nat -> mode SP -> D -> Prop.
  Variable Gd : D -> Prop.
  Hypothesis mi_init : forall t, mi t (minit SP) (oinit SP).
  Hypothesis body_done : forall t o b d d' r nt m, Gd d -> pre SP m o = true -> mi t m d ->
    body t o b d = BDone d' r nt ->
    otrans SP t o d r d' /\ mi t (next SP m o r) d' /\ (forall u m', u <> t -> mi u m' d -> mi u m' d').
  Hypothesis body_fail : forall t o b d r m, Gd d -> pre SP m o = true -> mi t m d ->
    body t o b d = BFail r ->
    otrans SP t o d r d /\ (forall d', mi t m d' -> mi t (next SP m o r) d').

  Hypothesis thr_ok : forall t o d r m, thr o = Some r -> pre SP m o = true -> mi t m d -> otrans SP t o d r d /\ mi t (next SP m o r) d.

  Definition crit (p : pc) : Z :=
    match p with
    | PRead _ _ _ _ | PComp _ _ _ _ _ | PResleep _ _ _ | PNotify _ _ _ _ | PFail _ _ _ _ | PUnlock _ _ _ => 1
    | _ => 0
    end.
  Lemma crit_nn p : 0 <= crit p.  Proof. destruct p; cbn; lia. Qed.

  Definition ploc (t : nat) (d : D) (p : pc) : Prop :=
    match p with
    | PRest m => mi t m d
    | PLock m o _ | PRead m o _ _ | PResleep m o _ | PSleep m o _ | PWoken m o _ _ => mi t m d /\ pre SP m o = true
    | PComp m o _ _ d0 => mi t m d /\ pre SP m o = true /\ d0 = d
    | PFail m o _ r => mi t m d /\ pre SP m o = true /\ (forall d', mi t m d' -> mi t (next SP m o r) d')
    | PNotify m o r _ | PUnlock m o r | PDone m o r => mi t (next SP m o r) d
    end.

  Definition MInv (c : (bool * D) * list pc) : Prop :=
    sumf crit (snd c) = b2z (fst (fst c)) /\ forall t p, nth_error (snd c) t = Some p -> ploc t (snd (fst c)) p.

  Definition mabs (p : pc) : xth SP :=
    match p with
    | PRest m => XIdle m
    | PLock m o ob | PRead m o ob _ | PComp m o ob _ _ | PResleep m o ob | PSleep m o ob | PWoken m o ob _ => XPend m o ob
    | PFail m o ob r => XPend m o (r :: ob)
    | PNotify m o r _ | PUnlock m o r | PDone m o r => XDone m o r
    end.
  Definition mg (s : bool * D) (ths : list pc) : D := snd s.

  Lemma MInv_upd held d held' d' ths t q p :
    MInv ((held, d), ths) -> nth_error ths t = Some q ->
    (forall u p0, u <> t -> nth_error ths u = Some p0 -> ploc u d p0 -> ploc u d' p0) ->
    b2z held' = b2z held - crit q + crit p -> ploc t d' p ->
    MInv ((held', d'), upd ths t p).
  Proof.
    intros (H1 & H2) Ht Ho Hc Hp. cbn [fst snd] in *. split; cbn [fst snd].
    - rewrite (sumf_upd crit _ _ _ _ Ht). lia.
    - intros u p0 Hu. destruct (nth_upd_inv _ _ _ _ _ Hu) as [(<- & -> & _)|(Hne & Hu')]; auto.
  Qed.

  Lemma wake_crit p : crit (wake p) = crit p. Proof. destruct p; reflexivity. Qed.
  Lemma wake_abs p : mabs (wake p) = mabs p. Proof. destruct p; reflexivity. Qed.
  Lemma wake_loc t d p : ploc t d p -> ploc t d (wake p). Proof. destruct p; cbn; auto. Qed.

  Lemma MInv_wake s ths : MInv (s, ths) -> MInv (s, map wake ths).
  Proof.
    intros (H1 & H2). split; cbn [fst snd] in *.
    - rewrite sumf_map, <- H1. apply sumf_ext, wake_crit.
    - intros t p H. apply nth_map_inv in H. destruct H as (q & Hq & <-). apply wake_loc; auto.
  Qed.

  Lemma run_ok s ths t p ch s' ths' :
    MInv (s, ths) -> Gd (snd s) -> nth_error ths t = Some p -> mon_ret SP p = None -> run s ths t p ch = Some (s', ths') ->
    MInv (s', ths') /\ xsteps SP (mg s ths, map mabs ths) [] (mg s' ths', map mabs ths').
  Proof.
    destruct s as [held d]. cbn [snd]. intros HI HG Ht Hret Hr.
    pose proof HI as (HC & HL). cbn [fst snd] in HC, HL. pose proof (HL _ _ Ht) as Hp.
    assert (Hcrit : crit p = 1 -> held = true /\ forall u p0, u <> t -> nth_error ths u = Some p0 -> crit p0 = 0).
    { intros Hc. pose proof (sumf_elem crit _ _ _ crit_nn Ht) as He. split.
      - destruct held; cbn in HC; [reflexivity|lia].
      - intros u p0 Hne Hu. pose proof (sumf_two crit ths u t p0 p crit_nn Hne Hu Ht). pose proof (crit_nn p0).
        destruct held; cbn in HC; lia. }
    assert (Hsame : forall u p0, u <> t -> nth_error ths u = Some p0 -> ploc u d p0 -> ploc u d p0) by auto.
    assert (Hsil : forall held2 p2, mabs p2 = mabs p -> b2z held2 = b2z held - crit p + crit p2 -> ploc t d p2 ->
       MInv ((held2, d), upd ths t p2) /\ xsteps SP (mg (held, d) ths, map mabs ths) [] (mg (held2, d) (upd ths t p2), map mabs (upd ths t p2))).
    { intros held2 p2 Ha Hc Hl. split; [eapply MInv_upd; eauto|]. unfold mg. cbn [snd]. eapply sim_sil; eauto. }
    destruct p; cbn [mon_run mon_ret] in Hr, Hret; try discriminate.
    - (* PLock *)
      assert (G1 : (if held then None else Some ((true, d), upd ths t (PRead m o ob false))) = Some (s', ths') ->
        MInv (s', ths') /\ xsteps SP (mg (held, d) ths, map mabs ths) [] (mg s' ths', map mabs ths')).
      { clear Hr. intros Hr. destruct held; [discriminate|]. inversion Hr; subst. apply Hsil; cbn; auto. }
      destruct (thr o) as [r|] eqn:Et; [|exact (G1 Hr)]. destruct ch; try exact (G1 Hr).
      cbn [ploc] in Hp. destruct Hp as (Hm & Hpre). destruct (thr_ok _ _ _ _ _ Et Hpre Hm) as (Htr & Hm').
      inversion Hr; subst. split; [eapply MInv_upd; eauto; cbn; lia|]. unfold mg. cbn [snd]. eapply (sim_lin SP mabs); [exact Ht|reflexivity|reflexivity|exact Htr].
    - (* PRead *) inversion Hr; subst. cbn in Hp. apply Hsil; cbn; tauto || lia.
    - (* PComp *)
      destruct Hp as (Hm & Hpre & ->). destruct (Hcrit eq_refl) as (-> & Hothers).
      destruct (body t o b d) as [d' r nt| |r] eqn:Eb.
      + destruct (body_done _ _ _ _ _ _ _ _ HG Hpre Hm Eb) as (Htr & Hm' & Hoth).
        inversion Hr; subst; clear Hr. set (p2 := match nt with NNone => PUnlock m o r | _ => PNotify m o r nt end).
        assert (E : crit p2 = 1 /\ ploc t d' p2 /\ mabs p2 = XDone m o r) by (subst p2; destruct nt; cbn; auto).
        destruct E as (E1 & E2 & E3). split.
        * eapply MInv_upd; eauto.
          intros u p0 Hne Hu Hl. specialize (Hothers _ _ Hne Hu).
          destruct p0; cbn in Hothers; try discriminate; cbn in Hl |- *; intuition auto.
        * unfold mg. cbn [snd]. eapply (sim_lin SP mabs); [exact Ht|reflexivity|exact E3|exact Htr].
      + assert (G1 : match timed o, ch with true, MTimeout => Some ((true, d), upd ths t (PRead m o ob true)) | _, _ => Some ((false, d), upd ths t (PSleep m o ob)) end = Some (s', ths') ->
          MInv (s', ths') /\ xsteps SP (mg (true, d) ths, map mabs ths) [] (mg s' ths', map mabs ths')).
        { clear Hr. intros Hr. destruct (timed o), ch; inversion Hr; subst; clear Hr; (apply Hsil; cbn; auto). }
        destruct (thr o) as [r|] eqn:Et; [|exact (G1 Hr)]. destruct ch; try exact (G1 Hr).
        destruct (thr_ok _ _ _ _ _ Et Hpre Hm) as (Htr & Hm').
        inversion Hr; subst. split; [eapply MInv_upd; eauto; cbn; lia|]. unfold mg. cbn [snd]. eapply (sim_lin SP mabs); [exact Ht|reflexivity|reflexivity|exact Htr].
      + destruct (body_fail _ _ _ _ _ _ HG Hpre Hm Eb) as (Htr & Hm').
        inversion Hr; subst; clear Hr. split.
        * eapply MInv_upd; eauto; cbn; auto.
        * unfold mg. cbn [snd]. eapply (sim_obs SP mabs); [exact Ht|reflexivity|reflexivity|exact Htr].
    - (* PResleep *) destruct (Hcrit eq_refl) as (-> & Hothers).
      assert (G1 : Some ((false, d), upd ths t (PSleep m o ob)) = Some (s', ths') ->
        MInv (s', ths') /\ xsteps SP (mg (true, d) ths, map mabs ths) [] (mg s' ths', map mabs ths')) by (clear Hr; intros Hr; inversion Hr; subst; apply Hsil; cbn; auto).
      destruct (thr o) as [r|] eqn:Et; [|exact (G1 Hr)]. destruct ch; try exact (G1 Hr).
      cbn [ploc] in Hp. destruct Hp as (Hm & Hpre). destruct (thr_ok _ _ _ _ _ Et Hpre Hm) as (Htr & Hm').
      inversion Hr; subst. split; [eapply MInv_upd; eauto; cbn; lia|]. unfold mg. cbn [snd]. eapply (sim_lin SP mabs); [exact Ht|reflexivity|reflexivity|exact Htr].
    - (* PSleep *) destruct (timed o), ch; try discriminate; inversion Hr; subst; clear Hr; (apply Hsil; cbn; auto; lia).
    - (* PWoken *) destruct held; [discriminate|].
      destruct (timed o), b, ch; try discriminate; try (destruct inner; [|discriminate]);
        inversion Hr; subst; clear Hr; (apply Hsil; cbn; auto).
    - (* PNotify *)
      cbn [ploc] in Hp. destruct nt.
      + inversion Hr; subst. apply Hsil; cbn; auto; lia.
      + destruct (existsb asleep ths).
        * destruct ch; try discriminate. destruct (nth_error ths u) as [pu|] eqn:Eu; [|discriminate].
          destruct pu as [| | | | |m' o' ob'| | | | |]; try discriminate. inversion Hr; subst; clear Hr.
          assert (Hne : u <> t) by (intros ->; congruence).
          assert (HI2 : MInv ((held, d), upd ths u (PWoken m' o' ob' false))).
          { eapply MInv_upd; eauto; [cbn; lia|]. exact (HL _ _ Eu). }
          assert (Et2 : nth_error (upd ths u (PWoken m' o' ob' false)) t = Some (PNotify m o r NOne))
            by (rewrite nth_upd_neq; auto).
          split; [eapply MInv_upd; [exact HI2|exact Et2| | |]; auto; cbn; lia|].
          unfold mg. cbn [snd]. rewrite map_upd, map_upd. cbn [mabs].
          rewrite (upd_same (map mabs ths) u); [|apply (nth_map mabs) in Eu; exact Eu].
          rewrite upd_same; [constructor|]. apply (nth_map mabs) in Ht. exact Ht.
        * inversion Hr; subst. apply Hsil; cbn; auto; lia.
      + inversion Hr; subst; clear Hr.
        assert (Et2 : nth_error (map wake ths) t = Some (PNotify m o r NAll)) by (rewrite nth_error_map, Ht; reflexivity).
        pose proof (MInv_wake _ _ HI) as HI2.
        split; [eapply MInv_upd; [exact HI2|exact Et2| | |]; auto; cbn; lia|].
        unfold mg. cbn [snd]. rewrite map_upd. cbn [mabs].
        replace (map mabs (map wake ths)) with (map mabs ths).
        2:{ rewrite map_map. apply map_ext. intros a. symmetry. apply wake_abs. }
        rewrite upd_same; [constructor|]. apply (nth_map mabs) in Ht. exact Ht.
    - (* PFail *)
      destruct (Hcrit eq_refl) as (-> & Hothers). cbn [ploc] in Hp. destruct Hp as (Hm & Hpre & Hm').
      assert (G1 : MInv ((false, d), upd ths t (PDone m o r)) /\
                   xsteps SP (mg (true, d) ths, map mabs ths) [] (mg (false, d) (upd ths t (PDone m o r)), map mabs (upd ths t (PDone m o r)))).
      { split; [eapply MInv_upd; eauto; cbn; auto|]. unfold mg. cbn [snd].
        eapply (sim_adopt SP mabs); [exact Ht|reflexivity|reflexivity|left; reflexivity]. }
      destruct outer, ch; inversion Hr; subst; clear Hr; try exact G1. apply Hsil; cbn; auto.
    - (* PUnlock *) destruct (Hcrit eq_refl) as (-> & Hothers). inversion Hr; subst. apply Hsil; cbn; auto.
  Qed.

  Definition Gc (c : (bool * D) * list pc) : Prop := Gd (snd (fst c)).

  Lemma MInv_init n : MInv (init n).
  Proof.
    split; cbn [mon_init fst snd].
    - rewrite sumf_repeat. cbn. lia.
    - intros t p H. apply nth_repeat in H. subst. cbn. apply mi_init.
  Qed.

  Lemma MInv_call s ths t p o p' : MInv (s, ths) -> nth_error ths t = Some p -> mon_call SP p o = Some p' ->
    MInv (s, upd ths t p') /\ exists m, p = PRest m /\ pre SP m o = true /\ p' = PLock m o [].
  Proof.
    destruct s as [held d]. intros HI Ht Hc. destruct p; cbn in Hc; try discriminate.
    destruct (pre SP m o) eqn:Ep; [|discriminate]. inversion Hc; subst. split; eauto.
    eapply MInv_upd; eauto; cbn; [lia|]. split; auto. apply (proj2 HI _ _ Ht).
  Qed.

  Lemma MInv_ret s ths t p o r p' : MInv (s, ths) -> nth_error ths t = Some p -> mon_ret SP p = Some (o, r, p') ->
    MInv (s, upd ths t p') /\ exists m, p = PDone m o r /\ p' = PRest (next SP m o r).
  Proof.
    destruct s as [held d]. intros HI Ht Hc. destruct p; cbn in Hc; try discriminate.
    inversion Hc; subst. split; eauto.
    eapply MInv_upd; eauto; cbn; [lia|]. apply (proj2 HI _ _ Ht).
  Qed.

  Lemma mon_lin_x n sched c tr :
    along step Gc (init n) sched -> exec step (init n) sched = Some (c, tr) -> xsteps SP (xinit SP n) tr (tabs SP mabs mg c) /\ MInv c.
  Proof.
    apply (tsim_x SP (mon_call SP) (mon_ret SP) run mabs mg MInv Gc).
    - unfold tabs, mg, mon_init, xinit. cbn [fst snd]. f_equal.
      induction n as [|n IH]; cbn; [reflexivity|]. rewrite IH. reflexivity.
    - apply MInv_init.
    - intros s ths t p o p' HI _ Ht Hc. destruct (MInv_call _ _ _ _ _ _ HI Ht Hc) as (H1 & m & -> & H2 & ->).
      split; [auto|]. split; [reflexivity|]. exists m. auto.
    - intros s ths t p o r p' HI _ Ht Hc. destruct (MInv_ret _ _ _ _ _ _ _ HI Ht Hc) as (H1 & m & -> & ->).
      split; [auto|]. split; [reflexivity|]. exists m. auto.
    - intros s ths t p ch s' ths' HI HG _ Ht Hret Hr. eapply run_ok; eauto.
  Qed.

  Lemma mon_lin n sched c tr :
    along step Gc (init n) sched -> exec step (init n) sched = Some (c, tr) -> linearizable SP n tr /\ MInv c.
  Proof. intros Ha H. destruct (mon_lin_x _ _ _ _ Ha H). split; auto. eapply xlin_lin; eauto. Qed.

  Lemma mon_inv (I2 : (bool * D) * list pc -> Prop) n :
    I2 (init n) ->
    (forall s ths t p o p', MInv (s, ths) -> Gd (snd s) -> I2 (s, ths) -> nth_error ths t = Some p -> mon_call SP p o = Some p' ->
       I2 (s, upd ths t p')) ->
    (forall s ths t p o r p', MInv (s, ths) -> Gd (snd s) -> I2 (s, ths) -> nth_error ths t = Some p -> mon_ret SP p = Some (o, r, p') ->
       I2 (s, upd ths t p')) ->
    (forall s ths t p ch c', MInv (s, ths) -> Gd (snd s) -> I2 (s, ths) -> nth_error ths t = Some p -> mon_ret SP p = None ->
       run s ths t p ch = Some c' -> I2 c') ->
    forall sched c tr, along step Gc (init n) sched -> exec step (init n) sched = Some (c, tr) -> MInv c /\ I2 c.
  Proof.
    intros H0 Hc Hr Hn sched c tr Ha H.
    eapply (exec_inv_along step Gc (fun c _ => MInv c /\ I2 c)); eauto.
    - split; auto. apply MInv_init.
    - clear H Ha. intros [s ths] _ a [s' ths'] e (HI & H2) HG _ Hs. unfold Gc in HG. cbn [fst] in HG. apply tstep_cases in Hs.
      destruct Hs as [(t & o & p & p' & -> & K1 & K2 & E & ->)|[(t & ch & p & o & r & p' & -> & K1 & K2 & E & ->)|(t & ch & p & -> & K1 & K2 & K3 & ->)]].
      + inversion E; subst. split; [eapply MInv_call; eauto|eauto].
      + inversion E; subst. split; [eapply MInv_ret; eauto|eauto].
      + split; [eapply run_ok; eauto|eauto].
  Qed.

  (** No thread is stuck: unless every thread is idle or waits on the condition variable, some thread can move. *)
  Lemma mon_progress n sched s ths tr t p :
    along step Gc (init n) sched -> exec step (init n) sched = Some ((s, ths), tr) ->
    nth_error ths t = Some p -> (forall m, p <> PRest m) -> asleep p = false ->
    exists u ch c e, step (s, ths) (TRun u ch) = Some (c, e).
  Proof.
    intros Ha H Ht Hr Hs. destruct (mon_lin _ _ _ _ Ha H) as (_ & HC & HL). cbn [fst snd] in *.
    destruct s as [held d].
    assert (Hcan : forall u q, nth_error ths u = Some q -> crit q = 1 -> exists ch c e, step ((held, d), ths) (TRun u ch) = Some (c, e)).
    { intros u q Hu Hc. unfold mon_step, tstep. rewrite Hu. destruct q; cbn in Hc; try discriminate; cbn [mon_ret].
      - exists MNorm. cbn. eauto.
      - exists MNorm. cbn [mon_run]. destruct (body u o b d0); eauto. destruct (thr o), (timed o); eauto.
      - exists MNorm. cbn. destruct (thr o); eauto.
      - destruct nt.
        + exists MNorm. cbn. eauto.
        + cbn [mon_run]. destruct (existsb asleep ths) eqn:Ex.
          * apply existsb_exists in Ex. destruct Ex as (q & Hin & Hq). apply In_nth_error in Hin. destruct Hin as (v & Hv).
            exists (MWake v). rewrite Hv. destruct q; try discriminate. eauto.
          * exists MNorm. eauto.
        + exists MNorm. cbn. eauto.
      - exists MNorm. cbn. destruct outer; eauto.
      - exists MNorm. cbn. eauto. }
    destruct held.
    - cbn in HC. destruct (sumf_pos_ex crit ths) as (u & q & Hu & Hq); [lia|].
      assert (crit q = 1) by (destruct q; cbn in *; lia). destruct (Hcan _ _ Hu H0) as (ch & c & e & Hst). eauto.
    - exists t. assert (crit p = 0).
      { pose proof (sumf_elem crit _ _ _ crit_nn Ht). pose proof (crit_nn p). cbn in HC. lia. }
      unfold mon_step, tstep. rewrite Ht. destruct p; cbn in *; try discriminate; try congruence.
      + exists MNorm. destruct (thr o); eauto.
      + exists MNorm. destruct (timed o), b; eauto.
      + exists MNorm. eauto.
  Qed.

  (** ** No lost wake-up, objects whose units are consumed one by one. *)
  Section Consume.
    Variable avail : D -> Z.
    Variable waitop : op SP -> bool.
    Hypothesis no_inner : inner = false.
    Hypothesis c_wait : forall t o b d, Gd d -> body t o b d = BWait -> waitop o = true /\ avail d <= 0.
    Hypothesis c_fail : forall t o b d r, Gd d -> body t o b d = BFail r -> waitop o = true /\ avail d <= 0.
    Hypothesis c_take : forall t o b d d' r nt m, Gd d -> mi t m d -> pre SP m o = true -> body t o b d = BDone d' r nt -> waitop o = true ->
      avail d' <= Z.max 0 (avail d - 1).
    Hypothesis c_give : forall t o b d d' r nt m, Gd d -> mi t m d -> pre SP m o = true -> body t o b d = BDone d' r nt -> waitop o = false ->
      avail d' <= Z.max 0 (avail d) + match nt with NOne => 1 | _ => 0 end.

    (** Awake threads that will look at the data before they sleep, and pending notify_one calls. *)
    Definition aw (p : pc) : Z :=
      match p with
      | PRead _ o _ _ | PComp _ o _ _ _ | PWoken _ o _ _ => b2z (waitop o)
      | PNotify _ _ _ NOne => 1
      | _ => 0
      end.
    Definition slp (p : pc) : Z := b2z (asleep p).
    Definition wloc (p : pc) : Prop :=
      match p with PSleep _ o _ | PWoken _ o _ _ => waitop o = true | PResleep _ _ _ => False | _ => True end.
    Lemma aw_nn p : 0 <= aw p.
    Proof. destruct p; cbn; try lia; try (destruct (waitop o); cbn; lia). destruct nt; lia. Qed.
    Lemma slp_nn p : 0 <= slp p.  Proof. destruct p; cbn; lia. Qed.

    Definition WInv (c : (bool * D) * list pc) : Prop :=
      (0 < sumf slp (snd c) -> avail (snd (fst c)) <= sumf aw (snd c)) /\
      forall t p, nth_error (snd c) t = Some p -> wloc p.

    Lemma WInv_upd held d held' d' ths t q p :
      WInv ((held, d), ths) -> nth_error ths t = Some q ->
      (0 < sumf slp ths - slp q + slp p -> avail d' <= sumf aw ths - aw q + aw p) -> wloc p ->
      WInv ((held', d'), upd ths t p).
    Proof.
      intros (_ & H2) Ht Hc Hp. cbn [fst snd] in *. split; cbn [fst snd].
      - rewrite (sumf_upd slp _ _ _ _ Ht), (sumf_upd aw _ _ _ _ Ht). exact Hc.
      - intros u p0 Hu. destruct (nth_upd_inv _ _ _ _ _ Hu) as [(<- & -> & _)|(Hne & Hu')]; auto. apply (H2 _ _ Hu').
    Qed.

    Lemma mon_enough_awake n sched c tr :
      along step Gc (init n) sched -> exec step (init n) sched = Some (c, tr) -> MInv c /\ WInv c.
    Proof.
      apply (mon_inv WInv).
      - split; cbn [mon_init fst snd].
        + rewrite !sumf_repeat. cbn. lia.
        + intros t p H. apply nth_repeat in H. subst. exact I.
      - intros [held d] ths t p o p' HI HG HW Ht Hc.
        destruct (MInv_call _ _ _ _ _ _ HI Ht Hc) as (_ & m & -> & _ & ->).
        eapply WInv_upd; eauto; cbn [slp aw asleep b2z wloc]; auto.
        intros Hs. destruct HW as (H1 & _). cbn [fst snd] in H1. destruct (waitop o); cbn [b2z]; lia.
      - intros [held d] ths t p o r p' HI HG HW Ht Hc.
        destruct (MInv_ret _ _ _ _ _ _ _ HI Ht Hc) as (_ & m & -> & ->).
        eapply WInv_upd; eauto; cbn [slp aw asleep b2z wloc]; auto.
        intros Hs. destruct HW as (H1 & _). cbn [fst snd] in H1. lia.
      - intros [held d] ths t p ch c' HI HG HW Ht Hret Hr. cbn [snd] in HG.
        pose proof HW as (H1 & H2). cbn [fst snd] in H1, H2. pose proof (H2 _ _ Ht) as Hl.
        pose proof (sumf_elem aw _ _ _ aw_nn Ht) as Hae. pose proof (sumf_elem slp _ _ _ slp_nn Ht) as Hse.
        assert (Hsil : forall held2 p2, slp p2 <= slp p -> aw p <= aw p2 -> wloc p2 -> WInv ((held2, d), upd ths t p2)).
        { intros held2 p2 Hs2 Ha2 Hl2. eapply WInv_upd; eauto. intros; lia. }
        destruct p; cbn [mon_run mon_ret] in Hr, Hret; try discriminate.
        + assert (G1 : (if held then None else Some ((true, d), upd ths t (PRead m o ob false))) = Some c' -> WInv c').
          { clear Hr. intros Hr. destruct held; [discriminate|]. inversion Hr; subst. apply Hsil; cbn; auto; try lia. destruct (waitop o); cbn; lia. }
          destruct (thr o) as [r|]; [|exact (G1 Hr)]. destruct ch; try exact (G1 Hr). inversion Hr; subst. apply Hsil; cbn; auto; lia.
        + inversion Hr; subst. apply Hsil; cbn; auto; lia.
        + (* PComp *)
          destruct (proj2 HI _ _ Ht) as (Hm & Hpre & ->). cbn [fst snd] in *.
          destruct (body t o b d) as [d' r nt| |r] eqn:Eb.
          * inversion Hr; subst; clear Hr. eapply WInv_upd; eauto; [|destruct nt; exact I..].
            destruct (waitop o) eqn:Ew.
            -- pose proof (c_take _ _ _ _ _ _ _ _ HG Hm Hpre Eb Ew). cbn [slp aw asleep b2z] in *. rewrite Ew in *.
               cbn [b2z] in *. destruct nt; cbn [slp aw asleep b2z]; lia.
            -- pose proof (c_give _ _ _ _ _ _ _ _ HG Hm Hpre Eb Ew). cbn [slp aw asleep b2z] in *. rewrite Ew in *.
               cbn [b2z] in *. destruct nt; cbn [slp aw asleep b2z]; lia.
          * destruct (c_wait _ _ _ _ HG Eb) as (Ew & Hav).
            assert (G1 : WInv ((false, d), upd ths t (PSleep m o ob))).
            { eapply WInv_upd; eauto. cbn [slp aw asleep b2z]. intros _. cbn [aw] in Hae. lia. }
            assert (G2 : match timed o, ch with true, MTimeout => Some ((held, d), upd ths t (PRead m o ob true)) | _, _ => Some ((false, d), upd ths t (PSleep m o ob)) end = Some c' -> WInv c').
            { clear Hr. intros Hr. destruct (timed o), ch; inversion Hr; subst; clear Hr; auto. apply Hsil; cbn; auto; lia. }
            destruct (thr o) as [r|]; [|exact (G2 Hr)]. destruct ch; try exact (G2 Hr).
            inversion Hr; subst; clear Hr. eapply WInv_upd; eauto; [|exact I..]. cbn [slp aw asleep b2z]. intros _. cbn [aw] in Hae. lia.
          * destruct (c_fail _ _ _ _ _ HG Eb) as (Ew & Hav). inversion Hr; subst; clear Hr.
            eapply WInv_upd; eauto; [|exact I..]. cbn [slp aw asleep b2z]. intros _. cbn [aw] in Hae. lia.
        + (* PResleep *) destruct Hl.
        + (* PSleep *) cbn [wloc] in Hl. destruct (timed o), ch; try discriminate; inversion Hr; subst; clear Hr;
            (apply Hsil; cbn [slp aw asleep b2z wloc]; auto; try lia; rewrite Hl; cbn; lia).
        + (* PWoken *) cbn [wloc] in Hl. destruct held; [discriminate|]. rewrite no_inner in Hr.
          destruct (timed o), b, ch; try discriminate; inversion Hr; subst; clear Hr;
            (apply Hsil; cbn [slp aw asleep b2z wloc]; auto; lia).
        + (* PNotify *)
          destruct nt.
          * inversion Hr; subst. apply Hsil; cbn; auto; lia.
          * destruct (existsb asleep ths) eqn:Ex.
            -- destruct ch; try discriminate. destruct (nth_error ths u) as [pu|] eqn:Eu; [|discriminate].
               destruct pu as [| | | | |m' o' ob'| | | | |]; try discriminate. inversion Hr; subst; clear Hr.
               assert (Hne : u <> t) by (intros ->; congruence).
               pose proof (H2 _ _ Eu) as Hlu. cbn [wloc] in Hlu.
               assert (Et2 : nth_error (upd ths u (PWoken m' o' ob' false)) t = Some (PNotify m o r NOne))
                 by (rewrite nth_upd_neq; auto).
               assert (HW2 : WInv ((held, d), upd ths u (PWoken m' o' ob' false))).
               { eapply WInv_upd; eauto. cbn [slp aw asleep b2z]. rewrite Hlu. cbn [b2z]. lia. }
               eapply WInv_upd; [exact HW2|exact Et2| |exact I].
               rewrite (sumf_upd slp _ _ _ _ Eu), (sumf_upd aw _ _ _ _ Eu). cbn [slp aw asleep b2z]. rewrite Hlu. cbn [b2z]. lia.
            -- inversion Hr; subst; clear Hr. eapply WInv_upd; eauto; [|exact I..].
               cbn [slp aw asleep b2z]. intros Hs. exfalso.
               destruct (sumf_pos_ex slp ths) as (v & q & Hv & Hq); [lia|].
               assert (existsb asleep ths = true); [|congruence].
               apply existsb_exists. exists q. split; [eapply nth_error_In; eauto|]. unfold slp in Hq. destruct (asleep q); cbn in Hq; lia || reflexivity.
          * inversion Hr; subst; clear Hr.
            assert (Et2 : nth_error (map wake ths) t = Some (PNotify m o r NAll)) by (rewrite nth_error_map, Ht; reflexivity).
            assert (Hz : sumf slp (map wake ths) = 0).
            { rewrite sumf_map. clear. induction ths as [|a l IH]; cbn [sumf]; [reflexivity|]. rewrite IH. destruct a; reflexivity. }
            assert (HW2 : WInv ((held, d), map wake ths)).
            { split; cbn [fst snd]; [rewrite Hz; lia|].
              intros v q Hv. apply nth_map_inv in Hv. destruct Hv as (q0 & Hq0 & <-). specialize (H2 _ _ Hq0). destruct q0; cbn in *; auto. }
            eapply WInv_upd; [exact HW2|exact Et2| |exact I]. rewrite Hz. cbn. lia.
        + (* PFail *) destruct outer, ch; inversion Hr; subst; clear Hr;
            (apply Hsil; cbn [slp aw asleep b2z wloc]; auto; try lia; destruct (waitop o); cbn; lia).
        + inversion Hr; subst. apply Hsil; cbn; auto; lia.
    Qed.

    Lemma mon_no_lost n sched s ths tr t p :
      along step Gc (init n) sched -> exec step (init n) sched = Some ((s, ths), tr) ->
      0 < avail (snd s) -> nth_error ths t = Some p -> asleep p = true ->
      exists u q, nth_error ths u = Some q /\ aw q = 1.
    Proof.
      intros Ha H Hav Ht Hs. destruct (mon_enough_awake _ _ _ _ Ha H) as (_ & H1 & _). cbn [fst snd] in H1.
      assert (slp p = 1) by (unfold slp; rewrite Hs; reflexivity).
      pose proof (sumf_elem slp _ _ _ slp_nn Ht). destruct (sumf_pos_ex aw ths) as (u & q & Hu & Hq); [lia|].
      exists u, q. split; auto. destruct q; cbn in *; try lia; try (destruct (waitop o); cbn in *; lia). destruct nt; lia.
    Qed.

    Lemma mon_quiescent n sched s ths tr t p :
      along step Gc (init n) sched -> exec step (init n) sched = Some ((s, ths), tr) ->
      (forall u q, nth_error ths u = Some q -> asleep q = true \/ exists m, q = PRest m) ->
      nth_error ths t = Some p -> asleep p = true -> avail (snd s) <= 0.
    Proof.
      intros Ha H Hq Ht Hs. destruct (Z_lt_le_dec 0 (avail (snd s))) as [Hav|]; [|auto].
      destruct (mon_no_lost _ _ _ _ _ _ _ Ha H Hav Ht Hs) as (u & q & Hu & Hw).
      destruct (Hq _ _ Hu) as [E|(m & ->)]; [destruct q; discriminate|discriminate].
    Qed.
  End Consume.

  (** ** No lost wake-up, objects that broadcast. *)
  Section Broadcast.
    Variable avail : D -> bool.
    Hypothesis b_wait : forall t o b d, body t o b d = BWait -> avail d = false.
    Hypothesis b_fail : forall t o b d r, body t o b d = BFail r -> avail d = false.
    Hypothesis b_done : forall t o b d d' r nt, body t o b d = BDone d' r nt -> avail d' = true -> avail d = true \/ nt = NAll.
    Hypothesis no_inner : inner = false.

    Definition ball (p : pc) : Z := match p with PNotify _ _ _ NAll => 1 | _ => 0 end.
    Lemma ball_nn p : 0 <= ball p.  Proof. destruct p; cbn; try lia. destruct nt; lia. Qed.
    Definition BInv (c : (bool * D) * list pc) : Prop :=
      (0 < sumf slp (snd c) -> avail (snd (fst c)) = true -> 0 < sumf ball (snd c)) /\
      (forall t m o ob, nth_error (snd c) t <> Some (PResleep m o ob)).

    Lemma BInv_upd held d held' d' ths t q p :
      BInv ((held, d), ths) -> nth_error ths t = Some q ->
      (0 < sumf slp ths - slp q + slp p -> avail d' = true -> 0 < sumf ball ths - ball q + ball p) ->
      (forall m o ob, p <> PResleep m o ob) ->
      BInv ((held', d'), upd ths t p).
    Proof.
      intros (_ & H2) Ht Hc Hp. cbn [fst snd] in *. split; cbn [fst snd].
      - rewrite (sumf_upd slp _ _ _ _ Ht), (sumf_upd ball _ _ _ _ Ht). exact Hc.
      - intros u m o ob Hu. destruct (nth_upd_inv _ _ _ _ _ Hu) as [(<- & E & _)|(Hne & Hu')].
        + apply (Hp m o ob). auto.
        + apply (H2 _ _ _ _ Hu').
    Qed.

    Lemma mon_broadcast n sched c tr :
      along step Gc (init n) sched -> exec step (init n) sched = Some (c, tr) -> MInv c /\ BInv c.
    Proof.
      apply (mon_inv BInv).
      - split; cbn [mon_init fst snd].
        + rewrite !sumf_repeat. cbn. lia.
        + intros t m o ob H. apply nth_repeat in H. discriminate.
      - intros [held d] ths t p o p' HI HG HW Ht Hc.
        destruct (MInv_call _ _ _ _ _ _ HI Ht Hc) as (_ & m & -> & _ & ->).
        eapply BInv_upd; eauto; cbn [slp ball asleep b2z]; [|discriminate].
        destruct HW as (H1 & _). cbn [fst snd] in H1. intros Hs Ha. specialize (H1 ltac:(lia) Ha). lia.
      - intros [held d] ths t p o r p' HI HG HW Ht Hc.
        destruct (MInv_ret _ _ _ _ _ _ _ HI Ht Hc) as (_ & m & -> & ->).
        eapply BInv_upd; eauto; cbn [slp ball asleep b2z]; [|discriminate].
        destruct HW as (H1 & _). cbn [fst snd] in H1. intros Hs Ha. specialize (H1 ltac:(lia) Ha). lia.
      - intros [held d] ths t p ch c' HI HG HW Ht Hret Hr.
        pose proof HW as (H1 & H2). cbn [fst snd] in H1, H2.
        pose proof (sumf_nonneg ball ths ball_nn) as Hbn.
        assert (Hsil : forall held2 p2, slp p2 <= slp p -> ball p <= ball p2 -> (forall m o ob, p2 <> PResleep m o ob) ->
                  BInv ((held2, d), upd ths t p2)).
        { intros held2 p2 Hs2 Ha2 Hl2. eapply BInv_upd; eauto. intros Hs Ha. specialize (H1 ltac:(lia) Ha). lia. }
        destruct p; cbn [mon_run mon_ret] in Hr, Hret; try discriminate.
        + assert (G1 : (if held then None else Some ((true, d), upd ths t (PRead m o ob false))) = Some c' -> BInv c').
          { clear Hr. intros Hr. destruct held; [discriminate|]. inversion Hr; subst. apply Hsil; cbn; try lia; discriminate. }
          destruct (thr o) as [r|]; [|exact (G1 Hr)]. destruct ch; try exact (G1 Hr). inversion Hr; subst. apply Hsil; cbn; try lia; discriminate.
        + inversion Hr; subst. apply Hsil; cbn; try lia; discriminate.
        + (* PComp *)
          destruct (proj2 HI _ _ Ht) as (Hm & Hpre & ->). cbn [fst snd] in *.
          destruct (body t o b d) as [d' r nt| |r] eqn:Eb.
          * inversion Hr; subst; clear Hr. eapply BInv_upd; eauto; [|destruct nt; discriminate].
            cbn [slp ball asleep b2z]. intros Hs Ha.
            destruct (b_done _ _ _ _ _ _ _ Eb Ha) as [Hd| ->].
            -- destruct nt; cbn [slp ball asleep b2z] in Hs |- *; specialize (H1 ltac:(lia) Hd); lia.
            -- cbn [ball]. lia.
          * pose proof (b_wait _ _ _ _ Eb) as Hav.
            assert (G1 : BInv ((false, d), upd ths t (PSleep m o ob))).
            { eapply BInv_upd; eauto; [|discriminate]. intros _ Ha. congruence. }
            assert (G2 : match timed o, ch with true, MTimeout => Some ((held, d), upd ths t (PRead m o ob true)) | _, _ => Some ((false, d), upd ths t (PSleep m o ob)) end = Some c' -> BInv c').
            { clear Hr. intros Hr. destruct (timed o), ch; inversion Hr; subst; clear Hr; auto; apply Hsil; cbn; try lia; discriminate. }
            destruct (thr o) as [r|]; [|exact (G2 Hr)]. destruct ch; try exact (G2 Hr). inversion Hr; subst; clear Hr. apply Hsil; cbn; try lia; discriminate.
          * inversion Hr; subst; clear Hr. apply Hsil; cbn; try lia; discriminate.
        + (* PResleep *) exfalso. apply (H2 _ _ _ _ Ht).
        + destruct (timed o), ch; try discriminate; inversion Hr; subst; clear Hr;
            (apply Hsil; cbn [slp ball asleep b2z]; try lia; discriminate).
        + destruct held; [discriminate|]. rewrite no_inner in Hr.
          destruct (timed o), b, ch; try discriminate; inversion Hr; subst; clear Hr;
            (apply Hsil; cbn [slp ball asleep b2z]; try lia; discriminate).
        + destruct nt.
          * inversion Hr; subst. apply Hsil; cbn; try lia; discriminate.
          * destruct (existsb asleep ths) eqn:Ex.
            -- destruct ch; try discriminate. destruct (nth_error ths u) as [pu|] eqn:Eu; [|discriminate].
               destruct pu as [| | | | |m' o' ob'| | | | |]; try discriminate. inversion Hr; subst; clear Hr.
               assert (Hne : u <> t) by (intros ->; congruence).
               assert (Et2 : nth_error (upd ths u (PWoken m' o' ob' false)) t = Some (PNotify m o r NOne))
                 by (rewrite nth_upd_neq; auto).
               assert (HW2 : BInv ((held, d), upd ths u (PWoken m' o' ob' false))).
               { eapply BInv_upd; eauto; [|discriminate]. cbn [slp ball asleep b2z]. intros Hs Ha. specialize (H1 ltac:(lia) Ha). lia. }
               eapply BInv_upd; [exact HW2|exact Et2| |discriminate].
               destruct HW2 as (H3 & _). cbn [fst snd] in H3. cbn [slp ball asleep b2z]. intros Hs Ha. specialize (H3 ltac:(lia) Ha). lia.
            -- inversion Hr; subst; clear Hr. apply Hsil; cbn; try lia; discriminate.
          * inversion Hr; subst; clear Hr.
            assert (Et2 : nth_error (map wake ths) t = Some (PNotify m o r NAll)) by (rewrite nth_error_map, Ht; reflexivity).
            assert (Hz : sumf slp (map wake ths) = 0).
            { rewrite sumf_map. clear. induction ths as [|a l IH]; cbn [sumf]; [reflexivity|]. rewrite IH. destruct a; reflexivity. }
            assert (HW2 : BInv ((held, d), map wake ths)).
            { split; cbn [fst snd]; [rewrite Hz; lia|].
              intros v m0 o0 ob0 Hv. apply nth_map_inv in Hv. destruct Hv as (q0 & Hq0 & E). destruct q0; try discriminate. apply (H2 _ _ _ _ Hq0). }
            eapply BInv_upd; [exact HW2|exact Et2| |discriminate]. rewrite Hz. cbn. lia.
        + destruct outer, ch; inversion Hr; subst; clear Hr; (apply Hsil; cbn [slp ball asleep b2z]; try lia; discriminate).
        + inversion Hr; subst. apply Hsil; cbn; try lia; discriminate.
    Qed.
  End Broadcast.
End Proof.
