(** Consequences of the readers-writer specification for histories. *)
From Coq Require Import List Bool Arith ZArith Lia.
From Verif Require Import ListSum Exec Lin RwSpec.
Import ListNotations.
Local Open Scope Z_scope.

Section Facts.
  Variable sp : bool.
  Let SP := rw_spec sp.

  Definition rwmode (c : cth SP) : rmode :=   (* as seen by the abstract state *)
    match c with
    | CIdle m => m
    | CPend m o => m
    | CDone m o r => rnext m o r
    end.
  Definition rwin (c : cth SP) : rmode :=     (* as seen by the history *)
    match c with
    | CIdle m => m
    | CPend m o => match o with XUnlock | SUnlock => HNone | _ => m end
    | CDone m o r => match o with XUnlock | SUnlock => HNone | _ => m end
    end.
  Definition rwwf (c : cth SP) : Prop :=
    match c with
    | CIdle m => True
    | CPend m o => rpre m o = true
    | CDone m o r => rpre m o = true
    end.
  Definition isS (c : cth SP) : Z := match rwmode c with HShared => 1 | _ => 0 end.

  Definition RI (s : cstate SP) (tr : list (event rop rres)) : Prop :=
    (forall t c, nth_error (snd s) t = Some c ->
       (rwmode c = HExcl <-> fst (fst s) = Some t) /\ rwwf c /\ rw_hold t tr = rwin c) /\
    (forall t, nth_error (snd s) t = None -> rw_hold t tr = HNone) /\
    snd (fst s) = sumf isS (snd s) /\
    (fst (fst s) <> None -> snd (fst s) = 0).

  Lemma rw_hold_snoc t tr e :
    rw_hold t (tr ++ [e]) =
    match e with
    | Ret u o r => if Nat.eqb t u then rnext (rw_hold t tr) o r else rw_hold t tr
    | Call u XUnlock | Call u SUnlock => if Nat.eqb t u then HNone else rw_hold t tr
    | Call _ _ => rw_hold t tr
    end.
  Proof. unfold rw_hold. rewrite fold_left_app. reflexivity. Qed.

  Lemma RI_step s tr e s' : RI s tr -> cstep SP s e s' -> RI s' (tr ++ e).
  Proof.
    intros (Hall & Hnone & Hsum & Hex) H.
    inversion H as [s0 ths t m o Ht Hpre|s0 ths t m o r s1 Ht Htr|s0 ths t m o r Ht]; subst; cbn [fst snd] in *.
    - destruct (Hall _ _ Ht) as (Ho & Hwf & Hh). cbn in Ho, Hh. cbn in Hpre.
      repeat split; cbn [fst snd] in *.
      1,2: (destruct (nth_upd_inv _ _ _ _ _ H0) as [(<- & -> & _)|(Hne & Hu)]; [cbn; apply Ho|apply (Hall _ _ Hu)]).
      + destruct (nth_upd_inv _ _ _ _ _ H0) as [(<- & -> & _)|(Hne & Hu)]; [cbn; auto|apply (Hall _ _ Hu)].
      + rewrite rw_hold_snoc. destruct (nth_upd_inv _ _ _ _ _ H0) as [(<- & -> & _)|(Hne & Hu)].
        * rewrite Nat.eqb_refl. destruct o; cbn; auto.
        * destruct (Hall _ _ Hu) as (_ & _ & G). rewrite <- G.
          replace (Nat.eqb t0 t) with false by (symmetry; apply Nat.eqb_neq; auto).
          destruct o; auto.
      + intros u Hu. rewrite rw_hold_snoc.
        assert (Hu' : nth_error ths u = None).
        { apply nth_error_None in Hu. rewrite upd_length in Hu. apply nth_error_None; auto. }
        pose proof (Hnone _ Hu') as G.
        assert (Nat.eqb u t = false) by (apply Nat.eqb_neq; intros ->; congruence).
        rewrite H0. destruct o; auto.
      + rewrite Hsum, (sumf_upd isS _ _ _ _ Ht). unfold isS. cbn. lia.
      + auto.
    - rewrite app_nil_r. destruct (Hall _ _ Ht) as (Ho & Hwf & Hh). cbn in Ho, Hh, Hwf.
      destruct s0 as [w rd]. destruct s1 as [w1 rd1]. cbn [fst snd] in *.
      assert (HS : rd1 = rd - isS (CPend m o : cth SP) + isS (CDone m o r : cth SP)).
      { inversion Htr; subst; destruct m; cbn in Hwf |- *; try discriminate; unfold isS; cbn; lia. }
      assert (HX : rnext m o r = HExcl <-> w1 = Some t).
      { inversion Htr; subst; destruct m; cbn in Hwf |- *; try discriminate; split; intros; try congruence;
          try (apply Ho; congruence); try tauto; try (exfalso; assert (HNone = HExcl) by tauto; discriminate). }
      assert (HO : forall u, u <> t -> w = Some u <-> w1 = Some u).
      { intros u Hu. inversion Htr; subst; split; intros; congruence. }
      assert (HE : w1 <> None -> rd1 = 0).
      { inversion Htr; subst; intros; try congruence; auto; rewrite <- ?Hex by assumption; lia. }
      repeat split; cbn [fst snd] in *.
      + destruct (nth_upd_inv _ _ _ _ _ H0) as [(<- & -> & _)|(Hne & Hu)]; [cbn; apply HX|].
        intros G. apply HO; auto. apply (Hall _ _ Hu); auto.
      + destruct (nth_upd_inv _ _ _ _ _ H0) as [(<- & -> & _)|(Hne & Hu)]; [cbn; apply HX|].
        intros G. apply (Hall _ _ Hu). apply HO; auto.
      + destruct (nth_upd_inv _ _ _ _ _ H0) as [(<- & -> & _)|(Hne & Hu)]; [cbn; auto|apply (Hall _ _ Hu)].
      + destruct (nth_upd_inv _ _ _ _ _ H0) as [(<- & -> & _)|(Hne & Hu)]; [cbn; auto|apply (Hall _ _ Hu)].
      + intros u Hu. apply Hnone. apply nth_error_None in Hu. rewrite upd_length in Hu. apply nth_error_None; auto.
      + rewrite (sumf_upd isS _ _ _ _ Ht). lia.
      + auto.
    - destruct (Hall _ _ Ht) as (Ho & Hwf & Hh). cbn in Ho, Hh, Hwf.
      repeat split; cbn [fst snd] in *.
      1,2: (destruct (nth_upd_inv _ _ _ _ _ H0) as [(<- & -> & _)|(Hne & Hu)]; [cbn; apply Ho|apply (Hall _ _ Hu)]).
      + destruct (nth_upd_inv _ _ _ _ _ H0) as [(<- & -> & _)|(Hne & Hu)]; [cbn; auto|apply (Hall _ _ Hu)].
      + rewrite rw_hold_snoc. destruct (nth_upd_inv _ _ _ _ _ H0) as [(<- & -> & _)|(Hne & Hu)].
        * rewrite Nat.eqb_refl, Hh. cbn. destruct o, r, m; cbn in *; auto; discriminate.
        * destruct (Hall _ _ Hu) as (_ & _ & G). rewrite <- G.
          replace (Nat.eqb t0 t) with false by (symmetry; apply Nat.eqb_neq; auto). auto.
      + intros u Hu. rewrite rw_hold_snoc.
        assert (Hu' : nth_error ths u = None).
        { apply nth_error_None in Hu. rewrite upd_length in Hu. apply nth_error_None; auto. }
        pose proof (Hnone _ Hu') as G.
        assert (Nat.eqb u t = false) by (apply Nat.eqb_neq; intros ->; congruence).
        rewrite H0. auto.
      + rewrite Hsum, (sumf_upd isS _ _ _ _ Ht). unfold isS. cbn. lia.
      + auto.
  Qed.

  Lemma RI_steps s e s' : csteps SP s e s' -> forall tr, RI s tr -> RI s' (tr ++ e).
  Proof.
    induction 1 as [s|s e1 s1 e2 s2 H1 H2 IH]; intros tr HP.
    - rewrite app_nil_r. auto.
    - rewrite app_assoc. apply IH. eapply RI_step; eauto.
  Qed.

  Lemma RI_init n : RI (cinit SP n) [].
  Proof.
    repeat split; cbn.
    - apply nth_repeat in H. subst. cbn. discriminate.
    - discriminate.
    - apply nth_repeat in H. subst. cbn. auto.
    - apply nth_repeat in H. subst. cbn. auto.
    - change (0 = sumf isS (repeat (CIdle (S:=SP) HNone) n)). rewrite sumf_repeat. cbn. lia.
  Qed.

  (** Exclusion read off the history. *)
  Lemma rw_exclusion n tr t u :
    linearizable SP n tr -> t <> u -> rw_hold t tr = HExcl -> rw_hold u tr = HNone.
  Proof.
    intros (s & Hs) Hne Ht.
    pose proof (RI_steps _ _ _ Hs [] (RI_init n)) as (Hall & Hnone & Hsum & Hex). cbn [app] in *.
    assert (HS0 : forall x, 0 <= isS x) by (intros x; unfold isS; destruct (rwmode x); lia).
    destruct (nth_error (snd s) t) as [ct|] eqn:Et; [|rewrite (Hnone _ Et) in Ht; discriminate].
    destruct (nth_error (snd s) u) as [cu|] eqn:Eu; [|apply Hnone; auto].
    destruct (Hall _ _ Et) as (Hot & Hwt & Hht). destruct (Hall _ _ Eu) as (Hou & Hwu & Hhu).
    rewrite Hhu. rewrite Hht in Ht.
    assert (Hown : fst (fst s) = Some t).
    { apply Hot. destruct ct as [m|m o|m o r]; cbn in *; auto.
      - destruct o; auto; discriminate.
      - destruct o, m; cbn in *; try discriminate. }
    assert (Hz : snd (fst s) = 0) by (apply Hex; congruence).
    assert (Hzu : isS cu = 0) by (apply (sumf_zero_all isS (snd s) u cu HS0); [congruence|exact Eu]).
    unfold isS in Hzu.
    destruct cu as [m|m o|m o r]; cbn in *.
    - destruct m; auto; cbn in Hzu; [|discriminate]. exfalso. apply Hne.
      assert (E2 : Some t = Some u) by (rewrite <- Hown; apply Hou; reflexivity). inversion E2; auto.
    - destruct o, m; cbn in *; auto; try lia; try discriminate.
    - destruct o, m; cbn in *; auto; try lia; try discriminate.
  Qed.
End Facts.

(** In the strict specification a failed try_lock_shared needs a thread that
    called an exclusive operation. *)
Definition excl_call (e : event rop rres) : bool :=
  match e with Call _ XLock | Call _ XTry => true | _ => false end.

Section Strict.
  Let SP := rw_spec false.
  Definition noX (c : cth SP) : Prop :=
    match c with
    | CIdle m => m <> HExcl
    | CPend m o => m <> HExcl /\ o <> XLock /\ o <> XTry
    | CDone m o r => m <> HExcl /\ o <> XLock /\ o <> XTry /\ ~ (o = STry /\ r = QFalse)
    end.
  Definition NX (s : cstate SP) (tr : list (event rop rres)) : Prop :=
    existsb excl_call tr = false ->
    (fst (fst s) = None /\ (forall t c, nth_error (snd s) t = Some c -> noX c) /\
     forall t, ~ In (Ret t STry QFalse) tr).

  Lemma NX_step s tr e s' : NX s tr -> cstep SP s e s' -> NX s' (tr ++ e).
  Proof.
    intros HN H Hno. rewrite existsb_app in Hno. apply orb_false_iff in Hno. destruct Hno as (Hno & Hne).
    destruct (HN Hno) as (Hw & Hth & Hin). clear HN.
    inversion H as [s0 ths t m o Ht Hpre|s0 ths t m o r s1 Ht Htr|s0 ths t m o r Ht]; subst; cbn [fst snd] in *.
    - pose proof (Hth _ _ Ht) as Hc. cbn in Hc. repeat split; auto.
      + intros u c Hu. destruct (nth_upd_inv _ _ _ _ _ Hu) as [(<- & -> & _)|(Hn & Hu')]; eauto.
        destruct o, m; cbn in *; repeat split; try congruence.
      + intros u Hu. apply in_app_or in Hu. destruct Hu as [Hu|[Hu|[]]]; [eapply Hin; eauto|discriminate].
    - pose proof (Hth _ _ Ht) as Hc. cbn in Hc. destruct Hc as (Hm & Ho1 & Ho2).
      rewrite app_nil_r. repeat split; auto.
      + inversion Htr; subst; cbn in *; auto; congruence.
      + intros u c Hu. destruct (nth_upd_inv _ _ _ _ _ Hu) as [(<- & -> & _)|(Hn & Hu')]; eauto.
        cbn. repeat split; auto. intros (-> & ->). inversion Htr; subst; cbn in *.
        match goal with G : _ \/ _ |- _ => destruct G; congruence end.
    - pose proof (Hth _ _ Ht) as Hc. cbn in Hc. destruct Hc as (Hm & Ho1 & Ho2 & Ho3). repeat split; auto.
      + intros u c Hu. destruct (nth_upd_inv _ _ _ _ _ Hu) as [(<- & -> & _)|(Hn & Hu')]; eauto.
        cbn. destruct o, r; cbn; try congruence.
      + intros u Hu. apply in_app_or in Hu. destruct Hu as [Hu|[Hu|[]]]; [eapply Hin; eauto|].
        inversion Hu; subst. apply Ho3; auto.
  Qed.

  Lemma strict_no_spurious n tr :
    linearizable SP n tr -> existsb excl_call tr = false -> forall t, ~ In (Ret t STry QFalse) tr.
  Proof.
    intros (s & Hs).
    assert (G : forall s0 e s', csteps SP s0 e s' -> forall tr0, NX s0 tr0 -> NX s' (tr0 ++ e)).
    { induction 1 as [s0|s0 e1 s1 e2 s2 H1 H2 IH]; intros tr0 HP.
      - rewrite app_nil_r. auto.
      - rewrite app_assoc. apply IH. eapply NX_step; eauto. }
    assert (HN : NX (cinit SP n) []).
    { intros _. repeat split; cbn.
      - intros t c Hc. apply nth_repeat in Hc. subst. cbn. discriminate.
      - auto. }
    intros Hno. specialize (G _ _ _ Hs [] HN). cbn [app] in G. apply G; auto.
  Qed.
End Strict.
