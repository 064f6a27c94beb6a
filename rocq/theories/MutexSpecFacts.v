(** The atomic-mutex specification implies mutual exclusion of every history. *)
From Coq Require Import List Bool Arith Lia.
From Verif Require Import ListSum Exec Lin MutexSpec.
Import ListNotations.

Section Facts.
  Variable thr : bool.
  Let SP := mutex_spec thr.

  (* between return of a successful lock and call of unlock *)
  Definition inside (c : cth SP) : bool :=
    match c with
    | CIdle m => m
    | CPend m o => match o with MUnlock => false | _ => m end
    | CDone m o r => match o with MUnlock => false | _ => m end
    end.
  (* owner as far as the abstract state is concerned *)
  Definition owns (c : cth SP) : bool :=
    match c with
    | CIdle m => m
    | CPend m o => m
    | CDone m o r => mnext m o r
    end.
  Definition lockmode (c : cth SP) : Prop :=
    match c with
    | CPend m MUnlock => m = true
    | CPend m MLock | CPend m MTimed => m = false
    | CDone m MUnlock r => r = ROk /\ m = true
    | CDone m MLock r => m = false /\ (r = ROk \/ r = RThrow)
    | CDone m MTimed r => m = false /\ (r = RTrue \/ r = RFalse \/ r = RThrow)
    | CDone m MTryLock r => (r = RTrue /\ m = false) \/ r = RFalse
    | _ => True
    end.

  Definition PI (s : cstate SP) (tr : list (event mop mres)) : Prop :=
    (forall t c, nth_error (snd s) t = Some c ->
       (owns c = true <-> fst s = Some t) /\ lockmode c) /\
    (forall t, fst s = Some t -> t < length (snd s)) /\
    (forall t, In t (holders tr) -> exists c, nth_error (snd s) t = Some c /\ inside c = true) /\
    (forall t c, nth_error (snd s) t = Some c -> inside c = true -> In t (holders tr)) /\
    NoDup (holders tr).

  Lemma in_remove_all t u l : In u (remove_all t l) <-> In u l /\ u <> t.
  Proof.
    induction l as [|v l IH]; cbn; [tauto|].
    destruct (Nat.eqb_spec t v) as [->|Hn].
    - rewrite IH. intuition congruence.
    - cbn. rewrite IH. intuition congruence.
  Qed.

  Lemma nodup_remove_all t l : NoDup l -> NoDup (remove_all t l).
  Proof.
    induction 1 as [|u l Hu Hl IH]; cbn; [constructor|].
    destruct (Nat.eqb_spec t u) as [->|Hn]; auto.
    constructor; auto. rewrite in_remove_all. tauto.
  Qed.

  Lemma holders_snoc tr e : holders (tr ++ [e]) = holders_step (holders tr) e.
  Proof. unfold holders. rewrite fold_left_app. reflexivity. Qed.

  Lemma inside_owns c : lockmode c -> inside c = true -> owns c = true.
  Proof.
    destruct c as [m|m o|m o r]; cbn; auto.
    - destruct o; auto; discriminate.
    - destruct o; intros H; try discriminate; destruct r; intuition (try congruence; subst; cbn; auto).
  Qed.

  Lemma PI_step s tr e s' : PI s tr -> cstep SP s e s' -> PI s' (tr ++ e).
  Proof.
    intros (Hown & Hlen & Hin & Hin2 & Hnd) H.
    inversion H as [s0 ths t m o Ht Hpre|s0 ths t m o r s1 Ht Htr|s0 ths t m o r Ht]; subst; cbn [fst snd] in *.
    - (* call *)
      destruct (Hown _ _ Ht) as (Ho & _). cbn in Ho. cbn in Hpre.
      assert (Hlm : lockmode (CPend m o : cth SP)).
      { destruct o, m; cbn in *; auto; discriminate. }
      repeat split.
      + cbn [fst snd] in *. destruct (nth_upd_inv _ _ _ _ _ H0) as [(<- & -> & _)|(Hne & Hu)].
        * cbn. apply Ho.
        * apply (Hown _ _ Hu).
      + cbn [fst snd] in *. destruct (nth_upd_inv _ _ _ _ _ H0) as [(<- & -> & _)|(Hne & Hu)].
        * cbn. apply Ho.
        * apply (Hown _ _ Hu).
      + destruct (nth_upd_inv _ _ _ _ _ H0) as [(<- & -> & _)|(Hne & Hu)]; auto.
        apply (Hown _ _ Hu).
      + cbn [fst snd]. rewrite upd_length. auto.
      + intros u Hu. rewrite holders_snoc in Hu. cbn [fst snd].
        assert (Hu' : In u (holders tr) /\ (o = MUnlock -> u <> t)).
        { destruct o; cbn in Hu; try (split; [assumption|discriminate]).
          apply in_remove_all in Hu. tauto. }
        destruct Hu' as (Hu1 & Hu2). destruct (Hin _ Hu1) as (c & Hc & Hci).
        destruct (Nat.eq_dec t u) as [<-|Hne].
        * exists (CPend m o). split; [eapply nth_upd_eq; eauto|].
          rewrite Ht in Hc. inversion Hc; subst. cbn in Hci. subst. cbn.
          destruct o; auto. exfalso. apply Hu2; auto.
        * exists c. rewrite nth_upd_neq by assumption. auto.
      + intros u c Hu Hci. rewrite holders_snoc.
        cbn [fst snd] in *. destruct (nth_upd_inv _ _ _ _ _ Hu) as [(<- & -> & _)|(Hne & Hu')].
        * assert (In t (holders tr)).
          { apply (Hin2 _ _ Ht). cbn in *. destruct o; auto; discriminate. }
          destruct o; cbn in *; auto. discriminate.
        * pose proof (Hin2 _ _ Hu' Hci). destruct o; cbn; auto.
          apply in_remove_all. split; auto.
      + rewrite holders_snoc. destruct o; cbn; auto. apply nodup_remove_all; auto.
    - (* linearization *)
      rewrite app_nil_r. destruct (Hown _ _ Ht) as (Ho & Hlm). cbn in Ho.
      assert (Hex : inside (CPend m o : cth SP) = inside (CDone m o r : cth SP)) by (destruct o; reflexivity).
      assert (Hlm' : lockmode (CDone m o r : cth SP)).
      { inversion Htr; subst; cbn in *; auto.
        destruct m; auto. exfalso. destruct Ho as (Ho & _). discriminate (Ho eq_refl). }
      assert (Hnew : owns (CDone m o r : cth SP) = true <-> s1 = Some t).
      { inversion Htr; subst; cbn in *; split; intros; auto; try congruence; try tauto.
        all: try (apply Ho; auto).
        all: exfalso; congruence. }
      assert (Hoth : forall u, u <> t -> s1 = Some u <-> s0 = Some u).
      { intros u Hu. inversion Htr; subst; split; intros; try congruence; auto. }
      repeat split.
      + cbn [fst snd] in *. destruct (nth_upd_inv _ _ _ _ _ H0) as [(<- & -> & _)|(Hne & Hu)].
        * apply Hnew.
        * intros Hc. apply Hoth; auto. apply (Hown _ _ Hu); auto.
      + cbn [fst snd] in *. destruct (nth_upd_inv _ _ _ _ _ H0) as [(<- & -> & _)|(Hne & Hu)].
        * apply Hnew.
        * intros Hc. apply (Hown _ _ Hu). apply Hoth; auto.
      + destruct (nth_upd_inv _ _ _ _ _ H0) as [(<- & -> & _)|(Hne & Hu)]; auto.
        apply (Hown _ _ Hu).
      + cbn [fst snd]. rewrite upd_length. intros u Hu.
        destruct (Nat.eq_dec u t) as [->|Hne].
        * apply nth_error_Some. congruence.
        * apply Hlen. apply Hoth; auto.
      + intros u Hu. destruct (Hin _ Hu) as (c & Hc & Hci). cbn [fst snd].
        destruct (Nat.eq_dec t u) as [<-|Hne].
        * exists (CDone m o r). split; [eapply nth_upd_eq; eauto|].
          rewrite Ht in Hc. inversion Hc; subst. rewrite <- Hex. auto.
        * exists c. rewrite nth_upd_neq by assumption. auto.
      + intros u c Hu Hci. cbn [fst snd] in *.
        destruct (nth_upd_inv _ _ _ _ _ Hu) as [(<- & -> & _)|(Hne & Hu')].
        * apply (Hin2 _ _ Ht). rewrite Hex. auto.
        * eapply Hin2; eauto.
      + auto.
    - (* return *)
      destruct (Hown _ _ Ht) as (Ho & Hlm). cbn in Ho.
      assert (Hh : forall u, In u (holders_step (holders tr) (Ret t o r)) <->
                (In u (holders tr) \/ (u = t /\ m = false /\ mnext m o r = true))).
      { intros u. destruct o, r; cbn in *; try (intuition congruence). }
      assert (Hcase : mnext m o r = true -> m = true -> inside (CDone m o r : cth SP) = true).
      { destruct o, r; cbn in *; intuition congruence. }
      assert (Hcase2 : inside (CDone m o r : cth SP) = true -> m = true /\ mnext m o r = true).
      { destruct o, r, m; cbn in *; intuition congruence. }
      repeat split.
      + cbn [fst snd] in *. destruct (nth_upd_inv _ _ _ _ _ H0) as [(<- & -> & _)|(Hne & Hu)].
        * cbn. apply Ho.
        * apply (Hown _ _ Hu).
      + cbn [fst snd] in *. destruct (nth_upd_inv _ _ _ _ _ H0) as [(<- & -> & _)|(Hne & Hu)].
        * cbn. apply Ho.
        * apply (Hown _ _ Hu).
      + destruct (nth_upd_inv _ _ _ _ _ H0) as [(<- & -> & _)|(Hne & Hu)]; cbn; auto.
        apply (Hown _ _ Hu).
      + cbn [fst snd]. rewrite upd_length. auto.
      + intros u Hu. rewrite holders_snoc in Hu. apply Hh in Hu. cbn [fst snd].
        destruct Hu as [Hu|(-> & Hm & Hn)].
        * destruct (Hin _ Hu) as (c & Hc & Hci).
          destruct (Nat.eq_dec t u) as [<-|Hne].
          -- exists (CIdle (S:=SP) (mnext m o r)). split; [eapply nth_upd_eq; eauto|]. cbn.
             rewrite Ht in Hc. inversion Hc; subst. apply Hcase2 in Hci. tauto.
          -- exists c. rewrite nth_upd_neq by assumption. auto.
        * exists (CIdle (S:=SP) (mnext m o r)). split; [eapply nth_upd_eq; eauto|]. auto.
      + intros u c Hu Hci. rewrite holders_snoc. apply Hh. cbn [fst snd] in *.
        destruct (nth_upd_inv _ _ _ _ _ Hu) as [(<- & -> & _)|(Hne & Hu')].
        * cbn in Hci. destruct m eqn:Em; [left|right; auto].
          apply (Hin2 _ _ Ht). auto.
        * left. eauto.
      + rewrite holders_snoc.
        destruct (mnext m o r) eqn:En; [destruct m eqn:Em|].
        * destruct o, r; cbn in *; auto; intuition congruence.
        * assert (Hni : ~ In t (holders tr)).
          { intros Hi. destruct (Hin _ Hi) as (c & Hc & Hci). rewrite Ht in Hc. inversion Hc; subst.
            apply Hcase2 in Hci. intuition congruence. }
          destruct o, r; cbn in *; auto; try (constructor; assumption).
        * destruct o, r, m; cbn in *; auto; try discriminate.
  Qed.

  Lemma PI_steps s e s' : csteps SP s e s' -> forall tr, PI s tr -> PI s' (tr ++ e).
  Proof.
    induction 1 as [s|s e1 s1 e2 s2 H1 H2 IH]; intros tr HP.
    - rewrite app_nil_r. auto.
    - rewrite app_assoc. apply IH. eapply PI_step; eauto.
  Qed.

  Lemma PI_init n : PI (cinit SP n) [].
  Proof.
    repeat split; cbn.
    - apply nth_repeat in H. subst. cbn. discriminate.
    - discriminate.
    - apply nth_repeat in H. subst. cbn. auto.
    - discriminate.
    - intros t [].
    - intros t c Hc Hi. apply nth_repeat in Hc. subst. discriminate.
    - constructor.
  Qed.

  Lemma mutex_spec_exclusion n tr :
    linearizable SP n tr -> length (holders tr) <= 1.
  Proof.
    intros (s & Hs). pose proof (PI_steps _ _ _ Hs [] (PI_init n)) as (Hown & Hlen & Hin & _ & Hnd).
    cbn [app] in *.
    destruct (holders tr) as [|a [|b l]] eqn:E; cbn; try lia.
    exfalso. destruct (Hin a) as (ca & Ha & Hia); [cbn; auto|].
    destruct (Hin b) as (cb & Hb & Hib); [cbn; auto|].
    destruct (Hown _ _ Ha) as (Hoa & Hla). destruct (Hown _ _ Hb) as (Hob & Hlb).
    apply inside_owns in Hia; auto. apply inside_owns in Hib; auto.
    apply Hoa in Hia. apply Hob in Hib.
    assert (a = b) by congruence. subst.
    inversion Hnd as [|x y Hx Hy]; subst. apply Hx. cbn; auto.
  Qed.
End Facts.
