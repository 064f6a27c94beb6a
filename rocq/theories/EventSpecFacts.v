(** Consequences of the event/semaphore specifications for histories. *)
From Coq Require Import List Bool Arith ZArith Lia.
From Verif Require Import ListSum Exec Lin LinCheck EventSpec.
Import ListNotations.
Local Open Scope Z_scope.

Section Facts.
  Variable trans : eop -> Z -> eres -> Z -> Prop.
  Variable i : Z.
  Hypothesis trans_le : forall o c r c', 0 <= c -> trans o c r c' ->
    0 <= c' /\ c' + took o r <= c + match o with EPost => 1 | _ => 0 end.
  Hypothesis i_nonneg : 0 <= i.
  Let SP := ev_gen i trans.

  Definition pendpost (c : cth SP) : Z := match c with CPend _ EPost => 1 | _ => 0 end.
  Definition donetake (c : cth SP) : Z := match c with CDone _ o r => took o r | _ => 0 end.

  (** Completed waits never outnumber posts (plus the initial count). *)
  Lemma conservation_gen n tr : linearizable SP n tr -> takes tr <= i + posts_called tr.
  Proof.
    intros (z & Hz).
    assert (G : 0 <= fst z /\ fst z + sumf pendpost (snd z) + sumf donetake (snd z) + takes tr <= i + posts_called tr).
    { revert Hz. unfold cinit. cbn [oinit minit SP ev_gen].
      set (x0 := (i, repeat (CIdle (S:=SP) tt) n) : cstate SP).
      assert (G0 : forall acc x tr z, csteps SP x tr z ->
         0 <= fst x -> fst x + sumf pendpost (snd x) + sumf donetake (snd x) + takes acc <= i + posts_called acc ->
         0 <= fst z /\ fst z + sumf pendpost (snd z) + sumf donetake (snd z) + takes (acc ++ tr) <= i + posts_called (acc ++ tr)).
      { clear tr z. intros acc x tr z H. revert acc.
        induction H as [x|x e1 y e2 z H1 H2 IH]; intros acc Hnn Hle.
        - rewrite app_nil_r. auto.
        - rewrite app_assoc. apply IH.
          + inversion H1; subst; cbn [fst snd] in *; auto.
            match goal with H : otrans _ _ _ _ _ _ |- _ => cbn in H; apply trans_le in H; tauto end.
          + unfold takes, posts_called in *.
            rewrite !sumf_app. inversion H1; subst; cbn [fst snd sumf] in *;
              match goal with H : nth_error _ _ = Some _ |- _ =>
                rewrite (sumf_upd pendpost _ _ _ _ H), (sumf_upd donetake _ _ _ _ H) end;
              cbn [pendpost donetake].
            * destruct o; cbn; lia.
            * match goal with H : otrans _ _ _ _ _ _ |- _ => cbn in H; apply trans_le in H; auto; destruct H end.
              destruct o; lia.
            * destruct o, r; cbn; lia. }
      intros Hz. apply (G0 [] x0 tr z Hz).
      - exact i_nonneg.
      - subst x0. cbn [fst snd]. rewrite !sumf_repeat. cbn. lia. }
    destruct G as (G1 & G2).
    assert (0 <= sumf pendpost (snd z)) by (apply sumf_nonneg; intros []; cbn; try lia; destruct o; lia).
    assert (0 <= sumf donetake (snd z)) by (apply sumf_nonneg; intros []; cbn; try lia; destruct o, r; cbn; lia).
    lia.
  Qed.

  (** The same for the system with deferred choice, keeping the final state. *)
  Definition xpend (x : xth SP) : Z := match x with XPend _ EPost _ => 1 | _ => 0 end.
  Definition xtake (x : xth SP) : Z := match x with XDone _ o r => took o r | _ => 0 end.
  Definition xobs (x : xth SP) : Prop := match x with XPend _ o l => forall r, In r l -> took o r = 0 | _ => True end.

  Lemma conservation_x n tr z : xsteps SP (xinit SP n) tr z ->
    0 <= fst z /\ fst z + sumf xpend (snd z) + sumf xtake (snd z) + takes tr <= i + posts_called tr.
  Proof.
    assert (G0 : forall acc x tr z, xsteps SP x tr z ->
       0 <= fst x -> Forall xobs (snd x) -> fst x + sumf xpend (snd x) + sumf xtake (snd x) + takes acc <= i + posts_called acc ->
       0 <= fst z /\ fst z + sumf xpend (snd z) + sumf xtake (snd z) + takes (acc ++ tr) <= i + posts_called (acc ++ tr)).
    { clear tr z. intros acc x tr z H. revert acc.
      induction H as [x|x e1 y e2 z H1 H2 IH]; intros acc Hnn Hob Hle.
      - rewrite app_nil_r. auto.
      - rewrite app_assoc.
        assert (Hnth : forall l t x, Forall xobs l -> nth_error l t = Some x -> xobs x)
          by (intros l t0 x0 Hf Hn; rewrite Forall_forall in Hf; apply Hf; eapply nth_error_In; eauto).
        assert (Hup : forall l t x, Forall xobs l -> xobs x -> Forall xobs (upd l t x)).
        { intros l t0 x0 Hf Hx. rewrite Forall_forall in Hf |- *. intros y0 Hy. apply In_nth_error in Hy. destruct Hy as (k & Hk).
          destruct (nth_upd_inv _ _ _ _ _ Hk) as [(_ & -> & _)|(_ & Hk')]; auto. apply Hf. eapply nth_error_In; eauto. }
        apply IH.
        + inversion H1; subst; cbn [fst snd] in *; auto.
          match goal with H : otrans _ _ _ _ _ _ |- _ => cbn in H; apply trans_le in H; tauto end.
        + inversion H1; subst; cbn [fst snd] in *; apply Hup; auto; cbn; try tauto.
          * intros r0 [<-|Hin]; [|apply (Hnth _ _ _ Hob H r0 Hin)].
            match goal with H : otrans _ _ _ _ _ _ |- _ => cbn in H; apply trans_le in H; auto; destruct H end.
            destruct o, r; cbn in *; lia.
        + unfold takes, posts_called in *.
          rewrite !sumf_app. inversion H1; subst; cbn [fst snd sumf] in *;
            match goal with H : nth_error _ _ = Some _ |- _ =>
              pose proof (Hnth _ _ _ Hob H) as Hx0; rewrite (sumf_upd xpend _ _ _ _ H), (sumf_upd xtake _ _ _ _ H) end;
            cbn [xpend xtake xobs] in *.
          * destruct o; cbn; lia.
          * destruct o; lia.
          * match goal with H : In _ _ |- _ => apply Hx0 in H; rewrite H end. destruct o; lia.
          * match goal with H : otrans _ _ _ _ _ _ |- _ => cbn in H; apply trans_le in H; auto; destruct H end.
            destruct o; lia.
          * destruct o, r; cbn; lia. }
    intros H. apply (G0 [] (xinit SP n) tr z H); unfold xinit; cbn [fst snd oinit minit SP ev_gen].
    - exact i_nonneg.
    - apply Forall_forall. intros x Hx. apply repeat_spec in Hx. subst. exact I.
    - rewrite !sumf_repeat. cbn. lia.
  Qed.
  Lemma xpend_nn x : 0 <= xpend x. Proof. destruct x; cbn; try lia. destruct o; lia. Qed.
  Lemma xtake_nn x : 0 <= xtake x. Proof. destruct x; cbn; try lia. destruct o, r; cbn; lia. Qed.

  (** Every post consumed: no unit is left and no post is still to take effect. *)
  Lemma all_consumed n tr z : xsteps SP (xinit SP n) tr z -> takes tr = i + posts_called tr ->
    fst z = 0 /\ forall t m l, nth_error (snd z) t <> Some (XPend (S:=SP) m EPost l).
  Proof.
    intros H E. destruct (conservation_x _ _ _ H) as (H0 & H1).
    pose proof (sumf_nonneg xpend (snd z) xpend_nn). pose proof (sumf_nonneg xtake (snd z) xtake_nn). split; [lia|].
    intros t m l Ht. pose proof (sumf_elem xpend _ _ _ xpend_nn Ht) as He. change (1 <= sumf xpend (snd z)) in He. lia.
  Qed.
End Facts.

Lemma conservation (post : Z -> Z -> Prop) i :
  (forall c c', 0 <= c -> post c c' -> 0 <= c' <= c + 1) -> 0 <= i ->
  forall n tr, linearizable (ev_spec i post) n tr -> takes tr <= i + posts_called tr.
Proof.
  intros Hp Hi n tr. apply (conservation_gen (etrans post) i); auto.
  intros o c r c' Hc H. inversion H; subst; cbn [took]; try lia.
  match goal with H : post _ _ |- _ => apply Hp in H end; lia.
Qed.

Lemma conservation_sp (post : Z -> Z -> Prop) i :
  (forall c c', 0 <= c -> post c c' -> 0 <= c' <= c + 1) -> 0 <= i ->
  forall n tr, linearizable (ev_spec_sp i post) n tr -> takes tr <= i + posts_called tr.
Proof.
  intros Hp Hi n tr. apply (conservation_gen (etrans_sp post) i); auto.
  intros o c r c' Hc [H|(Ho & -> & ->)].
  - inversion H; subst; cbn [took]; try lia.
    match goal with H : post _ _ |- _ => apply Hp in H end; lia.
  - destruct Ho as [->| ->]; cbn; lia.
Qed.

(** Executable outcomes, for refutations. *)
Definition outs_bin (t : nat) (o : eop) (c : Z) : list (eres * Z) :=
  match o with
  | EPost => [(EOk, 1)]
  | EWait => if 0 <? c then [(EOk, c - 1)] else []
  | ETry | ETimed => if 0 <? c then [(ETrue, c - 1)] else if c =? 0 then [(EFalse, 0)] else []
  end.
Definition eop_eqb (a b : eop) : bool :=
  match a, b with EPost, EPost | EWait, EWait | ETry, ETry | ETimed, ETimed => true | _, _ => false end.
Definition eres_eqb (a b : eres) : bool :=
  match a, b with EOk, EOk | ETrue, ETrue | EFalse, EFalse => true | _, _ => false end.

Lemma not_binary n tr :
  possible (ev_spec 0 post_binary) outs_bin eop_eqb eres_eqb n tr = false ->
  ~ linearizable (ev_spec 0 post_binary) n tr.
Proof.
  apply not_linearizable.
  - intros t o s r s' H. cbn in H. inversion H; subst; cbn.
    1: match goal with H : post_binary _ _ |- _ => unfold post_binary in H; subst; auto end.
    1,2,4: destruct (Z.ltb_spec 0 s); [left; reflexivity|lia].
    all: left; reflexivity.
  - intros []; reflexivity.
  - intros []; reflexivity.
Qed.
