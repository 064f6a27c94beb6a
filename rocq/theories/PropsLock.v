(** Property theorems: lock objects (C31, C32). *)
From Coq Require Import List Bool ZArith Lia.
From Verif Require Import ListSum LockModel.
Import ListNotations.
Local Open Scope Z_scope.

(** ** C31: what is owed, from the recorded events alone.

    [effect e m k]: change, due to event [e], in the number of mode-[k] locks of mutex [m] that the lock objects are responsible for:
    +1 for each lock obtained or adopted, -1 for each lock given up or handed back by release(). *)
Definition at_ (m : nat) (k : kind) (m' : nat) (k' : kind) : Z := if Nat.eqb m m' && kind_eqb k k' then 1 else 0.
Definition effect (e : mev) (m : nat) (k : kind) : Z :=
  match e with
  | EvCall _ _ OThrow => 0
  | EvCall m' (MLock k') _ => at_ m' k' m k
  | EvCall m' (MTry k') OYes | EvCall m' (MTimed k') OYes => at_ m' k' m k
  | EvCall m' (MUnlock k') _ => - at_ m' k' m k
  | EvCall m' (MConv k1 k0) _ | EvCall m' (MTryConv k1 k0) OYes | EvCall m' (MTimedConv k1 k0) OYes => at_ m' k1 m k - at_ m' k0 m k
  | EvCall _ _ _ => 0
  | EvAdopt m' k' => at_ m' k' m k
  | EvRelease m' k' => - at_ m' k' m k
  end.
Definition ledger (tr : trace) (m : nat) (k : kind) : Z := sumf (fun e => effect e m k) tr.

(** Number of live lock objects of type [k] that say they own a lock on [m]. *)
Definition own (x : option (kind * lobj)) (m : nat) (k : kind) : Z :=
  match x with Some (k', LO (Some m') true) => at_ m' k' m k | _ => 0 end.
Definition owners (os : store) (m : nat) (k : kind) : Z := sumf (fun x => own x m k) os.

(** The events that give up (or give back) a mode-[k] lock of [m]. *)
Definition gives_up (e : mev) (m : nat) (k : kind) : Prop :=
  match e with
  | EvCall m' (MUnlock k') _ | EvCall m' (MConv _ k') _ | EvCall m' (MTryConv _ k') _ | EvCall m' (MTimedConv _ k') _ => m' = m /\ k' = k
  | EvRelease m' k' => m' = m /\ k' = k
  | _ => False
  end.
Definition covered (tr : trace) : Prop :=
  forall t1 e t2 m k, tr = t1 ++ e :: t2 -> gives_up e m k -> 1 <= ledger t1 m k.

Definition wf_obj (x : option (kind * lobj)) : Prop := match x with Some (_, l) => ll l = true -> lm l <> None | None => True end.
Definition wf (os : store) : Prop := forall i x, nth_error os i = Some x -> wf_obj x.

Record inv (os : store) (tr : trace) : Prop := {
  i_led : forall m k, owners os m k = ledger tr m k;
  i_wf : wf os;
  i_cov : covered tr }.

Lemma kind_eqb_refl k : kind_eqb k k = true. Proof. destruct k; reflexivity. Qed.
Lemma kind_eqb_true a b : kind_eqb a b = true -> a = b. Proof. destruct a, b; cbn; congruence. Qed.
Lemma at_refl m k : at_ m k m k = 1. Proof. unfold at_. rewrite Nat.eqb_refl, kind_eqb_refl. reflexivity. Qed.
Lemma at_nonneg m k m' k' : 0 <= at_ m k m' k'. Proof. unfold at_. destruct (_ && _); lia. Qed.
Lemma own_nonneg x m k : 0 <= own x m k.
Proof. destruct x as [[k' [[m'|] [|]]]|]; cbn; try lia. apply at_nonneg. Qed.

Lemma ledger_app a b m k : ledger (a ++ b) m k = ledger a m k + ledger b m k.
Proof. apply sumf_app. Qed.
Lemma owners_app a b m k : owners (a ++ b) m k = owners a m k + owners b m k.
Proof. apply sumf_app. Qed.
Lemma get_nth os i x : get os i = Some x -> nth_error os i = Some (Some x).
Proof. unfold get. destruct (nth_error os i); congruence. Qed.
Lemma owners_upd os i x y m k : nth_error os i = Some x -> owners (upd os i y) m k = owners os m k - own x m k + own y m k.
Proof. intros H. unfold owners. rewrite (sumf_upd _ _ _ _ y H). reflexivity. Qed.
Lemma own_le os i x m k : nth_error os i = Some x -> own x m k <= owners os m k.
Proof. intros H. apply (sumf_elem (fun x => own x m k) os i x); [intros; apply own_nonneg|assumption]. Qed.
Lemma wf_upd os i y : wf os -> wf_obj y -> wf (upd os i y).
Proof. intros H Hy j x Hj. apply nth_upd_inv in Hj. destruct Hj as [(-> & -> & _)|(_ & Hj)]; eauto. Qed.
Lemma wf_snoc os y : wf os -> wf_obj y -> wf (os ++ [y]).
Proof.
  intros H Hy j x Hj. destruct (Nat.lt_ge_cases j (length os)) as [Hl|Hl].
  - rewrite nth_error_app1 in Hj by assumption. eauto.
  - rewrite nth_error_app2 in Hj by assumption. destruct (j - length os)%nat as [|[|]]; cbn in Hj; [inversion Hj; subst; assumption|discriminate|discriminate].
Qed.
Lemma covered_snoc tr e : covered tr -> (forall m k, gives_up e m k -> 1 <= ledger tr m k) -> covered (tr ++ [e]).
Proof.
  intros H He t1 e' t2 m k Heq Hg. destruct t2 as [|e2 t2] using rev_ind.
  - apply app_inj_tail in Heq. destruct Heq as (<- & <-). auto.
  - clear IHt2. rewrite app_comm_cons, app_assoc in Heq. apply app_inj_tail in Heq. destruct Heq as (-> & _). eapply H; eauto.
Qed.
Lemma upd_nth_other (os : store) i j y x : i <> j -> nth_error os j = Some x -> nth_error (upd os i y) j = Some x.
Proof. intros. rewrite nth_upd_neq; auto. Qed.

Ltac leds := repeat (rewrite ?ledger_app, ?owners_app); cbn [ledger owners sumf effect own lm ll].

(** The heart of the proof: every operation preserves the books. *)
Lemma lstep_inv E os tr p os' tr' x : inv os tr -> lstep E os tr p = Some (os', tr', x) -> inv os' tr' /\ x <> XUndef.
Proof.
  intros [HL HW HC] H.
  (* one object changes from [x0] to [y0], with one mutex event *)
  assert (Hown : forall i k m l, nth_error os i = Some (Some (k, l)) -> lm l = Some m -> ll l = true -> 1 <= ledger tr m k).
  { intros i k m [lm0 ll0] Hn E1 E2. cbn in E1, E2. subst. rewrite <- HL. pose proof (own_le os i _ m k Hn) as Ho. cbn in Ho. rewrite at_refl in Ho. lia. }
  destruct p; cbn [lstep] in H.
  - (* PDefault *) inversion H; subst. split; [|discriminate]. split; auto.
    + intros. leds. rewrite HL. lia.
    + apply wf_snoc; [assumption|cbn; discriminate].
  - (* PCtor *) unfold do_lock, call, ctor_with in H. cbn [lm ll] in H. destruct (E tr m (MLock k)) eqn:EO; inversion H; subst; (split; [|discriminate]); split;
      try (apply covered_snoc; [assumption|cbn; tauto]); try assumption; try (apply wf_snoc; [assumption|cbn; congruence]);
      intros; leds; rewrite HL; cbn; lia.
  - (* PAdopt *) inversion H; subst. split; [|discriminate]. split; auto.
    + intros. leds. rewrite HL. lia.
    + apply wf_snoc; [assumption|cbn; discriminate].
    + apply covered_snoc; [assumption|cbn; tauto].
  - (* PDefer *) inversion H; subst. split; [|discriminate]. split; auto.
    + intros. leds. rewrite HL. lia.
    + apply wf_snoc; [assumption|cbn; discriminate].
  - (* PCtorTry *) unfold do_trylock, call, ctor_with in H. cbn [lm ll] in H. destruct (E tr m (MTry k)) eqn:EO; inversion H; subst; (split; [|discriminate]); split;
      try (apply covered_snoc; [assumption|cbn; tauto]); try assumption; try (apply wf_snoc; [assumption|cbn; congruence]);
      intros; leds; rewrite HL; cbn; lia.
  - (* PCtorTimed *) unfold do_trylock, call, ctor_with in H. cbn [lm ll] in H. destruct (E tr m (MTimed k)) eqn:EO; inversion H; subst; (split; [|discriminate]); split;
      try (apply covered_snoc; [assumption|cbn; tauto]); try assumption; try (apply wf_snoc; [assumption|cbn; congruence]);
      intros; leds; rewrite HL; cbn; lia.
  - (* PMove *) destruct (get os s) as [[k l]|] eqn:G; [|discriminate]. apply get_nth in G. inversion H; subst. split; [|discriminate].
    pose proof (HW _ _ G) as Hl. cbn in Hl. split; [|apply wf_snoc; [apply wf_upd; [assumption|cbn; discriminate]|cbn; assumption]|assumption].
    intros. leds. rewrite (owners_upd _ _ _ _ _ _ G), HL. destruct l as [[|] [|]]; cbn; lia.
  - (* PConv *) destruct (get os s) as [[k l]|] eqn:G; [|discriminate]. apply get_nth in G. destruct (conv_ok to k); [|discriminate].
    pose proof (HW _ _ G) as Hl. cbn in Hl. unfold do_conv, call in H.
    destruct (ll l) eqn:EL.
    + destruct (lm l) as [m|] eqn:EM; [|exfalso; apply Hl; reflexivity].
      pose proof (Hown _ _ _ _ G EM EL) as Hone. destruct l as [lm0 ll0]; cbn in EM, EL; subst.
      destruct (E tr m (MConv to k)) eqn:EO; cbn [do_release fst snd add_obj] in H; inversion H; subst; (split; [|discriminate]); split;
        try (apply covered_snoc; [assumption|cbn; intros m0 k0 (-> & ->); assumption]);
        try (apply wf_snoc); try (apply wf_upd; [assumption|cbn; congruence]); try (cbn; congruence);
        intros; leds; rewrite (owners_upd _ _ _ _ _ _ G), HL; cbn; lia.
    + cbn [do_release fst snd add_obj] in H. inversion H; subst. split; [|discriminate]. split; [|apply wf_snoc; [apply wf_upd; [assumption|cbn; congruence]|cbn; congruence]|assumption].
      intros. leds. rewrite (owners_upd _ _ _ _ _ _ G), HL. destruct l as [[|] [|]]; cbn in *; try discriminate; lia.
  - (* PTryConv *) destruct (get os s) as [[k l]|] eqn:G; [|discriminate]. apply get_nth in G. destruct (tryconv_ok to k); [|discriminate].
    pose proof (HW _ _ G) as Hl. cbn in Hl. unfold do_tryconv, call in H.
    destruct (ll l) eqn:EL.
    + destruct (lm l) as [m|] eqn:EM; [|exfalso; apply Hl; reflexivity].
      pose proof (Hown _ _ _ _ G EM EL) as Hone. destruct l as [lm0 ll0]; cbn in EM, EL; subst.
      destruct (E tr m (MTryConv to k)) eqn:EO; cbn [do_release fst snd add_obj] in H; inversion H; subst; (split; [|discriminate]); split;
        try (apply covered_snoc; [assumption|cbn; intros m0 k0 (-> & ->); assumption]);
        try (apply wf_snoc); try (apply wf_upd; [assumption|cbn; congruence]); try (cbn; congruence);
        intros; leds; rewrite (owners_upd _ _ _ _ _ _ G), HL; cbn; lia.
    + cbn [do_release fst snd add_obj] in H. inversion H; subst. split; [|discriminate]. split; [|apply wf_snoc; [apply wf_upd; [assumption|cbn; congruence]|cbn; congruence]|assumption].
      intros. leds. rewrite (owners_upd _ _ _ _ _ _ G), HL. destruct l as [[|] [|]]; cbn in *; try discriminate; lia.
  - (* PTimedConv *) destruct (get os s) as [[k l]|] eqn:G; [|discriminate]. apply get_nth in G. destruct (timedconv_ok to k); [|discriminate].
    pose proof (HW _ _ G) as Hl. cbn in Hl. unfold do_tryconv, call in H.
    destruct (ll l) eqn:EL.
    + destruct (lm l) as [m|] eqn:EM; [|exfalso; apply Hl; reflexivity].
      pose proof (Hown _ _ _ _ G EM EL) as Hone. destruct l as [lm0 ll0]; cbn in EM, EL; subst.
      destruct (E tr m (MTimedConv to k)) eqn:EO; cbn [do_release fst snd add_obj] in H; inversion H; subst; (split; [|discriminate]); split;
        try (apply covered_snoc; [assumption|cbn; intros m0 k0 (-> & ->); assumption]);
        try (apply wf_snoc); try (apply wf_upd; [assumption|cbn; congruence]); try (cbn; congruence);
        intros; leds; rewrite (owners_upd _ _ _ _ _ _ G), HL; cbn; lia.
    + cbn [do_release fst snd add_obj] in H. inversion H; subst. split; [|discriminate]. split; [|apply wf_snoc; [apply wf_upd; [assumption|cbn; congruence]|cbn; congruence]|assumption].
      intros. leds. rewrite (owners_upd _ _ _ _ _ _ G), HL. destruct l as [[|] [|]]; cbn in *; try discriminate; lia.
  - (* PDtor *) destruct (get os d) as [[k l]|] eqn:G; [|discriminate]. apply get_nth in G.
    pose proof (HW _ _ G) as Hl. cbn in Hl. unfold do_dtor, call in H.
    destruct (ll l) eqn:EL.
    + destruct (lm l) as [m|] eqn:EM; [|exfalso; apply Hl; reflexivity].
      pose proof (Hown _ _ _ _ G EM EL) as Hone. destruct l as [lm0 ll0]; cbn in EM, EL; subst.
      destruct (E tr m (MUnlock k)) eqn:EO; inversion H; subst; (split; [|discriminate]); split;
        try (apply covered_snoc; [assumption|cbn; intros m0 k0 (-> & ->); assumption]); try assumption;
        try (apply wf_upd; [assumption|exact I]);
        intros; leds; rewrite ?(owners_upd _ _ _ _ _ _ G), HL; cbn; lia.
    + inversion H; subst. split; [|discriminate]. split; [|apply wf_upd; [assumption|exact I]|assumption].
      intros. rewrite (owners_upd _ _ _ _ _ _ G), HL. destruct l as [[|] [|]]; cbn in *; try discriminate; lia.
  - (* PAssign *) destruct (get os d) as [[k a]|] eqn:G; [|discriminate]. destruct (get os s) as [[k' b]|] eqn:G'; [|discriminate].
    destruct (kind_eqb k k') eqn:Ek; [|discriminate]. apply kind_eqb_true in Ek. subst k'. apply get_nth in G, G'. cbn [do_swap] in H. inversion H; subst.
    split; [|discriminate]. pose proof (HW _ _ G) as Ha. pose proof (HW _ _ G') as Hb. cbn in Ha, Hb.
    split; [|apply wf_upd; [apply wf_upd; [assumption|cbn; assumption]|cbn; assumption]|assumption].
    intros. destruct (Nat.eq_dec d s) as [->|Hn].
    + rewrite G in G'. inversion G'; subst. rewrite upd_upd, (owners_upd _ _ _ _ _ _ G), HL. destruct b as [[|] [|]]; cbn; lia.
    + rewrite (owners_upd _ _ _ _ _ _ (upd_nth_other _ _ _ _ _ Hn G')), (owners_upd _ _ _ _ _ _ G), HL. destruct a as [[|] [|]], b as [[|] [|]]; cbn; lia.
  - (* PConvAssign *) destruct (get os d) as [[k a]|] eqn:G; [|discriminate]. destruct (get os s) as [[k' b]|] eqn:G'; [|discriminate].
    destruct (conv_ok k k') eqn:Ek; [|discriminate]. apply get_nth in G, G'.
    assert (Hn : d <> s) by (intros ->; rewrite G in G'; inversion G'; subst; destruct k'; discriminate).
    pose proof (HW _ _ G) as Ha. pose proof (HW _ _ G') as Hb. cbn in Ha, Hb.
    assert (Howna : forall m, lm a = Some m -> ll a = true -> 1 <= ledger tr m k) by (intros; eapply Hown; eauto).
    assert (Htwo : forall m, lm a = Some m -> ll a = true -> forall m', lm b = Some m' -> ll b = true ->
                    1 <= ledger tr m k + at_ m' k m k - at_ m' k' m k).
    { intros m E1 E2 m' E3 E4. destruct a as [la lb], b as [lc ld]. cbn in E1, E2, E3, E4. subst.
      pose proof (sumf_two (fun x => own x m k) os d s _ _ (fun x => own_nonneg x m k) Hn G G') as H2.
      change (sumf (fun x => own x m k) os) with (owners os m k) in H2. rewrite HL in H2. cbn in H2. rewrite at_refl in H2.
      pose proof (at_nonneg m' k m k). lia. }
    unfold do_conv, call in H. destruct (ll b) eqn:EL.
    + destruct (lm b) as [m|] eqn:EM; [|exfalso; apply Hb; reflexivity].
      pose proof (Hown _ _ _ _ G' EM EL) as Hone. destruct b as [lm0 ll0]; cbn in EM, EL; subst.
      destruct (E tr m (MConv k k')) eqn:EO;
        [| |inversion H; subst; split; [|discriminate]; split;
            [intros; leds; rewrite (owners_upd _ _ _ _ _ _ G'), HL; cbn; lia|apply wf_upd; [assumption|cbn; congruence]|
             apply covered_snoc; [assumption|cbn; intros m0 k0 (-> & ->); assumption]]];
        cbn [do_release do_swap fst snd lm ll] in H; unfold do_dtor, call in H; cbn [lm ll] in H; (destruct (ll a) eqn:ELa;
        [ destruct (lm a) as [ma|] eqn:EMa; [|exfalso; apply Ha; reflexivity];
          pose proof (Htwo _ eq_refl eq_refl _ eq_refl eq_refl) as H2; destruct a as [lm1 ll1]; cbn in EMa, ELa; subst;
          match goal with H : context [E ?t ma (MUnlock k)] |- _ => destruct (E t ma (MUnlock k)) eqn:EO2 end
        | ]);
        inversion H; subst; (split; [|discriminate]); split;
        try (apply covered_snoc; [apply covered_snoc; [assumption|cbn; intros m0 k0 (-> & ->); assumption]|cbn; intros m0 k0 (-> & ->); leds; lia]);
        try (apply covered_snoc; [assumption|cbn; intros m0 k0 (-> & ->); assumption]);
        try (apply wf_snoc; [|cbn; congruence]);
        try (apply wf_upd; [apply wf_upd; [assumption|cbn; congruence]|cbn; congruence]);
        intros; leds; rewrite (owners_upd _ _ _ _ _ _ (upd_nth_other _ _ _ _ _ Hn G')), (owners_upd _ _ _ _ _ _ G), HL; leds; try lia;
        destruct a as [[|] [|]]; cbn in *; try discriminate; lia.
    + cbn [do_release do_swap fst snd lm ll] in H. unfold do_dtor, call in H; cbn [lm ll] in H. destruct (ll a) eqn:ELa.
      * destruct (lm a) as [ma|] eqn:EMa; [|exfalso; apply Ha; reflexivity].
        pose proof (Howna _ eq_refl eq_refl) as H2. destruct a as [lm1 ll1]; cbn in EMa, ELa; subst.
        destruct (E tr ma (MUnlock k)) eqn:EO2; inversion H; subst; (split; [|discriminate]); split;
          try (apply covered_snoc; [assumption|cbn; intros m0 k0 (-> & ->); assumption]);
          try (apply wf_snoc; [|cbn; congruence]);
          try (apply wf_upd; [apply wf_upd; [assumption|cbn; congruence]|cbn; congruence]);
          intros; leds; rewrite (owners_upd _ _ _ _ _ _ (upd_nth_other _ _ _ _ _ Hn G')), (owners_upd _ _ _ _ _ _ G), HL; leds; destruct b as [[|] [|]]; cbn in *; try discriminate; lia.
      * inversion H; subst; (split; [|discriminate]); split; [|apply wf_upd; [apply wf_upd; [assumption|cbn; congruence]|cbn; congruence]|assumption].
        intros; leds; rewrite (owners_upd _ _ _ _ _ _ (upd_nth_other _ _ _ _ _ Hn G')), (owners_upd _ _ _ _ _ _ G), HL; leds; destruct b as [[|] [|]], a as [[|] [|]]; cbn in *; try discriminate; lia.
  - (* PLock *) destruct (get os d) as [[k l]|] eqn:G; [|discriminate]. apply get_nth in G. unfold do_lock, call in H.
    destruct (lm l) as [m|] eqn:EM; [destruct (ll l) eqn:EL|].
    + inversion H; subst. rewrite (upd_same _ _ _ G). split; [split; assumption|discriminate].
    + destruct l as [lm0 ll0]; cbn in EM, EL; subst. destruct (E tr m (MLock k)) eqn:EO; inversion H; subst; (split; [|discriminate]); split;
        try (apply covered_snoc; [assumption|cbn; tauto]); try (apply wf_upd; [assumption|cbn; congruence]);
        intros; leds; rewrite (owners_upd _ _ _ _ _ _ G), HL; cbn; lia.
    + inversion H; subst. rewrite (upd_same _ _ _ G). split; [split; assumption|discriminate].
  - (* PTry *) destruct (get os d) as [[k l]|] eqn:G; [|discriminate]. apply get_nth in G. unfold do_trylock, call in H.
    destruct (lm l) as [m|] eqn:EM; [destruct (ll l) eqn:EL|].
    + inversion H; subst. rewrite (upd_same _ _ _ G). split; [split; assumption|discriminate].
    + destruct l as [lm0 ll0]; cbn in EM, EL; subst. destruct (E tr m (MTry k)) eqn:EO; inversion H; subst; (split; [|discriminate]); split;
        try (apply covered_snoc; [assumption|cbn; tauto]); try (apply wf_upd; [assumption|cbn; congruence]);
        intros; leds; rewrite (owners_upd _ _ _ _ _ _ G), HL; cbn; lia.
    + inversion H; subst. rewrite (upd_same _ _ _ G). split; [split; assumption|discriminate].
  - (* PTimed *) destruct (get os d) as [[k l]|] eqn:G; [|discriminate]. apply get_nth in G. unfold do_trylock, call in H.
    destruct (lm l) as [m|] eqn:EM; [destruct (ll l) eqn:EL|].
    + inversion H; subst. rewrite (upd_same _ _ _ G). split; [split; assumption|discriminate].
    + destruct l as [lm0 ll0]; cbn in EM, EL; subst. destruct (E tr m (MTimed k)) eqn:EO; inversion H; subst; (split; [|discriminate]); split;
        try (apply covered_snoc; [assumption|cbn; tauto]); try (apply wf_upd; [assumption|cbn; congruence]);
        intros; leds; rewrite (owners_upd _ _ _ _ _ _ G), HL; cbn; lia.
    + inversion H; subst. rewrite (upd_same _ _ _ G). split; [split; assumption|discriminate].
  - (* PUnlock *) destruct (get os d) as [[k l]|] eqn:G; [|discriminate]. apply get_nth in G. unfold do_unlock, call in H.
    destruct (lm l) as [m|] eqn:EM; [destruct (ll l) eqn:EL|].
    + pose proof (Hown _ _ _ _ G EM EL) as Hone. destruct l as [lm0 ll0]; cbn in EM, EL; subst.
      destruct (E tr m (MUnlock k)) eqn:EO; inversion H; subst; (split; [|discriminate]); split;
        try (apply covered_snoc; [assumption|cbn; intros m0 k0 (-> & ->); assumption]); try (apply wf_upd; [assumption|cbn; congruence]);
        intros; leds; rewrite (owners_upd _ _ _ _ _ _ G), HL; cbn; lia.
    + inversion H; subst. rewrite (upd_same _ _ _ G). split; [split; assumption|discriminate].
    + inversion H; subst. rewrite (upd_same _ _ _ G). split; [split; assumption|discriminate].
  - (* PRelease *) destruct (get os d) as [[k l]|] eqn:G; [|discriminate]. apply get_nth in G. cbn [do_release] in H. inversion H; subst. split; [|discriminate].
    destruct l as [[m|] [|]]; cbn [lm ll]; split; try (apply wf_upd; [assumption|cbn; congruence]); try assumption;
      try (intros; leds; rewrite (owners_upd _ _ _ _ _ _ G), HL; cbn; lia).
    apply covered_snoc; [assumption|cbn; intros m0 k0 (-> & ->); eapply (Hown _ _ _ _ G); reflexivity].
  - (* PSwap *) destruct (get os d) as [[k a]|] eqn:G; [|discriminate]. destruct (get os s) as [[k' b]|] eqn:G'; [|discriminate].
    destruct (kind_eqb k k') eqn:Ek; [|discriminate]. apply kind_eqb_true in Ek. subst k'. apply get_nth in G, G'. cbn [do_swap] in H. inversion H; subst.
    split; [|discriminate]. pose proof (HW _ _ G) as Ha. pose proof (HW _ _ G') as Hb. cbn in Ha, Hb.
    split; [|apply wf_upd; [apply wf_upd; [assumption|cbn; assumption]|cbn; assumption]|assumption].
    intros. destruct (Nat.eq_dec d s) as [->|Hn].
    + rewrite G in G'. inversion G'; subst. rewrite upd_upd, (owners_upd _ _ _ _ _ _ G), HL. destruct b as [[|] [|]]; cbn; lia.
    + rewrite (owners_upd _ _ _ _ _ _ (upd_nth_other _ _ _ _ _ Hn G')), (owners_upd _ _ _ _ _ _ G), HL. destruct a as [[|] [|]], b as [[|] [|]]; cbn; lia.
  - (* POwns *) destruct (get os d) as [[k l]|]; [|discriminate]. inversion H; subst. split; [split; assumption|discriminate].
  - (* PMutex *) destruct (get os d) as [[k l]|]; [|discriminate]. inversion H; subst. split; [split; assumption|discriminate].
Qed.

Lemma lrun_inv E os tr ps os' tr' xs : inv os tr -> lrun E os tr ps = Some (os', tr', xs) -> inv os' tr' /\ ~ In XUndef xs.
Proof.
  revert os tr xs. induction ps as [|p ps IH]; intros os tr xs HI H; cbn [lrun] in H.
  - inversion H; subst. split; [assumption|intros []].
  - destruct (lstep E os tr p) as [[[o1 t1] x]|] eqn:E1; [|discriminate].
    pose proof (lstep_inv _ _ _ _ _ _ _ HI E1) as (HI1 & Hx).
    destruct x; try (inversion H; subst; split; [assumption|cbn; intuition congruence]);
      (destruct (lrun E o1 t1 ps) as [[[o2 t2] ys]|] eqn:E2; [|discriminate]; inversion H; subst;
       destruct (IH _ _ _ HI1 E2) as (HI2 & Hy); split; [assumption|cbn; intuition congruence]).
Qed.

Lemma inv_init : inv [] [].
Proof. split; [reflexivity| |]. - intros [|i]; discriminate. - intros [|e0 t1] e t2 m0 k0 H; discriminate. Qed.

(** For every environment (whatever the mutexes answer, wherever they throw) and every program over any number of lock objects and
    mutexes: at the end - hence, every prefix of a program being a program, at every moment - the objects that say they own a mode-[k]
    lock of [m] are exactly as many as the locks obtained and not yet given up or released; no null mutex was ever used. *)
Theorem C31_ownership : forall E ps os tr xs, lrun E [] [] ps = Some (os, tr, xs) ->
  (forall m k, owners os m k = ledger tr m k) /\ ~ In XUndef xs.
Proof. intros E ps os tr xs H. destruct (lrun_inv _ _ _ _ _ _ _ inv_init H) as ([HL _ _] & Hx). auto. Qed.
Print Assumptions C31_ownership.

(** No double unlock: whenever the objects call unlock or a mode change, or release() hands a lock back, one was owed. *)
Theorem C31_no_double_unlock : forall E ps os tr xs t1 e t2 m k, lrun E [] [] ps = Some (os, tr, xs) ->
  tr = t1 ++ e :: t2 -> gives_up e m k -> 1 <= ledger t1 m k.
Proof. intros E ps os tr xs t1 e t2 m k H He Hg. destruct (lrun_inv _ _ _ _ _ _ _ inv_init H) as ([_ _ HC] & _). eapply HC; eauto. Qed.
Print Assumptions C31_no_double_unlock.

(** No leak: once all objects are destroyed nothing is owed. *)
Theorem C31_no_leak : forall E ps os tr xs, lrun E [] [] ps = Some (os, tr, xs) -> (forall i x, nth_error os i = Some x -> x = None) ->
  forall m k, ledger tr m k = 0.
Proof.
  intros E ps os tr xs H Hd m k. rewrite <- (proj1 (C31_ownership _ _ _ _ _ H)). clear H. unfold owners.
  induction os as [|x os IH]; [reflexivity|]. cbn [sumf]. rewrite (Hd O x eq_refl). cbn [own]. rewrite IH; [lia|]. intros i y Hi. apply (Hd (S i) y Hi).
Qed.
Print Assumptions C31_no_leak.

(** The destructor unlocks exactly once if the object owns, and otherwise calls nothing; afterwards the object is gone. *)
Theorem C31_destructor : forall E os tr d k l, get os d = Some (k, l) ->
  (forall m, lm l = Some m -> ll l = true -> E tr m (MUnlock k) <> OThrow ->
     lstep E os tr (PDtor d) = Some (upd os d None, tr ++ [EvCall m (MUnlock k) (E tr m (MUnlock k))], XOk VUnit)) /\
  (ll l = false -> lstep E os tr (PDtor d) = Some (upd os d None, tr, XOk VUnit)).
Proof.
  intros E os tr d k l G. cbn [lstep]. rewrite G. unfold do_dtor, call. split.
  - intros m -> -> Hn. destruct (E tr m (MUnlock k)); try congruence; reflexivity.
  - intros ->. reflexivity.
Qed.
Print Assumptions C31_destructor.

(** owns_lock() and mutex() tell the truth: what they report decides what the destructor does, and owning means that a lock of that mutex is owed. *)
Theorem C31_queries : forall E ps os tr xs d b p os1 tr1 os2 tr2, lrun E [] [] ps = Some (os, tr, xs) ->
  lstep E os tr (POwns d) = Some (os1, tr1, XOk (VBool b)) -> lstep E os tr (PMutex d) = Some (os2, tr2, XOk (VPtr p)) ->
  os1 = os /\ tr1 = tr /\ os2 = os /\ tr2 = tr /\
  exists os3 tr3 x, lstep E os tr (PDtor d) = Some (os3, tr3, x) /\
  match b with
  | true => exists m k, p = Some m /\ 1 <= ledger tr m k /\ tr3 = tr ++ [EvCall m (MUnlock k) (E tr m (MUnlock k))]
  | false => tr3 = tr /\ x = XOk VUnit
  end.
Proof.
  intros E ps os tr xs d b p os1 tr1 os2 tr2 H H1 H2. destruct (lrun_inv _ _ _ _ _ _ _ inv_init H) as ([HL HW _] & _).
  cbn [lstep] in H1, H2 |- *. destruct (get os d) as [[k [m0 l0]]|] eqn:G; [|discriminate]. cbn [lm ll] in *. inversion H1; inversion H2; subst. clear H1 H2.
  repeat split; auto. pose proof (get_nth _ _ _ G) as Gn. unfold do_dtor, call. cbn [lm ll]. destruct b.
  - destruct p as [m|]; [|exfalso; specialize (HW _ _ Gn); cbn in HW; apply HW; reflexivity].
    assert (1 <= ledger tr2 m k) by (rewrite <- HL; pose proof (own_le _ _ _ m k Gn) as Ho; cbn in Ho; rewrite at_refl in Ho; exact Ho).
    destruct (E tr2 m (MUnlock k)) eqn:EU; (eexists _, _, _; split; [reflexivity|]; exists m, k; rewrite EU; auto).
  - eexists _, _, _. split; [reflexivity|]. auto.
Qed.
Print Assumptions C31_queries.

(** Move construction and same-type assignment call no mutex function and keep every recorded lock: move construction empties the
    source, assignment exchanges the two objects (the old lock of the target is kept by the source, not unlocked). *)
Theorem C31_move : forall E os tr s d k a b,
  (get os s = Some (k, a) -> exists os', lstep E os tr (PMove s) = Some (os', tr, XOk VUnit) /\
     get os' (length os) = Some (k, a) /\ get os' s = Some (k, LO None false)) /\
  (get os d = Some (k, a) -> get os s = Some (k, b) -> exists os', lstep E os tr (PAssign d s) = Some (os', tr, XOk VUnit) /\
     get os' d = Some (k, b) /\ get os' s = Some (k, a)).
Proof.
  intros E os tr s d k a b. split.
  - intros G. cbn [lstep]. rewrite G. eexists. split; [reflexivity|]. pose proof (get_nth _ _ _ G) as Gn. unfold get.
    assert (Hs : (s < length os)%nat) by (apply nth_error_Some; congruence). split.
    + rewrite nth_error_app2 by (rewrite upd_length; lia). rewrite upd_length, Nat.sub_diag. cbn. destruct a; reflexivity.
    + rewrite nth_error_app1 by (rewrite upd_length; lia). rewrite (nth_upd_eq _ _ _ _ Gn). reflexivity.
  - intros G G'. cbn [lstep]. rewrite G, G', kind_eqb_refl. cbn [do_swap]. eexists. split; [reflexivity|].
    pose proof (get_nth _ _ _ G) as Gn. pose proof (get_nth _ _ _ G') as Gn'. unfold get. destruct a as [am al], b as [bm bl]. cbn [lm ll].
    destruct (Nat.eq_dec d s) as [->|Hn].
    + rewrite Gn in Gn'. inversion Gn'; subst. rewrite upd_upd, (nth_upd_eq _ _ _ _ Gn). auto.
    + rewrite nth_upd_neq by auto. rewrite (nth_upd_eq _ _ _ _ Gn). split; [reflexivity|].
      rewrite (nth_upd_eq _ _ _ (Some (k, LO bm bl))); [reflexivity|]. rewrite nth_upd_neq by auto. exact Gn'.
Qed.
Print Assumptions C31_move.

(** Concrete program: two mutexes, a failing try, a throwing unlock, moves, self-assignment, a conversion; all objects destroyed. *)
Definition ex_env : env := fun tr m o =>
  match o with MTry _ => if Nat.eqb m 1 then ONo else OYes | MUnlock _ => if Nat.eqb (length tr) 2 then OThrow else OYes | _ => OYes end.
Definition ex_prog : list lop :=
  [PCtor KU 0; PCtorTry KU 1; PUnlock 0; PMove 0; PAssign 2 2; PAssign 1 2; PConv KS 1; PLock 0; PDtor 0; PDtor 1; PDtor 2; PDtor 3].
Example C31_example : exists os tr xs, lrun ex_env [] [] ex_prog = Some (os, tr, xs) /\
  (forall i x, nth_error os i = Some x -> x = None) /\
  tr = [EvCall 0 (MLock KU) OYes; EvCall 1 (MTry KU) ONo; EvCall 0 (MUnlock KU) OThrow; EvCall 0 (MConv KS KU) OYes; EvCall 0 (MUnlock KS) OYes]%nat /\
  xs = [XOk VUnit; XOk VUnit; XThrow EMutex; XOk VUnit; XOk VUnit; XOk VUnit; XOk VUnit; XThrow ENotPermitted; XOk VUnit; XOk VUnit; XOk VUnit; XOk VUnit].
Proof.
  eexists _, _, _. split; [vm_compute; reflexivity|]. split; [|split; reflexivity].
  intros i x H. do 4 (destruct i as [|i]; [cbn in H; inversion H; reflexivity|]). destruct i; discriminate.
Qed.

(** ** Constructors and conversions, completely *)
(** What each constructor from a mutex calls and makes; one that throws makes no object. *)
Theorem C31_constructors_exact : forall E os tr k m,
  let lk := E tr m (MLock k) in let tk := E tr m (MTry k) in let dk := E tr m (MTimed k) in let new m b := os ++ [Some (k, LO m b)] in
  lstep E os tr (PDefault k) = Some (new None false, tr, XOk VUnit) /\
  lstep E os tr (PAdopt k m) = Some (new (Some m) true, tr ++ [EvAdopt m k], XOk VUnit) /\
  lstep E os tr (PDefer k m) = Some (new (Some m) false, tr, XOk VUnit) /\
  lstep E os tr (PCtor k m) = Some (match lk with OThrow => os | _ => new (Some m) true end, tr ++ [EvCall m (MLock k) lk], match lk with OThrow => XThrow EMutex | _ => XOk VUnit end) /\
  lstep E os tr (PCtorTry k m) = Some (match tk with OThrow => os | OYes => new (Some m) true | ONo => new (Some m) false end, tr ++ [EvCall m (MTry k) tk], match tk with OThrow => XThrow EMutex | _ => XOk VUnit end) /\
  lstep E os tr (PCtorTimed k m) = Some (match dk with OThrow => os | OYes => new (Some m) true | ONo => new (Some m) false end, tr ++ [EvCall m (MTimed k) dk], match dk with OThrow => XThrow EMutex | _ => XOk VUnit end).
Proof.
  intros E os tr k m lk tk dk new. cbn [lstep]. unfold do_lock, do_trylock, call. cbn [lm ll]. fold lk tk dk. destruct lk, tk, dk; repeat split.
Qed.
Print Assumptions C31_constructors_exact.

(** Which conversions exist: without trying, from exclusive to anything weaker, and from upgrade to the other two; trying, from upgrade to exclusive and from shared to both; timed, from shared to both.
    In particular nothing turns a shared lock into a stronger one without being able to fail. *)
Theorem C31_conversions_exist : forall E os tr to s k l, get os s = Some (k, l) ->
  (lstep E os tr (PConv to s) <> None <-> to <> k /\ k <> KS /\ (k = KU \/ to <> KG)) /\
  (lstep E os tr (PTryConv to s) <> None <-> (k = KG /\ to = KU) \/ (k = KS /\ to <> KS)) /\
  (lstep E os tr (PTimedConv to s) <> None <-> k = KS /\ to <> KS).
Proof.
  intros E os tr to s k l G. cbn [lstep]. rewrite G.
  destruct (do_conv E to k l tr) as [[[a1 b1] c1] d1], (do_tryconv E (MTryConv to k) l tr) as [[[a2 b2] c2] d2], (do_tryconv E (MTimedConv to k) l tr) as [[[a3 b3] c3] d3].
  destruct to, k; cbn [conv_ok tryconv_ok timedconv_ok]; repeat split; intros; intuition congruence.
Qed.
Print Assumptions C31_conversions_exist.

(** What a conversion does.  An owned lock is converted by one call of the mutex; the new object owns exactly what the call granted and the source keeps what it did not.
    Without a lock the mutex passes to the new object and no call is made.  If the call throws there is no new object and the source keeps the lock. *)
Theorem C31_conversions_exact : forall E os tr to s k m p o, get os s = Some (k, LO m p) ->
  lstep E os tr o <> None -> (o = PConv to s \/ o = PTryConv to s \/ o = PTimedConv to s) -> (p = true -> m <> None) ->
  let f := match o with PConv _ _ => MConv to k | PTryConv _ _ => MTryConv to k | _ => MTimedConv to k end in
  lstep E os tr o =
    match p, m with
    | true, Some x =>
        let out := E tr x f in let tr' := tr ++ [EvCall x f out] in
        match out, o with
        | OThrow, _ => Some (os, tr', XThrow EMutex)
        | ONo, PConv _ _ | OYes, _ => Some (upd os s (Some (k, LO None false)) ++ [Some (to, LO (Some x) true)], tr', XOk VUnit)
        | ONo, _ => Some (os ++ [Some (to, LO None false)], tr', XOk VUnit)
        end
    | _, _ => Some (upd os s (Some (k, LO None false)) ++ [Some (to, LO m false)], tr, XOk VUnit)
    end.
Proof.
  intros E os tr to s k m p o G Hn Ho Hp. pose proof (get_nth _ _ _ G) as Gn.
  assert (Hs : upd os s (Some (k, LO m p)) = os) by (apply upd_same; exact Gn).
  destruct Ho as [->|[->| ->]]; cbn [lstep] in Hn |- *; rewrite G in Hn |- *; [destruct (conv_ok to k)|destruct (tryconv_ok to k)|destruct (timedconv_ok to k)]; try congruence; unfold do_conv, do_tryconv, call; cbn [lm ll fst snd do_release];
  (destruct p; [destruct m as [x|]; [|exfalso; apply Hp; reflexivity]|destruct m; reflexivity]); cbn zeta;
  [destruct (E tr x (MConv to k))|destruct (E tr x (MTryConv to k))|destruct (E tr x (MTimedConv to k))]; cbn [add_obj]; rewrite ?Hs; reflexivity.
Qed.
Print Assumptions C31_conversions_exact.
Example C31_conversion_example : lstep (fun _ _ _ => ONo) [Some (KS, LO (Some 3%nat) true)] [] (PTryConv KU 0) = Some ([Some (KS, LO (Some 3%nat) true); Some (KU, LO None false)], [EvCall 3 (MTryConv KU KS) ONo], XOk VUnit).
Proof. reflexivity. Qed.

(** Assigning from another class: the source is converted, the target's old lock is unlocked, in this order; if the conversion throws nothing else happens. *)
Theorem C31_convert_assign_exact : forall E os tr d s k k' a b x, get os d = Some (k, a) -> get os s = Some (k', LO (Some x) b) -> lstep E os tr (PConvAssign d s) <> None ->
  let out := E tr x (MConv k k') in let tr1 := if b then tr ++ [EvCall x (MConv k k') out] else tr in
  let os1 := upd (upd os d (Some (k, LO (Some x) b))) s (Some (k', LO None false)) in
  lstep E os tr (PConvAssign d s) =
    if b && match out with OThrow => true | _ => false end then Some (os, tr1, XThrow EMutex)
    else match a with
         | LO (Some y) true => match E tr1 y (MUnlock k) with
                               | OThrow => Some (os1 ++ [Some (k, a)], tr1 ++ [EvCall y (MUnlock k) OThrow], XTerm)
                               | u => Some (os1, tr1 ++ [EvCall y (MUnlock k) u], XOk VUnit)
                               end
         | LO None true => Some (os1 ++ [Some (k, a)], tr1, XUndef)
         | LO _ false => Some (os1, tr1, XOk VUnit)
         end.
Proof.
  intros E os tr d s k k' [am al] b x Gd Gs Hn out tr1 os1. cbn [lstep] in Hn |- *. rewrite Gd, Gs in Hn |- *. destruct (conv_ok k k'); [|congruence]. subst out tr1 os1.
  assert (Hs : upd os s (Some (k', LO (Some x) b)) = os) by (apply upd_same, get_nth; exact Gs).
  unfold do_conv, do_dtor, call. cbn [lm ll fst snd do_release]. destruct b; cbn [andb].
  - destruct (E tr x (MConv k k')) eqn:E1; cbn [do_swap lm ll]; rewrite ?Hs; try reflexivity; (destruct al; [|destruct am; reflexivity]); (destruct am as [y|]; [|reflexivity]); destruct (E _ y (MUnlock k)) eqn:E2; reflexivity.
  - cbn [do_swap lm ll]. (destruct al; [|destruct am; reflexivity]). (destruct am as [y|]; [|reflexivity]). destruct (E tr y (MUnlock k)) eqn:E2; reflexivity.
Qed.
Print Assumptions C31_convert_assign_exact.

(** release() hands the lock and the mutex to the caller and calls nothing; swap() exchanges the objects and calls nothing. *)
Theorem C31_release_swap_exact : forall E os tr d s k m p k' m' p', get os d = Some (k, LO m p) -> get os s = Some (k', LO m' p') ->
  lstep E os tr (PRelease d) = Some (upd os d (Some (k, LO None false)), match m with Some x => if p then tr ++ [EvRelease x k] else tr | None => tr end, XOk (VPtr m)) /\
  (k = k' -> lstep E os tr (PSwap d s) = Some (upd (upd os d (Some (k, LO m' p'))) s (Some (k, LO m p)), tr, XOk VUnit)) /\
  (k <> k' -> lstep E os tr (PSwap d s) = None).
Proof. intros E os tr d s k m p k' m' p' Gd Gs. cbn [lstep]. rewrite Gd, Gs. repeat split; [intros <-; rewrite kind_eqb_refl; reflexivity|]. destruct k, k'; cbn; congruence. Qed.
Print Assumptions C31_release_swap_exact.

(** ** C32 *)
Definition is_acquire (p : lop) (d : nat) : Prop := p = PLock d \/ p = PTry d \/ p = PTimed d.

Theorem C32_misuse : forall E os tr d k l, get os d = Some (k, l) ->
  (forall p, is_acquire p d -> lm l = None -> lstep E os tr p = Some (os, tr, XThrow ENotPermitted)) /\
  (forall p, is_acquire p d -> lm l <> None -> ll l = true -> lstep E os tr p = Some (os, tr, XThrow EDeadlock)) /\
  (lm l = None \/ ll l = false -> lstep E os tr (PUnlock d) = Some (os, tr, XThrow ENotPermitted)).
Proof.
  intros E os tr d k l G. pose proof (get_nth _ _ _ G) as Gn.
  assert (Hs : upd os d (Some (k, l)) = os) by (apply upd_same; assumption).
  repeat split.
  - intros p [-> | [-> | ->]] Hm; cbn [lstep]; rewrite G; unfold do_lock, do_trylock; rewrite Hm, Hs; reflexivity.
  - intros p [-> | [-> | ->]] Hm Hl; cbn [lstep]; rewrite G; unfold do_lock, do_trylock; destruct (lm l); [|congruence| |congruence| |congruence]; rewrite Hl, Hs; reflexivity.
  - intros [Hm|Hl]; cbn [lstep]; rewrite G; unfold do_unlock; [rewrite Hm|destruct (lm l); rewrite ?Hl]; rewrite Hs; reflexivity.
Qed.
Print Assumptions C32_misuse.

(** Conversely, used properly each operation makes exactly the corresponding mutex call, once, and reports its outcome; the object
    records ownership exactly when the mutex granted it; an exception leaves the object as it was. *)
Theorem C32_proper_use : forall E os tr d k m, get os d = Some (k, LO (Some m) false) ->
  let lk := E tr m (MLock k) in let tk := E tr m (MTry k) in let dk := E tr m (MTimed k) in
  lstep E os tr (PLock d) = Some (upd os d (Some (k, LO (Some m) (match lk with OThrow => false | _ => true end))), tr ++ [EvCall m (MLock k) lk],
                                  match lk with OThrow => XThrow EMutex | _ => XOk VUnit end) /\
  lstep E os tr (PTry d) = Some (upd os d (Some (k, LO (Some m) (match tk with OYes => true | _ => false end))), tr ++ [EvCall m (MTry k) tk],
                                 match tk with OThrow => XThrow EMutex | OYes => XOk (VBool true) | ONo => XOk (VBool false) end) /\
  lstep E os tr (PTimed d) = Some (upd os d (Some (k, LO (Some m) (match dk with OYes => true | _ => false end))), tr ++ [EvCall m (MTimed k) dk],
                                   match dk with OThrow => XThrow EMutex | OYes => XOk (VBool true) | ONo => XOk (VBool false) end).
Proof.
  intros E os tr d k m G lk tk dk. cbn [lstep]. rewrite G. unfold do_lock, do_trylock, call. cbn [lm ll]. fold lk tk dk.
  destruct lk, tk, dk; repeat split.
Qed.
Print Assumptions C32_proper_use.

Theorem C32_proper_unlock : forall E os tr d k m, get os d = Some (k, LO (Some m) true) -> let uk := E tr m (MUnlock k) in
  lstep E os tr (PUnlock d) = Some (upd os d (Some (k, LO (Some m) (match uk with OThrow => true | _ => false end))), tr ++ [EvCall m (MUnlock k) uk],
                                    match uk with OThrow => XThrow EMutex | _ => XOk VUnit end).
Proof. intros E os tr d k m G uk. cbn [lstep]. rewrite G. unfold do_unlock, call. cbn [lm ll]. fold uk. destruct uk; reflexivity. Qed.
Print Assumptions C32_proper_unlock.

Example C32_example : lstep ex_env [Some (KU, LO (Some 3%nat) true)] [] (PTry 0) = Some ([Some (KU, LO (Some 3%nat) true)], [], XThrow EDeadlock).
Proof. reflexivity. Qed.
