(** Invariants of the waitable timers when modules come and go. *)
From Coq Require Import List Bool Arith ZArith Lia Permutation.
From Verif Require Import ListSum Exec OnceModel OnceProof OnceKey OnceCtx ModModel.
Import ListNotations.
Local Open Scope Z_scope.

(** ** Forgetting a module *)
Definition keepm (m : nat) (e : oev) : bool :=
  match e with EBegin _ j | EFail _ j | EDone _ j _ | EUse _ j _ | ERet _ j _ => negb (j =? m)%nat | _ => true end.
Lemma keep_begins m j tr : begins j (filter (keepm m) tr) = if (j =? m)%nat then 0 else begins j tr.
Proof.
  induction tr as [|e tr IH]; [destruct (_ =? _)%nat; reflexivity|]. cbn [filter]. replace (begins j (e :: tr)) with (begins j [e] + begins j tr) by (rewrite <- begins_app; reflexivity).
  destruct (keepm m e) eqn:K.
  - replace (begins j (e :: filter (keepm m) tr)) with (begins j [e] + begins j (filter (keepm m) tr)) by (rewrite <- begins_app; reflexivity). rewrite IH. destruct (Nat.eqb_spec j m) as [->|]; [|lia]. destruct e; cbn in *; try lia. apply negb_true_iff in K. rewrite K. cbn. lia.
  - rewrite IH. destruct (Nat.eqb_spec j m) as [->|N]; [lia|]. destruct e; cbn in *; try lia; try discriminate. apply negb_false_iff, Nat.eqb_eq in K. subst. destruct (Nat.eqb_spec m j); [congruence|]. cbn. lia.
Qed.
Lemma keep_fails m j tr : fails j (filter (keepm m) tr) = if (j =? m)%nat then 0 else fails j tr.
Proof.
  induction tr as [|e tr IH]; [destruct (_ =? _)%nat; reflexivity|]. cbn [filter]. replace (fails j (e :: tr)) with (fails j [e] + fails j tr) by (rewrite <- fails_app; reflexivity).
  destruct (keepm m e) eqn:K.
  - replace (fails j (e :: filter (keepm m) tr)) with (fails j [e] + fails j (filter (keepm m) tr)) by (rewrite <- fails_app; reflexivity). rewrite IH. destruct (Nat.eqb_spec j m) as [->|]; [|lia]. destruct e; cbn in *; try lia. apply negb_true_iff in K. rewrite K. cbn. lia.
  - rewrite IH. destruct (Nat.eqb_spec j m) as [->|N]; [lia|]. destruct e; cbn in *; try lia; try discriminate. apply negb_false_iff, Nat.eqb_eq in K. subst. destruct (Nat.eqb_spec m j); [congruence|]. cbn. lia.
Qed.
Lemma keep_dones m j tr : dones j (filter (keepm m) tr) = if (j =? m)%nat then 0 else dones j tr.
Proof.
  induction tr as [|e tr IH]; [destruct (_ =? _)%nat; reflexivity|]. cbn [filter]. replace (dones j (e :: tr)) with (dones j [e] + dones j tr) by (rewrite <- dones_app; reflexivity).
  destruct (keepm m e) eqn:K.
  - replace (dones j (e :: filter (keepm m) tr)) with (dones j [e] + dones j (filter (keepm m) tr)) by (rewrite <- dones_app; reflexivity). rewrite IH. destruct (Nat.eqb_spec j m) as [->|]; [|lia]. destruct e; cbn in *; try lia. apply negb_true_iff in K. rewrite K. cbn. lia.
  - rewrite IH. destruct (Nat.eqb_spec j m) as [->|N]; [lia|]. destruct e; cbn in *; try lia; try discriminate. apply negb_false_iff, Nat.eqb_eq in K. subst. destruct (Nat.eqb_spec m j); [congruence|]. cbn. lia.
Qed.
Lemma keep_opened m c h tr : opened c h (filter (keepm m) tr) = opened c h tr.
Proof.
  induction tr as [|e tr IH]; [reflexivity|]. cbn [filter]. replace (opened c h (e :: tr)) with (opened c h [e] + opened c h tr) by (rewrite <- opened_app; reflexivity).
  destruct (keepm m e) eqn:K; [replace (opened c h (e :: filter (keepm m) tr)) with (opened c h [e] + opened c h (filter (keepm m) tr)) by (rewrite <- opened_app; reflexivity); rewrite IH; reflexivity|].
  rewrite IH. destruct e; cbn in *; try lia; discriminate.
Qed.
Lemma keep_closed m c h tr : closed c h (filter (keepm m) tr) = closed c h tr.
Proof.
  induction tr as [|e tr IH]; [reflexivity|]. cbn [filter]. replace (closed c h (e :: tr)) with (closed c h [e] + closed c h tr) by (rewrite <- closed_app; reflexivity).
  destruct (keepm m e) eqn:K; [replace (closed c h (e :: filter (keepm m) tr)) with (closed c h [e] + closed c h (filter (keepm m) tr)) by (rewrite <- closed_app; reflexivity); rewrite IH; reflexivity|].
  rewrite IH. destruct e; cbn in *; try lia; discriminate.
Qed.

Lemma inside_runs cr m pc : inside m pc = true -> runs cr m pc = true. Proof. destruct pc; cbn; auto; discriminate. Qed.
Lemma past_runs cr m pc : past m pc = true -> runs cr m pc = true. Proof. destruct pc; cbn; auto; discriminate. Qed.

(** [p'] differs from [p] in module [m], the semaphore and nothing else. *)
Definition same_but (m : nat) (p p' : proc) : Prop :=
  tslots p' = tslots p /\ tlcs p' = tlcs p /\ tlsv p' = tlsv p /\ length (mods p') = length (mods p) /\ (forall j, j <> m -> nth_error (mods p') j = nth_error (mods p) j) /\
  (forall x, nth_error (mods p') m = Some x -> x = MS 0 0 false).

Lemma destroy_same p m p' e x : nth_error (mods p) m = Some x -> mod_destroy p m = (p', e) -> same_but m p (set_mod p' m (MS 0 0 false)).
Proof.
  intros Hx. unfold mod_destroy. rewrite Hx.
  assert (G : forall q, mods q = mods p \/ mods q = upd (mods p) m (MS (ini x) (tkey x) false) -> tslots q = tslots p -> tlcs q = tlcs p -> tlsv q = tlsv p -> same_but m p (set_mod q m (MS 0 0 false))).
  { intros q Hq E1 E2 E3. unfold same_but, set_mod. cbn [tslots tlcs tlsv mods]. repeat split; auto.
    - rewrite upd_length. destruct Hq as [->| ->]; [reflexivity|apply upd_length].
    - intros j Hj. rewrite nth_upd_neq by auto. destruct Hq as [->| ->]; [reflexivity|]. rewrite nth_upd_neq by auto. reflexivity.
    - intros y Hy. assert (L : nth_error (mods q) m <> None) by (destruct Hq as [->| ->]; [congruence|]; rewrite (nth_upd_eq _ _ _ _ Hx); discriminate). destruct (nth_error (mods q) m) as [w|] eqn:E; [|congruence]. rewrite (nth_upd_eq _ _ _ _ E) in Hy. congruence. }
  destruct (holder x); [|intros H; inversion H; subst; apply G; auto].
  destruct (semh p) as [|[|h]]; [destruct (sem p)|destruct (sem p)|]; intros H; inversion H; subst; apply G; auto.
Qed.

Lemma OI_forget p ths p' tr m cr : OI (p, ths) tr -> same_but m p p' -> existsb (runs cr m) ths = false -> OI (p', ths) (filter (keepm m) tr).
Proof.
  intros (I1 & I2 & I3) (S1 & S2 & S3 & SL & S4 & S5) Hno.
  assert (No : forall t pc, nth_error ths t = Some pc -> runs cr m pc = false).
  { intros t pc Ht. destruct (runs cr m pc) eqn:E; [|reflexivity]. assert (existsb (runs cr m) ths = true) by (apply existsb_exists; exists pc; split; [eapply nth_error_In; exact Ht|exact E]). congruence. }
  cbn [fst snd] in *. split; [|split]; cbn [fst snd].
  - intros j x Hx. rewrite keep_begins, keep_fails, keep_dones. destruct (Nat.eqb_spec j m) as [->|N].
    + rewrite (S5 _ Hx). cbn. repeat split; try lia. unfold nin.
      assert (A : forall l, (forall pc, In pc l -> inside m pc = false) -> sumf (fun pc => bz (inside m pc)) l = 0).
      { induction l as [|w l IH]; intros HI; [reflexivity|]. cbn. rewrite (HI w (or_introl eq_refl)), IH; [reflexivity|]. intros; apply HI; right; assumption. }
      apply A. intros pc Hi. apply In_nth_error in Hi. destruct Hi as (t & Ht). destruct (inside m pc) eqn:E; [|reflexivity]. apply (inside_runs cr) in E. rewrite (No _ _ Ht) in E. discriminate.
    + rewrite S4 in Hx by exact N. apply I1. exact Hx.
  - intros t pc j Ht Hp. assert (j <> m). { intros ->. apply (past_runs cr) in Hp. rewrite (No _ _ Ht) in Hp. discriminate. } rewrite S4 by assumption. eapply I2; eauto.
  - intros t j k Hi. apply filter_In in Hi. destruct Hi as (Hi & K). cbn in K. apply negb_true_iff, Nat.eqb_neq in K. rewrite S4 by exact K. eapply I3; exact Hi.
Qed.

Lemma CX_forget p ths p' tr m cr : CX (p, ths) tr -> same_but m p p' -> existsb (runs cr m) ths = false -> CX (p', ths) (filter (keepm m) tr).
Proof.
  intros (C1 & C2 & C3 & C4 & C5 & C6) (S1 & S2 & S3 & SL & S4 & S5) Hno.
  assert (No : forall t pc, nth_error ths t = Some pc -> runs cr m pc = false).
  { intros t pc Ht. destruct (runs cr m pc) eqn:E; [|reflexivity]. assert (existsb (runs cr m) ths = true) by (apply existsb_exists; exists pc; split; [eapply nth_error_In; exact Ht|exact E]). congruence. }
  unfold CX. rewrite S2, S3. split; [exact C1|]. split; [exact C2|]. split; [exact C3|]. split; [|split].
  - intros c h. rewrite keep_opened, keep_closed. apply C4.
  - intros t pc j x Ht Hf Hx. assert (j <> m). { intros ->. apply fill_past, (past_runs cr) in Hf. rewrite (No _ _ Ht) in Hf. discriminate. } rewrite S4 in Hx by assumption. eapply C5; eauto.
  - intros t j c Hi. apply filter_In in Hi. destruct Hi as (Hi & K). cbn in K. apply negb_true_iff, Nat.eqb_neq in K. rewrite S4 by exact K. eapply C6; exact Hi.
Qed.

(** ** What every step does *)
Definition bev (e : xev) : list oev := match e with XE e => [e] | XMis t m c => [ERet t m c] | _ => [] end.
Definition bevs (tr : list xev) : list oev := flat_map bev tr.
Lemma bevs_app a b : bevs (a ++ b) = bevs a ++ bevs b. Proof. apply flat_map_app. Qed.
Lemma bevs_XE l : bevs (map XE l) = l. Proof. induction l as [|e l IH]; [reflexivity|]. cbn. f_equal. exact IH. Qed.
Lemma bevs_check vs cr l es : bevs (map (check vs cr l) es) = es.
Proof.
  induction es as [|e es IH]; [reflexivity|]. change (bevs (map (check vs cr l) (e :: es))) with (bev (check vs cr l e) ++ bevs (map (check vs cr l) es)). rewrite IH. destruct e; try reflexivity. cbn. destruct (nth_error cr c) as [[j h]|]; [|reflexivity]. destruct (nth_error l m) as [y|]; [|reflexivity]. destruct (_ =? _)%nat; reflexivity.
Qed.

Inductive xeff (vs : nat -> nat -> nat) (s : xst) : xact -> xst -> list xev -> Prop :=
| XE_base a b' e e' : once_step (xb s) a = Some (b', e) -> length (tlcs (fst b')) = length (tlcs (fst (xb s))) -> (e' = map XE e \/ e' = map (check vs (xcr s) (xml s)) e) ->
    (forall t m c, In (ERet t m c) e -> e' = map (check vs (xcr s) (xml s)) e) -> xeff vs s (XB a) (XS b' (xml s) (xcr s)) e'
| XE_made t m o b' e y : once_step (xb s) (OStep t o) = Some (b', e) -> nth_error (snd (xb s)) t = Some (OLook m) -> nth_error (xml s) m = Some y -> length (tlcs (fst b')) = S (length (tlcs (fst (xb s)))) -> (forall t m c, ~ In (ERet t m c) e) ->
    xeff vs s (XB (OStep t o)) (XS b' (xml s) (xcr s ++ [(m, mgen y)])) (map XE e ++ [XMade (length (tlcs (fst (xb s)))) m (mgen y)])
| XE_crash c m g y : nth_error (xcr s) c = Some (m, g) -> nth_error (xml s) m = Some y -> (mloaded y = false \/ mgen y <> g) -> xeff vs s (XB (OCallback c)) s [XCrash c]
| XE_load m y : nth_error (xml s) m = Some y -> mloaded y = false -> xeff vs s (XLoad m) (XS (xb s) (upd (xml s) m (ML true (S (mgen y)))) (xcr s)) []
| XE_unload m y p' e : nth_error (xml s) m = Some y -> mloaded y = true -> existsb (runs (xcr s) m) (snd (xb s)) = false -> mod_destroy (fst (xb s)) m = (p', e) ->
    xeff vs s (XUnload m) (XS (set_mod p' m (MS 0 0 false), snd (xb s)) (upd (xml s) m (ML false (mgen y))) (xcr s)) e.

Lemma closes_noret c x : forall u m d, ~ In (ERet u m d) (closes c x).
Proof. intros u m d. unfold closes. destruct (cwait x), (cthr x), (ctimer x); cbn; intuition discriminate. Qed.

Lemma x_effects vs s a s' e : xstep vs s a = Some (s', e) -> xeff vs s a s' e.
Proof.
  destruct a as [a|m|m]; cbn [xstep]; intros H.
  - destruct (once_step (xb s) a) as [[b' e0]|] eqn:Eo; [|discriminate].
    destruct (xb s) as [p ths] eqn:Eb. pose proof (ctx_effects _ _ _ _ _ Eo) as He. rewrite <- Eb in Eo.
    destruct a as [t m|t o|t|c].
    + destruct (nth_error (xml s) m) as [y|]; [|discriminate]. destruct (mloaded y); inversion H; subst.
      assert (e0 = [] /\ tlcs (fst b') = tlcs p) as (-> & El). { rewrite Eb in Eo. cbn in Eo. destruct (nth_error ths t) as [[]|]; try discriminate. destruct (nth_error (mods p) m); inversion Eo; subst. split; reflexivity. }
      eapply XE_base; [exact Eo|rewrite Eb; cbn [fst]; congruence|left; reflexivity|intros ? ? ? []].
    + cbn [snd fst] in H.
      destruct (nth_error ths t) as [pc|] eqn:Et; [|cbn in Eo; rewrite Eb in Eo; cbn in Eo; rewrite Et in Eo; discriminate].
      assert (Hlen : length (tlcs (fst b')) = length (tlcs p) \/ (exists m, pc = OLook m) /\ length (tlcs (fst b')) = S (length (tlcs p)) /\ forall u j c, ~ In (ERet u j c) e0).
      { destruct b' as [p1 th1]. cbn [fst snd] in *. rewrite Eb in Eo. cbn [once_step] in Eo. rewrite Et in Eo. destruct (once_step1 p t pc o) as [[[p2 pc2] e2]|] eqn:E1; [|discriminate]. inversion Eo; subst. clear -E1.
        destruct pc; cbn [once_step1] in E1; try discriminate;
          try (destruct (nth_error (mods p) m) as [x|]; [|discriminate]); try (destruct (ini x) as [|[|?]]); try (destruct o); try (destruct (sem p)); try (destruct (existsb _ _)); try (destruct (tls_get _ _ _)); try (destruct (nth_error (tlcs p) c) as [w|]); try discriminate; inversion E1; subst; cbn [set_mod set_sem set_slots set_tlcs tlcs]; rewrite ?upd_length; auto;
          (right; split; [eauto|split; [rewrite app_length; cbn; lia|intros u j d Hi; cbn in Hi; intuition discriminate]]). }
      destruct pc as [| |m|m|m|m|m k|m k|m|m|m|m k|m|m|m c|m c|m c|m c|c];
        try (inversion H; subst; eapply XE_base; [exact Eo|rewrite Eb; cbn [fst]; destruct Hlen as [Hl|((j & Hl) & _)]; [exact Hl|discriminate]|right; reflexivity|reflexivity]).
      destruct (Nat.ltb_spec (length (tlcs p)) (length (tlcs (fst b')))) as [Hl|Hl].
      * destruct (nth_error (xml s) m) as [y|] eqn:Ey; inversion H; subst. destruct Hlen as [Hl'|(_ & Hl' & Hr)]; [lia|].
        replace p with (fst (xb s)) by (rewrite Eb; reflexivity). eapply XE_made; [exact Eo|rewrite Eb; exact Et|exact Ey|rewrite Eb; exact Hl'|exact Hr].
      * inversion H; subst. eapply XE_base; [exact Eo|rewrite Eb; cbn [fst]; destruct Hlen as [Hl'|(_ & Hl' & _)]; [exact Hl'|lia]|right; reflexivity|reflexivity].
    + inversion H; subst. assert (e0 = [] /\ tlcs (fst b') = tlcs p) as (-> & El). { rewrite Eb in Eo. cbn in Eo. destruct (nth_error ths t) as [[]|]; try discriminate. inversion Eo; subst. split; reflexivity. }
      eapply XE_base; [exact Eo|rewrite Eb; cbn [fst]; congruence|left; reflexivity|intros ? ? ? []].
    + destruct (nth_error (xcr s) c) as [[j h]|] eqn:Ec; [|discriminate]. destruct (nth_error (xml s) j) as [y|] eqn:Ey; [|discriminate]. destruct (mloaded y && (mgen y =? h)%nat) eqn:El; inversion H; subst.
      * rewrite Eb in Eo. cbn in Eo. destruct (nth_error (tlcs p) c) as [x|] eqn:Ex; [|discriminate]. destruct (nth_error ths (cown x)) as [[]|] eqn:Eg; try discriminate. destruct (cwait x) eqn:Ew; inversion Eo; subst.
        eapply XE_base with (e := closes c x); [rewrite Eb; cbn; rewrite Ex, Eg, Ew; reflexivity|rewrite Eb; cbn; apply upd_length|left; reflexivity|intros u m d Hi; exfalso; eapply closes_noret; exact Hi].
      * eapply XE_crash; [exact Ec|exact Ey|]. apply andb_false_iff in El. destruct El as [El|El]; [left; exact El|right; apply Nat.eqb_neq; exact El].
  - destruct (nth_error (xml s) m) as [y|] eqn:Ey; [|discriminate]. destruct (mloaded y) eqn:El; inversion H; subst. apply XE_load; assumption.
  - destruct (nth_error (xml s) m) as [y|] eqn:Ey; [|discriminate]. destruct (mloaded y && _) eqn:El; [|discriminate]. apply andb_prop in El. destruct El as (El & Er). apply negb_true_iff in Er. destruct (mod_destroy (fst (xb s)) m) as [p' e0] eqn:Ed. inversion H; subst. apply XE_unload; assumption.
Qed.

(** ** The program points of the threads *)
Definition pcmod (pc : opc) : option nat :=
  match pc with
  | OChk j | OCas j | OOpen j | OAlloc j | OCreate j _ | ODrop j _ | OQuery j | OAlloc2 j | OUndo j | OPut j _ | OPub j | OLook j | ODup j _ | OReg j _ | OTim j _ | OVal j _ => Some j
  | _ => None
  end.
Inductive pctr (p p' : proc) : opc -> opc -> Prop :=
| PT_idle pc : pctr p p' pc OIdle
| PT_in pc pc' m : pcmod pc = Some m -> pcmod pc' = Some m -> filling pc' = None -> pctr p p' pc pc'
| PT_fill pc pc' m c : filling pc = Some m -> filling pc' = Some m -> pcctx pc = Some c -> pcctx pc' = Some c -> pctr p p' pc pc'
| PT_new m : length (tlcs p') = S (length (tlcs p)) -> pctr p p' (OLook m) (ODup m (length (tlcs p)))
| PT_del pc m c : filling pc = Some m -> pcctx pc = Some c -> pctr p p' pc (ODel c).

Lemma pc_step p ths a p' ths' e t pc' : once_step (p, ths) a = Some ((p', ths'), e) -> nth_error ths' t = Some pc' ->
  nth_error ths t = Some pc' \/ (exists m, a = OCall t m /\ pc' = OChk m) \/ pc' = OGone \/ exists pc o, a = OStep t o /\ nth_error ths t = Some pc /\ pctr p p' pc pc'.
Proof.
  destruct a as [u m|u o|u|c]; cbn [once_step]; intros H Ht.
  - destruct (nth_error ths u) as [[]|] eqn:Eu; try discriminate. destruct (nth_error (mods p) m); inversion H; subst. apply nth_upd_inv in Ht. destruct Ht as [(<- & -> & _)|(_ & Ht)]; [right; left; eauto|auto].
  - destruct (nth_error ths u) as [pc|] eqn:Eu; [|discriminate]. destruct (once_step1 p u pc o) as [[[p1 pc1] e1]|] eqn:E1; inversion H; subst. apply nth_upd_inv in Ht. destruct Ht as [(<- & -> & _)|(_ & Ht)]; [|auto]. right. right. right. exists pc, o. split; [reflexivity|]. split; [exact Eu|].
    clear -E1. destruct pc; cbn [once_step1] in E1; try discriminate;
      try (destruct (nth_error (mods p) m) as [x|]; [|discriminate]); try (destruct (ini x) as [|[|?]]); try (destruct o); try (destruct (sem p)); try (destruct (existsb _ _)); try (destruct (tls_get _ _ _)); try (destruct (nth_error (tlcs p) c) as [w|]); try discriminate; inversion E1; subst;
      try (apply PT_idle); try (eapply PT_in; reflexivity); try (eapply PT_fill; reflexivity); try (eapply PT_del; reflexivity); try (destruct (_ =? _)%nat; eapply PT_in; reflexivity);
      try (apply PT_new; cbn; rewrite app_length; cbn; lia).
  - destruct (nth_error ths u) as [[]|] eqn:Eu; try discriminate. inversion H; subst. apply nth_upd_inv in Ht. destruct Ht as [(<- & -> & _)|(_ & Ht)]; auto.
  - destruct (nth_error (tlcs p) c) as [x|]; [|discriminate]. destruct (nth_error ths (cown x)) as [[]|]; try discriminate. destruct (cwait x); inversion H; subst. auto.
Qed.

Lemma mods_len p ths a p' ths' e : once_step (p, ths) a = Some ((p', ths'), e) -> length (mods p') = length (mods p).
Proof.
  intros H. pose proof (once_effects _ _ _ _ _ H) as He. cbn [fst snd] in He. destruct He; cbn [set_tlcs set_mod mods]; try reflexivity; try congruence; try apply upd_length. rewrite H5. apply upd_length.
Qed.
Lemma fill_pcmod pc m : filling pc = Some m -> pcmod pc = Some m. Proof. destruct pc; cbn; congruence. Qed.
Lemma pcmod_runs cr m pc : pcmod pc = Some m -> runs cr m pc = true. Proof. destruct pc; cbn; try discriminate; intros H; inversion H; apply Nat.eqb_refl. Qed.

Definition XG (s : xst) (tr : list xev) : Prop :=
  (exists tr', OI (xb s) tr' /\ CX (xb s) tr' /\ (forall c h, opened c h tr' = opened c h (bevs tr) /\ closed c h tr' = closed c h (bevs tr))) /\
  length (xcr s) = length (tlcs (fst (xb s))) /\ length (xml s) = length (mods (fst (xb s))) /\
  (forall c m g, nth_error (xcr s) c = Some (m, g) <-> In (XMade c m g) tr) /\
  (forall c m g, nth_error (xcr s) c = Some (m, g) -> exists y, nth_error (xml s) m = Some y /\ (g <= mgen y)%nat) /\
  (forall t pc m, nth_error (snd (xb s)) t = Some pc -> pcmod pc = Some m -> exists y, nth_error (xml s) m = Some y /\ mloaded y = true) /\
  (forall t pc c, nth_error (snd (xb s)) t = Some pc -> pcctx pc = Some c -> exists m y, nth_error (xml s) m = Some y /\ mloaded y = true /\ nth_error (xcr s) c = Some (m, mgen y) /\ (filling pc = None \/ filling pc = Some m)).

Lemma XG_init nm n : XG (x_init nm n) [].
Proof.
  unfold XG, x_init. cbn [xb xml xcr].
  assert (R : forall t pc, nth_error (snd (once_init nm n)) t = Some pc -> pc = OIdle) by (intros t pc H; cbn in H; apply nth_error_In, repeat_spec in H; exact H).
  split; [exists []; split; [apply OI_init|split; [apply CX_init|split; reflexivity]]|]. split; [reflexivity|]. split; [cbn; rewrite !repeat_length; reflexivity|].
  split; [intros [|c] m g; cbn; split; try discriminate; intros []|]. split; [intros [|c] m g; discriminate|]. split; intros t pc m H; rewrite (R _ _ H); discriminate.
Qed.

Lemma filling_ctx pc m : filling pc = Some m -> exists c, pcctx pc = Some c. Proof. destruct pc; cbn; try discriminate; eauto. Qed.

Lemma XMade_check vs cr l es c m g : ~ In (XMade c m g) (map (check vs cr l) es).
Proof.
  intros H. apply in_map_iff in H. destruct H as (e & H & _). destruct e; cbn in H; try discriminate. destruct (nth_error cr c0) as [[j h]|]; [|discriminate]. destruct (nth_error l m0) as [y|]; [|discriminate]. destruct (_ =? _)%nat; discriminate.
Qed.
Lemma XMade_map es c m g : ~ In (XMade c m g) (map XE es).
Proof. intros H. apply in_map_iff in H. destruct H as (e & H & _). discriminate. Qed.

Lemma XG_step vs s tr a s' e : XG s tr -> xstep vs s a = Some (s', e) -> XG s' (tr ++ e).
Proof.
  intros (G1 & G2 & G3 & G4 & G5 & G6 & G7) Hs. pose proof (x_effects _ _ _ _ _ Hs) as He.
  assert (Hcall : forall t m, a = XB (OCall t m) -> exists y, nth_error (xml s) m = Some y /\ mloaded y = true).
  { intros t m ->. cbn [xstep] in Hs. destruct (once_step (xb s) (OCall t m)) as [[b e1]|]; [|discriminate]. destruct (nth_error (xml s) m) as [y|]; [|discriminate]. destruct (mloaded y) eqn:E; [eauto|discriminate]. }
  clear Hs. destruct He as [a b' e e' Ho Hl Hev _|t m o b' e y Ho Ht Hy Hl Hnr|c m g y Hc Hy Hd|m y Hy Hd|m y p' e Hy Hd Hr He].
  - destruct G1 as (tr' & HO & HC & Hh). destruct s as [[p ths] l cr]. destruct b' as [p' ths']. cbn [xb xml xcr fst snd] in *. unfold XG. cbn [xb xml xcr fst snd].
    assert (Eb : bevs e' = e) by (destruct Hev as [->| ->]; [apply bevs_XE|apply bevs_check]).
    assert (Nm : forall c m g, ~ In (XMade c m g) e') by (intros c m g; destruct Hev as [->| ->]; [apply XMade_map|apply XMade_check]).
    split. { exists (tr' ++ e). split; [eapply OI_step; eauto|]. split; [eapply CX_step; eauto|]. intros c h. destruct (Hh c h) as (A & B). rewrite bevs_app, Eb, !opened_app, !closed_app, A, B. split; reflexivity. }
    split; [congruence|]. split; [rewrite (mods_len _ _ _ _ _ _ Ho); exact G3|].
    split; [intros c m g; rewrite G4, in_app_iff; specialize (Nm c m g); tauto|]. split; [exact G5|].
    split.
    + intros t pc m Ht Hp. destruct (pc_step _ _ _ _ _ _ _ _ Ho Ht) as [Ht'|[(j & -> & ->)|[->|(pc0 & o & -> & Ht' & Htr)]]]; [eauto|inversion Hp; subst; eauto|discriminate|].
      destruct Htr as [pc0|pc0 pc' j P1 P2 P3|pc0 pc' j c P1 P2 P3 P4|j L|pc0 j c P1 P2]; try discriminate; [rewrite P2 in Hp; inversion Hp; subst; eauto|apply fill_pcmod in P1, P2; rewrite P2 in Hp; inversion Hp; subst; eauto|lia].
    + intros t pc c Ht Hp. destruct (pc_step _ _ _ _ _ _ _ _ Ho Ht) as [Ht'|[(j & -> & ->)|[->|(pc0 & o & -> & Ht' & Htr)]]]; [eauto|discriminate|discriminate|].
      destruct Htr as [pc0|pc0 pc' j P1 P2 P3|pc0 pc' j d P1 P2 P3 P4|j L|pc0 j d P1 P2]; try discriminate.
      * exfalso. destruct pc'; discriminate.
      * rewrite P4 in Hp. inversion Hp; subst. destruct (G7 _ _ _ Ht' P3) as (m & y & A & B & C & D). exists m, y. repeat split; auto. right. destruct D as [D|D]; congruence.
      * lia.
      * cbn in Hp. inversion Hp; subst. destruct (G7 _ _ _ Ht' P2) as (m & y & A & B & C & D). exists m, y. repeat split; auto.
  - destruct G1 as (tr' & HO & HC & Hh). destruct s as [[p ths] l cr]. destruct b' as [p' ths']. cbn [xb xml xcr fst snd] in *. unfold XG. cbn [xb xml xcr fst snd].
    assert (Hld : mloaded y = true) by (destruct (G6 _ _ _ Ht eq_refl) as (y' & A & B); congruence).
    split. { exists (tr' ++ e). split; [eapply OI_step; eauto|]. split; [eapply CX_step; eauto|]. intros c h. destruct (Hh c h) as (A & B). rewrite !bevs_app, bevs_XE, !opened_app, !closed_app, A, B. cbn. split; lia. }
    split; [rewrite app_length; cbn; lia|]. split; [rewrite (mods_len _ _ _ _ _ _ Ho); exact G3|].
    split.
    { intros c j g. rewrite !in_app_iff. split.
      - intros Hn. destruct (Nat.lt_ge_cases c (length cr)) as [L|L]; [rewrite nth_error_app1 in Hn by exact L; left; apply G4; exact Hn|]. rewrite nth_error_app2 in Hn by exact L. destruct (c - length cr)%nat as [|i] eqn:Ei; [|destruct i; discriminate]. cbn in Hn. inversion Hn; subst. right. right. left. f_equal. lia.
      - intros [Hi|[Hi|[Hi|[]]]]; [apply G4 in Hi; rewrite nth_error_app1; [exact Hi|apply nth_error_Some; congruence]|exfalso; eapply XMade_map; exact Hi|]. inversion Hi; subst. rewrite <- G2, nth_error_app2, Nat.sub_diag by lia. reflexivity. }
    split.
    { intros c j g Hn. destruct (Nat.lt_ge_cases c (length cr)) as [L|L]; [rewrite nth_error_app1 in Hn by exact L; eauto|]. rewrite nth_error_app2 in Hn by exact L. destruct (c - length cr)%nat as [|i]; [|destruct i; discriminate]. cbn in Hn. inversion Hn; subst. eauto. }
    split.
    + intros u pc j Hu Hp. destruct (pc_step _ _ _ _ _ _ _ _ Ho Hu) as [Hu'|[(i & Ei & _)|[->|(pc0 & o0 & Ei & Hu' & Htr)]]]; [eauto|discriminate|discriminate|].
      destruct Htr as [pc0|pc0 pc' i P1 P2 P3|pc0 pc' i c P1 P2 P3 P4|i L|pc0 i c P1 P2]; try discriminate; [rewrite P2 in Hp; inversion Hp; subst; eauto|apply fill_pcmod in P1, P2; rewrite P2 in Hp; inversion Hp; subst; eauto|cbn in Hp; inversion Hp; subst; eauto].
    + assert (Old : forall u pc c, nth_error ths u = Some pc -> pcctx pc = Some c -> exists m0 y0, nth_error l m0 = Some y0 /\ mloaded y0 = true /\ nth_error (cr ++ [(m, mgen y)]) c = Some (m0, mgen y0) /\ (filling pc = None \/ filling pc = Some m0)).
      { intros u pc c Hu Hp. destruct (G7 _ _ _ Hu Hp) as (m0 & y0 & A & B & C & D). exists m0, y0. repeat split; auto. rewrite nth_error_app1; [exact C|apply nth_error_Some; congruence]. }
      intros u pc c Hu Hp. destruct (pc_step _ _ _ _ _ _ _ _ Ho Hu) as [Hu'|[(i & Ei & _)|[->|(pc0 & o0 & Ei & Hu' & Htr)]]]; [eauto|discriminate|discriminate|]. inversion Ei; subst u o0. assert (pc0 = OLook m) by congruence. subst pc0.
      inversion Htr as [pc0|pc0 pc' i P1 P2 P3|pc0 pc' i d P1 P2 P3 P4|i L|pc0 i d P1 P2]; subst; try discriminate; [exfalso; destruct pc; discriminate|].
      cbn in Hp. inversion Hp; subst c. exists m, y. repeat split; auto. rewrite <- G2, nth_error_app2, Nat.sub_diag by lia. reflexivity.
  - unfold XG. rewrite bevs_app, app_nil_r. split; [exact G1|]. split; [exact G2|]. split; [exact G3|]. split; [|auto]. intros d j h. rewrite G4, in_app_iff. cbn. intuition discriminate.
  - unfold XG. cbn [xb xml xcr]. rewrite app_nil_r. split; [exact G1|]. split; [exact G2|]. split; [rewrite upd_length; exact G3|]. split; [exact G4|]. split; [|split].
    + intros c j g Hn. destruct (G5 _ _ _ Hn) as (y' & A & B). destruct (Nat.eq_dec m j) as [->|N]; [|exists y'; rewrite nth_upd_neq by auto; auto]. assert (y' = y) by congruence. subst. exists (ML true (S (mgen y))). split; [eapply nth_upd_eq; exact Hy|cbn; lia].
    + intros t pc j Ht Hp. destruct (G6 _ _ _ Ht Hp) as (y' & A & B). exists y'. rewrite nth_upd_neq; [auto|]. intros ->. congruence.
    + intros t pc c Ht Hp. destruct (G7 _ _ _ Ht Hp) as (j & y' & A & B & C). exists j, y'. rewrite nth_upd_neq; [auto|]. intros ->. congruence.
  - destruct G1 as (tr' & HO & HC & Hh). destruct s as [[p ths] l cr]. cbn [xb xml xcr fst snd] in *.
    assert (exists x, nth_error (mods p) m = Some x) as (x & Hx) by (destruct (nth_error (mods p) m) as [x|] eqn:E; [eauto|]; apply nth_error_None in E; assert (nth_error l m <> None) by congruence; apply nth_error_Some in H; lia).
    pose proof (destroy_same _ _ _ _ _ Hx He) as HS. pose proof HS as (S1 & S2 & S3 & SL & S4 & S5).
    assert (Ne : bevs e = [] /\ forall c j g, ~ In (XMade c j g) e).
    { unfold mod_destroy in He. rewrite Hx in He. destruct (holder x); [destruct (semh p) as [|[|h]]; [destruct (sem p)|destruct (sem p)|]|]; inversion He; subst; split; try reflexivity; cbn; intuition discriminate. }
    destruct Ne as (Ne & Nm). unfold XG. cbn [xb xml xcr fst snd].
    assert (No : forall t pc, nth_error ths t = Some pc -> runs cr m pc = false).
    { intros t pc Ht. destruct (runs cr m pc) eqn:E; [|reflexivity]. assert (existsb (runs cr m) ths = true) by (apply existsb_exists; exists pc; split; [eapply nth_error_In; exact Ht|exact E]). congruence. }
    split. { exists (filter (keepm m) tr'). split; [eapply OI_forget; eauto|]. split; [eapply CX_forget; eauto|]. intros c h. rewrite keep_opened, keep_closed, bevs_app, Ne, app_nil_r. apply Hh. }
    split; [congruence|]. split; [rewrite upd_length; congruence|]. split; [intros c j g; rewrite G4, in_app_iff; specialize (Nm c j g); tauto|]. split; [|split].
    + intros c j g Hn. destruct (G5 _ _ _ Hn) as (y' & A & B). destruct (Nat.eq_dec m j) as [->|N]; [|exists y'; rewrite nth_upd_neq by auto; auto]. assert (y' = y) by congruence. subst. exists (ML false (mgen y)). split; [eapply nth_upd_eq; exact Hy|exact B].
    + intros t pc j Ht Hp. destruct (G6 _ _ _ Ht Hp) as (y' & A & B). exists y'. rewrite nth_upd_neq; [auto|]. intros ->. apply (pcmod_runs cr) in Hp. rewrite (No _ _ Ht) in Hp. discriminate.
    + intros t pc c Ht Hp. destruct (G7 _ _ _ Ht Hp) as (j & y' & A & B & C & D). exists j, y'. rewrite nth_upd_neq; [auto|]. intros ->. specialize (No _ _ Ht). destruct D as [D|D]; [|apply fill_pcmod, (pcmod_runs cr) in D; congruence]. destruct pc; try discriminate. cbn in Hp. inversion Hp; subst. cbn in No. rewrite C, Nat.eqb_refl in No. discriminate.
Qed.

Lemma x_xg vs nm n sched s tr : exec (xstep vs) (x_init nm n) sched = Some (s, tr) -> XG s tr.
Proof. apply exec_inv; [apply XG_init|intros; eapply XG_step; eauto]. Qed.
