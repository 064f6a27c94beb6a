(** Proofs about the Windows mutex model. *)
From Coq Require Import List Bool Arith ZArith Lia.
From Verif Require Import ListSum Exec Lin LinCheck Thr Word MutexSpec MutexSpecFacts WinMutexModel.
Import ListNotations.
Local Open Scope Z_scope.

(** ** Bits *)
Lemma setbit_clear a n : 0 <= n -> Z.testbit a n = false -> Z.setbit a n = a + 2 ^ n.
Proof.
  intros Hn H. rewrite Z.setbit_spec'. assert (Hl : Z.land a (2 ^ n) = 0); [|rewrite Z.add_nocarry_lxor, Z.lxor_lor; auto]. apply Z.bits_inj'. intros i Hi.
  rewrite Z.land_spec, Z.bits_0, Z.pow2_bits_eqb by lia. destruct (Z.eqb_spec n i); subst; [rewrite H; reflexivity|apply andb_false_r].
Qed.
Lemma setbit_set a n : Z.testbit a n = true -> 0 <= n -> Z.setbit a n = a.
Proof.
  intros H Hn. apply Z.bits_inj'. intros i Hi. rewrite Z.setbit_eqb by lia. destruct (Z.eqb_spec n i); subst; cbn; congruence.
Qed.
Lemma clearbit_set a n : 0 <= n -> Z.testbit a n = true -> Z.clearbit a n = a - 2 ^ n.
Proof.
  intros Hn H. rewrite Z.clearbit_spec', Z.sub_nocarry_ldiff; [reflexivity|]. apply Z.bits_inj'. intros i Hi.
  rewrite Z.ldiff_spec, Z.bits_0, Z.pow2_bits_eqb by lia. destruct (Z.eqb_spec n i); subst; [rewrite H; reflexivity|reflexivity].
Qed.
Lemma clearbit_clear a n : 0 <= n -> Z.testbit a n = false -> Z.clearbit a n = a.
Proof.
  intros Hn H. apply Z.bits_inj'. intros i Hi. rewrite Z.clearbit_eqb. destruct (Z.eqb_spec n i); subst; cbn; [rewrite H; reflexivity|apply andb_true_r].
Qed.

Definition wd (L E : bool) (w : Z) : Z := Z.b2z L * 2 ^ 31 + Z.b2z E * 2 ^ 30 + w.
Definition small (w : Z) : Prop := 0 <= w < 2 ^ 30.

Lemma wd_locked L E w : small w -> locked (wd L E w) = L.
Proof.
  intros H. unfold small, locked, lock_bit, wd in *. rewrite Z.testbit_eqb by lia.
  destruct L, E; cbn [Z.b2z]; match goal with |- (?x =? 1) = _ => destruct (Z.eqb_spec x 1) as [Hb|Hb] end; try reflexivity; exfalso; revert Hb; Z.div_mod_to_equations; lia.
Qed.
Lemma wd_evset L E w : small w -> evset (wd L E w) = E.
Proof.
  intros H. unfold small, evset, event_bit, wd in *. rewrite Z.testbit_eqb by lia.
  destruct L, E; cbn [Z.b2z]; match goal with |- (?x =? 1) = _ => destruct (Z.eqb_spec x 1) as [Hb|Hb] end; try reflexivity; exfalso; revert Hb; Z.div_mod_to_equations; lia.
Qed.
Lemma wd_set_lock L E w : small w -> Z.setbit (wd L E w) lock_bit = wd true E w.
Proof.
  intros H. pose proof (wd_locked L E w H) as HL. unfold locked, lock_bit in *. destruct L.
  - apply setbit_set; [assumption|lia].
  - rewrite setbit_clear by (assumption || lia). unfold wd. cbn [Z.b2z]. lia.
Qed.
Lemma wd_set_event L E w : small w -> Z.setbit (wd L E w) event_bit = wd L true w.
Proof.
  intros H. pose proof (wd_evset L E w H) as HL. unfold evset, event_bit in *. destruct E.
  - apply setbit_set; [assumption|lia].
  - rewrite setbit_clear by (assumption || lia). unfold wd. cbn [Z.b2z]. lia.
Qed.
Lemma wd_clear_event L E w : small w -> Z.clearbit (wd L E w) event_bit = wd L false w.
Proof.
  intros H. pose proof (wd_evset L E w H) as HL. unfold evset, event_bit in *. destruct E.
  - rewrite clearbit_set by (assumption || lia). unfold wd. cbn [Z.b2z]. lia.
  - apply clearbit_clear; [lia|assumption].
Qed.
Lemma lor_lock x : Z.lor x lock_val = Z.setbit x lock_bit.
Proof. rewrite Z.setbit_spec'. reflexivity. Qed.
Lemma wd_sub1 L E w : small w -> 1 <= w -> u32 (wd L E w - 1) = wd L E (w - 1).
Proof. intros H H1. unfold small in H. rewrite u32_id by (unfold wd, two32; destruct L, E; cbn [Z.b2z]; lia). unfold wd. lia. Qed.
Lemma wd_add1 L E w : small w -> small (w + 1) -> u32 (wd L E w + 1) = wd L E (w + 1).
Proof. intros H H1. unfold small in *. rewrite u32_id by (unfold wd, two32; destruct L, E; cbn [Z.b2z]; lia). unfold wd. lia. Qed.
Lemma wd_unlock E w : small w -> u32 (wd true E w + lock_val) = wd false E w.
Proof.
  intros H. unfold small, u32, two32, lock_val, wd in *. rewrite <- (Z_mod_plus_full _ (-1)).
  rewrite Z.mod_small; destruct E; cbn [Z.b2z]; lia.
Qed.
Lemma wd_more w : small w -> (lock_val <? wd true false w) = (0 <? w).
Proof. intros H. unfold lock_val, wd. cbn [Z.b2z]. destruct (Z.ltb_spec 0 w); [apply Z.ltb_lt|apply Z.ltb_ge]; lia. Qed.
Lemma wd_mark L E w : small w -> small (w + 1) -> mark_new (wd L E w) = if L then wd true E (w + 1) else wd true E w.
Proof.
  intros H H1. unfold mark_new. rewrite wd_locked by assumption. destruct L; [apply wd_add1; assumption|].
  rewrite lor_lock. apply wd_set_lock. assumption.
Qed.
Lemma wd_clear L E w : small w -> 1 <= w -> clear_new (wd L E w) = if L then wd true false w else wd true false (w - 1).
Proof.
  intros H H1. unfold clear_new. rewrite wd_locked by assumption. destruct L; [apply wd_clear_event; assumption|].
  assert (small (w - 1)) by (unfold small in *; lia).
  rewrite wd_sub1, lor_lock, wd_set_lock, wd_clear_event by assumption. reflexivity.
Qed.

(** ** What each thread contributes *)
Definition hold (p : wpc) : bool :=
  match p with WRest m | WTry m => m | WUnl => true | WDone m o r => mnext m o r | _ => false end.
Definition hz (p : wpc) : Z := Z.b2z (hold p).
Definition creg (c : ctx) : Z := match c with CLock _ _ => 1 | CUnlock => 0 end.
Definition reg (p : wpc) : Z :=
  match p with
  | WEvLoad c | WEvCreate c | WEvCas c _ | WEvClose c _ _ => creg c
  | WTimer _ _ | WWait _ _ _ | WClear _ _ _ | WSub _ _ => 1
  | _ => 0
  end.
Definition tok (p : wpc) : Z :=
  match p with
  | WEvLoad c | WEvCreate c | WEvCas c _ | WEvClose c _ _ => 1 - creg c
  | WClear _ _ _ | WSet _ => 1
  | _ => 0
  end.
Definition pend (p : wpc) : Z := match p with WBts => 1 | _ => 0 end.
Definition inhand (id : nat) (p : wpc) : Z :=
  match p with WEvCas _ h | WEvClose _ h _ => if Nat.eqb h id then 1 else 0 | _ => 0 end.
(** The handle a thread got from get_event() (or is about to get). *)
Definition has (p : wpc) : option nat :=
  match p with
  | WEvClose _ _ h | WTimer _ h | WWait _ _ h | WClear _ _ h | WSet h => Some h
  | _ => None
  end.
Definition wloc (p : wpc) : Prop :=
  match p with
  | WClock k => k <> KLock
  | WSub k r => (r = RFalse /\ k <> KLock) \/ r = RThrow
  | _ => True
  end.

Definition cz (l : list nat) (id : nat) : Z := Z.of_nat (count_occ Nat.eq_dec l id).
Definition mz (m : option nat) (id : nat) : Z := match m with Some h => if Nat.eqb h id then 1 else 0 | None => 0 end.

Definition WI (c : wsh * list wpc) : Prop :=
  let '(s, ths) := c in
  (exists L E, word s = wd L E (sumf reg ths) /\ Z.b2z L = sumf hz ths /\
     Z.b2z E = sumf Z.b2z (events s) + sumf tok ths /\
     (L = true \/ sumf reg ths = 0 \/ E = true \/ 0 < sumf pend ths)) /\
  (forall id, cz (closed s) id + mz (m_event s) id + sumf (inhand id) ths = if (id <? length (events s))%nat then 1 else 0) /\
  (forall i, nth_error (events s) i = Some true -> m_event s = Some i) /\
  (forall t p h, nth_error ths t = Some p -> has p = Some h -> m_event s = Some h) /\
  (forall t p, nth_error ths t = Some p -> wloc p).

Definition wcap (c : wsh * list wpc) : Prop := Z.of_nat (length (snd c)) < 2 ^ 30.

Lemma hz_nn p : 0 <= hz p <= 1. Proof. unfold hz. destruct (hold p); cbn; lia. Qed.
Lemma reg_nn p : 0 <= reg p <= 1. Proof. destruct p; cbn; try lia; destruct c; cbn; lia. Qed.
Lemma tok_nn p : 0 <= tok p. Proof. destruct p; cbn; try lia; destruct c; cbn; lia. Qed.
Lemma pend_nn p : 0 <= pend p. Proof. destruct p; cbn; lia. Qed.
Lemma b2z_nn b : 0 <= Z.b2z b. Proof. destruct b; cbn; lia. Qed.

Lemma sum_reg_small c : wcap c -> small (sumf reg (snd c)) /\ (forall t p, nth_error (snd c) t = Some p -> reg p = 0 -> small (sumf reg (snd c) + 1)).
Proof.
  destruct c as [s ths]. unfold wcap, small. cbn [snd]. intros H.
  pose proof (sumf_bound reg ths 1 (fun p => proj2 (reg_nn p))). pose proof (sumf_nonneg reg ths (fun p => proj1 (reg_nn p))).
  split; [lia|]. intros t p Ht Hp.
  assert (sumf reg ths <= Z.of_nat (length ths) - 1); [|lia].
  assert (E : sumf reg ths = sumf reg (upd ths t (WTimer 0 0)) - 1) by (rewrite (sumf_upd _ _ _ _ _ Ht); cbn; lia).
  rewrite E. pose proof (sumf_bound reg (upd ths t (WTimer 0 0)) 1 (fun p => proj2 (reg_nn p))). rewrite upd_length in *. lia.
Qed.

(** ** Preservation *)
Definition disj (L E : bool) (w pd : Z) : Prop := L = true \/ w = 0 \/ E = true \/ 0 < pd.

(** A step that changes the word only. *)
Lemma WI_word s ths t p q w' L' E' :
  WI (s, ths) -> nth_error ths t = Some p ->
  w' = wd L' E' (sumf reg ths - reg p + reg q) -> Z.b2z L' = sumf hz ths - hz p + hz q ->
  Z.b2z E' = sumf Z.b2z (events s) + (sumf tok ths - tok p + tok q) ->
  disj L' E' (sumf reg ths - reg p + reg q) (sumf pend ths - pend p + pend q) ->
  (forall id, inhand id p = inhand id q) ->
  (forall h, has q = Some h -> has p = Some h \/ m_event s = Some h) -> wloc q ->
  WI (set_word s w', upd ths t q).
Proof.
  intros (_ & H5 & H6 & H7 & H8) Ht G1 G2 G3 G4 Hi Hh Hl. cbn [WI set_word word m_event events closed].
  rewrite !(sumf_upd _ _ _ _ _ Ht). split; [|split; [|split; [|split]]].
  - exists L', E'. auto.
  - intros id. rewrite (sumf_upd _ _ _ _ _ Ht), Hi. rewrite <- (H5 id). lia.
  - exact H6.
  - intros u p0 h Hu Hp. destruct (nth_upd_inv _ _ _ _ _ Hu) as [(_ & -> & _)|(_ & Hu')]; [|eapply H7; eauto].
    destruct (Hh h Hp) as [Hq|Hq]; [eapply H7; eauto|exact Hq].
  - intros u p0 Hu. destruct (nth_upd_inv _ _ _ _ _ Hu) as [(_ & -> & _)|(_ & Hu')]; [exact Hl|eapply H8; eauto].
Qed.

Lemma set_word_same s : set_word s (word s) = s. Proof. destruct s; reflexivity. Qed.

(** A step that changes nothing shared and has no effect on the sums. *)
Lemma WI_quiet s ths t p q :
  WI (s, ths) -> nth_error ths t = Some p ->
  (forall id, inhand id p = inhand id q) -> (forall h, has q = Some h -> has p = Some h \/ m_event s = Some h) -> wloc q ->
  reg q = reg p -> hz q = hz p -> tok q = tok p -> pend q = pend p ->
  WI (s, upd ths t q).
Proof.
  intros HI Ht Hi Hh Hl R1 R2 R3 R4. rewrite <- (set_word_same s). pose proof HI as ((L & E & H1 & H2 & H3 & H4) & _).
  apply (WI_word s ths t p q (word s) L E); auto; rewrite ?R1, ?R2, ?R3, ?R4.
  - rewrite H1 at 1. f_equal. lia.
  - lia.
  - lia.
  - replace (sumf reg ths - reg p + reg p) with (sumf reg ths) by lia. replace (sumf pend ths - pend p + pend p) with (sumf pend ths) by lia. exact H4.
Qed.

Lemma got_reg c h : reg (got_event c h) = creg c. Proof. destruct c as [[]|]; reflexivity. Qed.
Lemma got_hz c h : hz (got_event c h) = 0. Proof. destruct c as [[]|]; reflexivity. Qed.
Lemma got_tok c h : tok (got_event c h) = 1 - creg c. Proof. destruct c as [[]|]; reflexivity. Qed.
Lemma got_pend c h : pend (got_event c h) = 0. Proof. destruct c as [[]|]; reflexivity. Qed.
Lemma got_has c h : has (got_event c h) = Some h. Proof. destruct c as [[]|]; reflexivity. Qed.
Lemma got_inhand c h id : inhand id (got_event c h) = 0. Proof. destruct c as [[]|]; reflexivity. Qed.
Lemma got_wloc c h : wloc (got_event c h). Proof. destruct c as [[]|]; exact I. Qed.

Lemma reg_le ths : 0 <= sumf reg ths. Proof. apply sumf_nonneg. intros p. apply reg_nn. Qed.
Lemma reg_elem ths t p : nth_error ths t = Some p -> reg p <= sumf reg ths. Proof. apply sumf_elem. intros q. apply reg_nn. Qed.
Lemma pend_le ths : 0 <= sumf pend ths. Proof. apply sumf_nonneg. intros p. apply pend_nn. Qed.
Lemma tok_elem ths t p : nth_error ths t = Some p -> tok p <= sumf tok ths. Proof. apply sumf_elem. intros q. apply tok_nn. Qed.
Lemma hz_elem ths t p : nth_error ths t = Some p -> hz p <= sumf hz ths. Proof. apply sumf_elem. intros q. apply hz_nn. Qed.
Lemma ev_le l : 0 <= sumf Z.b2z l. Proof. apply sumf_nonneg. intros b. destruct b; cbn; lia. Qed.

Ltac disj_t := unfold disj in *; intuition (try discriminate; auto; lia).

Lemma WI_run s ths t p ch s' q :
  WI (s, ths) -> wcap (s, ths) -> nth_error ths t = Some p -> wm_run1 s p ch = Some (s', q) -> WI (s', upd ths t q).
Proof.
  intros HI Hcap Ht H. unfold wm_run1 in H. destruct (dead s) eqn:Hdead; [discriminate|].
  destruct (sum_reg_small _ Hcap) as (Hsm & Hsm1). cbn [snd] in Hsm, Hsm1.
  pose proof (reg_le ths) as Hr0. pose proof (reg_elem _ _ _ Ht) as Hre. pose proof (pend_le ths) as Hp0.
  pose proof (tok_elem _ _ _ Ht) as Hte. pose proof (hz_elem _ _ _ Ht) as Hhe. pose proof (ev_le (events s)) as Hev0.
  pose proof HI as ((L & E & H1 & H2 & H3 & H4) & _). fold (disj L E (sumf reg ths) (sumf pend ths)) in H4.
  assert (HbL : Z.testbit (word s) lock_bit = L) by (rewrite H1; apply wd_locked; assumption).
  assert (HbE : Z.testbit (word s) event_bit = E) by (rewrite H1; apply wd_evset; assumption).
  destruct p as [m|m|k0|k|k|k old|c|c|c h|c h h'|old h|k old h|k old h|k r| | |h|m o r]; try discriminate; cbn [reg tok hz hold pend] in *.
  - (* try_lock *)
    cbn [bts] in H. rewrite HbL in H. inversion H; subst s' q; clear H. rewrite H1, wd_set_lock by assumption.
    apply (WI_word s ths t (WTry m) _ _ true E); auto; try discriminate;
      destruct L, m; unfold hz in *; cbn [reg tok hold pend mnext Z.b2z] in *; try exact I; try (f_equal; lia); try lia; try disj_t.
  - (* first try *)
    set (k := match k0, ch with KRel, CKind KAbs => KAbs | KRel, CKind KChrono => KChrono | _, _ => k0 end) in *.
    cbn [bts] in H. rewrite HbL in H. inversion H; subst s' q; clear H. rewrite H1, wd_set_lock by assumption.
    assert (Hk : let q := (if L then match k with KChrono => WClock k | _ => WLoad k end else WDone false (kop k) (kgot k)) in
       reg q = 0 /\ hz q = Z.b2z (negb L) /\ tok q = 0 /\ pend q = 0 /\ (forall id, inhand id q = 0) /\ has q = None /\ wloc q)
      by (destruct L; destruct k; cbn; repeat split; auto; discriminate).
    cbn zeta in Hk. destruct Hk as (K1 & K2 & K3 & K4 & K5 & K6 & K7).
    apply (WI_word s ths t (WFirst k0) _ _ true E); auto; rewrite ?K1, ?K2, ?K3, ?K4, ?K6; try discriminate;
      destruct L; unfold hz in *; cbn [reg tok hold pend mnext Z.b2z negb] in *; try exact I; try (f_equal; lia); try lia; try disj_t.
  - (* clock *)
    pose proof (proj2 (proj2 (proj2 (proj2 HI))) _ _ Ht) as Hl. cbn in Hl.
    destruct ch; inversion H; subst; eapply WI_quiet; eauto; cbn; try discriminate; auto; destruct k; cbn; auto.
  - (* load *)
    inversion H; subst. eapply WI_quiet; eauto; cbn; auto; discriminate.
  - (* mark *)
    destruct ((word s =? old) && negb (spurious ch)) eqn:Ec; inversion H; subst s' q; clear H.
    + apply andb_true_iff in Ec. destruct Ec as (Ec & _). apply Z.eqb_eq in Ec. rewrite <- Ec in *. clear Ec.
      change (locked (word s)) with (Z.testbit (word s) lock_bit). rewrite HbL, H1, wd_mark; [|assumption|eapply Hsm1; eauto].
      apply (WI_word s ths t (WMark k (word s)) _ _ true E); auto;
        destruct L; try destruct k; try discriminate; unfold hz in *; cbn [reg tok hold pend mnext Z.b2z creg kop kgot wloc] in *; try exact I; try exact I; try (f_equal; lia); try lia; try disj_t.
    + eapply WI_quiet; eauto; cbn; auto; discriminate.
  - (* get_event: load *)
    destruct (m_event s) as [h|] eqn:Em; inversion H; subst.
    + eapply WI_quiet; eauto; cbn [inhand has reg hz hold tok pend]; try (rewrite ?got_reg, ?got_hz, ?got_tok, ?got_pend; reflexivity).
      * intros id. rewrite got_inhand. reflexivity.
      * intros h0. rewrite got_has. intros Hh. right. congruence.
      * apply got_wloc.
    + eapply WI_quiet; eauto; cbn; auto; discriminate.
  - (* create *)
    assert (Hcr : forall c0, c0 = c -> Some (Sh (word s) (m_event s) (events s ++ [false]) (closed s) false, WEvCas c0 (length (events s))) = Some (s', q) -> WI (s', upd ths t q)).
    { intros c0 -> Hq. inversion Hq; subst; clear Hq H. destruct HI as ((L & E & I1 & I2 & I3 & I4) & I5 & I6 & I7 & I8).
      cbn [WI word m_event events closed]. rewrite !(sumf_upd _ _ _ _ _ Ht), sumf_app. cbn [reg tok hz hold pend sumf Z.b2z]. split; [|split; [|split; [|split]]].
      - exists L, E. replace (sumf reg ths - creg c + creg c) with (sumf reg ths) by lia. repeat split; auto; try lia. disj_t.
      - intros id. rewrite (sumf_upd _ _ _ _ _ Ht), app_length. cbn [inhand length]. specialize (I5 id).
        destruct (Nat.eqb_spec (length (events s)) id); destruct (Nat.ltb_spec id (length (events s))); destruct (Nat.ltb_spec id (length (events s) + 1)); lia.
      - intros i Hi. destruct (Nat.lt_ge_cases i (length (events s))) as [Hlt|Hge]; [rewrite nth_error_app1 in Hi by assumption; auto|].
        rewrite nth_error_app2 in Hi by assumption. destruct (i - length (events s))%nat as [|[|]]; discriminate.
      - intros u p0 h Hu Hp. destruct (nth_upd_inv _ _ _ _ _ Hu) as [(_ & -> & _)|(_ & Hu')]; [discriminate|eapply I7; eauto].
      - intros u p0 Hu. destruct (nth_upd_inv _ _ _ _ _ Hu) as [(_ & -> & _)|(_ & Hu')]; [exact I|eapply I8; eauto]. }
    destruct ch; try (apply (Hcr c eq_refl H)). destruct c as [k old|]; inversion H; subst.
    + eapply WI_quiet; eauto; cbn; auto; discriminate.
    + rewrite upd_same by assumption. exact HI.
  - (* cas on m_event *)
    destruct (m_event s) as [h'|] eqn:Em; inversion H; subst; clear H.
    + eapply WI_quiet; eauto; cbn; auto; intros h0 Hh; inversion Hh; subst; auto.
    + destruct HI as ((L & E & I1 & I2 & I3 & I4) & I5 & I6 & I7 & I8).
      cbn [WI word m_event events closed]. rewrite !(sumf_upd _ _ _ _ _ Ht). rewrite got_reg, got_hz, got_tok, got_pend. cbn [reg tok hz hold pend Z.b2z]. split; [|split; [|split; [|split]]].
      * exists L, E. replace (sumf reg ths - creg c + creg c) with (sumf reg ths) by lia. repeat split; auto; try lia. disj_t.
      * intros id. rewrite (sumf_upd _ _ _ _ _ Ht), got_inhand. cbn [inhand mz]. specialize (I5 id). rewrite Em in I5. cbn [mz] in I5. lia.
      * intros i Hi. specialize (I6 i Hi). congruence.
      * intros u p0 h0 Hu Hp. destruct (nth_upd_inv _ _ _ _ _ Hu) as [(_ & -> & _)|(_ & Hu')]; [rewrite got_has in Hp; exact Hp|].
        specialize (I7 _ _ _ Hu' Hp). congruence.
      * intros u p0 Hu. destruct (nth_upd_inv _ _ _ _ _ Hu) as [(_ & -> & _)|(_ & Hu')]; [apply got_wloc|eapply I8; eauto].
  - (* close own *)
    inversion H; subst; clear H. destruct HI as ((L & E & I1 & I2 & I3 & I4) & I5 & I6 & I7 & I8).
    cbn [WI word m_event events closed]. rewrite !(sumf_upd _ _ _ _ _ Ht). rewrite got_reg, got_hz, got_tok, got_pend. cbn [reg tok hz hold pend Z.b2z]. split; [|split; [|split; [|split]]].
    + exists L, E. replace (sumf reg ths - creg c + creg c) with (sumf reg ths) by lia. repeat split; auto; try lia. disj_t.
    + intros id. rewrite (sumf_upd _ _ _ _ _ Ht), got_inhand. cbn [inhand]. specialize (I5 id). unfold cz in *. cbn [count_occ].
      destruct (Nat.eq_dec h id) as [->|Hn]; [rewrite Nat.eqb_refl|rewrite (proj2 (Nat.eqb_neq h id) Hn)]; lia.
    + exact I6.
    + intros u p0 h0 Hu Hp. destruct (nth_upd_inv _ _ _ _ _ Hu) as [(_ & -> & _)|(_ & Hu')]; [rewrite got_has in Hp|eapply I7; eauto].
      inversion Hp; subst. apply (I7 _ _ _ Ht eq_refl).
    + intros u p0 Hu. destruct (nth_upd_inv _ _ _ _ _ Hu) as [(_ & -> & _)|(_ & Hu')]; [apply got_wloc|eapply I8; eauto].
  - (* timer *)
    destruct ch; inversion H; subst; eapply WI_quiet; eauto; cbn; auto; discriminate.
  - (* wait *)
    assert (Hok : match nth_error (events s) h with
                  | Some true => Some (Sh (word s) (m_event s) (upd (events s) h false) (closed s) false, WClear k (clear_first old) h)
                  | _ => None end = Some (s', q) -> WI (s', upd ths t q)).
    { intros Hq. destruct (nth_error (events s) h) as [[|]|] eqn:Ee; try discriminate. inversion Hq; subst; clear Hq H.
      destruct HI as ((L & E & I1 & I2 & I3 & I4) & I5 & I6 & I7 & I8).
      cbn [WI word m_event events closed]. rewrite !(sumf_upd _ _ _ _ _ Ht), (sumf_upd _ _ _ _ _ Ee). cbn [reg tok hz hold pend Z.b2z]. split; [|split; [|split; [|split]]].
      - exists L, E. replace (sumf reg ths - 1 + 1) with (sumf reg ths) by lia. repeat split; auto; try lia. disj_t.
      - intros id. rewrite (sumf_upd _ _ _ _ _ Ht), upd_length. cbn [inhand]. rewrite <- (I5 id). lia.
      - intros i Hi. destruct (nth_upd_inv _ _ _ _ _ Hi) as [(_ & Hf & _)|(_ & Hi')]; [discriminate|auto].
      - intros u p0 h0 Hu Hp. destruct (nth_upd_inv _ _ _ _ _ Hu) as [(_ & -> & _)|(_ & Hu')]; [apply (I7 _ _ _ Ht); exact Hp|eapply I7; eauto].
      - intros u p0 Hu. destruct (nth_upd_inv _ _ _ _ _ Hu) as [(_ & -> & _)|(_ & Hu')]; [exact I|eapply I8; eauto]. }
    destruct ch; try exact (Hok H).
    + inversion H; subst; eapply WI_quiet; eauto; cbn; auto; discriminate.
    + destruct k; inversion H; subst; eapply WI_quiet; eauto; cbn; auto; try discriminate; left; split; auto; discriminate.
    + destruct k; inversion H; subst; eapply WI_quiet; eauto; cbn; auto; discriminate.
  - (* clear *)
    destruct ((word s =? old) && negb (spurious ch)) eqn:Ec; inversion H; subst s' q; clear H.
    + apply andb_true_iff in Ec. destruct Ec as (Ec & _). apply Z.eqb_eq in Ec. rewrite <- Ec in *. clear Ec.
      change (locked (word s)) with (Z.testbit (word s) lock_bit). rewrite HbL. rewrite H1 at 1. rewrite wd_clear by (assumption || lia).
      assert (HE : E = true) by (destruct E; [reflexivity|cbn in H3; lia]). rewrite HE in *. cbn [Z.b2z] in H3.
      apply (WI_word s ths t (WClear k (word s) h) _ _ true false); auto;
        destruct L; try destruct k; try discriminate; unfold hz in *; cbn [reg tok hold pend mnext Z.b2z creg kop kgot wloc has] in *; try exact I; try (f_equal; lia); try lia; try disj_t; auto.
    + eapply WI_quiet; eauto; cbn; auto; discriminate.
  - (* sub *)
    pose proof (proj2 (proj2 (proj2 (proj2 HI))) _ _ Ht) as Hl. cbn in Hl.
    assert (Hq : let q := match k, r with KChrono, RFalse => WClock KChrono | _, _ => WDone false (kop k) r end in
       reg q = 0 /\ hz q = 0 /\ tok q = 0 /\ pend q = 0 /\ (forall id, inhand id q = 0) /\ has q = None /\ wloc q).
    { destruct Hl as [(-> & Hk)| ->]; destruct k; cbn; repeat split; auto; try discriminate; congruence. }
    cbn zeta in Hq. destruct Hq as (K1 & K2 & K3 & K4 & K5 & K6 & K7). inversion H; subst s' q; clear H.
    rewrite H1, wd_sub1 by (assumption || lia).
    apply (WI_word s ths t (WSub k r) _ _ L E); auto; rewrite ?K1, ?K2, ?K3, ?K4, ?K6; try discriminate; unfold hz in *; cbn [reg tok hold pend Z.b2z] in *; try (f_equal; lia); try lia.
    disj_t.
  - (* unlock *)
    cbn [hz hold Z.b2z] in Hhe; change (hz WUnl) with 1 in Hhe. assert (HL : L = true) by (destruct L; [reflexivity|cbn in H2; lia]). rewrite HL in *.
    cbn zeta in H. change (evset (word s)) with (Z.testbit (word s) event_bit) in H. rewrite HbE in H. rewrite H1, wd_unlock in H by assumption.
    assert (Hq : (negb E && (lock_val <? wd true E (sumf reg ths))) = negb E && (0 <? sumf reg ths))
      by (destruct E; cbn [negb andb]; [reflexivity|apply wd_more; assumption]). rewrite Hq in H. inversion H; subst s' q; clear H.
    destruct E; cbn [negb andb]; [|destruct (Z.ltb_spec 0 (sumf reg ths))];
      (eapply (WI_word s ths t WUnl _ _ false); [exact HI|exact Ht| | | | | | |]; try reflexivity; try discriminate; auto; unfold hz in *; cbn [reg tok hold pend Z.b2z mnext wloc] in *; try exact I; try (f_equal; lia); try lia; unfold disj; try lia; auto; cbn [Z.b2z] in *; lia).
  - (* bts *)
    cbn [bts] in H. rewrite HbE, H1, wd_set_event in H by assumption. inversion H; subst s' q; clear H.
    apply (WI_word s ths t WBts _ _ L true); auto; destruct E; try discriminate; unfold hz in *; cbn [reg tok hold pend Z.b2z creg mnext] in *; try exact I; try exact I; try (f_equal; lia); try lia; try disj_t.
  - (* SetEvent *)
    inversion H; subst; clear H. destruct HI as ((L & E & I1 & I2 & I3 & I4) & I5 & I6 & I7 & I8).
    pose proof (I7 _ _ _ Ht eq_refl) as Hm.
    assert (Hlt : (h < length (events s))%nat).
    { specialize (I5 h). rewrite Hm in I5. cbn [mz] in I5. rewrite Nat.eqb_refl in I5. destruct (Nat.ltb_spec h (length (events s))); [assumption|].
      unfold cz in I5. pose proof (sumf_nonneg (inhand h) ths) as Hn. assert (0 <= sumf (inhand h) ths); [|lia]. apply Hn. intros a. destruct a; cbn; try lia; destruct (Nat.eqb _ _); lia. }
    destruct (nth_error (events s) h) as [b|] eqn:Ee; [|apply nth_error_None in Ee; lia].
    assert (b = false). { destruct b; [|reflexivity]. pose proof (sumf_elem Z.b2z _ _ _ b2z_nn Ee). destruct E; cbn in *; lia. } subst b.
    cbn [WI word m_event events closed]. rewrite !(sumf_upd _ _ _ _ _ Ht), (sumf_upd _ _ _ _ _ Ee). cbn [reg tok hz hold pend Z.b2z mnext]. split; [|split; [|split; [|split]]].
    + exists L, E. replace (sumf reg ths - 0 + 0) with (sumf reg ths) by lia. repeat split; auto; try lia. disj_t.
    + intros id. rewrite (sumf_upd _ _ _ _ _ Ht), upd_length. cbn [inhand]. rewrite <- (I5 id). lia.
    + intros i Hi. destruct (nth_upd_inv _ _ _ _ _ Hi) as [(<- & _ & _)|(_ & Hi')]; [assumption|auto].
    + intros u p0 h0 Hu Hp. destruct (nth_upd_inv _ _ _ _ _ Hu) as [(_ & -> & _)|(_ & Hu')]; [discriminate|eapply I7; eauto].
    + intros u p0 Hu. destruct (nth_upd_inv _ _ _ _ _ Hu) as [(_ & -> & _)|(_ & Hu')]; [exact I|eapply I8; eauto].
Qed.

(** ** Simulation by the atomic mutex *)
Notation WSP := (mutex_spec true).
Definition wobs (k : lkind) : list mres := match k with KLock => [] | _ => [RFalse] end.
Definition cabs (c : ctx) : xth WSP :=
  match c with CLock k _ => XPend (S:=WSP) false (kop k) (wobs k) | CUnlock => XDone (S:=WSP) true MUnlock ROk end.
Definition wabs (p : wpc) : xth WSP :=
  match p with
  | WRest m => XIdle (S:=WSP) m
  | WTry m => XPend (S:=WSP) m MTryLock []
  | WFirst k => XPend (S:=WSP) false (kop k) []
  | WClock k | WLoad k | WMark k _ | WWait k _ _ | WClear k _ _ | WSub k _ => XPend (S:=WSP) false (kop k) (wobs k)
  | WEvLoad c | WEvCreate c | WEvCas c _ | WEvClose c _ _ => cabs c
  | WTimer _ _ => XPend (S:=WSP) false MTimed [RFalse]
  | WUnl => XPend (S:=WSP) true MUnlock []
  | WBts | WSet _ => XDone (S:=WSP) true MUnlock ROk
  | WDone m o r => XDone (S:=WSP) m o r
  end.

(** The thread that possesses the mutex. *)
Fixpoint owner (ths : list wpc) : option nat :=
  match ths with
  | [] => None
  | p :: l => if hold p then Some O else option_map S (owner l)
  end.

Lemma owner_none ths : sumf hz ths = 0 -> owner ths = None.
Proof.
  induction ths as [|p l IH]; cbn [sumf owner]; [reflexivity|]. pose proof (sumf_nonneg hz l (fun q => proj1 (hz_nn q))).
  intros H1. assert (Hp : hz p = Z.b2z (hold p)) by reflexivity. destruct (hold p); cbn [Z.b2z] in Hp; [lia|]. rewrite IH by lia. reflexivity.
Qed.
Lemma owner_some ths t p : sumf hz ths <= 1 -> nth_error ths t = Some p -> hold p = true -> owner ths = Some t.
Proof.
  revert t. induction ths as [|q l IH]; intros [|t] Hs Ht Hp; cbn in Ht; try discriminate; cbn [sumf owner] in *.
  - inversion Ht; subst. rewrite Hp. reflexivity.
  - assert (0 < hz p) by (unfold hz; rewrite Hp; cbn; lia). pose proof (sumf_elem hz l t p (fun q => proj1 (hz_nn q)) Ht). 
    assert (Hq : hz q = Z.b2z (hold q)) by reflexivity. destruct (hold q); cbn [Z.b2z] in Hq; [lia|]. rewrite (IH t) by (assumption || lia). reflexivity.
Qed.
Lemma owner_same ths t p q : nth_error ths t = Some p -> hold q = hold p -> owner (upd ths t q) = owner ths.
Proof.
  revert t. induction ths as [|r l IH]; intros [|t] Ht Hq; cbn in Ht; try discriminate; cbn.
  - inversion Ht; subst. rewrite Hq. reflexivity.
  - rewrite (IH t Ht Hq). reflexivity.
Qed.
Lemma owner_pos ths : 0 < sumf hz ths -> exists u, owner ths = Some u.
Proof.
  induction ths as [|p l IH]; cbn [sumf owner]; [lia|]. intros H. assert (Hq : hz p = Z.b2z (hold p)) by reflexivity. destruct (hold p); cbn [Z.b2z] in Hq; [eauto|].
  destruct IH as (u & ->); [lia|]. cbn. eauto.
Qed.

Definition wg (s : wsh) (ths : list wpc) : option nat := owner ths.

Lemma wm_run_sim s ths t p ch s' q :
  WI (s, ths) -> wcap (s, ths) -> nth_error ths t = Some p -> wm_run1 s p ch = Some (s', q) ->
  xsteps WSP (owner ths, map wabs ths) [] (owner (upd ths t q), map wabs (upd ths t q)).
Proof.
  intros HI Hcap Ht H. pose proof (WI_run _ _ _ _ _ _ _ HI Hcap Ht H) as HI'.
  destruct (sum_reg_small _ Hcap) as (Hsm & Hsm1). cbn [snd] in Hsm, Hsm1.
  pose proof HI as ((L & E & H1 & H2 & H3 & _) & _ & _ & _ & HL).
  assert (HbL : Z.testbit (word s) lock_bit = L) by (rewrite H1; apply wd_locked; assumption).
  (* acquiring / releasing / leaving alone *)
  assert (Acq : L = false -> hold q = true -> owner ths = None /\ owner (upd ths t q) = Some t).
  { intros -> Hq. cbn in H2. split; [apply owner_none; lia|]. apply (owner_some _ t q); [|eapply nth_upd_eq; eauto|assumption].
    rewrite (sumf_upd _ _ _ _ _ Ht). pose proof (hz_elem _ _ _ Ht). pose proof (hz_nn p). pose proof (hz_nn q). lia. }
  assert (Held : L = true -> exists u, owner ths = Some u).
  { intros ->. apply owner_pos. cbn in H2. lia. }
  assert (Same : hold q = hold p -> wabs q = wabs p -> xsteps WSP (owner ths, map wabs ths) [] (owner (upd ths t q), map wabs (upd ths t q))).
  { intros Hh Ha. rewrite (owner_same _ _ _ _ Ht Hh). apply (sim_sil WSP wabs _ _ _ _ _ Ht Ha). }
  assert (Lin : forall m o l r, wabs p = XPend m o l -> wabs q = XDone m o r -> mtrans true t o (owner ths) r (owner (upd ths t q)) ->
     xsteps WSP (owner ths, map wabs ths) [] (owner (upd ths t q), map wabs (upd ths t q))).
  { intros m o l r Hp Hq Ho. exact (sim_lin WSP wabs (owner ths) (owner (upd ths t q)) ths t q p m o l r Ht Hp Hq Ho). }
  assert (Obs : forall m o l r, hold q = hold p -> wabs p = XPend m o l -> wabs q = XPend m o (r :: l) -> mtrans true t o (owner ths) r (owner ths) ->
     xsteps WSP (owner ths, map wabs ths) [] (owner (upd ths t q), map wabs (upd ths t q))).
  { intros m o l r Hh Hp Hq Ho. rewrite (owner_same _ _ _ _ Ht Hh). exact (sim_obs WSP wabs (owner ths) ths t q p m o l r Ht Hp Hq Ho). }
  assert (Adopt : forall m o l r, hold q = hold p -> wabs p = XPend m o l -> wabs q = XDone m o r -> In r l ->
     xsteps WSP (owner ths, map wabs ths) [] (owner (upd ths t q), map wabs (upd ths t q))).
  { intros m o l r Hh Hp Hq Ho. rewrite (owner_same _ _ _ _ Ht Hh). exact (sim_adopt WSP wabs (owner ths) ths t q p m o l r Ht Hp Hq Ho). }
  pose proof (HL _ _ Ht) as Hl. clear HI HI' HL.
  unfold wm_run1 in H. destruct (dead s); [discriminate|].
  destruct p as [m|m|k0|k|k|k old|c|c|c h|c h h'|old h|k old h|k old h|k r| | |h|m o r]; try discriminate.
  - cbn [bts] in H. rewrite HbL in H. injection H as _ <-. destruct L.
    + destruct (Held eq_refl) as (u & Hu). eapply Lin; [reflexivity|reflexivity|]. rewrite (owner_same _ _ _ _ Ht) by reflexivity. rewrite Hu. constructor.
    + destruct (Acq eq_refl) as (A1 & A2); [destruct m; reflexivity|]. eapply Lin; [reflexivity|reflexivity|]. rewrite A1, A2. constructor.
  - cbn [bts] in H. rewrite HbL in H. injection H as _ <-.
    set (k := match k0, ch with KRel, CKind KAbs => KAbs | KRel, CKind KChrono => KChrono | _, _ => k0 end) in *.
    assert (Hk : kop k = kop k0) by (subst k; destruct k0, ch as [| | | | |[]]; reflexivity). clearbody k.
    destruct L.
    + destruct (Held eq_refl) as (u & Hu). destruct k0.
      * apply Same; destruct k; cbn in *; try discriminate; reflexivity.
      * apply (Obs false MTimed [] RFalse); [destruct k; reflexivity|reflexivity|destruct k; cbn in *; try discriminate; reflexivity|rewrite Hu; constructor].
      * apply (Obs false MTimed [] RFalse); [destruct k; reflexivity|reflexivity|destruct k; cbn in *; try discriminate; reflexivity|rewrite Hu; constructor].
      * apply (Obs false MTimed [] RFalse); [destruct k; reflexivity|reflexivity|destruct k; cbn in *; try discriminate; reflexivity|rewrite Hu; constructor].
    + destruct (Acq eq_refl) as (A1 & A2); [destruct k; reflexivity|]. apply (Lin false (kop k) [] (kgot k)); [cbn; rewrite Hk; reflexivity|reflexivity|].
      rewrite A1, A2. destruct k; constructor.
  - destruct ch; injection H as _ <-; try (apply Same; reflexivity).
    apply (Adopt false (kop k) (wobs k) RFalse); [destruct k; reflexivity|reflexivity|reflexivity|]. cbn in Hl. destruct k; cbn; try tauto; congruence.
  - injection H as _ <-. apply Same; reflexivity.
  - destruct ((word s =? old) && negb (spurious ch)) eqn:Ec; injection H as _ <-; [|apply Same; reflexivity].
    apply andb_true_iff in Ec. destruct Ec as (Ec & _). apply Z.eqb_eq in Ec. rewrite <- Ec in *.
    change (locked (word s)) with (Z.testbit (word s) lock_bit) in *. rewrite HbL in *. destruct L; [apply Same; reflexivity|].
    destruct (Acq eq_refl) as (A1 & A2); [destruct k; reflexivity|]. apply (Lin false (kop k) (wobs k) (kgot k)); [reflexivity|reflexivity|].
    rewrite A1, A2. destruct k; constructor.
  - destruct (m_event s); injection H as _ <-; apply Same; try reflexivity; destruct c as [[]|]; reflexivity.
  - destruct ch; try (injection H as _ <-; apply Same; reflexivity). destruct c as [k old|]; injection H as _ <-; apply Same; reflexivity.
  - destruct (m_event s); injection H as _ <-; apply Same; try reflexivity; destruct c as [[]|]; reflexivity.
  - injection H as _ <-; apply Same; destruct c as [[]|]; reflexivity.
  - destruct ch; injection H as _ <-; apply Same; reflexivity.
  - destruct ch; try (destruct (nth_error (events s) h) as [[|]|]; try discriminate; injection H as _ <-; apply Same; reflexivity).
    + destruct k; try discriminate; injection H as _ <-; apply Same; reflexivity.
    + destruct k; try discriminate; injection H as _ <-; apply Same; reflexivity.
  - destruct ((word s =? old) && negb (spurious ch)) eqn:Ec; injection H as _ <-; [|apply Same; reflexivity].
    apply andb_true_iff in Ec. destruct Ec as (Ec & _). apply Z.eqb_eq in Ec. rewrite <- Ec in *.
    change (locked (word s)) with (Z.testbit (word s) lock_bit) in *. rewrite HbL in *. destruct L; [apply Same; reflexivity|].
    destruct (Acq eq_refl) as (A1 & A2); [destruct k; reflexivity|]. apply (Lin false (kop k) (wobs k) (kgot k)); [reflexivity|reflexivity|].
    rewrite A1, A2. destruct k; constructor.
  - injection H as _ <-. cbn in Hl. destruct Hl as [(-> & Hk)| ->].
    + destruct k; try congruence.
      * apply (Adopt false MTimed [RFalse] RFalse); try reflexivity. left; reflexivity.
      * apply (Adopt false MTimed [RFalse] RFalse); try reflexivity. left; reflexivity.
      * apply Same; reflexivity.
    + assert (Hq : match k with KChrono => WDone false (kop k) RThrow | _ => WDone false (kop k) RThrow end = WDone false (kop k) RThrow) by (destruct k; reflexivity).
      rewrite Hq in *. apply (Lin false (kop k) (wobs k) RThrow); [reflexivity|reflexivity|].
      rewrite (owner_same _ _ _ _ Ht) by (destruct k; reflexivity). destruct k; constructor; reflexivity.
  - cbn zeta in H.
    assert (HLt : L = true). { pose proof (hz_elem _ _ _ Ht) as Hh. cbn in Hh. change (hz WUnl) with 1 in Hh. destruct L; [reflexivity|cbn in H2; lia]. }
    assert (Ho : owner ths = Some t) by (apply (owner_some _ t WUnl); [rewrite <- H2; destruct L; cbn; lia|assumption|reflexivity]).
    injection H as _ Hq.
    assert (Hq2 : hold q = false /\ wabs q = XDone (S:=WSP) true MUnlock ROk) by (rewrite <- Hq; destruct (negb _ && _); split; reflexivity).
    destruct Hq2 as (Hq2 & Hq3). apply (Lin true MUnlock [] ROk); [reflexivity|exact Hq3|]. rewrite Ho, owner_none; [constructor|].
    rewrite (sumf_upd _ _ _ _ _ Ht). unfold hz at 2 3. rewrite Hq2. rewrite <- H2, HLt. reflexivity.
  - cbn [bts] in H. destruct (Z.testbit (word s) event_bit); injection H as _ <-; apply Same; reflexivity.
  - injection H as _ <-. apply Same; reflexivity.
Qed.

Lemma WI_init n : WI (wm_init n).
Proof.
  cbn [WI wm_init word m_event events closed]. rewrite !sumf_repeat. cbn. split; [|split; [|split; [|split]]].
  - exists false, false. rewrite !Z.mul_0_r. cbn. repeat split; auto.
  - intros id. rewrite sumf_repeat. cbn. unfold cz. cbn. lia.
  - intros [|i]; discriminate.
  - intros t p h Ht Hh. apply nth_repeat in Ht. subst. discriminate.
  - intros t p Ht. apply nth_repeat in Ht. subst. exact I.
Qed.

Theorem wm_lin n sched c tr : Z.of_nat n < 2 ^ 30 -> exec wm_step (wm_init n) sched = Some (c, tr) ->
  linearizable WSP n tr /\ WI c.
Proof.
  intros Hn H.
  assert (Hlen : forall s ths t p ch c', wm_run s ths t p ch = Some c' -> length (snd c') = length ths).
  { intros s ths t p ch c' Hr. unfold wm_run in Hr. destruct (wm_run1 s p ch) as [[s' q]|]; inversion Hr; subst. apply upd_length. }
  apply (tsim WSP wm_call wm_ret wm_run wabs wg WI wcap (wm_init n) n) with (sched := sched); auto.
  - unfold tabs, xinit, wm_init, wg. cbn [fst snd]. f_equal; [|clear; induction n as [|n IH]; cbn; [reflexivity|]; f_equal; exact IH].
    apply owner_none. rewrite sumf_repeat. cbn. lia.
  - apply WI_init.
  - intros s ths t p o p' HI Hc Ht Hcall. destruct p; try discriminate. cbn in Hcall. destruct (mpre m o) eqn:Hm; [|discriminate].
    assert (Hh : hold p' = m /\ (m = false -> True) /\ wabs p' = XPend (S:=WSP) m o [] /\ reg p' = 0 /\ tok p' = 0 /\ pend p' = 0 /\ (forall id, inhand id p' = 0) /\ has p' = None /\ wloc p').
    { destruct o; inversion Hcall; subst; destruct m; try discriminate; cbn; repeat split; auto. }
    destruct Hh as (Hh & _ & Ha & R1 & R2 & R3 & R4 & R5 & R6). split; [|split].
    + apply (WI_quiet s ths t (WRest m) p'); auto; [rewrite R5; discriminate|unfold hz; rewrite Hh; reflexivity].
    + apply (owner_same _ _ _ _ Ht). exact Hh.
    + exists m. auto.
  - intros s ths t p o r p' HI Hc Ht Hret. destruct p; try discriminate. cbn in Hret. inversion Hret; subst. split; [|split].
    + eapply WI_quiet; eauto; try discriminate; try reflexivity.
    + apply (owner_same _ _ _ _ Ht). reflexivity.
    + exists m. auto.
  - intros s ths t p ch s' ths' HI Hc _ Ht _ Hrun. unfold wm_run in Hrun. destruct (wm_run1 s p ch) as [[s1 q]|] eqn:E; [|discriminate].
    inversion Hrun; subst. split; [eapply WI_run; eauto|]. eapply wm_run_sim; eauto.
  - intros s1 s2 c1 t1 _ He. unfold wcap. rewrite (tlength wm_call wm_ret wm_run (wm_init n) Hlen _ _ _ He). cbn [wm_init snd]. rewrite repeat_length. assumption.
Qed.
