(** Thread-specific storage: keys, and what get returns. *)
From Coq Require Import List Bool Arith ZArith Lia.
From Verif Require Import ListSum Exec TssModel TssProof.
Import ListNotations.

Definition WFK (s : tsh) : Prop :=
  (forall p q, alive s p q -> (exists fl, nth_error (keys s) (pkey q) = Some (pcb q, fl)) /\ ~ In (pkey q) (freed s)) /\
  (forall p q p' q', alive s p q -> alive s p' q' -> pkey q = pkey q' -> p = p') /\
  NoDup (freed s) /\ (forall k, In k (freed s) -> k < length (keys s)) /\
  (forall x c k, ctx_of s x = Some c -> (In k (freed s) \/ length (keys s) <= k) -> getv (storage c) k = 0).

(** Nothing about keys and pointers changes and contexts only change in allowed ways. *)
Lemma WFK_ext s s' : keys s' = keys s -> freed s' = freed s -> tptrs s' = tptrs s ->
  (forall x c k, ctx_of s' x = Some c -> (In k (freed s) \/ length (keys s) <= k) -> getv (storage c) k = 0) -> WFK s -> WFK s'.
Proof. intros E1 E2 E3 Hc (K1 & K2 & K3 & K4 & K5). unfold WFK, alive in *. rewrite E1, E2, E3. repeat split; eauto; intros; eapply K1; eauto. Qed.

Lemma getv_nil k : getv [] k = 0. Proof. unfold getv. destruct k; reflexivity. Qed.

Lemma WFK_ensure s t : WFK s -> WFK (fst (ensure s t)).
Proof.
  intros HK. pose proof HK as (K1 & K2 & K3 & K4 & K5). destruct (ensure_nreg s t) as (_ & E1 & E2 & E3). apply (WFK_ext s); auto.
  intros x c k Hc. unfold ensure in Hc. destruct (slot s t); cbn [fst] in Hc; [eapply K5; eauto|].
  unfold ctx_of in Hc. cbn [ctxs] in Hc. destruct (le_lt_dec (length (ctxs s)) x) as [Hge|Hlt].
  - rewrite nth_error_app2 in Hc by exact Hge. destruct (x - length (ctxs s)) as [|m]; cbn in Hc; [inversion Hc; subst c; intros _; apply getv_nil|destruct m; discriminate].
  - rewrite nth_error_app1 in Hc by exact Hlt. eapply K5. unfold ctx_of. exact Hc.
Qed.

Lemma WFK_ctx s x c c' : WFK s -> ctx_of s x = Some c -> (forall k, (In k (freed s) \/ length (keys s) <= k) -> getv (storage c) k = 0 -> getv (storage c') k = 0) -> WFK (set_ctx s x (Some c')).
Proof.
  intros HK Hc Hv. pose proof HK as (K1 & K2 & K3 & K4 & K5). apply (WFK_ext s); auto. intros y d k. rewrite (ctx_set _ _ _ _ _ Hc).
  destruct (Nat.eqb_spec y x) as [->|]; [intros E; inversion E; subst d; intros Hk; apply Hv; auto; eapply K5; eauto|apply K5].
Qed.

Lemma set_value_keys s t k v : keys (set_value s t k v) = keys s /\ freed (set_value s t k v) = freed s /\ tptrs (set_value s t k v) = tptrs s.
Proof.
  destruct (ensure_nreg s t) as (_ & E1 & E2 & E3). unfold set_value. destruct (ensure s t) as [s1 x]. cbn [fst] in *. destruct (ctx_of s1 x); cbn; auto.
Qed.

Lemma WFK_set pl s ths t th p q v : WFC pl s ths -> nth_error ths t = Some th -> user th = true -> WFK s -> alive s p q -> WFK (set_value s t (pkey q) v).
Proof.
  intros HW Ht Hu HK Hp. destruct (set_value_ok pl s ths t th (pkey q) v HW Ht Hu) as (_ & _ & x & c & Hs & Hc & E & _). rewrite E.
  eapply WFK_ctx; [apply WFK_ensure; exact HK|exact Hc|]. destruct (ensure_nreg s t) as (_ & E1 & E2 & E3). rewrite E1, E2. intros k Hk Hz. cbn [storage]. rewrite getv_setv.
  destruct HK as (K1 & _). destruct (K1 p q Hp) as ((fl & A) & B). destruct (Nat.eqb_spec k (pkey q)) as [->|]; [|exact Hz].
  exfalso. destruct Hk as [Hk|Hk]; [contradiction|]. assert (pkey q < length (keys s)) by (apply nth_error_Some; congruence). lia.
Qed.

Lemma alive_upd s (keys' : list (option nat * bool)) freed' ctxs' p0 q0 sl nr p q :
  alive (TS keys' freed' ctxs' (upd (tptrs s) p0 (TP (pkey q0) (pcb q0) false)) sl nr) p q -> alive s p q /\ p <> p0.
Proof. intros (A & B). cbn in A. apply nth_upd_inv in A. destruct A as [(E & -> & _)|(Hn & A)]; [discriminate|]. split; [split; assumption|congruence]. Qed.

Lemma alive_upd' s s' p0 q0 p q : tptrs s' = upd (tptrs s) p0 (TP (pkey q0) (pcb q0) false) -> alive s' p q -> alive s p q /\ p <> p0.
Proof. intros E (A & B). rewrite E in A. apply nth_upd_inv in A. destruct A as [(_ & -> & _)|(Hn & A)]; [discriminate|]. split; [split; assumption|congruence]. Qed.

Lemma WFK_delete s p q : WFK s -> alive s p q -> WFK (fst (delete_key s p q)).
Proof.
  intros HK Hp. pose proof HK as (K1 & K2 & K3 & K4 & K5). destruct (K1 p q Hp) as ((fl0 & Hkk) & Hnf).
  destruct (delete_facts s p q) as (_ & _ & Et & [(cb & Hk & Ek & Ef & _ & Hc & _)|(_ & Ek & Ef & Ec & _)]); set (s' := fst (delete_key s p q)) in *.
  - split; [|split; [|split; [|split]]].
    + intros p' q' Ha. destruct (alive_upd' _ _ _ _ _ _ Et Ha) as (Ha' & Hn). destruct (K1 p' q' Ha') as ((fl & A) & B).
      assert (Hne : pkey q' <> pkey q) by (intros E; apply Hn; eapply K2; eauto). rewrite Ek, Ef. split; [exists fl; rewrite nth_upd_neq by congruence; exact A|].
      intros [E|E]; [congruence|contradiction].
    + intros p1 q1 p2 q2 H1 H2. apply (alive_upd' _ _ _ _ _ _ Et) in H1. apply (alive_upd' _ _ _ _ _ _ Et) in H2. destruct H1, H2. eapply K2; eauto.
    + rewrite Ef. constructor; assumption.
    + rewrite Ef, Ek, upd_length. intros k [<-|Hk']; [apply nth_error_Some; congruence|auto].
    + intros x c k. rewrite Hc, Ef, Ek, upd_length. destruct (ctx_of s x) as [d|] eqn:Ed; [|discriminate]. intros E. inversion E; subst c. rewrite clr_get.
      destruct (Nat.eqb_spec k (pkey q)); [reflexivity|]. intros [[E'|Hf]|Hl]; [congruence|eauto|eauto].
  - split; [|split; [|split; [|split]]].
    + intros p' q' Ha. destruct (alive_upd' _ _ _ _ _ _ Et Ha) as (Ha' & Hn). rewrite Ek, Ef. eapply K1; eauto.
    + intros p1 q1 p2 q2 H1 H2. apply (alive_upd' _ _ _ _ _ _ Et) in H1. apply (alive_upd' _ _ _ _ _ _ Et) in H2. destruct H1, H2. eapply K2; eauto.
    + rewrite Ef. assumption.
    + rewrite Ef, Ek. assumption.
    + rewrite Ef, Ek. unfold ctx_of. rewrite Ec. exact K5.
Qed.

Lemma alive_new s cb fl p q : alive (new_key s cb fl) p q -> (alive s p q /\ p < length (tptrs s)) \/ (p = length (tptrs s) /\ q = TP (match freed s with k :: _ => k | [] => length (keys s) end) cb true).
Proof.
  intros (A & B). assert (Et : tptrs (new_key s cb fl) = tptrs s ++ [TP (match freed s with k :: _ => k | [] => length (keys s) end) cb true]) by (unfold new_key; destruct (freed s); reflexivity).
  rewrite Et in A. destruct (le_lt_dec (length (tptrs s)) p) as [Hge|Hlt].
  - right. rewrite nth_error_app2 in A by exact Hge. destruct (p - length (tptrs s)) as [|m] eqn:Em; cbn in A; [|destruct m; discriminate]. split; [lia|congruence].
  - left. rewrite nth_error_app1 in A by exact Hlt. repeat split; assumption.
Qed.

Lemma WFK_new s cb fl : WFK s -> WFK (new_key s cb fl).
Proof.
  intros (K1 & K2 & K3 & K4 & K5).
  assert (Hc : forall x, ctx_of (new_key s cb fl) x = ctx_of s x) by (intros x; unfold ctx_of, new_key; destruct (freed s); reflexivity).
  pose proof (alive_new s cb fl) as Ha. remember (match freed s with k :: _ => k | [] => length (keys s) end) as k0.
  assert (Hk0 : forall p q, alive s p q -> pkey q <> k0).
  { intros p q Hp E. destruct (K1 p q Hp) as ((f & A) & B). destruct (freed s) as [|k fr]; subst k0; [|apply B; left; congruence]. assert (pkey q < length (keys s)) by (apply nth_error_Some; congruence). lia. }
  split; [|split; [|split; [|split]]].
  - intros p q Hp. destruct (Ha p q Hp) as [(A & _)|(-> & ->)]; cbn [pkey pcb].
    + destruct (K1 p q A) as ((f & B) & C). specialize (Hk0 p q A). unfold new_key. destruct (freed s) as [|k fr]; cbn; subst k0.
      * split; [|tauto]. exists f. rewrite nth_error_app1 by (apply nth_error_Some; congruence). exact B.
      * split; [exists f; rewrite nth_upd_neq by congruence; exact B|]. intros Hi. apply C. right. exact Hi.
    + unfold new_key. destruct (freed s) as [|k fr]; cbn; subst k0.
      * split; [|tauto]. exists fl. rewrite nth_error_app2 by lia. rewrite Nat.sub_diag. reflexivity.
      * inversion K3; subst. split; [|assumption]. exists fl. destruct (nth_error (keys s) k) as [w|] eqn:Ew; [rewrite (nth_upd_eq _ _ _ _ Ew); reflexivity|].
        apply nth_error_None in Ew. specialize (K4 k (or_introl eq_refl)). lia.
  - intros p q p' q' Hp Hp' E. destruct (Ha p q Hp) as [(A & _)|(-> & ->)], (Ha p' q' Hp') as [(A' & _)|(-> & ->)]; cbn [pkey] in E; [eapply K2; eauto| | |reflexivity];
      exfalso; eapply Hk0; eauto; congruence.
  - unfold new_key. destruct (freed s) as [|k fr]; cbn; [constructor|]. inversion K3; assumption.
  - unfold new_key. destruct (freed s) as [|k fr]; cbn; [tauto|]. intros j Hj. rewrite upd_length. apply K4. right. exact Hj.
  - intros x c j. rewrite Hc. intros Hx Hj. eapply K5; eauto. revert Hj. unfold new_key. destruct (freed s) as [|k fr]; cbn; rewrite ?app_length, ?upd_length; cbn; intuition lia.
Qed.

Lemma WFK_step pl s ths t th s' th' e : WFC pl s ths -> WFK s -> nth_error ths t = Some th -> tss_eff pl s t th s' th' e -> WFK s'.
Proof.
  intros HW HK Ht He. destruct He; try exact HK; try (eapply WFK_set; eauto; fail); try (apply WFK_ensure; exact HK).
  - apply WFK_new. exact HK.
  - apply WFK_delete; assumption.
  - cbv zeta. apply (WFK_ext (set_ctx (fst (ensure s t)) (snd (ensure s t)) (Some (X (xown c) (storage c) (atexit c ++ [nreg s]) (notif c))))); try reflexivity.
    + intros x d k Hd. assert (HK' : WFK (set_ctx (fst (ensure s t)) (snd (ensure s t)) (Some (X (xown c) (storage c) (atexit c ++ [nreg s]) (notif c))))) by (eapply WFK_ctx; [apply WFK_ensure; exact HK|eassumption|auto]).
      destruct HK' as (_ & _ & _ & _ & K5). eapply K5. exact Hd.
    + eapply WFK_ctx; [apply WFK_ensure; exact HK|eassumption|auto].
  - eapply WFK_ctx; [apply WFK_ensure; exact HK|eassumption|auto].
  - eapply WFK_ctx; eauto.
  - eapply WFK_ctx; eauto. intros j _ _. apply getv_nil.
  - destruct HW as (_ & _ & H3 & _). destruct (H3 t th x Ht ltac:(rewrite H0; reflexivity)) as (c & Hc & _). pose proof HK as (K1 & K2 & K3 & K4 & K5). apply (WFK_ext s); try (destruct pl; reflexivity); [|exact HK].
    intros y d k Hd. assert (Hd' : ctx_of (set_ctx s x None) y = Some d) by (destruct pl; exact Hd). rewrite (ctx_set _ _ _ _ _ Hc) in Hd'. destruct (y =? x); [discriminate|]. eapply K5; eauto.
Qed.

(** ** What get returns *)
(** The value thread [t] sees through pointer [p], according to the history: the last one it installed, nothing after a release, and
    nothing after the thread's values have been taken away for destruction. *)
Definition see1 (pl : plat) (t p : nat) (v : nat) (e : tev) : nat :=
  match e with
  | ESet u q _ w => if (u =? t) && (q =? p) then w else v
  | ERel u q _ _ => if (u =? t) && (q =? p) then 0 else v
  | ETls u => match pl with Win => if u =? t then 0 else v | _ => v end
  | EDet u => if u =? t then 0 else v
  | _ => v
  end.
Definition seen (pl : plat) (t p : nat) (tr : list tev) : nat := fold_left (see1 pl t p) tr 0.
Lemma seen_app pl t p a b : seen pl t p (a ++ b) = fold_left (see1 pl t p) b (seen pl t p a).
Proof. apply fold_left_app. Qed.

Definition SEE (pl : plat) (s : tsh) (tr : list tev) : Prop :=
  (forall t p q, alive s p q -> get s t (pkey q) = seen pl t p tr) /\ (forall t p, length (tptrs s) <= p -> seen pl t p tr = 0).

Lemma get_none s t k : slot s t = None -> get s t k = 0. Proof. intros E. unfold get. rewrite E. reflexivity. Qed.

Lemma see_step pl s ths t th s' th' e tr : WFC pl s ths -> WFK s -> nth_error ths t = Some th -> tss_eff pl s t th s' th' e -> SEE pl s tr -> SEE pl s' (tr ++ e).
Proof.
  intros HW HK Ht He (J1 & J2). pose proof HW as (H1 & H2 & H3 & H4 & H5). pose proof HK as (K1 & K2 & K3 & K4 & K5).
  assert (HL : t < length (slots s)) by (rewrite H1; apply nth_error_Some; congruence).
  assert (Hbound : forall p q, alive s p q -> p < length (tptrs s)) by (intros p q (A & _); apply nth_error_Some; congruence).
  assert (Same : forall s1 e1, (forall u j, get s1 u j = get s u j) -> tptrs s1 = tptrs s -> (forall u p v, see1 pl u p v = see1 pl u p v -> fold_left (see1 pl u p) e1 v = v) -> SEE pl s1 (tr ++ e1)).
  { intros s1 e1 Hg Et Hf. split.
    - intros u p q Hp. rewrite seen_app, Hf by reflexivity. rewrite Hg. apply J1. unfold alive in *. rewrite <- Et. exact Hp.
    - intros u p Hp. rewrite seen_app, Hf by reflexivity. apply J2. rewrite <- Et. exact Hp. }
  assert (Put : forall p q v e1, user th = true -> alive s p q -> (forall u p' w, fold_left (see1 pl u p') e1 w = if (u =? t) && (p' =? p) then v else w) -> SEE pl (set_value s t (pkey q) v) (tr ++ e1)).
  { intros p q v e1 Hu Hp Hf. destruct (set_value_ok pl s ths t th (pkey q) v HW Ht Hu) as (_ & Hg & _). destruct (set_value_keys s t (pkey q) v) as (_ & _ & Et). split.
    - intros u p' q' Hp'. assert (Hp'' : alive s p' q') by (unfold alive in *; rewrite <- Et; exact Hp'). rewrite seen_app, Hf, Hg.
      destruct (u =? t); cbn [andb]; [|apply J1; exact Hp'']. destruct (Nat.eqb_spec p' p) as [->|Hn].
      + assert (q' = q) by (destruct Hp, Hp''; congruence). subst q'. rewrite Nat.eqb_refl. reflexivity.
      + rewrite (proj2 (Nat.eqb_neq (pkey q') (pkey q))) by (intros E; apply Hn; eapply K2; eauto). apply J1. exact Hp''.
    - intros u p' Hp'. rewrite Et in Hp'. rewrite seen_app, Hf. rewrite (proj2 (Nat.eqb_neq p' p)) by (specialize (Hbound p q Hp); lia). rewrite andb_false_r. apply J2. exact Hp'. }
  destruct He; try (apply Same; [reflexivity|reflexivity|reflexivity]).
  - (* new *) split.
    + intros u p q Hp. rewrite seen_app. cbn [fold_left see1].
      assert (Hg : forall j, get (new_key s cb flag) u j = get s u j) by (intros j; apply get_ext; unfold new_key; destruct (freed s); reflexivity).
      rewrite Hg. destruct (alive_new s cb flag p q Hp) as [(A & _)|(-> & ->)]; [apply J1; exact A|]. rewrite J2 by lia. cbn [pkey].
      unfold get. destruct (slot s u) as [x|] eqn:Ex; [|reflexivity]. destruct (ctx_of s x) as [c|] eqn:Ec; [|reflexivity]. eapply K5; eauto. destruct (freed s); [right; lia|left; left; reflexivity].
    + intros u p Hp. rewrite seen_app. cbn [fold_left see1]. apply J2. revert Hp. unfold new_key. destruct (freed s); cbn; rewrite app_length; lia.
  - (* del *) destruct (delete_facts s p q) as (Es & _ & Et & Hd). split.
    + intros u p' q' Hp'. destruct (alive_upd' _ _ _ _ _ _ Et Hp') as (Ha & Hn). rewrite seen_app. cbn [fold_left see1]. rewrite <- (J1 u p' q' Ha).
      destruct Hd as [(cb & _ & _ & _ & _ & Hc & _)|(_ & _ & _ & Hc & _)]; [|apply get_ext; assumption].
      unfold get, slot. rewrite Es. fold (slot s u). destruct (slot s u) as [x|]; [|reflexivity]. rewrite Hc. destruct (ctx_of s x) as [c|]; [|reflexivity]. rewrite clr_get.
      rewrite (proj2 (Nat.eqb_neq (pkey q') (pkey q))) by (intros E; apply Hn; eapply K2; eauto). reflexivity.
    + intros u p' Hp'. rewrite seen_app. cbn [fold_left see1]. apply J2. rewrite Et, upd_length in Hp'. exact Hp'.
  - apply (Put p q 0); auto. intros u p' w. cbn. rewrite (Nat.eqb_sym t u), (Nat.eqb_sym p p'). reflexivity.
  - apply (Put p q v); auto. intros u p' w. cbn. rewrite (Nat.eqb_sym t u), (Nat.eqb_sym p p'). reflexivity.
  - apply Same; [reflexivity|reflexivity|]. intros u p v _. destruct H0 as [->|(m & ->)]; reflexivity.
  - apply Same; [intros; eapply ensure_get; eauto|apply ensure_nreg|]. intros u p v _. destruct H0 as [->|(m & ->)]; reflexivity.
  - cbv zeta. apply Same; [|cbn; apply ensure_nreg|reflexivity]. intros u j. rewrite <- (ensure_get pl s ths t th HW Ht H u j).
    rewrite <- (get_set_ctx (fst (ensure s t)) (snd (ensure s t)) c (X (xown c) (storage c) (atexit c ++ [nreg s]) (notif c)) u j) by (assumption || reflexivity). apply get_ext; reflexivity.
  - apply Same; [|cbn; apply ensure_nreg|reflexivity]. intros u j. rewrite <- (ensure_get pl s ths t th HW Ht H u j). eapply get_set_ctx; eauto.
  - (* detach *) assert (Hg : forall u j, get (set_slot s t None) u j = if u =? t then 0 else get s u j).
    { intros u j. unfold get. rewrite (slot_set s t None u HL). destruct (u =? t); reflexivity. }
    split; [intros u p q Hp; rewrite Hg|intros u p Hp]; rewrite seen_app; cbn [fold_left see1]; rewrite (Nat.eqb_sym t u); destruct (u =? t); auto.
  - apply Same; [|reflexivity|reflexivity]. intros u j. eapply get_set_ctx; eauto.
  - (* the values are swapped out *)
    assert (Hx : exof (est th) = Some x) by (rewrite H0; reflexivity). destruct (H3 t th x Ht Hx) as (d & Hd & Od & Hw & _). assert (d = c) as -> by congruence.
    assert (Hg : forall u j, get (set_ctx s x (Some (X (xown c) [] (atexit c) (notif c)))) u j = match pl with Win => if u =? t then 0 else get s u j | _ => get s u j end).
    { intros u j. unfold get. change (slot (set_ctx s x (Some (X (xown c) [] (atexit c) (notif c)))) u) with (slot s u). destruct (slot s u) as [y|] eqn:Ey; [|destruct pl, (u =? t); reflexivity].
      rewrite (ctx_set _ _ _ _ _ H7). destruct (Nat.eqb_spec y x) as [->|Hn].
      - destruct (H2 u x Ey) as (d & A & B). assert (Eu : u = t) by congruence. assert (Ep : pl = Win) by (apply Hw; congruence). rewrite Eu, Ep, Nat.eqb_refl. apply getv_nil.
      - destruct pl; try reflexivity. destruct (Nat.eqb_spec u t) as [->|]; [|reflexivity]. rewrite (proj2 Hw eq_refl) in Ey. congruence. }
    split; [intros u p q Hp; rewrite Hg|intros u p Hp]; rewrite seen_app; cbn [fold_left see1]; rewrite (Nat.eqb_sym t u);
      destruct pl; (try destruct (u =? t)); try reflexivity; try (apply J1; exact Hp); try (apply J2; exact Hp).
  - (* the context is destroyed *)
    assert (Hx : exof (est th) = Some x) by (rewrite H0; reflexivity). destruct (H3 t th x Ht Hx) as (c & Hc & Od & Hw & Hph). rewrite H0 in Hph. cbn in Hph. destruct Hph as (Hst & _).
    apply Same; [|destruct pl; reflexivity|reflexivity]. intros u j. destruct pl.
    + unfold get. rewrite (slot_set (set_ctx s x None) t None u HL). change (slot (set_ctx s x None) u) with (slot s u). destruct (Nat.eqb_spec u t) as [->|Hn].
      * rewrite (proj2 Hw eq_refl), Hc, Hst. symmetry. apply getv_nil.
      * destruct (slot s u) as [y|] eqn:Ey; [|reflexivity]. destruct (H2 u y Ey) as (d & A & B). change (ctx_of (set_slot (set_ctx s x None) t None) y) with (ctx_of (set_ctx s x None) y).
        rewrite (ctx_set _ _ _ _ _ Hc). destruct (Nat.eqb_spec y x) as [->|]; [congruence|reflexivity].
    + unfold get. change (slot (set_ctx s x None) u) with (slot s u). destruct (slot s u) as [y|] eqn:Ey; [|reflexivity]. rewrite (ctx_set _ _ _ _ _ Hc).
      destruct (Nat.eqb_spec y x) as [->|]; [rewrite Hc, Hst; symmetry; apply getv_nil|reflexivity].
    + unfold get. change (slot (set_ctx s x None) u) with (slot s u). destruct (slot s u) as [y|] eqn:Ey; [|reflexivity]. rewrite (ctx_set _ _ _ _ _ Hc).
      destruct (Nat.eqb_spec y x) as [->|]; [rewrite Hc, Hst; symmetry; apply getv_nil|reflexivity].
Qed.

Definition BASE (pl : plat) (c : tss_st) : Prop := WFC pl (fst c) (snd c) /\ WFK (fst c).

Lemma base_init pl n : BASE pl (tss_init n).
Proof.
  assert (Hs : forall t, slot (fst (tss_init n)) t = None).
  { intros t. unfold slot, tss_init. cbn. destruct (nth_error (repeat None n) t) as [o|] eqn:E; [|reflexivity]. apply nth_error_In in E. apply repeat_spec in E. subst o. reflexivity. }
  assert (Hc : forall x, ctx_of (fst (tss_init n)) x = None) by (intros [|x]; reflexivity).
  assert (Ht : forall t th, nth_error (snd (tss_init n)) t = Some th -> th = Th [] Running) by (intros t th E; apply nth_error_In in E; apply repeat_spec in E; exact E).
  split.
  - split; [cbn; rewrite !repeat_length; reflexivity|]. split; [intros t x; rewrite Hs; discriminate|]. split; [intros t th x E; rewrite (Ht _ _ E); discriminate|].
    split; [intros x c; rewrite Hc; discriminate|]. intros t th E. rewrite (Ht _ _ E). exact I.
  - split; [intros [|p] q (A & _); discriminate|]. split; [intros [|p] q p' q' (A & _); discriminate|]. split; [constructor|]. split; [intros k []|]. intros x c k. rewrite Hc. discriminate.
Qed.

Lemma base_step pl c a c' e : BASE pl c -> tss_step pl c a = Some (c', e) -> BASE pl c'.
Proof.
  destruct c as [s ths]. intros (HW & HK) Hs. destruct (tss_effects _ _ _ _ _ _ Hs) as (th & th' & Ht & E & He). cbn [fst snd] in *. split; [rewrite E; eapply WFC_step; eauto|eapply WFK_step; eauto].
Qed.

Lemma tss_see pl n sched c tr : exec (tss_step pl) (tss_init n) sched = Some (c, tr) -> BASE pl c /\ SEE pl (fst c) tr.
Proof.
  apply (exec_inv (tss_step pl) (fun c tr => BASE pl c /\ SEE pl (fst c) tr)).
  - split; [apply base_init|]. split; [intros t [|p] q (A & _); discriminate|reflexivity].
  - intros c0 tr0 a c1 e (HB & HS) Hs. split; [eapply base_step; eauto|]. destruct c0 as [s ths]. destruct HB as (HW & HK). destruct (tss_effects _ _ _ _ _ _ Hs) as (th & th' & Ht & E & He). eapply see_step; eauto.
Qed.
