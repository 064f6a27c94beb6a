(** One-time initialisation: invariants. *)
From Coq Require Import List Bool Arith ZArith Lia.
From Verif Require Import ListSum Exec OnceModel.
Import ListNotations.
Local Open Scope Z_scope.

Definition bz (b : bool) : Z := if b then 1 else 0.
(** Is the thread between its successful exchange (T:127) and the end of the initialisation of module [m]? *)
Definition inside (m : nat) (pc : opc) : bool :=
  match pc with OOpen j | OAlloc j | OCreate j _ | ODrop j _ | OQuery j | OAlloc2 j | OUndo j | OPut j _ | OPub j => (j =? m)%nat | _ => false end.
Definition past (m : nat) (pc : opc) : bool :=
  match pc with OLook j | ODup j _ | OReg j _ | OTim j _ | OVal j _ => (j =? m)%nat | _ => false end.

Definition begins (m : nat) (tr : list oev) : Z := sumf (fun e => match e with EBegin _ j => bz (j =? m)%nat | _ => 0 end) tr.
Definition fails (m : nat) (tr : list oev) : Z := sumf (fun e => match e with EFail _ j => bz (j =? m)%nat | _ => 0 end) tr.
Definition dones (m : nat) (tr : list oev) : Z := sumf (fun e => match e with EDone _ j _ => bz (j =? m)%nat | _ => 0 end) tr.
Lemma begins_app m a b : begins m (a ++ b) = begins m a + begins m b. Proof. apply sumf_app. Qed.
Lemma fails_app m a b : fails m (a ++ b) = fails m a + fails m b. Proof. apply sumf_app. Qed.
Lemma dones_app m a b : dones m (a ++ b) = dones m a + dones m b. Proof. apply sumf_app. Qed.

(** What a step does to the initialisation state of the modules. *)
Inductive ieff (p : proc) (ths : list opc) : proc -> list opc -> list oev -> Prop :=
| IE_none t pc pc' p' e : nth_error ths t = Some pc -> mods p' = mods p -> (forall m, inside m pc' = inside m pc) -> (forall m, past m pc' = true -> past m pc = true) ->
    (forall m, begins m e = 0 /\ fails m e = 0 /\ dones m e = 0) -> (forall u m k, ~ In (EDone u m k) e) ->
    (forall u m k, In (EUse u m k) e -> u = t /\ past m pc = true /\ exists x, nth_error (mods p) m = Some x /\ tkey x = k) -> ieff p ths p' (upd ths t pc') e
| IE_call c x : nth_error (tlcs p) c = Some x -> ieff p ths (set_tlcs p (upd (tlcs p) c (dead x)) (tlsv p)) ths (closes c x)
| IE_seen t m x pc : nth_error ths t = Some pc -> (pc = OChk m \/ pc = OCas m) -> nth_error (mods p) m = Some x -> (ini x = 2 \/ 2 < ini x)%nat -> ieff p ths p (upd ths t (OLook m)) []
| IE_begin t m x : nth_error ths t = Some (OCas m) -> nth_error (mods p) m = Some x -> ini x = 0%nat -> ieff p ths (set_mod p m (MS 1 (tkey x) (holder x))) (upd ths t (OOpen m)) [EBegin t m]
| IE_in t m x pc pc' p' key h : nth_error ths t = Some pc -> inside m pc = true -> (forall j, inside j pc' = inside j pc) -> (forall j, past j pc' = false) -> nth_error (mods p) m = Some x ->
    mods p' = upd (mods p) m (MS (ini x) key h) -> ieff p ths p' (upd ths t pc') []
| IE_undo t m x : nth_error ths t = Some (OUndo m) -> nth_error (mods p) m = Some x -> ieff p ths (set_mod p m (MS 0 (tkey x) (holder x))) (upd ths t OIdle) [EFail t m]
| IE_pub t m x : nth_error ths t = Some (OPub m) -> nth_error (mods p) m = Some x -> ieff p ths (set_mod p m (MS 2 (tkey x) (holder x))) (upd ths t (OLook m)) [EDone t m (tkey x)].

Lemma closes_quiet c x : (forall m, begins m (closes c x) = 0 /\ fails m (closes c x) = 0 /\ dones m (closes c x) = 0) /\ (forall u m k, ~ In (EDone u m k) (closes c x)) /\ (forall u m k, ~ In (EUse u m k) (closes c x)).
Proof. unfold closes. destruct (cwait x), (cthr x), (ctimer x); cbn; repeat split; intros; intuition discriminate. Qed.

Lemma modin l m (x : modst) : nth_error l m = Some x -> upd l m x = l. Proof. apply upd_same. Qed.

Ltac inone T := eapply IE_none with (pc := _); [exact T|try reflexivity|intros ?; reflexivity|intros ? ?; try assumption; try discriminate|repeat split; reflexivity|intros ? ? ? Hx; cbn in Hx; intuition discriminate|intros ? ? ? Hx; cbn in Hx; intuition discriminate].

Lemma once_effects p ths a s' e : once_step (p, ths) a = Some (s', e) -> ieff p ths (fst s') (snd s') e.
Proof.
  intros H. destruct a as [t m|t o|t|c]; cbn [once_step] in H.
  - destruct (nth_error ths t) as [[]|] eqn:Et; try discriminate. destruct (nth_error (mods p) m); inversion H; subst. cbn. inone Et.
  - destruct (nth_error ths t) as [pc|] eqn:Et; [|discriminate]. destruct (once_step1 p t pc o) as [[[p' pc'] e']|] eqn:Es; inversion H; subst. cbn [fst snd]. clear H.
    destruct pc as [| |m|m|m|m|m k|m k|m|m|m|m k|m|m|m c|m c|m c|m c|c]; cbn [once_step1] in Es; try discriminate.
    + destruct (nth_error (mods p) m) as [x|] eqn:Em; [|discriminate]. inversion Es; subst. destruct (Nat.eqb_spec (ini x) 2) as [E|E].
      * eapply IE_seen; eauto.
      * inone Et.
    + destruct (nth_error (mods p) m) as [x|] eqn:Em; [|discriminate]. destruct (ini x) as [|[|i]] eqn:Ei; inversion Es; subst.
      * eapply IE_begin; eauto.
      * inone Et.
      * eapply IE_seen; eauto. lia.
    + destruct (nth_error (mods p) m) as [x|] eqn:Em; [|discriminate].
      destruct o as [k0|]; [destruct (sem p) as [k1|]|]; inversion Es; subst; (eapply IE_in with (pc := OOpen m) (m := m); [exact Et|cbn; apply Nat.eqb_refl|reflexivity|reflexivity|exact Em|reflexivity]).
    + destruct o as [k|]; [destruct (existsb _ _); [discriminate|]|]; inversion Es; subst; inone Et.
    + destruct (nth_error (mods p) m) as [x|] eqn:Em; [|discriminate].
      destruct o as [k0|]; [destruct (sem p) as [k1|]|]; inversion Es; subst; (eapply IE_in with (pc := OCreate m k) (m := m); [exact Et|cbn; apply Nat.eqb_refl|reflexivity|reflexivity|exact Em|reflexivity]).
    + inversion Es; subst. inone Et.
    + destruct o as [k0|]; [destruct (sem p) as [k1|]|]; inversion Es; subst; inone Et.
    + destruct o as [k|]; [destruct (existsb _ _); [discriminate|]|]; inversion Es; subst; inone Et.
    + destruct (nth_error (mods p) m) as [x|] eqn:Em; [|discriminate]. inversion Es; subst. eapply IE_undo; eauto.
    + destruct (nth_error (mods p) m) as [x|] eqn:Em; [|discriminate]. inversion Es; subst. eapply IE_in with (pc := OPut m k) (m := m); [exact Et|cbn; apply Nat.eqb_refl|reflexivity|reflexivity|exact Em|reflexivity].
    + destruct (nth_error (mods p) m) as [x|] eqn:Em; [|discriminate]. inversion Es; subst. eapply IE_pub; eauto.
    + destruct (nth_error (mods p) m) as [x|] eqn:Em; [|discriminate].
      assert (Hu : forall u j k e, In (EUse u j k) [EUse t m (tkey x); e] -> (forall u j k, e <> EUse u j k) -> u = t /\ past j (OLook m) = true /\ exists y, nth_error (mods p) j = Some y /\ tkey y = k).
      { intros u j k e0 [Hx|[Hx|[]]] Hne; [|exfalso; eapply Hne; exact Hx]. inversion Hx; subst. cbn. rewrite Nat.eqb_refl. eauto. }
      destruct (tls_get (tlsv p) t (tkey x)) as [c|]; [|destruct o as [k0|]]; inversion Es; subst.
      * eapply IE_none with (pc := OLook m); [exact Et|reflexivity|intros j; reflexivity|intros j Hj; discriminate|repeat split; reflexivity|intros u j k Hx; cbn in Hx; intuition discriminate|intros u j k Hx; eapply Hu; [exact Hx|discriminate]].
      * eapply IE_none with (pc := OLook m); [exact Et|reflexivity|intros j; reflexivity|intros j Hj; exact Hj|repeat split; reflexivity|intros u j k Hx; cbn in Hx; intuition discriminate|].
        intros u j k [Hx|[]]. inversion Hx; subst. cbn. rewrite Nat.eqb_refl. eauto.
      * eapply IE_none with (pc := OLook m); [exact Et|reflexivity|intros j; reflexivity|intros j Hj; discriminate|repeat split; reflexivity|intros u j k Hx; cbn in Hx; intuition discriminate|intros u j k Hx; eapply Hu; [exact Hx|discriminate]].
    + destruct o, (nth_error (tlcs p) c); inversion Es; subst; inone Et.
    + destruct o, (nth_error (tlcs p) c); inversion Es; subst; inone Et.
    + destruct o, (nth_error (tlcs p) c); inversion Es; subst; inone Et.
    + destruct (nth_error (mods p) m); [|discriminate]. destruct o; inversion Es; subst; inone Et.
    + destruct (nth_error (tlcs p) c) as [x|]; [|discriminate]. inversion Es; subst. destruct (closes_quiet c x) as (Q1 & Q2 & Q3).
      eapply IE_none with (pc := ODel c); [exact Et|reflexivity|intros j; reflexivity|intros j Hj; discriminate| | |].
      * intros j. rewrite begins_app, fails_app, dones_app. destruct (Q1 j) as (-> & -> & ->). repeat split; reflexivity.
      * intros u j k Hx. apply in_app_or in Hx. destruct Hx as [Hx|[Hx|[]]]; [eapply Q2; exact Hx|discriminate].
      * intros u j k Hx. apply in_app_or in Hx. destruct Hx as [Hx|[Hx|[]]]; [exfalso; eapply Q3; exact Hx|discriminate].
  - destruct (nth_error ths t) as [[]|] eqn:Et; try discriminate. inversion H; subst. cbn. inone Et.
  - destruct (nth_error (tlcs p) c) as [x|] eqn:Ec; [|discriminate]. destruct (nth_error ths (cown x)) as [[]|]; try discriminate. destruct (cwait x); inversion H; subst. cbn [fst snd]. apply IE_call. exact Ec.
Qed.

(** ** Initialisation *)
Definition nin (m : nat) (ths : list opc) : Z := sumf (fun pc => bz (inside m pc)) ths.
Definition OI (s : once_st) (tr : list oev) : Prop :=
  (forall m x, nth_error (mods (fst s)) m = Some x -> (ini x <= 2)%nat /\ nin m (snd s) = bz (ini x =? 1)%nat /\ dones m tr = bz (ini x =? 2)%nat /\ begins m tr = dones m tr + fails m tr + bz (ini x =? 1)%nat) /\
  (forall t pc m, nth_error (snd s) t = Some pc -> past m pc = true -> exists x, nth_error (mods (fst s)) m = Some x /\ ini x = 2%nat) /\
  (forall t m k, In (EDone t m k) tr -> exists x, nth_error (mods (fst s)) m = Some x /\ ini x = 2%nat /\ tkey x = k).

Lemma nin_upd m ths t pc pc' : nth_error ths t = Some pc -> nin m (upd ths t pc') = nin m ths - bz (inside m pc) + bz (inside m pc').
Proof. intros H. unfold nin. rewrite (sumf_upd _ _ _ _ _ H). lia. Qed.
Lemma bz_nonneg b : 0 <= bz b. Proof. destruct b; cbn; lia. Qed.
Lemma nin_elem m ths t pc : nth_error ths t = Some pc -> inside m pc = true -> 1 <= nin m ths.
Proof. intros H E. unfold nin. pose proof (sumf_elem (fun pc => bz (inside m pc)) ths t pc (fun a => bz_nonneg _) H) as G. cbn beta in G. rewrite E in G. exact G. Qed.

Lemma OI_init nm n : OI (once_init nm n) [].
Proof.
  split; [|split]; cbn [once_init fst snd mods].
  - intros m x H. apply nth_error_In, repeat_spec in H. subst. cbn. repeat split; try lia. unfold nin. rewrite sumf_repeat. cbn. lia.
  - intros t pc m H. apply nth_error_In, repeat_spec in H. subst. discriminate.
  - intros t m k [].
Qed.

Lemma OI_step s tr a s' e : OI s tr -> once_step s a = Some (s', e) -> OI s' (tr ++ e).
Proof.
  intros (I1 & I2 & I3) Hs. destruct s as [p ths]. pose proof (once_effects _ _ _ _ _ Hs) as He. clear Hs. destruct s' as [p' ths']. cbn [fst snd] in *.
  destruct He as [t pc pc' p' e Ht Em Hin Hpast Hev Hd Hu|c x Hc|t m x pc Ht Hpc Hm Hi|t m x Ht Hm Hi|t m x pc pc' p' key h Ht Hpin Hin Hpast Hm Em|t m x Ht Hm|t m x Ht Hm].
  - split; [|split]; cbn [fst snd].
    + intros m x Hx. rewrite Em in Hx. destruct (I1 m x Hx) as (A & B & C & D). destruct (Hev m) as (E1 & E2 & E3). rewrite begins_app, fails_app, dones_app, E1, E2, E3, (nin_upd _ _ _ _ _ Ht), Hin. repeat split; try lia.
    + intros u w m Hu' Hp. rewrite Em. apply nth_upd_inv in Hu'. destruct Hu' as [(<- & -> & _)|(Hn & Hu')]; eauto.
    + intros u m k Hx. rewrite Em. apply in_app_or in Hx. destruct Hx as [Hx|Hx]; [eauto|exfalso; eapply Hd; exact Hx].
  - destruct (closes_quiet c x) as (Q1 & Q2 & _). split; [|split]; cbn [fst snd mods set_tlcs].
    + intros m y Hy. destruct (I1 m y Hy) as (A & B & C & D). destruct (Q1 m) as (E1 & E2 & E3). rewrite begins_app, fails_app, dones_app, E1, E2, E3. repeat split; lia.
    + exact I2.
    + intros u m k Hx. apply in_app_or in Hx. destruct Hx as [Hx|Hx]; [eauto|exfalso; eapply Q2; exact Hx].
  - assert (Hi2 : ini x = 2%nat) by (destruct (I1 m x Hm); lia). split; [|split]; cbn [fst snd].
    + intros j y Hy. destruct (I1 j y Hy) as (A & B & C & D). rewrite app_nil_r, (nin_upd _ _ _ _ _ Ht). destruct Hpc as [->| ->]; cbn; repeat split; lia.
    + intros u w j Hu Hp. apply nth_upd_inv in Hu. destruct Hu as [(<- & -> & _)|(Hn & Hu)]; [|eauto]. cbn in Hp. apply Nat.eqb_eq in Hp. subst j. eauto.
    + intros u j k Hx. rewrite app_nil_r in Hx. eauto.
  - split; [|split]; cbn [fst snd mods set_mod].
    + intros j y Hy. rewrite begins_app, fails_app, dones_app, (nin_upd _ _ _ _ _ Ht). apply nth_upd_inv in Hy. unfold begins at 2, fails at 2, dones at 2 4. cbn [sumf inside]. destruct Hy as [(<- & -> & _)|(Hn & Hy)].
      * destruct (I1 m x Hm) as (A & B & C & D). rewrite Hi in *. cbn [ini Nat.eqb bz] in *. rewrite Nat.eqb_refl. cbn [bz]. repeat split; lia.
      * destruct (I1 j y Hy) as (A & B & C & D). rewrite (proj2 (Nat.eqb_neq m j)) by congruence. cbn [bz]. repeat split; lia.
    + intros u w j Hu Hp. apply nth_upd_inv in Hu. destruct Hu as [(<- & -> & _)|(Hn & Hu)]; [discriminate|]. destruct (I2 _ _ _ Hu Hp) as (y & Y1 & Y2). exists y. split; [|exact Y2]. rewrite nth_upd_neq; [exact Y1|]. intros ->. congruence.
    + intros u j k Hx. apply in_app_or in Hx. destruct Hx as [Hx|[Hx|[]]]; [|discriminate]. destruct (I3 _ _ _ Hx) as (y & Y1 & Y2 & Y3). exists y. split; [|auto]. rewrite nth_upd_neq; [exact Y1|]. intros ->. congruence.
  - assert (Hi1 : ini x = 1%nat). { destruct (I1 m x Hm) as (A & B & _). pose proof (nin_elem _ _ _ _ Ht Hpin). destruct (Nat.eqb_spec (ini x) 1); [assumption|cbn in B; lia]. }
    split; [|split]; cbn [fst snd]; rewrite Em.
    + intros j y Hy. rewrite app_nil_r, (nin_upd _ _ _ _ _ Ht), Hin. apply nth_upd_inv in Hy. destruct Hy as [(<- & -> & _)|(Hn & Hy)]; [destruct (I1 m x Hm) as (A & B & C & D)|destruct (I1 j y Hy) as (A & B & C & D)]; cbn [ini]; repeat split; lia.
    + intros u w j Hu Hp. apply nth_upd_inv in Hu. destruct Hu as [(<- & -> & _)|(Hn & Hu)]; [rewrite Hpast in Hp; discriminate|]. destruct (I2 _ _ _ Hu Hp) as (y & Y1 & Y2). exists y. split; [|exact Y2]. rewrite nth_upd_neq; [exact Y1|]. intros ->. congruence.
    + intros u j k Hx. rewrite app_nil_r in Hx. destruct (I3 _ _ _ Hx) as (y & Y1 & Y2 & Y3). exists y. split; [|auto]. rewrite nth_upd_neq; [exact Y1|]. intros ->. congruence.
  - assert (Hi1 : ini x = 1%nat). { destruct (I1 m x Hm) as (A & B & _). pose proof (nin_elem m _ _ _ Ht (Nat.eqb_refl m)). destruct (Nat.eqb_spec (ini x) 1); [assumption|cbn in B; lia]. }
    split; [|split]; cbn [fst snd mods set_mod].
    + intros j y Hy. rewrite begins_app, fails_app, dones_app, (nin_upd _ _ _ _ _ Ht). apply nth_upd_inv in Hy. unfold begins at 2, fails at 2, dones at 2 4. cbn [sumf inside]. destruct Hy as [(<- & -> & _)|(Hn & Hy)].
      * destruct (I1 m x Hm) as (A & B & C & D). rewrite Hi1 in *. cbn [ini Nat.eqb bz] in *. rewrite Nat.eqb_refl. cbn [bz]. repeat split; lia.
      * destruct (I1 j y Hy) as (A & B & C & D). rewrite (proj2 (Nat.eqb_neq m j)) by congruence. cbn [bz]. repeat split; lia.
    + intros u w j Hu Hp. apply nth_upd_inv in Hu. destruct Hu as [(<- & -> & _)|(Hn & Hu)]; [discriminate|]. destruct (I2 _ _ _ Hu Hp) as (y & Y1 & Y2). exists y. split; [|exact Y2]. rewrite nth_upd_neq; [exact Y1|]. intros ->. congruence.
    + intros u j k Hx. apply in_app_or in Hx. destruct Hx as [Hx|[Hx|[]]]; [|discriminate]. destruct (I3 _ _ _ Hx) as (y & Y1 & Y2 & Y3). exists y. split; [|auto]. rewrite nth_upd_neq; [exact Y1|]. intros ->. congruence.
  - assert (Hi1 : ini x = 1%nat). { destruct (I1 m x Hm) as (A & B & _). pose proof (nin_elem m _ _ _ Ht (Nat.eqb_refl m)). destruct (Nat.eqb_spec (ini x) 1); [assumption|cbn in B; lia]. }
    split; [|split]; cbn [fst snd mods set_mod].
    + intros j y Hy. rewrite begins_app, fails_app, dones_app, (nin_upd _ _ _ _ _ Ht). apply nth_upd_inv in Hy. unfold begins at 2, fails at 2, dones at 2 4. cbn [sumf inside]. destruct Hy as [(<- & -> & _)|(Hn & Hy)].
      * destruct (I1 m x Hm) as (A & B & C & D). rewrite Hi1 in *. cbn [ini Nat.eqb bz] in *. rewrite Nat.eqb_refl. cbn [bz]. repeat split; lia.
      * destruct (I1 j y Hy) as (A & B & C & D). rewrite (proj2 (Nat.eqb_neq m j)) by congruence. cbn [bz]. repeat split; lia.
    + intros u w j Hu Hp. apply nth_upd_inv in Hu. destruct Hu as [(<- & -> & _)|(Hn & Hu)].
      * cbn in Hp. apply Nat.eqb_eq in Hp. subst j. eexists. split; [eapply nth_upd_eq; exact Hm|reflexivity].
      * destruct (I2 _ _ _ Hu Hp) as (y & Y1 & Y2). exists y. split; [|exact Y2]. rewrite nth_upd_neq; [exact Y1|]. intros ->. congruence.
    + intros u j k Hx. apply in_app_or in Hx. destruct Hx as [Hx|[Hx|[]]].
      * destruct (I3 _ _ _ Hx) as (y & Y1 & Y2 & Y3). exists y. split; [|auto]. rewrite nth_upd_neq; [exact Y1|]. intros ->. congruence.
      * inversion Hx; subst. eexists. split; [eapply nth_upd_eq; exact Hm|auto].
Qed.

Lemma once_oi nm n sched s tr : exec once_step (once_init nm n) sched = Some (s, tr) -> OI s tr.
Proof. apply exec_inv; [apply OI_init|intros; eapply OI_step; eauto]. Qed.
