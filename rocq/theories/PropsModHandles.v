(** C78, the handles of the semaphore when system calls fail: every outcome of OpenSemaphore, CreateSemaphore, NtQuerySemaphore and TlsAlloc.
    The model is ModModel; /repo/include/boost/sync/detail/waitable_timer.hpp 123-241. *)
From Coq Require Import List Bool Arith ZArith Lia.
From Verif Require Import ListSum Exec Events OnceModel OnceProof OnceKey OnceCtx ModModel ModProof ModKey PropsMod.
Import ListNotations.
Local Open Scope Z_scope.

(** How many initialisations have failed with an exception. Proof or specification device; no counterpart in /repo. *)
Definition nfails (tr : list oev) : Z := sumf (fun e => match e with EFail _ _ => 1 | _ => 0 end) tr.
(** How many handles the modules keep. Proof or specification device; no counterpart in /repo. *)
Definition kept_handles (p : proc) : Z := sumf (fun x => bz (holder x)) (mods p).

(** Modules that are about to initialise and still have the handle of an attempt that failed. Proof or specification device; no counterpart in /repo. *)
Definition old1 (x : modst) : Z := bz ((ini x =? 0)%nat && holder x).
(** Proof or specification device; no counterpart in /repo. *)
Definition old2 (l : list modst) (pc : opc) : Z := match pc with OOpen m => match nth_error l m with Some x => bz (holder x) | None => 0 end | _ => 0 end.
(** Proof or specification device; no counterpart in /repo. *)
Definition HJ (s : once_st) (f : Z) : Prop :=
  kept_handles (fst s) <= Z.of_nat (semh (fst s)) /\
  Z.of_nat (semh (fst s)) + sumf old1 (mods (fst s)) + sumf (old2 (mods (fst s))) (snd s) <= kept_handles (fst s) + f /\
  (forall t pc m x, nth_error (snd s) t = Some pc -> (pc = OAlloc m \/ exists k, pc = OCreate m k) -> nth_error (mods (fst s)) m = Some x -> holder x = false).

Lemma sumf_upd_ext {A} (g g' : A -> Z) l t a a' : nth_error l t = Some a -> (forall i b, nth_error l i = Some b -> i <> t -> g' b = g b) -> sumf g' (upd l t a') = sumf g l - g a + g' a'.
Proof.
  revert t. induction l as [|b l IH]; intros [|t] H He; cbn in *; try discriminate.
  - inversion H; subst. assert (E : sumf g' l = sumf g l); [|lia]. clear -He. assert (He' : forall i c, nth_error l i = Some c -> g' c = g c) by (intros i c Hc; apply (He (S i) c Hc); discriminate). clear He. induction l as [|c l IH]; [reflexivity|]. cbn. rewrite (He' 0%nat c eq_refl), IH; [reflexivity|]. intros i d Hd. exact (He' (S i) d Hd).
  - rewrite (IH t H); [|intros i c Hc Hi; apply (He (S i) c Hc); congruence]. rewrite (He 0%nat b eq_refl) by discriminate. lia.
Qed.
Lemma old2_nonneg l pc : 0 <= old2 l pc. Proof. destruct pc; cbn; try lia. destruct (nth_error l m); [apply bz_nonneg|lia]. Qed.

(** A step that leaves the modules alone. *)
Lemma HJ_frame p ths p' t pc pc' f f' : HJ (p, ths) f -> nth_error ths t = Some pc -> mods p' = mods p -> semh p' = semh p -> (forall m, pc' <> OOpen m) -> (forall m x, pc' = OAlloc m \/ (exists k, pc' = OCreate m k) -> nth_error (mods p) m = Some x -> holder x = false) -> f <= f' ->
  HJ (p', upd ths t pc') f'.
Proof.
  intros (J1 & J2 & J3) Ht Em Eh Ho Hn Hf. unfold HJ, kept_handles in *. cbn [fst snd] in *. rewrite Em, Eh. split; [exact J1|]. split.
  - rewrite (sumf_upd _ _ _ _ _ Ht). assert (old2 (mods p) pc' = 0) by (destruct pc'; try reflexivity; exfalso; eapply Ho; reflexivity). pose proof (old2_nonneg (mods p) pc). lia.
  - intros u w m x Hu Hw Hx. apply nth_upd_inv in Hu. destruct Hu as [(<- & -> & _)|(_ & Hu)]; eauto.
Qed.
(** A step that changes module [m] and at most its one initialising thread. *)
Lemma HJ_mod p ths p' t pc pc' m x x' f f' : HJ (p, ths) f -> nth_error ths t = Some pc -> nth_error (mods p) m = Some x -> mods p' = upd (mods p) m x' ->
  (holder x' = holder x \/ forall u w, nth_error ths u = Some w -> u <> t -> inside m w = false) -> (forall j, (pc' = OOpen j \/ pc' = OAlloc j \/ exists k, pc' = OCreate j k) -> j = m) ->
  (pc' = OAlloc m \/ (exists k, pc' = OCreate m k) -> holder x' = false) ->
  bz (holder x') - bz (holder x) <= Z.of_nat (semh p') - Z.of_nat (semh p) ->
  Z.of_nat (semh p') - Z.of_nat (semh p) + old1 x' - old1 x + (match pc' with OOpen _ => bz (holder x') | _ => 0 end) - (match pc with OOpen j => if (j =? m)%nat then bz (holder x) else 0 | _ => 0 end) <= bz (holder x') - bz (holder x) + (f' - f) ->
  HJ (p', upd ths t pc') f'.
Proof.
  intros (J1 & J2 & J3) Ht Hm Em Hoth Hpc Hal D1 D2. unfold HJ, kept_handles in *. cbn [fst snd] in *. rewrite Em. rewrite !(sumf_upd _ _ _ _ _ Hm).
  assert (Hnew : nth_error (upd (mods p) m x') m = Some x') by (eapply nth_upd_eq; exact Hm).
  split; [lia|]. split.
  - rewrite (sumf_upd_ext (old2 (mods p)) (old2 (upd (mods p) m x')) ths t pc pc' Ht).
    + assert (A1 : old2 (upd (mods p) m x') pc' <= match pc' with OOpen _ => bz (holder x') | _ => 0 end).
      { destruct pc' as [| | | |j|j|j ?|j ?|j|j|j|j ?|j|j|j ?|j ?|j ?|j ?|?]; cbn; try lia. rewrite (Hpc j (or_introl eq_refl)), Hnew. lia. }
      assert (A2 : match pc with OOpen j => if (j =? m)%nat then bz (holder x) else 0 | _ => 0 end <= old2 (mods p) pc).
      { destruct pc as [| | | |j|j|j ?|j ?|j|j|j|j ?|j|j|j ?|j ?|j ?|j ?|?]; cbn; try lia. destruct (Nat.eqb_spec j m) as [->|]; [rewrite Hm; lia|]. destruct (nth_error (mods p) j); [apply bz_nonneg|lia]. }
      lia.
    + intros u w Hu Hn. destruct w as [| | | |j|j|j ?|j ?|j|j|j|j ?|j|j|j ?|j ?|j ?|j ?|?]; try reflexivity. cbn [old2]. destruct (Nat.eq_dec j m) as [->|Nj]; [|rewrite nth_upd_neq by congruence; reflexivity]. rewrite Hm, Hnew. destruct Hoth as [->|Hoth]; [reflexivity|].
      specialize (Hoth _ _ Hu Hn). cbn in Hoth. rewrite Nat.eqb_refl in Hoth. discriminate.
  - intros u w j y Hu Hw Hy. apply nth_upd_inv in Hu. destruct Hu as [(<- & -> & _)|(Hn & Hu)].
    + assert (j = m) by (apply Hpc; right; exact Hw). subst j. rewrite Hnew in Hy. inversion Hy; subst y. auto.
    + destruct (Nat.eq_dec j m) as [->|Nj]; [|rewrite nth_upd_neq in Hy by congruence; eapply J3; eauto]. rewrite Hnew in Hy. inversion Hy; subst y. destruct Hoth as [E|Hoth]; [rewrite E; eapply J3; eauto|]. specialize (Hoth _ _ Hu ltac:(congruence)). destruct Hw as [->|(k & ->)]; cbn in Hoth; rewrite Nat.eqb_refl in Hoth; discriminate.
Qed.

Lemma alone ths t pc m u w : nin m ths <= 1 -> nth_error ths t = Some pc -> inside m pc = true -> nth_error ths u = Some w -> u <> t -> inside m w = false.
Proof.
  intros H1 Ht Hi Hu Hn. destruct (inside m w) eqn:E; [|reflexivity]. exfalso. pose proof (sumf_two (fun pc => bz (inside m pc)) ths u t w pc (fun a => bz_nonneg _) Hn Hu Ht) as G. cbn beta in G. rewrite E, Hi in G. unfold nin in H1. cbn in G. lia.
Qed.

Lemma nfails_app a b : nfails (a ++ b) = nfails a + nfails b. Proof. apply sumf_app. Qed.
Lemma nfails_nonneg a : 0 <= nfails a. Proof. apply sumf_nonneg. intros []; lia. Qed.

Lemma HJ_step s tr a s' e f : OI s tr -> HJ s f -> (sem (fst s) = None <-> semh (fst s) = 0%nat) -> once_step s a = Some (s', e) -> HJ s' (f + nfails e).
Proof.
  intros (I1 & _) HJs NOSEM H. destruct s as [p ths]. pose proof HJs as (J1 & J2 & J3). cbn [fst snd] in *.
  assert (Fr : forall p' t pc pc', nth_error ths t = Some pc -> mods p' = mods p -> semh p' = semh p -> (forall m, pc' <> OOpen m) -> (forall m, pc' <> OAlloc m) -> (forall m k, pc' <> OCreate m k) -> forall e, HJ (p', upd ths t pc') (f + nfails e)).
  { intros p' t pc pc' Ht Em Eh N1 N2 N3 e0. eapply HJ_frame; [exact HJs|exact Ht|exact Em|exact Eh|exact N1| |pose proof (nfails_nonneg e0); lia]. intros m x [W|(k & W)]; [exfalso; eapply N2; exact W|exfalso; eapply N3; exact W]. }
  assert (In1 : forall m x t pc, nth_error (mods p) m = Some x -> nth_error ths t = Some pc -> inside m pc = true -> ini x = 1%nat /\ forall u w, nth_error ths u = Some w -> u <> t -> inside m w = false).
  { intros m x t pc Hm Ht Hi. destruct (I1 _ _ Hm) as (L2 & N & _). pose proof (nin_elem _ _ _ _ Ht Hi) as G. destruct (Nat.eqb_spec (ini x) 1) as [E|E]; cbn in N; [|lia]. split; [exact E|]. intros u w Hu Hn. eapply alone; [rewrite N; lia|exact Ht|exact Hi|exact Hu|exact Hn]. }
  destruct a as [t m|t o|t|c]; cbn [once_step] in H.
  - destruct (nth_error ths t) as [[]|] eqn:Et; try discriminate. destruct (nth_error (mods p) m); inversion H; subst. eapply Fr; [exact Et|reflexivity..| | |]; discriminate.
  - destruct (nth_error ths t) as [pc|] eqn:Et; [|discriminate]. destruct (once_step1 p t pc o) as [[[p1 pc1] e1]|] eqn:Es; inversion H; subst. clear H.
    destruct pc as [| |m|m|m|m|m k|m k|m|m|m|m k|m|m|m c|m c|m c|m c|c]; cbn [once_step1] in Es; try discriminate.
    + destruct (nth_error (mods p) m) as [x|]; inversion Es; subst. eapply Fr; [exact Et|reflexivity..| | |]; destruct (ini x =? 2)%nat; discriminate.
    + destruct (nth_error (mods p) m) as [x|] eqn:Em; [|discriminate]. destruct (ini x) as [|[|i]] eqn:Ei; inversion Es; subst; try (eapply Fr; [exact Et|reflexivity..| | |]; discriminate).
      eapply HJ_mod with (m := m) (x := x); [exact HJs|exact Et|exact Em|reflexivity|left; reflexivity| | | |].
      * intros j [W|[W|(k & W)]]; inversion W; reflexivity.
      * intros [W|(k & W)]; discriminate.
      * cbn [holder set_mod semh]. lia.
      * unfold old1. rewrite Ei. cbn. lia.
    + destruct (nth_error (mods p) m) as [x|] eqn:Em; [|discriminate]. destruct (In1 _ _ _ _ Em Et (Nat.eqb_refl m)) as (Ei & Al).
      assert (Eo : old1 x = 0) by (unfold old1; rewrite Ei; reflexivity).
      assert (Both : forall p' pc' b, mods p' = upd (mods p) m (MS (ini x) (tkey x) b) -> semh p' = (if b then S (semh p) else semh p) -> (pc' = OQuery m /\ b = true \/ pc' = OAlloc m /\ b = false) -> HJ (p', upd ths t pc') (f + nfails [])).
      { intros p' pc' b E1 E2 E3. eapply HJ_mod with (m := m) (x := x); [exact HJs|exact Et|exact Em|exact E1|right; exact Al| | | |].
        - intros j W. destruct E3 as [(-> & _)|(-> & _)]; destruct W as [W|[W|(k & W)]]; inversion W; reflexivity.
        - intros W. destruct E3 as [(-> & _)|(_ & ->)]; [destruct W as [W|(k & W)]; discriminate|reflexivity].
        - rewrite E2. cbn [holder]. pose proof (bz_nonneg (holder x)). destruct b; cbn [bz]; lia.
        - rewrite E2, Eo, Nat.eqb_refl. unfold old1. cbn [ini holder]. rewrite Ei. cbn [Nat.eqb andb bz]. destruct E3 as [(-> & ->)|(-> & ->)]; cbn [bz]; change (nfails []) with 0; lia. }
      destruct o; [destruct (sem p) eqn:Esm|]; inversion Es; subst.
      * apply (Both _ _ true); [reflexivity|reflexivity|left; auto].
      * apply (Both _ _ false); [reflexivity|reflexivity|right; auto].
      * apply (Both _ _ false); [reflexivity|reflexivity|right; auto].
    + destruct o as [k|]; [destruct (existsb _ _); [discriminate|]|]; inversion Es; subst; [|eapply Fr; [exact Et|reflexivity..| | |]; discriminate].
      eapply HJ_frame; [exact HJs|exact Et|reflexivity|reflexivity|discriminate| |change (nfails []) with 0; lia]. intros j x [W|(k0 & W)] Hx; [discriminate|]. inversion W; subst. eapply J3; [exact Et|left; reflexivity|exact Hx].
    + destruct (nth_error (mods p) m) as [x|] eqn:Em; [|discriminate]. destruct (In1 _ _ _ _ Em Et (Nat.eqb_refl m)) as (Ei & Al). assert (Hh : holder x = false) by (eapply J3; [exact Et|right; eauto|exact Em]).
      assert (Both : forall p' pc' b, mods p' = upd (mods p) m (MS (ini x) (tkey x) b) -> semh p' = (if b then S (semh p) else semh p) -> (pc' = ODrop m k \/ pc' = OPut m k) -> HJ (p', upd ths t pc') (f + nfails [])).
      { intros p' pc' b E1 E2 E3. eapply HJ_mod with (m := m) (x := x); [exact HJs|exact Et|exact Em|exact E1|right; exact Al| | | |].
        - intros j W. destruct E3 as [-> | ->]; destruct W as [W|[W|(k0 & W)]]; inversion W.
        - intros W. destruct E3 as [-> | ->]; destruct W as [W|(k0 & W)]; discriminate.
        - rewrite E2, Hh. cbn [holder]. destruct b; cbn [bz]; lia.
        - rewrite E2, Hh. unfold old1. cbn [ini holder]. rewrite Ei, Hh. cbn [Nat.eqb andb bz]. change (nfails []) with 0. destruct E3 as [-> | ->]; destruct b; cbn [bz]; lia. }
      destruct o; [destruct (sem p) eqn:Esm|]; inversion Es; subst.
      * apply (Both _ _ true); [reflexivity|reflexivity|auto].
      * assert (semh p = 0%nat \/ semh p <> 0%nat) as [E0|E0] by lia; [apply (Both _ _ true); [reflexivity|cbn [set_mod set_sem semh]; rewrite E0; reflexivity|auto]|].
        exfalso. apply E0. apply NOSEM. reflexivity.
      * apply (Both _ _ false); [reflexivity|reflexivity|auto].
    + inversion Es; subst. eapply Fr; [exact Et|reflexivity..| | |]; discriminate.
    + destruct o; [destruct (sem p)|]; inversion Es; subst; (eapply Fr; [exact Et|reflexivity..| | |]; discriminate).
    + destruct o as [k|]; [destruct (existsb _ _); [discriminate|]|]; inversion Es; subst; (eapply Fr; [exact Et|reflexivity..| | |]; discriminate).
    + destruct (nth_error (mods p) m) as [x|] eqn:Em; inversion Es; subst. destruct (In1 _ _ _ _ Em Et (Nat.eqb_refl m)) as (Ei & Al).
      eapply HJ_mod with (m := m) (x := x); [exact HJs|exact Et|exact Em|reflexivity|left; reflexivity|intros j [W|[W|(k & W)]]; discriminate|intros [W|(k & W)]; discriminate|cbn [holder set_mod semh]; lia|].
      unfold old1. rewrite Ei. cbn [ini holder set_mod semh Nat.eqb andb]. change (nfails [EFail t m]) with 1. destruct (holder x); cbn [bz]; lia.
    + destruct (nth_error (mods p) m) as [x|] eqn:Em; inversion Es; subst. destruct (In1 _ _ _ _ Em Et (Nat.eqb_refl m)) as (Ei & Al).
      eapply HJ_mod with (m := m) (x := x); [exact HJs|exact Et|exact Em|reflexivity|left; reflexivity|intros j [W|[W|(k0 & W)]]; discriminate|intros [W|(k0 & W)]; discriminate|cbn [holder set_mod semh]; lia|].
      unfold old1. rewrite Ei. cbn [ini holder set_mod semh]. rewrite ?Ei. change (nfails []) with 0. cbn. lia.
    + destruct (nth_error (mods p) m) as [x|] eqn:Em; inversion Es; subst. destruct (In1 _ _ _ _ Em Et (Nat.eqb_refl m)) as (Ei & Al).
      eapply HJ_mod with (m := m) (x := x); [exact HJs|exact Et|exact Em|reflexivity|left; reflexivity|intros j [W|[W|(k0 & W)]]; discriminate|intros [W|(k0 & W)]; discriminate|cbn [holder set_mod semh]; lia|].
      unfold old1. rewrite Ei. cbn [ini holder set_mod semh]. change (nfails [EDone t m (tkey x)]) with 0. cbn. lia.
    + destruct (nth_error (mods p) m) as [x|]; [|discriminate]. destruct (tls_get _ _ _); [|destruct o]; inversion Es; subst; (eapply Fr; [exact Et|reflexivity..| | |]; discriminate).
    + destruct o; destruct (nth_error (tlcs p) c); inversion Es; subst; (eapply Fr; [exact Et|reflexivity..| | |]; discriminate).
    + destruct o; destruct (nth_error (tlcs p) c); inversion Es; subst; (eapply Fr; [exact Et|reflexivity..| | |]; discriminate).
    + destruct o; destruct (nth_error (tlcs p) c); inversion Es; subst; (eapply Fr; [exact Et|reflexivity..| | |]; discriminate).
    + destruct (nth_error (mods p) m); [|discriminate]. destruct o; inversion Es; subst; (eapply Fr; [exact Et|reflexivity..| | |]; discriminate).
    + destruct (nth_error (tlcs p) c); inversion Es; subst. eapply Fr; [exact Et|reflexivity..| | |]; discriminate.
  - destruct (nth_error ths t) as [[]|] eqn:Et; inversion H; subst. eapply Fr; [exact Et|reflexivity..| | |]; discriminate.
  - destruct (nth_error (tlcs p) c) as [x|]; [|discriminate]. destruct (nth_error ths (cown x)) as [[]|] eqn:Et; try discriminate. destruct (cwait x); inversion H; subst. pose proof (nfails_nonneg (closes c x)). unfold HJ, kept_handles in *. cbn [fst snd] in *. cbn [set_tlcs mods semh]. split; [exact J1|]. split; [lia|exact J3].
Qed.

(** Proof or specification device; no counterpart in /repo. *)
Definition XJ (s : xst) (tr : list xev) : Prop := HJ (xb s) (nfails (bevs tr)).
Lemma XJ_step vs s tr a s' e : XG s tr -> XH s -> XJ s tr -> xstep vs s a = Some (s', e) -> XJ s' (tr ++ e).
Proof.
  intros HG HH HJs Hs. pose proof (x_effects _ _ _ _ _ Hs) as He. unfold XJ in *. rewrite bevs_app, nfails_app. pose proof HG as ((tr' & HO & _) & _ & G3 & _).
  destruct He as [a b' e e' Ho Hl Hev _|t m o b' e y Ho Ht Hy Hl Hnr|c m g y Hc Hy Hd|m y Hy Hd|m y p' e Hy Hd Hr He]; cbn [xb].
  - replace (bevs e') with e by (destruct Hev as [-> | ->]; [rewrite bevs_XE|rewrite bevs_check]; reflexivity). eapply HJ_step; eauto.
  - rewrite bevs_app, bevs_XE. cbn [bevs bev flat_map app]. rewrite app_nil_r. eapply HJ_step; eauto.
  - change (nfails (bevs [XCrash c])) with 0. rewrite Z.add_0_r. exact HJs.
  - change (nfails (bevs [])) with 0. rewrite Z.add_0_r. exact HJs.
  - destruct HJs as (J1 & J2 & J3). destruct (xb s) as [p ths] eqn:Eb. cbn [fst snd] in *. destruct (nth_error (mods p) m) as [x|] eqn:Hx.
    2: { exfalso. apply nth_error_None in Hx. assert (N : nth_error (xml s) m <> None) by congruence. apply nth_error_Some in N. lia. }
    assert (No : forall t pc, nth_error ths t = Some pc -> inside m pc = false).
    { intros t pc Ht. destruct (inside m pc) eqn:E; [|reflexivity]. exfalso. apply (inside_runs (xcr s)) in E. assert (existsb (runs (xcr s) m) ths = true) by (apply existsb_exists; exists pc; split; [eapply nth_error_In; exact Ht|exact E]). congruence. }
    assert (Mods : mods (set_mod p' m (MS 0 0 false)) = upd (mods p) m (MS 0 0 false) /\ Z.of_nat (semh p') = Z.of_nat (semh p) - bz (holder x) /\ nfails (bevs e) = 0).
    { unfold mod_destroy in He. rewrite Hx in He. unfold kept_handles in J1. pose proof (sumf_elem (fun x => bz (holder x)) _ _ _ (fun a => bz_nonneg _) Hx) as G. cbn beta in G. unfold XH in HH. rewrite Eb in HH. cbn [fst] in HH.
      destruct (holder x); [|inversion He; subst; cbn [bz]; split; [reflexivity|]; split; [lia|reflexivity]]. cbn [bz] in *. destruct (semh p) as [|[|h]] eqn:Esh; [lia| |inversion He; subst; cbn [set_mod set_sem mods semh]; rewrite upd_upd; split; [reflexivity|]; split; [lia|reflexivity]].
      destruct (sem p) eqn:Esm; [inversion He; subst; cbn [set_mod set_sem mods semh]; rewrite upd_upd; split; [reflexivity|]; split; [lia|reflexivity]|]. exfalso. destruct HH as (HH & _). specialize (HH eq_refl). discriminate. }
    destruct Mods as (Em & Eh & En). unfold HJ, kept_handles in *. cbn [fst snd] in *. rewrite Em, En. change (semh (set_mod p' m (MS 0 0 false))) with (semh p'). rewrite !(sumf_upd _ _ _ _ _ Hx), Eh. cbn [holder bz]. change (old1 (MS 0 0 false)) with 0.
    assert (E2 : sumf (old2 (upd (mods p) m (MS 0 0 false))) ths = sumf (old2 (mods p)) ths).
    { assert (G : forall l, (forall pc, In pc l -> inside m pc = false) -> sumf (old2 (upd (mods p) m (MS 0 0 false))) l = sumf (old2 (mods p)) l).
      { induction l as [|pc l IH]; intros Hl; [reflexivity|]. cbn [sumf]. rewrite IH by (intros q Hq; apply Hl; right; exact Hq). f_equal. specialize (Hl pc (or_introl eq_refl)).
        destruct pc as [| | | |j|j|j ?|j ?|j|j|j|j ?|j|j|j ?|j ?|j ?|j ?|?]; try reflexivity. cbn in Hl |- *. apply Nat.eqb_neq in Hl. rewrite nth_upd_neq by congruence. reflexivity. }
      apply G. intros pc Hi. apply In_nth_error in Hi. destruct Hi as (t & Ht). eapply No; exact Ht. }
    rewrite E2. assert (0 <= old1 x) by (apply bz_nonneg). split; [lia|]. split; [lia|].
    intros t pc j w Ht Hw Hx'. assert (j <> m) by (intros ->; specialize (No _ _ Ht); destruct Hw as [-> |(k & ->)]; cbn in No; rewrite Nat.eqb_refl in No; discriminate). rewrite nth_upd_neq in Hx' by congruence. eapply J3; eauto.
Qed.

Lemma x_xj vs nm n sched s tr : exec (xstep vs) (x_init nm n) sched = Some (s, tr) -> XG s tr /\ XH s /\ XJ s tr.
Proof.
  apply (exec_inv (xstep vs) (fun s tr => XG s tr /\ XH s /\ XJ s tr)).
  - split; [apply XG_init|]. split; [split; reflexivity|]. unfold XJ, HJ, kept_handles, x_init. cbn [xb once_init fst snd mods semh]. rewrite !sumf_repeat. cbn. split; [lia|]. split; [lia|]. intros t pc m x Ht. apply nth_repeat in Ht. subst. intros [W|(k & W)]; discriminate.
  - intros c tr0 a c' e (HG & HH & HJs) Hs. split; [eapply XG_step; eauto|]. split; [eapply XH_step; eauto|eapply XJ_step; eauto].
Qed.

(** Whatever fails: a module never closes a handle it does not have, and the handles open beyond those the modules keep are at most as many as initialisations have failed; without such a failure there are none,
    even if CreateSemaphore and NtQuerySemaphore fail.  The semaphore exists exactly as long as a handle is open. *)
Theorem C78_handles_failures vs nm n sched s tr : exec (xstep vs) (x_init nm n) sched = Some (s, tr) ->
  let p := fst (xb s) in
  (kept_handles p <= Z.of_nat (semh p) <= kept_handles p + nfails (bevs tr)) /\ (sem p = None <-> semh p = 0%nat) /\
  ((forall m y, nth_error (xml s) m = Some y -> mloaded y = false) -> nfails (bevs tr) = 0 -> semh p = 0%nat /\ sem p = None).
Proof.
  intros H p. destruct (x_xj _ _ _ _ _ _ H) as (HG & HH & (J1 & J2 & _)). pose proof (x_xu _ _ _ _ _ _ H) as HU.
  assert (0 <= sumf old1 (mods (fst (xb s)))) by (apply sumf_nonneg; intros; apply bz_nonneg). assert (0 <= sumf (old2 (mods (fst (xb s)))) (snd (xb s))) by (apply sumf_nonneg; intros; apply old2_nonneg).
  split; [unfold p; lia|]. split; [exact HH|]. intros Hall Hf.
  assert (Z0 : kept_handles p = 0).
  { destruct HG as (_ & _ & G3 & _). assert (A : forall m x, nth_error (mods p) m = Some x -> holder x = false).
    { intros m x Hx. destruct (nth_error (xml s) m) as [y|] eqn:Ey; [rewrite (HU _ _ _ Ey (Hall _ _ Ey) Hx); reflexivity|]. apply nth_error_None in Ey. assert (N : nth_error (mods p) m <> None) by congruence. apply nth_error_Some in N. unfold p in *. lia. }
    unfold kept_handles. clear -A. induction (mods p) as [|x l IH]; [reflexivity|]. cbn [sumf]. rewrite (A 0%nat x eq_refl), IH; [reflexivity|]. intros m. exact (A (S m)). }
  assert (E0 : semh p = 0%nat) by (unfold p in *; lia). split; [exact E0|apply HH; exact E0].
Qed.
Print Assumptions C78_handles_failures.

(** A handle is lost when an initialisation that had opened the semaphore fails and is repeated (T:165 writes over tls_key_holder): the semaphore outlives all modules.
    Module 0 creates the semaphore; module 1 opens it, the query and TlsAlloc fail; the next call in module 1 succeeds; both modules are unloaded. *)
Definition leak_run : list xact :=
  [XB (OCall 0 0); XB (OStep 0 None); XB (OStep 0 None); XB (OStep 0 (Some 0)); XB (OStep 0 (Some 5)); XB (OStep 0 (Some 0)); XB (OStep 0 None); XB (OStep 0 None); XB (OStep 0 None);
   XB (OCall 0 1); XB (OStep 0 None); XB (OStep 0 None); XB (OStep 0 (Some 0)); XB (OStep 0 None); XB (OStep 0 None); XB (OStep 0 None);
   XB (OCall 0 1); XB (OStep 0 None); XB (OStep 0 None); XB (OStep 0 (Some 0)); XB (OStep 0 (Some 0)); XB (OStep 0 None); XB (OStep 0 None); XB (OStep 0 None);
   XUnload 0; XUnload 1]%nat.
Theorem C78_handle_leak_refuted vs : exists s tr, exec (xstep vs) (x_init 2 1) leak_run = Some (s, tr) /\ (forall m y, nth_error (xml s) m = Some y -> mloaded y = false) /\ snd (xb s) = [OIdle] /\
  nfails (bevs tr) = 1 /\ semh (fst (xb s)) = 1%nat /\ sem (fst (xb s)) <> None.
Proof.
  eexists. eexists. split; [vm_compute; reflexivity|]. split; [|split; [reflexivity|split; [reflexivity|split; [reflexivity|discriminate]]]]. intros [|[|[|m]]] y H; cbn in H; inversion H; reflexivity.
Qed.
Print Assumptions C78_handle_leak_refuted.
