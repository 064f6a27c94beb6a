(** Memory orders of shared_spin_mutex (/repo/include/boost/sync/detail/mutexes/shared_spin_mutex.hpp), over SharedSpinModel.v. *)
From Coq Require Import List Bool Arith ZArith Lia.
From Verif Require Import ListSum Exec Events Lin Word RwSpec RwSpecFacts SharedSpinModel SharedSpinProof Hb.
Import ListNotations.
Local Open Scope Z_scope.

(** Model machinery: the thread of a step; no counterpart in /repo. *)
Definition rw_who (a : ract) : nat := match a with RCall t _ => t | RRun t _ => t end.
(** Success order acquire, failure order relaxed (66-67, 74-75, 98-99, 111-112). *)
Definition rw_cas (ok : bool) : list mact := if ok then [MRmw true false 0] else [MLoad false 0].
(** The atomic operation of each program point; one atomic object, number 0. *)
Definition rw_mem (s : Z) (p : rpc) (spurious : bool) : list mact :=
  match p with
  | XLoad => [MLoad false 0]                                   (* 60: relaxed *)
  | XCas => rw_cas ((s =? rw_unlocked) && negb spurious)       (* 64-66 *)
  | XTryCas => rw_cas (s =? rw_unlocked)                       (* 74-75 *)
  | XStore => [MStore true 0]                                  (* 84: release *)
  | SLoad1 => [MLoad false 0]                                  (* 90: relaxed *)
  | SLoad2 => [MLoad true 0]                                   (* 95: acquire *)
  | SCas cur => rw_cas ((s =? cur) && negb spurious)           (* 98-99 *)
  | STryLoad => [MLoad true 0]                                 (* 108: acquire *)
  | STryCas cur => rw_cas (s =? cur)                           (* 111-112 *)
  | SSub => [MRmw false true 0]                                (* 120: release *)
  | RRest _ | RDone _ _ _ => []
  end.
(** Memory operations of a step: shared_spin_mutex.hpp 57-121. *)
Definition rw_acts (c : rcfg) (a : ract) : list mact :=
  match a with
  | RCall _ _ => []
  | RRun t spurious => match nth_error (snd c) t with Some p => rw_mem (fst c) p spurious | None => [] end
  end.
(** shared_spin_mutex.hpp 57-121 with happens-before. *)
Definition rw_hstep := hstep rw_step rw_who rw_acts.

Lemma rw_cases s ths a c' e : rw_step (s, ths) a = Some (c', e) ->
  (exists t o m, a = RCall t o /\ nth_error ths t = Some (RRest m) /\ rpre m o = true /\ c' = (s, upd ths t (rw_entry o)) /\ e = [Call t o])
  \/ (exists t b m o r, a = RRun t b /\ nth_error ths t = Some (RDone m o r) /\ c' = (s, upd ths t (RRest (rnext m o r))) /\ e = [Ret t o r])
  \/ (exists t b p s' p', a = RRun t b /\ nth_error ths t = Some p /\ rw_run s p b = Some (s', p') /\ c' = (s', upd ths t p') /\ e = []).
Proof.
  destruct a as [t o|t b]; cbn [rw_step]; destruct (nth_error ths t) as [q|] eqn:Et; try discriminate.
  - destruct q as [m| | | | | | |cur| |cur| |m o' r']; try discriminate. destruct (rpre m o) eqn:Ep; [|discriminate].
    intros H; inversion H; subst. left. exists t, o, m. auto 10.
  - intros H. destruct q as [m| | | | | | |cur| |cur| |m o' r'].
    12: { inversion H; subst. right; left. exists t, b, m, o', r'. auto. }
    all: match type of H with context [rw_run ?s0 ?q0 ?b0] => destruct (rw_run s0 q0 b0) as [[s1 p1]|] eqn:Er; [|discriminate] end; inversion H; subst; right; right; eauto 12.
Qed.

(** Effect of an internal step on holders and knowledge. *)
Lemma rw_eff s p b s' p' : rw_run s p b = Some (s', p') -> rloc p ->
  (* nothing changes hands; only loads *)
  (rhold p' = rhold p /\ s' = s /\ p <> SSub /\ p' <> SSub /\ (rw_mem s p b = [MLoad false 0] \/ rw_mem s p b = [MLoad true 0]))
  (* exclusive lock taken *)
  \/ (rhold p = HNone /\ rhold p' = HExcl /\ s = 0 /\ rw_mem s p b = [MRmw true false 0] /\ p <> SSub /\ p' <> SSub)
  (* shared lock taken *)
  \/ (rhold p = HNone /\ rhold p' = HShared /\ 0 <= s < 2 ^ 31 /\ rw_mem s p b = [MRmw true false 0] /\ p <> SSub /\ p' <> SSub)
  (* exclusive lock released *)
  \/ (p = XStore /\ rhold p' = HNone /\ p' <> SSub)
  (* shared lock released *)
  \/ (p = SSub /\ rhold p' = HNone /\ p' <> SSub).
Proof.
  intros H Hl. destruct p as [m| | | | | | |cur| |cur| |m o r]; cbn [rw_run] in H; try discriminate; cbn [rw_mem rloc] in *.
  - destruct (s =? rw_unlocked); inversion H; subst; left; cbn; repeat split; auto; discriminate.
  - destruct ((s =? rw_unlocked) && negb b) eqn:Eb; inversion H; subst.
    + apply andb_prop in Eb. destruct Eb as (Eb & _). apply Z.eqb_eq in Eb. right; left. cbn. repeat split; auto; discriminate.
    + left; cbn; repeat split; auto; discriminate.
  - destruct (s =? rw_unlocked) eqn:Eb; inversion H; subst.
    + apply Z.eqb_eq in Eb. right; left. cbn. repeat split; auto; discriminate.
    + left; cbn; repeat split; auto; discriminate.
  - inversion H; subst. right; right; right; left. cbn. repeat split; discriminate.
  - destruct (s =? rw_locked); inversion H; subst; left; cbn; repeat split; auto; discriminate.
  - inversion H; subst; left; cbn; repeat split; auto; discriminate.
  - destruct ((s =? cur) && negb b) eqn:Eb; inversion H; subst.
    + apply andb_prop in Eb. destruct Eb as (Eb & _). apply Z.eqb_eq in Eb. subst. right; right; left. cbn. repeat split; auto; try discriminate; lia.
    + left; cbn; repeat split; auto; discriminate.
  - inversion H; subst; left; cbn; repeat split; auto; discriminate.
  - destruct (s =? cur) eqn:Eb; inversion H; subst.
    + apply Z.eqb_eq in Eb. subst. right; right; left. cbn. repeat split; auto; try discriminate; lia.
    + left; cbn; repeat split; auto; discriminate.
  - inversion H; subst. right; right; right; right. cbn. repeat split; discriminate.
Qed.

(** Proof or specification device; no counterpart in /repo. *)
Definition trc := list (hev (event rop rres)).
(** Proof or specification device; no counterpart in /repo. *)
Definition none (ths : list rpc) : Prop := forall t p, nth_error ths t = Some p -> rhold p <> HExcl.

(** Proof or specification device; no counterpart in /repo. *)
Definition RJ (c : rcfg * hst) (tr : trc) : Prop :=
  (exists x, RR (fst c) x) /\
  (none (snd (fst c)) -> forall u K, In (HEv (Call u XUnlock) K) tr -> incl K (mem (snd c) 0)) /\
  (none (snd (fst c)) -> forall u K, In (HEv (Call u SUnlock) K) tr -> incl K (mem (snd c) 0) \/ (nth_error (snd (fst c)) u = Some SSub /\ incl K (kn (snd c) u))) /\
  (forall t p, nth_error (snd (fst c)) t = Some p -> rhold p = HExcl -> forall u o K, In (HEv (Call u o) K) tr -> o = XUnlock \/ o = SUnlock -> incl K (kn (snd c) t)) /\
  (forall t p, nth_error (snd (fst c)) t = Some p -> rhold p = HShared -> forall u K, In (HEv (Call u XUnlock) K) tr -> incl K (kn (snd c) t)).

(* what the word says about the holders *)
Lemma RR_facts s ths x : RR (s, ths) x ->
  (forall u v p q, nth_error ths u = Some p -> nth_error ths v = Some q -> rhold p = HExcl -> rhold q <> HNone -> u = v) /\
  (forall t p, nth_error ths t = Some p -> rloc p) /\
  (0 <= s < 2 ^ 31 -> none ths) /\
  (s = 0 -> forall t p, nth_error ths t = Some p -> rhold p = HNone).
Proof.
  destruct x as [[w r] xs]. intros (Hx & Hall & Hl & Hsum & Hw). cbn [fst snd] in *.
  assert (Hsh : r = 0 -> forall t p, nth_error ths t = Some p -> rhold p <> HShared).
  { intros Hr t p Ht Hp. pose proof (sumf_elem rS _ _ _ rS_nonneg Ht) as Hle. unfold rS at 1 in Hle. rewrite Hp in Hle. lia. }
  assert (Hnone : 0 <= s < 2 ^ 31 -> w = None).
  { intros Hs. destruct w; [|reflexivity]. destruct Hw as (-> & _). unfold rw_locked in Hs. lia. }
  split; [|split; [|split]].
  - intros u v p q Hu Hv Hp Hq. apply (Hall _ _ Hu) in Hp. subst w. destruct Hw as (_ & Hr).
    destruct (rhold q) eqn:Eq; [congruence| |exfalso; eapply Hsh; eauto]. apply (Hall _ _ Hv) in Eq. congruence.
  - intros t p Ht. apply (Hall _ _ Ht).
  - intros Hs t p Ht Hp. apply (Hall _ _ Ht) in Hp. rewrite (Hnone Hs) in Hp. discriminate.
  - intros Hs t p Ht. assert (w = None) as Ew by (apply Hnone; lia). rewrite Ew in Hw. destruct (rhold p) eqn:Ep; auto.
    + apply (Hall _ _ Ht) in Ep. congruence.
    + exfalso. apply (Hsh ltac:(lia) _ _ Ht Ep).
Qed.

Lemma none_upd ths t p q : nth_error ths t = Some q -> (rhold q = HExcl -> rhold p = HExcl) -> none (upd ths t p) -> none ths.
Proof.
  intros Ht Hq Hn u r Hu Hr. destruct (Nat.eq_dec u t) as [->|Hne].
  - assert (q = r) as <- by congruence. apply (Hn t p); [eapply nth_upd_eq; eauto|auto].
  - apply (Hn u r); [|exact Hr]. rewrite nth_upd_neq by auto. exact Hu.
Qed.

Lemma RJ_step c tr a c' e : RJ c tr -> rw_hstep c a = Some (c', e) -> RJ c' (tr ++ e).
Proof.
  destruct c as [[s ths] h]. intros ((x & Hx) & HA & HB & HC & HD) H. cbn [fst snd] in *. unfold rw_hstep in H.
  destruct a as [t k|a]; cbn [hstep fst snd] in H.
  - inversion H; subst; clear H.
    assert (Hu : forall (y : event rop rres) K, In (HEv y K) (tr ++ [HWork t k]) -> In (HEv y K) tr).
    { intros y K Hin. apply in_app_or in Hin. destruct Hin as [|[F|[]]]; [auto|discriminate]. }
    assert (Hw : forall u, incl (kn h u) (kn (work t k h) u)).
    { intros u. cbn. destruct (Nat.eq_dec t u) as [->|Hn]; [rewrite fset_eq; apply incl_tl, incl_refl|rewrite fset_neq by auto; apply incl_refl]. }
    split; [eauto|]. cbn [fst snd]. repeat split.
    + intros Hn u K Hin. eapply HA; eauto.
    + intros Hn u K Hin. destruct (HB Hn u K (Hu _ _ Hin)) as [|(H1 & H2)]; [left; auto|right]. split; [auto|]. eapply incl_tran; eauto.
    + intros t1 p1 Ht1 Hp1 u o K Hin Ho. eapply incl_tran; [|apply Hw]. eapply HC; eauto.
    + intros t1 p1 Ht1 Hp1 u K Hin. eapply incl_tran; [|apply Hw]. eapply HD; eauto.
  - destruct (rw_step (s, ths) a) as [[c1 es]|] eqn:Es; [|discriminate]. inversion H; subst; clear H.
    destruct (RR_step _ _ _ _ _ Hx Es) as (x' & _ & Hx'). destruct (RR_facts _ _ _ Hx) as (Hexcl & Hloc & Hsmall & Hzero).
    apply rw_cases in Es. destruct Es as [(t & o & m & -> & Et & Hpre & -> & ->)|[(t & b & m & o & r & -> & Et & -> & ->)|(t & b & p & s' & p' & -> & Et & Er & -> & ->)]].
    + cbn [rw_acts rw_who performs fold_left map]. split; [eauto|]. cbn [fst snd].
      assert (Hhp : rhold (rw_entry o) = m) by (destruct o, m; cbn in *; try discriminate; reflexivity).
      assert (Hold : forall t1 p1, nth_error (upd ths t (rw_entry o)) t1 = Some p1 -> exists q1, nth_error ths t1 = Some q1 /\ rhold q1 = rhold p1).
      { intros t1 p1 Ht1. destruct (nth_upd_inv _ _ _ _ _ Ht1) as [(<- & -> & _)|(Hn & Hu)]; [|eauto]. exists (RRest m). split; [exact Et|cbn; congruence]. }
      assert (Hn : none (upd ths t (rw_entry o)) -> none ths) by (apply (none_upd _ _ _ _ Et); cbn; congruence).
      repeat split.
      * intros Hn1 u K Hin. apply in_app_or in Hin. destruct Hin as [Hin|[F|[]]]; [eapply HA; eauto|]. injection F as -> -> <-.
        exfalso. apply (Hn1 u XStore); [apply (nth_upd_eq _ _ _ _ Et)|reflexivity].
      * intros Hn1 u K Hin. apply in_app_or in Hin. destruct Hin as [Hin|[F|[]]].
        -- destruct (HB (Hn Hn1) u K Hin) as [|(H1 & H2)]; [left; auto|right]. split; [|exact H2]. rewrite nth_upd_neq; [exact H1|]. intros ->. congruence.
        -- injection F as -> -> <-. right. split; [apply (nth_upd_eq _ _ _ _ Et)|apply incl_refl].
      * intros t1 p1 Ht1 Hp1 u o1 K Hin Ho. destruct (Hold _ _ Ht1) as (q1 & Hq1 & Hh1). apply in_app_or in Hin. destruct Hin as [Hin|[F|[]]]; [eapply HC; eauto; congruence|].
        injection F as -> -> <-. assert (t1 = u) as ->; [|apply incl_refl].
        eapply Hexcl; [exact Hq1|exact Et|congruence|]. cbn. destruct Ho as [-> | ->]; destruct m; cbn in Hpre; congruence.
      * intros t1 p1 Ht1 Hp1 u K Hin. destruct (Hold _ _ Ht1) as (q1 & Hq1 & Hh1). apply in_app_or in Hin. destruct Hin as [Hin|[F|[]]]; [eapply HD; eauto; congruence|].
        injection F as -> -> <-. assert (u = t1) as ->; [|apply incl_refl].
        eapply Hexcl; [exact Et|exact Hq1| |congruence]. cbn. destruct m; cbn in Hpre; congruence.
    + cbn [rw_acts rw_who map snd fst]. rewrite Et. cbn [rw_mem performs fold_left].
      assert (Hu : forall K0 u o1 K, In (HEv (Call u o1) K) (tr ++ [HEv (Ret t o r) K0]) -> In (HEv (Call u o1) K) tr).
      { intros K0 u o1 K Hin. apply in_app_or in Hin. destruct Hin as [|[F|[]]]; [auto|discriminate]. }
      assert (Hold : forall t1 p1, nth_error (upd ths t (RRest (rnext m o r))) t1 = Some p1 -> exists q1, nth_error ths t1 = Some q1 /\ rhold q1 = rhold p1).
      { intros t1 p1 Ht1. destruct (nth_upd_inv _ _ _ _ _ Ht1) as [(<- & -> & _)|(Hn & Hu1)]; [|eauto]. exists (RDone m o r). split; [exact Et|reflexivity]. }
      assert (Hn : none (upd ths t (RRest (rnext m o r))) -> none ths) by (apply (none_upd _ _ _ _ Et); cbn; congruence).
      split; [eauto|]. cbn [fst snd]. repeat split.
      * intros Hn1 u K Hin. eapply HA; eauto.
      * intros Hn1 u K Hin. destruct (HB (Hn Hn1) u K (Hu _ _ _ _ Hin)) as [|(H1 & H2)]; [left; auto|right]. split; [|exact H2]. rewrite nth_upd_neq; [exact H1|]. intros ->. congruence.
      * intros t1 p1 Ht1 Hp1 u o1 K Hin Ho. destruct (Hold _ _ Ht1) as (q1 & Hq1 & Hh1). eapply HC; eauto; congruence.
      * intros t1 p1 Ht1 Hp1 u K Hin. destruct (Hold _ _ Ht1) as (q1 & Hq1 & Hh1). eapply HD; eauto; congruence.
    + cbn [rw_acts rw_who map snd fst]. rewrite Et, app_nil_r. split; [eauto|]. cbn [fst snd].
      set (h' := performs t (rw_mem s p b) h). assert (Hmono : forall u, incl (kn h u) (kn h' u)) by (intros; apply performs_mono).
      assert (Hoth : forall t1 p1, nth_error (upd ths t p') t1 = Some p1 -> (t1 = t /\ p1 = p') \/ nth_error ths t1 = Some p1).
      { intros t1 p1 Ht1. destruct (nth_upd_inv _ _ _ _ _ Ht1) as [(<- & -> & _)|(Hn & Hu1)]; auto. }
      assert (HBk : forall u K, u <> t -> nth_error ths u = Some SSub -> incl K (kn h u) -> nth_error (upd ths t p') u = Some SSub /\ incl K (kn h' u)).
      { intros u K Hne H1 H2. split; [rewrite nth_upd_neq by auto; exact H1|eapply incl_tran; [exact H2|apply Hmono]]. }
      destruct (rw_eff _ _ _ _ _ Er (Hloc _ _ Et)) as [(Hh & -> & Hns & Hns' & Hm)|[(Hh & Hh' & -> & Hm & Hns & Hns')|[(Hh & Hh' & Hs & Hm & Hns & Hns')|[(-> & Hh' & Hns')|(-> & Hh' & Hns')]]]].
      * assert (Hmem : mem h' 0 = mem h 0) by (unfold h'; destruct Hm as [-> | ->]; reflexivity).
        assert (Hn : none (upd ths t p') -> none ths) by (apply (none_upd _ _ _ _ Et); congruence).
        assert (Hold : forall t1 p1, nth_error (upd ths t p') t1 = Some p1 -> exists q1, nth_error ths t1 = Some q1 /\ rhold q1 = rhold p1).
        { intros t1 p1 Ht1. destruct (Hoth _ _ Ht1) as [(-> & ->)|Hu1]; eauto. }
        rewrite Hmem. repeat split.
        -- intros Hn1 u K Hin. eapply HA; eauto.
        -- intros Hn1 u K Hin. destruct (HB (Hn Hn1) u K Hin) as [|(H1 & H2)]; [left; auto|right]. apply HBk; auto. intros ->. congruence.
        -- intros t1 p1 Ht1 Hp1 u o1 K Hin Ho. destruct (Hold _ _ Ht1) as (q1 & Hq1 & Hh1). eapply incl_tran; [|apply Hmono]. eapply HC; eauto; congruence.
        -- intros t1 p1 Ht1 Hp1 u K Hin. destruct (Hold _ _ Ht1) as (q1 & Hq1 & Hh1). eapply incl_tran; [|apply Hmono]. eapply HD; eauto; congruence.
      * assert (Hn : none ths) by (apply Hsmall; lia).
        assert (HMt : incl (mem h 0) (kn h' t)) by (unfold h'; rewrite Hm; cbn; rewrite fset_eq; apply incl_appl, incl_refl).
        assert (Hno : none (upd ths t p') -> False) by (intros Hn1; apply (Hn1 t p'); [apply (nth_upd_eq _ _ _ _ Et)|exact Hh']).
        repeat split.
        -- intros Hn1. tauto.
        -- intros Hn1. tauto.
        -- intros t1 p1 Ht1 Hp1 u o1 K Hin Ho. destruct (Hoth _ _ Ht1) as [(-> & ->)|Hu1]; [|exfalso; eapply Hn; eauto].
           eapply incl_tran; [|exact HMt]. destruct Ho as [-> | ->]; [eapply HA; eauto|].
           destruct (HB Hn u K Hin) as [|(H1 & _)]; [auto|]. exfalso. specialize (Hzero eq_refl _ _ H1). discriminate.
        -- intros t1 p1 Ht1 Hp1. destruct (Hoth _ _ Ht1) as [(-> & ->)|Hu1]; [congruence|]. rewrite (Hzero eq_refl _ _ Hu1) in Hp1. discriminate.
      * assert (Hn : none ths) by (apply Hsmall; lia).
        assert (HMt : incl (mem h 0) (kn h' t)) by (unfold h'; rewrite Hm; cbn; rewrite fset_eq; apply incl_appl, incl_refl).
        assert (Hmem : incl (mem h 0) (mem h' 0)) by (unfold h'; rewrite Hm; apply performs_mem; reflexivity).
        repeat split.
        -- intros _ u K Hin. eapply incl_tran; [|exact Hmem]. eapply HA; eauto.
        -- intros _ u K Hin. destruct (HB Hn u K Hin) as [|(H1 & H2)]; [left; eapply incl_tran; eauto|right]. apply HBk; auto. intros ->. congruence.
        -- intros t1 p1 Ht1 Hp1 u o1 K Hin Ho. destruct (Hoth _ _ Ht1) as [(-> & ->)|Hu1]; [congruence|exfalso; eapply Hn; eauto].
        -- intros t1 p1 Ht1 Hp1 u K Hin. destruct (Hoth _ _ Ht1) as [(-> & ->)|Hu1]; [eapply incl_tran; [|exact HMt]; eapply HA; eauto|].
           eapply incl_tran; [|apply Hmono]. eapply HD; eauto.
      * assert (Hmem : mem h' 0 = kn h t) by reflexivity.
        repeat split.
        -- intros _ u K Hin. rewrite Hmem. eapply HC; eauto.
        -- intros _ u K Hin. left. rewrite Hmem. eapply HC; eauto.
        -- intros t1 p1 Ht1 Hp1 u o1 K Hin Ho. destruct (Hoth _ _ Ht1) as [(-> & ->)|Hu1]; [congruence|].
           eapply incl_tran; [|apply Hmono]. eapply HC; eauto.
        -- intros t1 p1 Ht1 Hp1 u K Hin. destruct (Hoth _ _ Ht1) as [(-> & ->)|Hu1]; [congruence|]. eapply incl_tran; [|apply Hmono]. eapply HD; eauto.
      * assert (Hn : none (upd ths t p') -> none ths) by (apply (none_upd _ _ _ _ Et); cbn; discriminate).
        assert (Hmem : incl (mem h 0) (mem h' 0)) by (apply performs_mem; reflexivity).
        assert (Hmk : incl (kn h t) (mem h' 0)) by (cbn; apply incl_appl, incl_refl).
        repeat split.
        -- intros Hn1 u K Hin. eapply incl_tran; [|exact Hmem]. eapply HA; eauto.
        -- intros Hn1 u K Hin. destruct (HB (Hn Hn1) u K Hin) as [|(H1 & H2)]; [left; eapply incl_tran; eauto|].
           destruct (Nat.eq_dec u t) as [->|Hne]; [left; eapply incl_tran; eauto|right; apply HBk; auto].
        -- intros t1 p1 Ht1 Hp1 u o1 K Hin Ho. destruct (Hoth _ _ Ht1) as [(-> & ->)|Hu1]; [congruence|].
           eapply incl_tran; [|apply Hmono]. eapply HC; eauto.
        -- intros t1 p1 Ht1 Hp1 u K Hin. destruct (Hoth _ _ Ht1) as [(-> & ->)|Hu1]; [congruence|]. eapply incl_tran; [|apply Hmono]. eapply HD; eauto.
Qed.

Lemma rw_hb_pre n sched c tr a t o r K' d :
  exec rw_hstep (rw_init n, hst0) sched = Some (c, tr) -> tr = a ++ HEv (Ret t o r) K' :: d ->
  (rnext HNone o r = HExcl -> forall u o1 K, In (HEv (Call u o1) K) a -> o1 = XUnlock \/ o1 = SUnlock -> incl K K') /\
  (rnext HNone o r = HShared -> forall u K, In (HEv (Call u XUnlock) K) a -> incl K K').
Proof.
  intros H E0.
  apply (exec_events _ RJ (fun a x => match x with HEv (Ret t o r) K' =>
      (rnext HNone o r = HExcl -> forall u o1 K, In (HEv (Call u o1) K) a -> o1 = XUnlock \/ o1 = SUnlock -> incl K K') /\
      (rnext HNone o r = HShared -> forall u K, In (HEv (Call u XUnlock) K) a -> incl K K') | _ => True end) (rw_init n, hst0))
    with (a := a) (x := HEv (Ret t o r) K') (b := d) in H; [exact H| | | |exact E0].
  - split; [exists (xinit RSP n); apply RR_init|]. cbn [fst snd]. repeat split; intros; cbn in *; tauto.
  - apply RJ_step.
  - intros [[s ths] h] t1 a1 [c2 h2] es d1 x b1 (_ & _ & _ & HC & HD) Hs He1. cbn [fst snd] in *. destruct x as [|[|t0 o0 r0] K0]; [exact I|exact I|].
    unfold rw_hstep in Hs. destruct a1 as [t3 k3|a3]; cbn [hstep fst snd] in Hs; [inversion Hs; subst; destruct d1 as [|? [|]]; discriminate|].
    destruct (rw_step (s, ths) a3) as [[c3 es1]|] eqn:Es; [|discriminate]. injection Hs as Hc Hh He2. subst c2.
    apply rw_cases in Es. destruct Es as [(t4 & o4 & m & -> & Et & Hpre & -> & ->)|[(t4 & b & m & o4 & r4 & -> & Et & -> & ->)|(t4 & b & p & s' & p' & -> & Et & Er & -> & ->)]].
    + subst es. destruct d1 as [|? [|]]; discriminate.
    + subst es. destruct d1 as [|? [|]]; [|discriminate|discriminate]. cbn [app map] in He1. injection He1 as -> -> -> HK0 _. rewrite app_nil_r.
      assert (HK : kn h t0 = K0) by (rewrite <- HK0; cbn [rw_acts rw_who snd fst]; rewrite Et; reflexivity). rewrite <- HK. split.
      * intros Hg. apply (HC _ _ Et). destruct o0, r0; cbn in *; congruence.
      * intros Hg. apply (HD _ _ Et). destruct o0, r0; cbn in *; congruence.
    + subst es. destruct d1; discriminate.
Qed.
