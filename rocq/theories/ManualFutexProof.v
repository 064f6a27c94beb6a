(** Proofs about the futex-based manual_reset_event model. *)
From Coq Require Import List Bool Arith ZArith Lia.
From Verif Require Import ListSum Exec Lin Word FlagSpec ManualFutexModel.
Import ListNotations.
Local Open Scope Z_scope.

Notation FSP := (flag_spec false).

Definition freg (p : fpc) : Z :=
  match p with FFutex _ _ | FSleep _ | FReload _ | FSub _ | FSubT => 1 | _ => 0 end.
Definition fslp (p : fpc) : Z := match p with FSleep _ => 1 | _ => 0 end.
Definition fbc (p : fpc) : Z := match p with FBcast => 1 | _ => 0 end.

Definition floc (p : fpc) : Prop :=
  match p with
  | FFutex _ e => e mod 2 = 0
  | FLoad k true => k = FKTimed
  | FAdd k | FSleep k | FReload k | FSub k => k <> FKTry
  | _ => True
  end.
Definition floc2 (p : fpc) : Prop := match p with FFutex k _ => k <> FKTry | _ => True end.

Definition FI (c : fcfg) : Prop :=
  exists b, (b = 0 \/ b = 1) /\ fst c = 2 * sumf freg (snd c) + b /\
    (b = 1 -> 0 < sumf fslp (snd c) -> 0 < sumf fbc (snd c)) /\
    (forall t p, nth_error (snd c) t = Some p -> floc p /\ floc2 p).

Definition fcap (c : fcfg) : Prop := Z.of_nat (length (snd c)) < 2 ^ 31.

Lemma freg_nn p : 0 <= freg p.  Proof. destruct p; cbn; lia. Qed.
Lemma fslp_nn p : 0 <= fslp p.  Proof. destruct p; cbn; lia. Qed.
Lemma fbc_nn p : 0 <= fbc p.  Proof. destruct p; cbn; lia. Qed.
Lemma freg_le p : freg p <= 1.  Proof. destruct p; cbn; lia. Qed.

Definition fobs (k : fkind) : list fres := match k with FKTimed => [FFalse] | _ => [] end.

Definition fabs (p : fpc) : xth FSP :=
  match p with
  | FRest => XIdle (S:=FSP) tt
  | FOr => XPend (S:=FSP) tt FSet []
  | FBcast => XDone (S:=FSP) tt FSet FOk
  | FAnd => XPend (S:=FSP) tt FReset []
  | FLoad k false => XPend (S:=FSP) tt (fkop k) []
  | FLoad k true => XPend (S:=FSP) tt (fkop k) (fobs k)
  | FAdd k | FFutex k _ | FSleep k | FReload k => XPend (S:=FSP) tt (fkop k) (fobs k)
  | FSub k => XDone (S:=FSP) tt (fkop k) (fkres k)
  | FSubT => XPend (S:=FSP) tt FTimed [FFalse]
  | FDone o r => XDone (S:=FSP) tt o r
  end.
Definition fflag (s : Z) : bool := negb (s mod 2 =? 0).
Definition fabsf (c : fcfg) : xstate FSP := (fflag (fst c), map fabs (snd c)).

Lemma FI_upd s s' ths t q p b :
  FI (s, ths) -> nth_error ths t = Some q ->
  (b = 0 \/ b = 1) ->
  s' = 2 * (sumf freg ths - freg q + freg p) + b ->
  (b = 1 -> 0 < sumf fslp ths - fslp q + fslp p -> 0 < sumf fbc ths - fbc q + fbc p) ->
  floc p -> floc2 p ->
  FI (s', upd ths t p).
Proof.
  intros (b0 & _ & _ & _ & Hl) Ht Hb -> Hw Hp Hp2. exists b. cbn [fst snd] in *.
  rewrite (sumf_upd freg _ _ _ _ Ht), (sumf_upd fslp _ _ _ _ Ht), (sumf_upd fbc _ _ _ _ Ht).
  split; [auto|]. split; [auto|]. split; [auto|].
    intros u p0 Hu; destruct (nth_upd_inv _ _ _ _ _ Hu) as [(<- & -> & _)|(_ & Hu')]; auto; apply (Hl _ _ Hu').
Qed.

Lemma flag_val W b : b = 0 \/ b = 1 -> (2 * W + b) mod 2 = b.
Proof. intros H. rewrite Z.add_comm, Z.mul_comm, Z_mod_plus_full. apply Z.mod_small. lia. Qed.

Lemma wake_all_sums ths :
  sumf freg (map wake_all ths) = sumf freg ths /\ sumf fslp (map wake_all ths) = 0 /\
  sumf fbc (map wake_all ths) = sumf fbc ths /\ map fabs (map wake_all ths) = map fabs ths.
Proof.
  induction ths as [|p l (I1 & I2 & I3 & I4)]; cbn [map sumf]; [auto|].
  rewrite I1, I2, I3, I4. destruct p; cbn; auto.
Qed.

Lemma fslp_reg ths : sumf fslp ths <= sumf freg ths.
Proof. apply sumf_le. intros []; cbn; lia. Qed.

Lemma man_step_ok c a c' e :
  FI c -> fcap c -> fcap c' -> man_step c a = Some (c', e) ->
  FI c' /\ xsteps FSP (fabsf c) e (fabsf c').
Proof.
  destruct c as [s ths]. intros HI Hc _ H. unfold fcap in Hc. cbn [snd] in Hc.
  pose proof HI as (b & Hb & Hs & Hbc & Hloc). cbn [fst snd] in *.
  pose proof (sumf_nonneg freg ths freg_nn) as Hrn.
  pose proof (sumf_bound freg ths 1 freg_le) as Hrb.
  pose proof (fslp_reg ths) as Hsr.
  pose proof (sumf_nonneg fslp ths fslp_nn) as Hsn.
  pose proof (sumf_nonneg fbc ths fbc_nn) as Hbn.
  set (W := sumf freg ths) in *.
  assert (Ebit : s mod 2 = b) by (rewrite Hs; apply flag_val; auto).
  assert (Eflag : fflag s = negb (b =? 0)) by (unfold fflag; rewrite Ebit; reflexivity).
  destruct a as [t o|t ch]; cbn [man_step] in H.
  - destruct (nth_error ths t) as [q|] eqn:Et; [|discriminate].
    destruct q; try discriminate. inversion H; subst c' e; clear H. split.
    + eapply (FI_upd s s ths t FRest (man_entry o) b); eauto; fold W; destruct o; cbn [man_entry freg fslp fbc floc floc2]; auto; lia.
    + apply xsteps_one. unfold fabsf. cbn [fst snd]. rewrite map_upd.
      replace (fabs (man_entry o)) with (XPend (S:=FSP) tt o []) by (destruct o; reflexivity).
      constructor; [|reflexivity]. apply (nth_map fabs) in Et. exact Et.
  - destruct (nth_error ths t) as [q|] eqn:Et; [|discriminate].
    pose proof (nth_map fabs _ _ _ Et) as Eta.
    destruct (Hloc _ _ Et) as (Hlq & Hlq2).
    pose proof (sumf_elem freg _ _ _ freg_nn Et) as Hel. fold W in Hel.
    assert (Hcase : (exists o r, q = FDone o r /\ c' = (s, upd ths t FRest) /\ e = [Ret t o r])
            \/ (q = FBcast /\ e = [] /\ c' = (s, upd (map wake_all ths) t (FDone FSet FOk)))
            \/ exists s' p', man_run s q ch = Some (s', p') /\ c' = (s', upd ths t p') /\ e = []).
    { destruct q.
      12: { inversion H; subst. left; eauto 6. }
      3: { right; left. inversion H; subst. auto. }
      all: match type of H with context [man_run ?s0 ?q0 ?b0] =>
             destruct (man_run s0 q0 b0) as [[s1 p1]|] eqn:Er; [|discriminate] end;
           inversion H; subst; right; right; eauto 6. }
    clear H.
    destruct Hcase as [(o & r & -> & -> & ->)|[(-> & -> & ->)|(s' & p' & Er & -> & ->)]].
    + split.
      * eapply (FI_upd s s ths t (FDone o r) FRest b); eauto; fold W; cbn [freg fslp fbc floc floc2]; auto; lia.
      * apply xsteps_one. unfold fabsf. cbn [fst snd]. rewrite map_upd.
        change (fabs FRest) with (XIdle (S:=FSP) (next FSP tt o r)). constructor. exact Eta.
    + destruct (wake_all_sums ths) as (I1 & I2 & I3 & I4).
      assert (Et' : nth_error (map wake_all ths) t = Some FBcast) by (rewrite nth_error_map, Et; reflexivity).
      split.
      * exists b. cbn [fst snd].
        rewrite (sumf_upd freg _ _ _ _ Et'), (sumf_upd fslp _ _ _ _ Et'), (sumf_upd fbc _ _ _ _ Et').
        rewrite I1, I2, I3. fold W. cbn [freg fslp fbc].
        split; [auto|]. split; [lia|]. split; [lia|].
        intros u p Hu. destruct (nth_upd_inv _ _ _ _ _ Hu) as [(<- & -> & _)|(_ & Hu')]; [cbn; auto|].
        apply nth_map_inv in Hu'. destruct Hu' as (p0 & Hp0 & <-). specialize (Hloc _ _ Hp0).
        destruct p0; cbn in *; auto.
      * unfold fabsf. cbn [fst snd]. rewrite map_upd, I4. change (fabs (FDone FSet FOk)) with (fabs FBcast).
        rewrite upd_same by exact Eta. constructor.
    + assert (Hsil : forall s2 p2, fabs p2 = fabs q ->
                s2 = 2 * (W - freg q + freg p2) + b ->
                (b = 1 -> 0 < sumf fslp ths - fslp q + fslp p2 -> 0 < sumf fbc ths - fbc q + fbc p2) ->
                floc p2 -> floc2 p2 ->
                FI (s2, upd ths t p2) /\ xsteps FSP (fabsf (s, ths)) [] (fabsf (s2, upd ths t p2))).
      { intros s2 p2 Ha Hs2 Hw Hl Hl2. split.
        - eapply (FI_upd s s2 ths t q p2 b); eauto.
        - unfold fabsf. cbn [fst snd]. rewrite map_upd, Ha, upd_same by exact Eta.
          replace (fflag s2) with (fflag s); [constructor|]. unfold fflag. rewrite Ebit, Hs2, flag_val; auto. }
      assert (Hlin : forall s2 b2 p2 o l r, fabs q = XPend (S:=FSP) tt o l -> fabs p2 = XDone (S:=FSP) tt o r ->
                ftrans o (negb (b =? 0)) r (negb (b2 =? 0)) -> (b2 = 0 \/ b2 = 1) ->
                s2 = 2 * (W - freg q + freg p2) + b2 ->
                (b2 = 1 -> 0 < sumf fslp ths - fslp q + fslp p2 -> 0 < sumf fbc ths - fbc q + fbc p2) ->
                floc p2 -> floc2 p2 ->
                FI (s2, upd ths t p2) /\ xsteps FSP (fabsf (s, ths)) [] (fabsf (s2, upd ths t p2))).
      { intros s2 b2 p2 o l r Ha Hd Htr Hb2 Hs2 Hw Hl Hl2. split.
        - eapply (FI_upd s s2 ths t q p2 b2); eauto.
        - unfold fabsf. cbn [fst snd]. rewrite map_upd, Hd, Eflag.
          replace (fflag s2) with (negb (b2 =? 0)) by (unfold fflag; rewrite Hs2, flag_val; auto).
          apply xsteps_one. rewrite Ha in Eta. eapply (xs_lin FSP); [exact Eta|exact Htr]. }
      assert (Htest : forall k s2 q2, (k <> FKTry) -> fabs q = XPend (S:=FSP) tt (fkop k) (fobs k) ->
                fbc q = 0 -> fslp q = 0 -> s2 mod 2 = b -> s2 = 2 * (W - freg q + 1) + b -> q2 = man_test k s2 ->
                FI (s2, upd ths t q2) /\ xsteps FSP (fabsf (s, ths)) [] (fabsf (s2, upd ths t q2))).
      { intros k s2 q2 Hk Ha Hq1 Hq2 Hm Hs2 ->. unfold man_test, mpost_bit. rewrite land_one, Hm.
        destruct (Z.eqb_spec b 0) as [E|E].
        - apply Hsil; cbn [fabs freg fslp fbc floc floc2]; auto; lia.
        - assert (b = 1) as -> by lia.
          eapply (Hlin _ 1 _ (fkop k) (fobs k) (fkres k)); cbn [fabs freg fslp fbc floc floc2]; auto; try lia.
          destruct k; cbn; try congruence; constructor. }
      unfold mpost_bit, mwait_one, mwait_mask in *.
      destruct q as [| | | |k again|k|k e0|k|k|k| |o r]; cbn [man_run] in Er; try discriminate.
      * (* FOr *)
        injection Er as <- <-. unfold mpost_bit, mwait_mask. rewrite land_one, lor_one, land_clear0 by (unfold two32; lia). rewrite Ebit.
        replace (s - b) with (2 * W) by lia.
        destruct (Z.eqb_spec b 0) as [->|Hb0]; cbn [andb].
        -- destruct (Z.eqb_spec (2 * W) 0) as [HW|HW]; cbn [negb];
             (eapply (Hlin _ 1 _ FSet [] FOk); [reflexivity|reflexivity|constructor|auto|..]; cbn [freg fslp fbc floc floc2]; auto; lia).
        -- assert (b = 1) as -> by lia.
           eapply (Hlin _ 1 _ FSet [] FOk); [reflexivity|reflexivity|constructor|auto|..]; cbn [freg fslp fbc floc floc2]; auto; lia.
      * (* FAnd *)
        injection Er as <- <-. unfold mwait_mask. rewrite land_clear0 by (unfold two32; lia). rewrite Ebit.
        eapply (Hlin _ 0 _ FReset [] FOk); [reflexivity|reflexivity|constructor|auto|..]; cbn [freg fslp fbc floc floc2]; auto; lia.
      * (* FLoad *)
        unfold mpost_bit in Er. rewrite land_one, Ebit in Er.
        destruct (Z.eqb_spec b 0) as [E0|E0].
        -- destruct k.
           ++ injection Er as <- <-. destruct again; [cbn in Hlq; discriminate|].
              eapply (Hlin _ b _ FTry [] FFalse); [reflexivity|reflexivity|rewrite E0; constructor|auto|..]; cbn [freg fslp fbc floc floc2]; auto; lia.
           ++ injection Er as <- <-. destruct again; [cbn in Hlq; discriminate|].
              apply Hsil; cbn [fabs freg fslp fbc floc floc2]; auto; try lia; try discriminate.
           ++ injection Er as <- <-. destruct again.
              ** apply Hsil; cbn [fabs freg fslp fbc floc floc2]; auto; try lia; try discriminate.
              ** split.
                 --- eapply (FI_upd s s ths t _ (FAdd FKTimed) b); eauto; fold W; cbn [freg fslp fbc floc floc2]; auto; try lia. discriminate.
                 --- unfold fabsf. cbn [fst snd]. rewrite map_upd. apply xsteps_one.
                     change (fabs (FAdd FKTimed)) with (XPend (S:=FSP) tt FTimed [FFalse]).
                     eapply (xs_obs FSP); [exact Eta|].
                     change (ftrans FTimed (fflag s) FFalse (fflag s)).
                     rewrite Eflag. constructor.
        -- injection Er as <- <-. assert (b = 1) as Hb1 by lia.
           destruct again; (eapply (Hlin _ b _ (fkop k)); [reflexivity|reflexivity| |auto|..]; cbn [freg fslp fbc floc floc2]; auto; try lia;
             rewrite Hb1; destruct k; constructor).
      * (* FAdd *)
        cbn [floc] in Hlq. cbn [freg] in *.
        pose proof (sumf_bound freg (upd ths t (FReload k)) 1 freg_le) as Hrb'.
        rewrite upd_length, (sumf_upd freg _ _ _ _ Et) in Hrb'. cbn [freg] in Hrb'. fold W in Hrb'.
        assert (E2 : u32 (s + mwait_one) = s + 2) by (unfold mwait_one; apply u32_id; unfold two32; lia).
        cbv zeta in Er. rewrite E2 in Er. injection Er as <- <-.
        eapply (Htest k); cbn [fabs freg fslp fbc]; auto; try lia.
        rewrite <- Ebit. replace (s + 2) with (s + 1 * 2) by lia. apply Z_mod_plus_full.
      * (* FFutex *)
        cbn [floc floc2] in Hlq, Hlq2.
        assert (G1 : FI (s, upd ths t (FReload k)) /\ xsteps FSP (fabsf (s, ths)) [] (fabsf (s, upd ths t (FReload k)))).
        { apply Hsil; cbn [fabs freg fslp fbc floc floc2]; auto; lia. }
        assert (G2 : s = e0 -> FI (s, upd ths t (FSleep k)) /\ xsteps FSP (fabsf (s, ths)) [] (fabsf (s, upd ths t (FSleep k)))).
        { intros E0. assert (b = 0) as HP0 by congruence.
          apply Hsil; cbn [fabs freg fslp fbc floc floc2]; auto; lia. }
        assert (G3 : k = FKTimed -> FI (s, upd ths t FSubT) /\ xsteps FSP (fabsf (s, ths)) [] (fabsf (s, upd ths t FSubT))).
        { intros ->. apply Hsil; cbn [fabs freg fslp fbc floc floc2]; auto; lia. }
        destruct (Z.eqb_spec s e0);
          destruct k, ch; injection Er as <- <-; auto.
      * (* FSleep *)
        cbn [floc] in Hlq.
        assert (G1 : FI (s, upd ths t (FReload k)) /\ xsteps FSP (fabsf (s, ths)) [] (fabsf (s, upd ths t (FReload k)))).
        { apply Hsil; cbn [fabs freg fslp fbc floc floc2]; auto; lia. }
        assert (G3 : k = FKTimed -> FI (s, upd ths t FSubT) /\ xsteps FSP (fabsf (s, ths)) [] (fabsf (s, upd ths t FSubT))).
        { intros ->. apply Hsil; cbn [fabs freg fslp fbc floc floc2]; auto; lia. }
        destruct k, ch; try discriminate; injection Er as <- <-; auto.
      * (* FReload *)
        injection Er as <- <-. eapply (Htest k); cbn [fabs freg fslp fbc]; auto; lia.
      * (* FSub *)
        cbn [freg] in Hel. unfold mwait_one in Er.
        rewrite u32_id in Er by (unfold two32; lia). injection Er as <- <-.
        apply Hsil; cbn [fabs freg fslp fbc floc floc2]; auto; lia.
      * (* FSubT *)
        cbn [freg] in Hel. unfold mwait_one in Er.
        rewrite u32_id in Er by (unfold two32; lia).
        assert (G1 : FI (s - 2, upd ths t (FDone FTimed FFalse)) /\
                     xsteps FSP (fabsf (s, ths)) [] (fabsf (s - 2, upd ths t (FDone FTimed FFalse)))).
        { split.
          - eapply (FI_upd s (s - 2) ths t _ (FDone FTimed FFalse) b); eauto; fold W; cbn [freg fslp fbc floc floc2]; auto; lia.
          - unfold fabsf. cbn [fst snd]. rewrite map_upd.
            replace (fflag (s - 2)) with (fflag s).
            2:{ unfold fflag. replace (s - 2) with (s + (-1) * 2) by lia. rewrite Z_mod_plus_full. reflexivity. }
            apply xsteps_one. change (fabs (FDone FTimed FFalse)) with (XDone (S:=FSP) tt FTimed FFalse).
            eapply (xs_adopt FSP); [exact Eta|]. cbn; auto. }
        destruct ch; injection Er as <- <-; try exact G1.
        apply Hsil; cbn [fabs freg fslp fbc floc floc2]; auto; try lia.
Qed.

Lemma FI_init n : FI (man_init n) /\ fabsf (man_init n) = xinit FSP n.
Proof.
  split.
  - exists 0. unfold man_init. cbn [fst snd]. rewrite !sumf_repeat. cbn [freg fslp fbc].
    split; [auto|]. split; [lia|]. split; [lia|].
    intros t p H. apply nth_repeat in H. subst. cbn. auto.
  - unfold fabsf, man_init, xinit. cbn. f_equal. induction n as [|n IH]; cbn; [reflexivity|]. rewrite IH. reflexivity.
Qed.

Lemma man_length c a c' e : man_step c a = Some (c', e) -> length (snd c') = length (snd c).
Proof.
  destruct c as [s l]. destruct a as [u o|u b]; cbn [man_step]; destruct (nth_error l u) as [q|]; try discriminate; intros Hs.
  - destruct q; inversion Hs; subst; apply upd_length.
  - destruct q; try (destruct (man_run _ _ _) as [[? ?]|]); try discriminate;
      inversion Hs; subst; cbn [snd]; rewrite upd_length, ?map_length; reflexivity.
Qed.

Lemma man_along n sched : Z.of_nat n < 2 ^ 31 -> along man_step fcap (man_init n) sched.
Proof.
  intros Hn. apply along_all.
  - unfold fcap, man_init. cbn [snd]. rewrite repeat_length. exact Hn.
  - intros c1 a c2 e H1 H2. unfold fcap in *. rewrite (man_length _ _ _ _ H2). exact H1.
Qed.

Lemma man_lin n sched c tr :
  Z.of_nat n < 2 ^ 31 -> exec man_step (man_init n) sched = Some (c, tr) -> linearizable FSP n tr /\ FI c.
Proof.
  intros Hn. destruct (FI_init n) as (H1 & H2).
  apply (forward_sim_abs FSP man_step fabsf FI fcap); auto using man_along.
  exact man_step_ok.
Qed.

Lemma man_wake n sched s ths tr t k :
  Z.of_nat n < 2 ^ 31 -> exec man_step (man_init n) sched = Some ((s, ths), tr) ->
  s mod 2 = 1 -> nth_error ths t = Some (FSleep k) -> exists u, nth_error ths u = Some FBcast.
Proof.
  intros Hn H Hs Ht. destruct (man_lin _ _ _ _ Hn H) as (_ & b & Hb & Hw & Hbc & _). cbn [fst snd] in *.
  rewrite Hw, flag_val in Hs by auto.
  pose proof (sumf_elem fslp _ _ _ fslp_nn Ht) as He. cbn in He.
  destruct (sumf_pos_ex fbc ths) as (u & p & Hu & Hp); [apply Hbc; lia|].
  exists u. destruct p; cbn in Hp; try lia. exact Hu.
Qed.

(** Waiters counted exactly. *)
Lemma man_count n sched s ths tr :
  Z.of_nat n < 2 ^ 31 -> exec man_step (man_init n) sched = Some ((s, ths), tr) -> s / 2 = sumf freg ths.
Proof.
  intros Hn H. destruct (man_lin _ _ _ _ Hn H) as (_ & b & Hb & Hw & _). cbn [fst snd] in *.
  rewrite Hw, Z.mul_comm, Z.div_add_l by lia. rewrite Z.div_small by lia. lia.
Qed.

Lemma man_bcast_all s ths t ch c e :
  nth_error ths t = Some FBcast -> man_step (s, ths) (FRun t ch) = Some (c, e) ->
  fst c = s /\ forall u k, nth_error (snd c) u <> Some (FSleep k).
Proof.
  intros Ht H. cbn [man_step] in H. rewrite Ht in H. inversion H; subst. cbn [fst snd]. split; [reflexivity|].
  intros u k Hu. destruct (nth_upd_inv _ _ _ _ _ Hu) as [(<- & E & _)|(_ & Hu')]; [discriminate|].
  apply nth_map_inv in Hu'. destruct Hu' as (p0 & _ & E). destruct p0; discriminate.
Qed.

Lemma man_quiescent n sched s ths tr t k :
  Z.of_nat n < 2 ^ 31 -> exec man_step (man_init n) sched = Some ((s, ths), tr) ->
  (forall u p, nth_error ths u = Some p -> p = FRest \/ exists k, p = FSleep k) ->
  nth_error ths t = Some (FSleep k) -> s mod 2 = 0.
Proof.
  intros Hn H Hq Ht. pose proof (Z.mod_pos_bound s 2 ltac:(lia)).
  destruct (Z.eq_dec (s mod 2) 1) as [E|]; [|lia].
  destruct (man_wake _ _ _ _ _ _ _ Hn H E Ht) as (u & Hu). destruct (Hq _ _ Hu) as [?|(? & ?)]; discriminate.
Qed.

Lemma man_solo s ths t k :
  s mod 2 = 1 -> nth_error ths t = Some (FReload k) ->
  exists c', exec man_step (s, ths) (repeat (FRun t FNorm) 3) = Some (c', [Ret t (fkop k) (fkres k)]).
Proof.
  intros Hs Ht. eexists. cbn [repeat exec]. unfold man_step. rewrite Ht. cbn [man_run].
  unfold man_test, mpost_bit. rewrite land_one, Hs. cbn [Z.eqb].
  rewrite (nth_upd_eq _ _ _ _ Ht). cbn [man_run].
  rewrite upd_upd, (nth_upd_eq _ _ _ _ Ht). cbn [app]. reflexivity.
Qed.
