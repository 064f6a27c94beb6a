(** Proofs about the semaphore-based auto_reset_event model. *)
From Coq Require Import List Bool Arith ZArith Lia.
From Verif Require Import ListSum Exec Lin LinCheck Thr Word EventSpec EventSpecFacts AutoSemModel.
Import ListNotations.
Local Open Scope Z_scope.

Notation SSP := (ev_spec_sp 0 post_absorb).

(** Threads that announced themselves in m_state / posters that still have to post the semaphore. *)
Definition sreg (p : spc) : Z := match p with SSemWait _ | SSub _ => 1 | _ => 0 end.
Definition spst (p : spc) : Z := match p with SSemPost => 1 | _ => 0 end.
Definition sloc (p : spc) : Prop :=
  match p with SCas old => 0 <= old | SSub k => k <> SKWait | _ => True end.

Lemma sreg_nn p : 0 <= sreg p.  Proof. destruct p; cbn; lia. Qed.
Lemma spst_nn p : 0 <= spst p.  Proof. destruct p; cbn; lia. Qed.
Lemma sreg_le p : sreg p <= 1.  Proof. destruct p; cbn; lia. Qed.

Definition SI (c : ssh * list spc) : Prop :=
  let '((st, v), ths) := c in
  0 <= v /\ st = sumf sreg ths - (v + sumf spst ths) /\
  v + sumf spst ths <= Z.of_nat (length ths) + 1 /\
  forall t p, nth_error ths t = Some p -> sloc p.

Definition scap (c : ssh * list spc) : Prop := Z.of_nat (length (snd c)) < 2 ^ 31 - 1.

Definition sabs (p : spc) : xth SSP :=
  match p with
  | SRest => XIdle (S:=SSP) tt
  | SLoad | SCas _ => XPend (S:=SSP) tt EPost []
  | SSemPost => XDone (S:=SSP) tt EPost EOk
  | SAdd k | SSemWait k => XPend (S:=SSP) tt (skop k) []
  | SSub k => XDone (S:=SSP) tt (skop k) EFalse
  | SDone o r => XDone (S:=SSP) tt o r
  end.
Definition sg (s : ssh) (ths : list spc) : Z := snd s + sumf spst ths.

Lemma i32_id x : - 2 ^ 31 <= x < 2 ^ 31 -> i32 x = x.
Proof.
  unfold i32, two31, two32. intros H. destruct (Z_lt_le_dec x 0) as [Hn|Hp].
  - rewrite <- (Z_mod_plus_full x 1), Z.mod_small by lia.
    destruct (Z.ltb_spec (x + 1 * 2 ^ 32) (2 ^ 31)); lia.
  - rewrite Z.mod_small by lia. destruct (Z.ltb_spec x (2 ^ 31)); lia.
Qed.

Lemma SI_upd st v st' v' ths t q p :
  SI ((st, v), ths) -> nth_error ths t = Some q ->
  0 <= v' ->
  st' = sumf sreg ths - sreg q + sreg p - (v' + (sumf spst ths - spst q + spst p)) ->
  v' + (sumf spst ths - spst q + spst p) <= Z.of_nat (length ths) + 1 ->
  sloc p ->
  SI ((st', v'), upd ths t p).
Proof.
  intros (_ & _ & _ & Hl) Ht H0 Hs H1 Hp. cbn [SI].
  rewrite upd_length, (sumf_upd sreg _ _ _ _ Ht), (sumf_upd spst _ _ _ _ Ht).
  split; [auto|]. split; [auto|]. split; [auto|].
  intros u p0 Hu; destruct (nth_upd_inv _ _ _ _ _ Hu) as [(<- & -> & _)|(_ & Hu')]; auto; apply (Hl _ _ Hu').
Qed.

Lemma as_lin_x n sched c tr :
  along as_step scap (as_init n) sched -> exec as_step (as_init n) sched = Some (c, tr) ->
  xsteps SSP (xinit SSP n) tr (tabs SSP sabs sg c) /\ SI c.
Proof.
  apply (tsim_x SSP as_call as_ret as_run sabs sg SI scap).
  - unfold tabs, as_init, sg, xinit. cbn [fst snd]. rewrite sumf_repeat. cbn [spst]. f_equal; [cbn; lia|].
    induction n as [|n IH]; cbn; [reflexivity|]. rewrite IH. reflexivity.
  - unfold as_init, SI. rewrite !sumf_repeat, repeat_length. cbn [sreg spst]. repeat split; try lia.
    intros t p H. apply nth_repeat in H. subst. exact I.
  - intros [st v] ths t p o p' HI _ Ht Hc. pose proof HI as (Hv & Hs & Hb & Hl).
    destruct p; cbn in Hc; try discriminate. inversion Hc; subst p'; clear Hc.
    set (p' := match o with EPost => SLoad | EWait => SAdd SKWait | ETry => SAdd SKTry | ETimed => SAdd SKTimed end).
    assert (E : sreg p' = 0 /\ spst p' = 0 /\ sloc p' /\ sabs p' = XPend (S:=SSP) tt o [])
      by (subst p'; destruct o; cbn; auto).
    destruct E as (E1 & E2 & E3 & E4). split; [|split].
    + eapply SI_upd; eauto; rewrite ?E1, ?E2; cbn [sreg spst]; lia.
    + unfold sg. rewrite (sumf_upd spst _ _ _ _ Ht), E2. cbn; lia.
    + exists tt. repeat split; auto.
  - intros [st v] ths t p o r p' HI _ Ht Hc. pose proof HI as (Hv & Hs & Hb & Hl).
    destruct p; cbn in Hc; try discriminate. inversion Hc; subst; clear Hc. split; [|split].
    + eapply SI_upd; eauto; cbn [sreg spst sloc]; auto; lia.
    + unfold sg. rewrite (sumf_upd spst _ _ _ _ Ht). cbn; lia.
    + exists tt. repeat split; auto.
  - intros [st v] ths t p ch s' ths' HI Hcap _ Ht Hret Hr. pose proof HI as (Hv & Hs & Hb & Hl).
    unfold scap in Hcap. cbn [snd] in Hcap. unfold as_run in Hr.
    destruct (as_run1 (st, v) p ch) as [[[st1 v1] p']|] eqn:Er; [|discriminate]. inversion Hr; subst s' ths'; clear Hr.
    specialize (Hl _ _ Ht).
    pose proof (sumf_nonneg sreg ths sreg_nn) as Hrn. pose proof (sumf_bound sreg ths 1 sreg_le) as Hrb.
    pose proof (sumf_nonneg spst ths spst_nn) as Hpn.
    pose proof (sumf_elem sreg _ _ _ sreg_nn Ht) as Her. pose proof (sumf_elem spst _ _ _ spst_nn Ht) as Hep.
    assert (Hub : sumf sreg ths - sreg p + sreg (SSub SKTry) <= Z.of_nat (length ths)).
    { pose proof (sumf_bound sreg (upd ths t (SSub SKTry)) 1 sreg_le) as B.
      rewrite upd_length, (sumf_upd sreg _ _ _ _ Ht) in B. lia. }
    assert (Hsil : sabs p' = sabs p -> st1 = sumf sreg ths - sreg p + sreg p' - (v1 + (sumf spst ths - spst p + spst p')) ->
       v1 + (sumf spst ths - spst p + spst p') = v + sumf spst ths -> 0 <= v1 -> sloc p' ->
       SI ((st1, v1), upd ths t p') /\ xsteps SSP (sg (st, v) ths, map sabs ths) [] (sg (st1, v1) (upd ths t p'), map sabs (upd ths t p'))).
    { intros Ha H1 H2 H3 H4. split; [eapply SI_upd; eauto; lia|].
      replace (sg (st1, v1) (upd ths t p')) with (sg (st, v) ths).
      - eapply sim_sil; eauto.
      - unfold sg. cbn [snd]. rewrite (sumf_upd spst _ _ _ _ Ht). lia. }
    assert (Hlin : forall o l r, sabs p = XPend (S:=SSP) tt o l -> sabs p' = XDone (S:=SSP) tt o r ->
       st1 = sumf sreg ths - sreg p + sreg p' - (v1 + (sumf spst ths - spst p + spst p')) ->
       v1 + (sumf spst ths - spst p + spst p') <= Z.of_nat (length ths) + 1 -> 0 <= v1 -> sloc p' ->
       etrans_sp post_absorb o (v + sumf spst ths) r (v1 + (sumf spst ths - spst p + spst p')) ->
       SI ((st1, v1), upd ths t p') /\ xsteps SSP (sg (st, v) ths, map sabs ths) [] (sg (st1, v1) (upd ths t p'), map sabs (upd ths t p'))).
    { intros o l r Ha Hd H1 H2 H3 H4 H5. split; [eapply SI_upd; eauto; lia|].
      eapply (sim_lin SSP sabs); [exact Ht|exact Ha|exact Hd|].
      unfold sg. cbn [snd]. rewrite (sumf_upd spst _ _ _ _ Ht). exact H5. }
    destruct p; cbn [as_run1] in Er; try discriminate.
    + (* SLoad *) destruct (Z.leb_spec 0 st); inversion Er; subst st1 v1 p'; clear Er.
      * apply Hsil; cbn [sabs sreg spst sloc]; auto; lia.
      * apply (Hlin EPost [] EOk); cbn [sabs sreg spst sloc]; auto; try lia.
        left. constructor. unfold post_absorb. right. cbn [spst] in *. lia.
    + (* SCas *) cbn [sloc sreg spst] in *.
      destruct (Z.eqb_spec st old) as [E|E]; cbn [andb] in Er.
      * subst old. rewrite i32_id in Er by lia.
        assert (Hok : SI ((st - 1, v), upd ths t SSemPost) /\
           xsteps SSP (sg (st, v) ths, map sabs ths) [] (sg (st - 1, v) (upd ths t SSemPost), map sabs (upd ths t SSemPost))).
        { split; [eapply SI_upd; eauto; cbn [sabs sreg spst sloc]; auto; lia|].
          eapply (sim_lin SSP sabs); [exact Ht|reflexivity|reflexivity|].
          unfold sg. cbn [snd]. rewrite (sumf_upd spst _ _ _ _ Ht). cbn [spst].
          left. constructor. left. lia. }
        destruct ch; cbn [negb] in Er; inversion Er; subst st1 v1 p'; clear Er; auto.
        destruct (Z.ltb_spec st 0); [lia|]. apply Hsil; cbn [sabs sreg spst sloc]; auto; lia.
      * inversion Er; subst st1 v1 p'; clear Er. destruct (Z.ltb_spec st 0).
        -- apply (Hlin EPost [] EOk); cbn [sabs sreg spst sloc]; auto; try lia.
           left. constructor. right. lia.
        -- apply Hsil; cbn [sabs sreg spst sloc]; auto; lia.
    + (* SSemPost *) inversion Er; subst st1 v1 p'; clear Er. cbn [sreg spst] in *.
      apply Hsil; cbn [sabs sreg spst sloc]; auto; lia.
    + (* SAdd *) cbn [sreg spst] in *. rewrite i32_id in Er by lia. inversion Er; subst st1 v1 p'; clear Er.
      apply Hsil; cbn [sabs sreg spst sloc]; auto; lia.
    + (* SSemWait *) cbn [sreg spst] in *.
      assert (Htake : 0 < v -> (st1, v1, p') = (st, v - 1, SDone (skop k) (skres k)) ->
        SI ((st1, v1), upd ths t p') /\ xsteps SSP (sg (st, v) ths, map sabs ths) [] (sg (st1, v1) (upd ths t p'), map sabs (upd ths t p'))).
      { intros Hv0 E0. injection E0 as -> -> ->.
        apply (Hlin (skop k) [] (skres k)); cbn [sabs sreg spst sloc]; auto; try lia.
        left. replace (v - 1 + (sumf spst ths - 0 + 0)) with (v + sumf spst ths - 1) by lia.
        destruct k; constructor; lia. }
      assert (Hfail : k <> SKWait -> (st1, v1, p') = (st, v, SSub k) ->
        SI ((st1, v1), upd ths t p') /\ xsteps SSP (sg (st, v) ths, map sabs ths) [] (sg (st1, v1) (upd ths t p'), map sabs (upd ths t p'))).
      { intros Hk E0. injection E0 as -> -> ->.
        eapply Hlin; [reflexivity|reflexivity|..]; cbn [sabs sreg spst sloc]; auto; try lia.
        right; split; [destruct k; cbn; auto; exfalso; apply Hk; reflexivity|split; [reflexivity|lia]]. }
      destruct (Z.ltb_spec 0 v); destruct k, ch; cbn [andb negb s_fail] in Er; try discriminate; inversion Er; subst st1 v1 p'; clear Er;
        first [apply Htake; [assumption|reflexivity] | apply Hfail; [discriminate|reflexivity]].
    + (* SSub *) cbn [sreg spst] in *. rewrite i32_id in Er by lia. inversion Er; subst st1 v1 p'; clear Er.
      apply Hsil; cbn [sabs sreg spst sloc]; auto; lia.
Qed.

Lemma as_lin n sched c tr :
  along as_step scap (as_init n) sched -> exec as_step (as_init n) sched = Some (c, tr) ->
  linearizable SSP n tr /\ SI c.
Proof. intros Ha H. destruct (as_lin_x _ _ _ _ Ha H). split; auto. eapply xlin_lin; eauto. Qed.

Lemma as_length : forall s ths t p ch c', as_run s ths t p ch = Some c' -> length (snd c') = length ths.
Proof.
  intros s ths t p ch c' H. unfold as_run in H. destruct (as_run1 s p ch) as [[s1 p1]|]; [|discriminate].
  inversion H; subst. apply upd_length.
Qed.

Lemma as_along n sched : Z.of_nat n < 2 ^ 31 - 1 -> along as_step scap (as_init n) sched.
Proof.
  intros Hn. apply along_all.
  - unfold scap, as_init. cbn [snd]. rewrite repeat_length. exact Hn.
  - intros c1 a c2 e H1 H2. unfold scap in *.
    rewrite (tstep_length _ _ _ as_length _ _ _ _ H2). exact H1.
Qed.

Lemma as_main n sched c tr :
  Z.of_nat n < 2 ^ 31 - 1 -> exec as_step (as_init n) sched = Some (c, tr) -> linearizable SSP n tr /\ SI c.
Proof. intros Hn. apply as_lin, as_along, Hn. Qed.

Lemma as_conserve n sched c tr :
  Z.of_nat n < 2 ^ 31 - 1 -> exec as_step (as_init n) sched = Some (c, tr) -> takes tr <= posts_called tr.
Proof.
  intros Hn H. destruct (as_main _ _ _ _ Hn H) as (HL & _).
  apply (conservation_sp post_absorb 0) in HL; [lia| |lia].
  intros c0 c' Hc [->|(? & ->)]; lia.
Qed.

Lemma as_token n sched st v ths tr t k :
  Z.of_nat n < 2 ^ 31 - 1 -> exec as_step (as_init n) sched = Some (((st, v), ths), tr) ->
  nth_error ths t = Some (SSemWait k) -> st < sumf sreg ths ->
  0 < v \/ exists u, nth_error ths u = Some SSemPost.
Proof.
  intros Hn H Ht Hs. destruct (as_main _ _ _ _ Hn H) as (_ & Hv & E & _).
  destruct (Z_lt_le_dec 0 v) as [|Hv0]; [auto|right].
  destruct (sumf_pos_ex spst ths) as (u & p & Hu & Hp); [lia|]. exists u. destruct p; cbn in Hp; try lia. exact Hu.
Qed.

Lemma as_quiet n sched st v ths tr :
  Z.of_nat n < 2 ^ 31 - 1 -> exec as_step (as_init n) sched = Some (((st, v), ths), tr) ->
  (forall u p, nth_error ths u = Some p -> p = SRest \/ (exists k, p = SSemWait k) /\ v = 0) ->
  st = sumf sreg ths - v /\ (v = 0 -> 0 <= st).
Proof.
  intros Hn H Hq. destruct (as_main _ _ _ _ Hn H) as (_ & Hv & E & _).
  assert (sumf spst ths = 0).
  { pose proof (sumf_nonneg spst ths spst_nn). destruct (Z.eq_dec (sumf spst ths) 0); auto.
    destruct (sumf_pos_ex spst ths) as (u & p & Hu & Hp); [lia|].
    destruct (Hq _ _ Hu) as [->|((k & ->) & _)]; cbn in Hp; lia. }
  pose proof (sumf_nonneg sreg ths sreg_nn). lia.
Qed.

Lemma as_post_effect n sched st v ths tr t p ch st' v' ths' e :
  Z.of_nat n < 2 ^ 31 - 1 -> exec as_step (as_init n) sched = Some (((st, v), ths), tr) ->
  nth_error ths t = Some p -> (p = SLoad \/ exists old, p = SCas old) ->
  as_step ((st, v), ths) (TRun t ch) = Some (((st', v'), ths'), e) ->
  (nth_error ths' t = Some SSemPost /\ v' + sumf spst ths' = v + sumf spst ths + 1) \/
  (nth_error ths' t = Some (SDone EPost EOk) /\ (st', v') = (st, v) /\ sumf sreg ths < v + sumf spst ths) \/
  (exists old, nth_error ths' t = Some (SCas old) /\ (st', v') = (st, v)).
Proof.
  intros Hn H Ht Hp Hs. destruct (as_main _ _ _ _ Hn H) as (_ & Hv & E & _).
  unfold as_step, tstep in Hs. rewrite Ht in Hs.
  destruct Hp as [->|(old & ->)]; cbn [as_ret as_run as_run1] in Hs; unfold as_run in Hs; cbn [as_run1] in Hs.
  - inversion Hs; subst; clear Hs. rewrite (nth_upd_eq _ _ _ _ Ht).
    destruct (Z.leb_spec 0 (sumf sreg ths - (v' + sumf spst ths))); eauto 6.
    right; left. repeat split; auto; lia.
  - destruct ((st =? old) && _).
    + inversion Hs; subst; clear Hs. rewrite (nth_upd_eq _ _ _ _ Ht), (sumf_upd spst _ _ _ _ Ht). left. cbn; split; auto; lia.
    + inversion Hs; subst; clear Hs. rewrite (nth_upd_eq _ _ _ _ Ht).
      destruct (Z.ltb_spec (sumf sreg ths - (v' + sumf spst ths)) 0); eauto 6.
      right; left. repeat split; auto; lia.
Qed.

(** Posting again with nobody inside a wait or a post. *)
Lemma as_post_again n sched st v ths tr t :
  Z.of_nat n < 2 ^ 31 - 1 -> exec as_step (as_init n) sched = Some (((st, v), ths), tr) ->
  0 < v -> nth_error ths t = Some SRest -> (forall u p, nth_error ths u = Some p -> sreg p = 0) ->
  exec as_step ((st, v), ths) [TCall t EPost; TRun t SNorm; TRun t SNorm]
    = Some (((st, v), ths), [Call t EPost; Ret t EPost EOk]).
Proof.
  intros Hn H Hv Ht Hno. destruct (as_main _ _ _ _ Hn H) as (_ & _ & E & _).
  assert (Hz : sumf sreg ths = 0).
  { pose proof (sumf_nonneg sreg ths sreg_nn). destruct (Z.eq_dec (sumf sreg ths) 0); auto.
    destruct (sumf_pos_ex sreg ths) as (u & p & Hu & Hpp); [lia|]. rewrite (Hno _ _ Hu) in Hpp. lia. }
  pose proof (sumf_nonneg spst ths spst_nn).
  cbn [exec]. unfold as_step, tstep. rewrite Ht. cbn [as_call].
  rewrite (nth_upd_eq _ _ _ _ Ht). cbn [as_ret]. unfold as_run. cbn [as_run1].
  destruct (Z.leb_spec 0 st); [lia|]. rewrite upd_upd, (nth_upd_eq _ _ _ _ Ht). cbn [as_ret]. rewrite upd_upd.
  rewrite upd_same by exact Ht. cbn [app]. reflexivity.
Qed.
