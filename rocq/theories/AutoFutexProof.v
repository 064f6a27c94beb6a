(** Proofs about the futex-based auto_reset_event model. *)
From Coq Require Import List Bool Arith ZArith Lia.
From Verif Require Import ListSum Exec Lin Word EventSpec EventSpecFacts AutoFutexModel.
Import ListNotations.
Local Open Scope Z_scope.

Arguments post_one : simpl never.

Notation ASP := (ev_spec 0 post_absorb).

(** Registered as a waiter in the word. *)
Definition areg (p : apc) : Z :=
  match p with WFutex _ _ | WSleep _ | WLoad _ | WCas _ _ | OLoad | OCas _ => 1 | _ => 0 end.
(** Registered and awake, or about to issue a kernel wake-up. *)
Definition aaw (p : apc) : Z :=
  match p with WFutex _ _ | WLoad _ | WCas _ _ | OLoad | OCas _ | PSignal => 1 | _ => 0 end.
Definition aslp (p : apc) : Z := if is_sleep p then 1 else 0.

Definition aloc (p : apc) : Prop :=
  match p with
  | WFutex _ e => 0 <= e < post_one
  | WCas _ old | TCas _ old => 0 < posts_of old
  | PCas old => posts_of old <= waiters_of old
  | _ => True
  end.

Definition AI (c : acfg) : Prop :=
  exists P, fst c = P * post_one + sumf areg (snd c) /\
    0 <= P <= sumf areg (snd c) + 1 /\
    Z.min P (sumf areg (snd c)) <= sumf aaw (snd c) /\
    forall t p, nth_error (snd c) t = Some p -> aloc p.

(** The load bound: at most 1022 threads registered as waiters at any time. *)
Definition acap (c : acfg) : Prop := sumf areg (snd c) <= 1022.

Lemma areg_nn p : 0 <= areg p.  Proof. destruct p; cbn; lia. Qed.
Lemma aaw_nn p : 0 <= aaw p.  Proof. destruct p; cbn; lia. Qed.
Lemma aslp_nn p : 0 <= aslp p.  Proof. unfold aslp. destruct (is_sleep p); lia. Qed.

Lemma posts_val P W : 0 <= W < post_one -> posts_of (P * post_one + W) = P.
Proof.
  intros H. unfold posts_of. rewrite shiftr_div by (unfold wait_count_bits; lia). fold post_one.
  rewrite Z.div_add_l by discriminate. rewrite Z.div_small by auto. lia.
Qed.
Lemma waiters_val P W : 0 <= W < post_one -> waiters_of (P * post_one + W) = W.
Proof.
  intros H. unfold waiters_of, wait_count_mask, post_one. rewrite land_ones_mod by (unfold wait_count_bits; lia).
  fold post_one. rewrite Z.add_comm, Z_mod_plus_full. apply Z.mod_small; auto.
Qed.

Definition aabs (p : apc) : xth ASP :=
  match p with
  | ARest => XIdle (S:=ASP) tt
  | PLoad | PCas _ => XPend (S:=ASP) tt EPost []
  | PSignal => XDone (S:=ASP) tt EPost EOk
  | TLoad k | TCas k _ | WAdd k | WFutex k _ | WSleep k | WLoad k | WCas k _ => XPend (S:=ASP) tt (kop k) []
  | OLoad | OCas _ => XPend (S:=ASP) tt ETimed []
  | ADone o r => XDone (S:=ASP) tt o r
  end.
Definition aabsf (c : acfg) : xstate ASP := (posts_of (fst c), map aabs (snd c)).

Definition asig (p : apc) : Z := match p with PSignal => 1 | _ => 0 end.
Lemma asig_nn p : 0 <= asig p.  Proof. destruct p; cbn; lia. Qed.

Lemma aaw_split ths : sumf aaw ths = sumf areg ths - sumf aslp ths + sumf asig ths.
Proof.
  induction ths as [|p l IH]; cbn [sumf]; [reflexivity|].
  assert (aaw p = areg p - aslp p + asig p) by (destruct p; reflexivity). lia.
Qed.

Lemma existsb_sleep ths : existsb is_sleep ths = false -> sumf aslp ths = 0.
Proof.
  induction ths as [|p l IH]; cbn [existsb sumf]; intros H; [reflexivity|].
  apply orb_false_iff in H. destruct H as (H1 & H2). rewrite (IH H2). unfold aslp. rewrite H1. reflexivity.
Qed.

Ltac ap_unf := unfold post_one, wait_count_bits in *.

(** Configuration after a step of one thread. *)
Lemma AI_upd s s' ths t q p P' :
  AI (s, ths) -> nth_error ths t = Some q ->
  s' = P' * post_one + (sumf areg ths - areg q + areg p) ->
  0 <= P' <= sumf areg ths - areg q + areg p + 1 ->
  Z.min P' (sumf areg ths - areg q + areg p) <= sumf aaw ths - aaw q + aaw p ->
  aloc p ->
  AI (s', upd ths t p).
Proof.
  intros (P & _ & _ & _ & Hl) Ht -> HP Hm Hp. exists P'. cbn [fst snd] in *.
  rewrite (sumf_upd areg _ _ _ _ Ht), (sumf_upd aaw _ _ _ _ Ht).
  repeat split; auto; try lia.
  intros u p0 Hu. destruct (nth_upd_inv _ _ _ _ _ Hu) as [(<- & -> & _)|(_ & Hu')]; eauto.
Qed.

Lemma try_test_loc k ch s p : try_test k ch s = Some p ->
  aloc p /\ areg p = 0 /\ aaw p = 0 /\
  (aabs p = XPend (S:=ASP) tt (kop k) [] \/ (posts_of s <= 0 /\ k <> KWait /\ aabs p = XDone (S:=ASP) tt (kop k) EFalse)).
Proof.
  unfold try_test. destruct (Z.ltb_spec 0 (posts_of s)).
  - intros E; inversion E; subst; cbn. tauto.
  - destruct k; [intros E; inversion E; subst; cbn; repeat split; auto; right; repeat split; auto; discriminate
                |intros E; inversion E; subst; cbn; tauto|].
    destruct ch; intros E; inversion E; subst; cbn; try tauto.
    repeat split; auto; right; repeat split; auto; discriminate.
Qed.

Lemma auto_step_ok c a c' e :
  AI c -> acap c -> acap c' -> auto_step c a = Some (c', e) ->
  AI c' /\ xsteps ASP (aabsf c) e (aabsf c').
Proof.
  destruct c as [s ths]. intros HI Hc Hc' H. unfold acap in Hc. cbn [snd] in Hc.
  pose proof HI as (P & Hs & HP & Hmin & Hloc). cbn [fst snd] in *.
  pose proof (sumf_nonneg areg ths areg_nn) as Hrn.
  pose proof (sumf_nonneg aaw ths aaw_nn) as Han.
  set (W := sumf areg ths) in *.
  assert (Epos : posts_of s = P) by (rewrite Hs; apply posts_val; ap_unf; lia).
  assert (Ewai : waiters_of s = W) by (rewrite Hs; apply waiters_val; ap_unf; lia).
  destruct a as [t o|t ch]; cbn [auto_step] in H.
  - (* call *)
    destruct (nth_error ths t) as [q|] eqn:Et; [|discriminate].
    destruct q; try discriminate. inversion H; subst c' e; clear H. split.
    + eapply (AI_upd s s ths t ARest (auto_entry o) P); eauto; fold W; destruct o; cbn [areg aaw aloc auto_entry]; try lia; auto.
    + apply xsteps_one. unfold aabsf. cbn [fst snd]. rewrite map_upd.
      replace (aabs (auto_entry o)) with (XPend (S:=ASP) tt o []) by (destruct o; reflexivity).
      constructor; [|reflexivity]. apply (nth_map aabs) in Et. exact Et.
  - destruct (nth_error ths t) as [q|] eqn:Et; [|discriminate].
    pose proof (nth_map aabs _ _ _ Et) as Eta.
    pose proof (Hloc _ _ Et) as Hlq.
    pose proof (sumf_elem areg _ _ _ areg_nn Et) as Hel. fold W in Hel.
    pose proof (sumf_elem aaw _ _ _ aaw_nn Et) as Hela.
    assert (Hcase : (exists o r, q = ADone o r /\ c' = (s, upd ths t ARest) /\ e = [Ret t o r])
            \/ (q = PSignal /\ e = [] /\ ((exists u k, nth_error ths u = Some (WSleep k) /\
                    c' = (s, upd (upd ths u (WLoad k)) t (ADone EPost EOk)))
                 \/ (existsb is_sleep ths = false /\ c' = (s, upd ths t (ADone EPost EOk)))))
            \/ exists s' p', auto_run s q ch = Some (s', p') /\ c' = (s', upd ths t p') /\ e = []).
    { destruct q.
      14: { inversion H; subst. left; eauto 6. }
      4: { right; left. split; auto.
           destruct ch; try (destruct (existsb is_sleep ths) eqn:Ex; [discriminate|]; inversion H; subst; auto).
           destruct (nth_error ths u) as [[]|] eqn:Eu; try discriminate. inversion H; subst. eauto 8. }
      all: match type of H with context [auto_run ?s0 ?q0 ?b] =>
             destruct (auto_run s0 q0 b) as [[s1 p1]|] eqn:Er; [|discriminate] end;
           inversion H; subst; right; right; eauto 6. }
    clear H.
    destruct Hcase as [(o & r & -> & -> & ->)|[(-> & -> & [(u & k & Eu & ->)|(Ex & ->)])|(s' & p' & Er & -> & ->)]].
    + (* return *)
      split.
      * eapply (AI_upd s s ths t (ADone o r) ARest P); eauto; fold W; cbn [areg aaw aloc]; auto; lia.
      * apply xsteps_one. unfold aabsf. cbn [fst snd]. rewrite map_upd.
        change (aabs ARest) with (XIdle (S:=ASP) (next ASP tt o r)). constructor. exact Eta.
    + (* signal wakes u *)
      assert (Hne : u <> t) by (intros ->; congruence).
      assert (Eu' : nth_error (upd ths u (WLoad k)) t = Some PSignal) by (rewrite nth_upd_neq; auto).
      split.
      * eapply (AI_upd s s (upd ths u (WLoad k)) t PSignal (ADone EPost EOk) P); eauto.
        -- eapply (AI_upd s s ths u (WSleep k) (WLoad k) P); eauto; fold W; cbn [areg aaw aloc]; auto; lia.
        -- rewrite (sumf_upd areg _ _ _ _ Eu). fold W. cbn [areg aaw aloc]. lia.
        -- rewrite (sumf_upd areg _ _ _ _ Eu). fold W. cbn [areg aaw aloc]. lia.
        -- rewrite (sumf_upd areg _ _ _ _ Eu), (sumf_upd aaw _ _ _ _ Eu). fold W. cbn [areg aaw aloc]. lia.
      * unfold aabsf. cbn [fst snd]. rewrite !map_upd.
        change (aabs (WLoad k)) with (aabs (WSleep k)).
        rewrite (upd_same (map aabs ths) u) by (apply nth_map; exact Eu).
        change (aabs (ADone EPost EOk)) with (aabs PSignal). rewrite upd_same by exact Eta. constructor.
    + (* signal finds nobody *)
      apply existsb_sleep in Ex.
      pose proof (aaw_split ths) as Hsp. fold W in Hsp.
      pose proof (sumf_elem asig _ _ _ asig_nn Et) as Hes. cbn in Hes.
      split.
      * eapply (AI_upd s s ths t PSignal (ADone EPost EOk) P); eauto; fold W; cbn [areg aaw aloc] in *; auto; lia.
      * unfold aabsf. cbn [fst snd]. rewrite !map_upd.
        change (aabs (ADone EPost EOk)) with (aabs PSignal). rewrite upd_same by exact Eta. constructor.
    + (* ordinary steps *)
      assert (Hsil : forall p2, aabs p2 = aabs q -> areg p2 = areg q -> aaw p2 >= aaw q -> aloc p2 ->
                AI (s, upd ths t p2) /\ xsteps ASP (aabsf (s, ths)) [] (aabsf (s, upd ths t p2))).
      { intros p2 Ha Hr Hw Hl. split.
        - eapply (AI_upd s s ths t q p2 P); eauto; fold W; lia.
        - unfold aabsf. cbn [fst snd]. rewrite map_upd, Ha, upd_same by exact Eta. constructor. }
      assert (Hlin : forall s2 P2 p2 o r, aabs q = XPend (S:=ASP) tt o [] -> aabs p2 = XDone (S:=ASP) tt o r ->
                etrans post_absorb o P r P2 ->
                s2 = P2 * post_one + (W - areg q + areg p2) ->
                0 <= P2 <= W - areg q + areg p2 + 1 ->
                Z.min P2 (W - areg q + areg p2) <= sumf aaw ths - aaw q + aaw p2 -> aloc p2 ->
                0 <= W - areg q + areg p2 ->
                AI (s2, upd ths t p2) /\ xsteps ASP (aabsf (s, ths)) [] (aabsf (s2, upd ths t p2))).
      { intros s2 P2 p2 o r Ha Hd Htr Hs2 HP2 Hm2 Hl2 Hw2. split.
        - eapply (AI_upd s s2 ths t q p2 P2); eauto.
        - unfold aabsf. cbn [fst snd]. rewrite map_upd, Hd, Epos.
          assert (Hsm : areg p2 <= 1) by (destruct p2; cbn; lia).
          assert (Hsm' : 0 <= areg q) by apply areg_nn.
          rewrite Hs2, posts_val by (ap_unf; lia).
          apply xsteps_one. rewrite Ha in Eta. eapply (xs_lin ASP); [exact Eta|exact Htr]. }
      assert (Hpost : q = PLoad \/ (exists old, q = PCas old) ->
                AI (s, upd ths t (post_try s)) /\ xsteps ASP (aabsf (s, ths)) [] (aabsf (s, upd ths t (post_try s)))).
      { intros Hq. unfold post_try. rewrite Epos, Ewai. destruct (Z.leb_spec P W).
        - apply Hsil; destruct Hq as [->|(old & ->)]; cbn [aabs areg aaw aloc]; auto; try lia.
        - eapply (Hlin s P (ADone EPost EOk) EPost EOk); destruct Hq as [->|(old & ->)]; cbn [aabs areg aaw aloc]; auto; try lia;
            constructor; right; lia. }
      assert (Htry : forall k p2, q = TLoad k \/ (exists old, q = TCas k old) -> try_test k ch s = Some p2 ->
                AI (s, upd ths t p2) /\ xsteps ASP (aabsf (s, ths)) [] (aabsf (s, upd ths t p2))).
      { intros k p2 Hq Ht2. destruct (try_test_loc _ _ _ _ Ht2) as (Hl2 & Hr2 & Ha2 & [Hab|(Hz & Hk & Hab)]).
        - apply Hsil; destruct Hq as [->|(old & ->)]; rewrite ?Hab, ?Hr2, ?Ha2; cbn [aabs areg aaw aloc]; auto; lia.
        - rewrite Epos in Hz. assert (P = 0) as HP0 by lia.
          eapply (Hlin s P p2 (kop k) EFalse); try exact Hab; destruct Hq as [->|(old & ->)]; rewrite ?Hr2, ?Ha2;
            cbn [aabs areg aaw aloc]; auto; try lia;
            rewrite HP0; destruct k; try congruence; constructor. }
      assert (Hwt : forall k, (exists old, q = WCas k old) ->
                AI (s, upd ths t (wait_test k s)) /\ xsteps ASP (aabsf (s, ths)) [] (aabsf (s, upd ths t (wait_test k s)))).
      { intros k (old & ->). unfold wait_test. rewrite Epos. destruct (Z.eqb_spec P 0) as [->|Hnz].
        - apply Hsil; cbn [aabs areg aaw aloc]; auto; try lia. rewrite u32_id by (unfold two32; ap_unf; lia). ap_unf; lia.
        - apply Hsil; cbn [aabs areg aaw aloc]; auto; try lia. }
      destruct q as [|    |old|    |k|k old|k|k e0|k|k|k old|  |old|o r]; cbn [auto_run] in Er; try discriminate.
      * (* PLoad *) injection Er as <- <-. apply Hpost. auto.
      * (* PCas *)
        assert (G : forall s2 p2, (if s =? old then Some (u32 (old + post_one), if 0 <? waiters_of old then PSignal else ADone EPost EOk)
                      else Some (s, post_try s)) = Some (s2, p2) ->
                   AI (s2, upd ths t p2) /\ xsteps ASP (aabsf (s, ths)) [] (aabsf (s2, upd ths t p2))).
        { intros s2 p2 E2. destruct (Z.eqb_spec s old) as [<-|]; injection E2 as <- <-; [|apply Hpost; eauto].
          cbn [aloc] in Hlq. rewrite Epos, Ewai in *.
          rewrite u32_id by (unfold two32; ap_unf; lia).
          destruct (Z.ltb_spec 0 W);
            (eapply (Hlin _ (P + 1) _ EPost EOk); [reflexivity|reflexivity|constructor; left; reflexivity|..];
             cbn [areg aaw aloc]; auto; try lia). }
        destruct ch; try (apply G; exact Er). injection Er as <- <-. apply Hpost; eauto.
      * (* TLoad *)
        destruct (try_test k ch s) as [p2|] eqn:E2; [|discriminate]. injection Er as <- <-. eapply Htry; eauto.
      * (* TCas *)
        assert (G : forall s2 p2, (if s =? old then Some (u32 (old - post_one), ADone (kop k) (kres k))
                      else match try_test k ch s with Some p' => Some (s, p') | None => None end) = Some (s2, p2) ->
                   AI (s2, upd ths t p2) /\ xsteps ASP (aabsf (s, ths)) [] (aabsf (s2, upd ths t p2))).
        { intros s2 p2 E2. destruct (Z.eqb_spec s old) as [<-|].
          - injection E2 as <- <-. cbn [aloc] in Hlq. rewrite Epos in *.
            rewrite u32_id by (unfold two32; ap_unf; lia).
            eapply (Hlin _ (P - 1) _ (kop k) (kres k)); [reflexivity|reflexivity| |..];
              cbn [areg aaw aloc]; auto; try lia.
            destruct k; constructor; lia.
          - destruct (try_test k ch s) as [p3|] eqn:E3; [|discriminate]. injection E2 as <- <-. eapply Htry; eauto. }
        destruct ch; try (apply G; exact Er).
        destruct (try_test k CSpur s) as [p3|] eqn:E3; [|discriminate]. injection Er as <- <-. eapply Htry; eauto.
      * (* WAdd *)
        injection Er as <- <-. rewrite u32_id by (unfold two32; ap_unf; lia).
        assert (G : areg (wait_test k s) = 1 /\ aaw (wait_test k s) = 1 /\ aloc (wait_test k s) /\
                    aabs (wait_test k s) = aabs (WAdd k)).
        { unfold wait_test. rewrite Epos. destruct (Z.eqb_spec P 0) as [E|E]; cbn [areg aaw aloc aabs]; repeat split; auto; try lia.
          - apply Z.mod_pos_bound. reflexivity.
          - rewrite u32_id by (unfold two32; ap_unf; lia). ap_unf; lia. }
        destruct G as (G1 & G2 & G3 & G4). split.
        -- eapply (AI_upd s (s + 1) ths t (WAdd k) (wait_test k s) P); [exact HI|exact Et|fold W; rewrite ?G1, ?G2; cbn [areg aaw].. |exact G3]; lia.
        -- unfold aabsf. cbn [fst snd]. rewrite map_upd, G4, upd_same by exact Eta. rewrite Epos.
           replace (s + 1) with (P * post_one + (W + 1)) by lia. rewrite posts_val by (ap_unf; lia). constructor.
      * (* WFutex *)
        cbn [aloc] in Hlq. cbn [aaw] in Hela.
        assert (G1 : AI (s, upd ths t (WLoad k)) /\ xsteps ASP (aabsf (s, ths)) [] (aabsf (s, upd ths t (WLoad k)))).
        { apply Hsil; cbn [aabs areg aaw aloc]; auto; lia. }
        assert (G2 : s = e0 -> AI (s, upd ths t (WSleep k)) /\ xsteps ASP (aabsf (s, ths)) [] (aabsf (s, upd ths t (WSleep k)))).
        { intros E0. assert (P = 0) as HP0.
          { rewrite <- Epos. rewrite E0. replace e0 with (0 * post_one + e0) by lia. apply posts_val; auto. }
          split.
          - eapply (AI_upd s s ths t (WFutex k e0) (WSleep k) P); eauto; fold W; cbn [areg aaw aloc]; auto; lia.
          - unfold aabsf. cbn [fst snd]. rewrite map_upd. change (aabs (WSleep k)) with (aabs (WFutex k e0)).
            rewrite upd_same by exact Eta. constructor. }
        assert (G3 : k = KTimed -> AI (s, upd ths t OLoad) /\ xsteps ASP (aabsf (s, ths)) [] (aabsf (s, upd ths t OLoad))).
        { intros ->. apply Hsil; cbn [aabs areg aaw aloc]; auto; lia. }
        destruct (Z.eqb_spec s e0);
          destruct k, ch; injection Er as <- <-; auto.
      * (* WSleep *)
        assert (G1 : AI (s, upd ths t (WLoad k)) /\ xsteps ASP (aabsf (s, ths)) [] (aabsf (s, upd ths t (WLoad k)))).
        { apply Hsil; cbn [aabs areg aaw aloc]; auto; lia. }
        assert (G3 : k = KTimed -> AI (s, upd ths t OLoad) /\ xsteps ASP (aabsf (s, ths)) [] (aabsf (s, upd ths t OLoad))).
        { intros ->. apply Hsil; cbn [aabs areg aaw aloc]; auto; lia. }
        destruct k, ch; try discriminate; injection Er as <- <-; auto.
      * (* WLoad *)
        rewrite Epos in Er. destruct (Z.ltb_spec 0 P); injection Er as <- <-; apply Hsil; cbn [aabs areg aaw aloc]; auto; try lia.
        ap_unf; lia.
      * (* WCas *)
        cbn [aloc] in Hlq.
        assert (G : forall s2 p2, (if s =? old then Some (u32 (old - (post_one + 1)), ADone (kop k) (kres k))
                      else Some (s, wait_test k s)) = Some (s2, p2) ->
                   AI (s2, upd ths t p2) /\ xsteps ASP (aabsf (s, ths)) [] (aabsf (s2, upd ths t p2))).
        { cbn [aaw] in Hela. intros s2 p2 E2. destruct (Z.eqb_spec s old) as [<-|]; [|injection E2 as <- <-; apply Hwt; eauto].
          assert (s2 = u32 (s - (post_one + 1)) /\ p2 = ADone (kop k) (kres k)) as (-> & ->) by (split; congruence). clear E2.
          rewrite Epos in *. cbn [areg] in Hel.
          rewrite u32_id by (unfold two32; ap_unf; lia).
          eapply (Hlin _ (P - 1) _ (kop k) (kres k)); [reflexivity|reflexivity| |..];
              cbn [areg aaw aloc]; auto; try lia.
          destruct k; constructor; lia. }
        destruct ch; try (apply G; exact Er). injection Er as <- <-. apply Hwt; eauto.
      * (* OLoad *)
        injection Er as <- <-. apply Hsil; cbn [aabs areg aaw aloc]; auto; lia.
      * (* OCas *)
        cbn [areg] in Hel. cbn [aaw] in Hela.
        assert (G0 : AI (s, upd ths t (OCas s)) /\ xsteps ASP (aabsf (s, ths)) [] (aabsf (s, upd ths t (OCas s)))).
        { apply Hsil; cbn [aabs areg aaw aloc]; auto; lia. }
        destruct ch; try (injection Er as <- <-; exact G0);
          (destruct (Z.eqb_spec s old) as [<-|]; [|injection Er as <- <-; exact G0]);
          rewrite Epos in Er; (destruct (Z.eqb_spec P 0) as [HP0|HP0]); injection Er as <- <-;
          rewrite u32_id by (unfold two32; ap_unf; lia).
        all: try change 4194305 with (post_one + 1).
        all: try (eapply (Hlin _ (P - 1) _ ETimed ETrue); [reflexivity|reflexivity|constructor; lia|..];
                  cbn [areg aaw aloc]; auto; lia).
        all: try (eapply (Hlin _ P _ ETimed EFalse); [reflexivity|reflexivity|rewrite HP0; constructor|..];
                  cbn [areg aaw aloc]; auto; lia).
        (* chrono loop: remove the waiter and start again *)
        split.
        -- eapply (AI_upd s _ ths t (OCas s) (TLoad KTimed) P); eauto; fold W; cbn [areg aaw aloc]; auto; lia.
        -- unfold aabsf. cbn [fst snd]. rewrite map_upd. change (aabs (TLoad KTimed)) with (aabs (OCas s)).
           rewrite upd_same by exact Eta. rewrite Epos.
           replace (s - 1) with (P * post_one + (W - 1)) by lia. rewrite posts_val by (ap_unf; lia). constructor.
Qed.

Lemma areg_in_wait p : areg p <= in_wait p.
Proof. destruct p; cbn; try lia; destruct k; lia. Qed.

Lemma cap_of c : at_most_waiting 1022 c -> acap c.
Proof.
  unfold at_most_waiting, acap. pose proof (sumf_le areg in_wait (snd c) areg_in_wait). lia.
Qed.

Lemma AI_init n : AI (auto_init n) /\ aabsf (auto_init n) = xinit ASP n.
Proof.
  split.
  - exists 0. unfold auto_init. cbn [fst snd]. rewrite !sumf_repeat. cbn [areg aaw].
    repeat split; try lia. intros t p H. apply nth_repeat in H. subst. exact I.
  - unfold aabsf, auto_init, xinit. cbn [fst snd]. cbn. f_equal. induction n as [|n IH]; cbn; [reflexivity|]. rewrite IH. reflexivity.
Qed.

Notation light n sched := (along auto_step (at_most_waiting 1022) (auto_init n) sched).

Lemma auto_lin n sched c tr :
  light n sched -> exec auto_step (auto_init n) sched = Some (c, tr) ->
  linearizable ASP n tr /\ AI c.
Proof.
  destruct (AI_init n) as (H1 & H2).
  apply (forward_sim_abs ASP auto_step aabsf AI (at_most_waiting 1022)); auto.
  intros c0 a c' e HI Hc Hc' E. apply (auto_step_ok _ a); auto using cap_of.
Qed.

(* the last configuration of a light run is light *)
Lemma light_last n sched c tr : light n sched -> exec auto_step (auto_init n) sched = Some (c, tr) ->
  at_most_waiting 1022 c.
Proof. intros H E. apply (H sched [] c tr); auto. rewrite app_nil_r; auto. Qed.

Lemma auto_word n sched s ths tr :
  light n sched -> exec auto_step (auto_init n) sched = Some ((s, ths), tr) ->
  posts_of s <= sumf areg ths + 1 /\ waiters_of s = sumf areg ths /\ 0 <= posts_of s /\
  Z.min (posts_of s) (sumf areg ths) <= sumf aaw ths /\ s = posts_of s * post_one + waiters_of s /\
  (forall t p, nth_error ths t = Some p -> aloc p) /\ sumf areg ths <= 1022.
Proof.
  intros Hl H. destruct (auto_lin _ _ _ _ Hl H) as (_ & P & Hs & HP & Hm & Hloc). cbn [fst snd] in *.
  pose proof (cap_of _ (light_last _ _ _ _ Hl H)) as Hc. unfold acap in Hc. cbn [snd] in Hc.
  pose proof (sumf_nonneg areg ths areg_nn) as Hn.
  assert (E1 : posts_of s = P) by (rewrite Hs; apply posts_val; ap_unf; lia).
  assert (E2 : waiters_of s = sumf areg ths) by (rewrite Hs; apply waiters_val; ap_unf; lia).
  rewrite E1, E2. repeat split; auto; lia.
Qed.

Lemma auto_conservation n sched c tr :
  light n sched -> exec auto_step (auto_init n) sched = Some (c, tr) -> takes tr <= posts_called tr.
Proof.
  intros Hl H. destruct (auto_lin _ _ _ _ Hl H) as (HL & _).
  apply (conservation post_absorb 0) in HL; [lia| |lia].
  intros x y Hx [->|(H1 & ->)]; lia.
Qed.

(** Awake inside a wait (registered), or a post about to issue its kernel wake-up. *)
Lemma auto_awake n sched s ths tr t k :
  light n sched -> exec auto_step (auto_init n) sched = Some ((s, ths), tr) ->
  0 < posts_of s -> nth_error ths t = Some (WSleep k) ->
  exists u p, nth_error ths u = Some p /\ aaw p = 1.
Proof.
  intros Hl H Hp Ht. destruct (auto_word _ _ _ _ _ Hl H) as (_ & _ & _ & Hm & _ & _ & _).
  pose proof (sumf_elem areg _ _ _ areg_nn Ht) as He. cbn in He.
  destruct (sumf_pos_ex aaw ths) as (u & p & Hu & Hpp); [lia|].
  exists u, p. split; auto. destruct p; cbn in *; lia.
Qed.

Lemma auto_quiescent n sched s ths tr t k :
  light n sched -> exec auto_step (auto_init n) sched = Some ((s, ths), tr) ->
  (forall u p, nth_error ths u = Some p -> p = ARest \/ exists k, p = WSleep k) ->
  nth_error ths t = Some (WSleep k) -> posts_of s = 0.
Proof.
  intros Hl H Hq Ht. destruct (auto_word _ _ _ _ _ Hl H) as (_ & _ & H0 & _ & _ & _ & _).
  destruct (Z.eq_dec (posts_of s) 0) as [|Hne]; auto. exfalso.
  destruct (auto_awake _ _ _ _ _ t k Hl H) as (u & p & Hu & Hp); auto; [lia|].
  destruct (Hq _ _ Hu) as [->|(k' & ->)]; cbn in Hp; lia.
Qed.

(** An awake waiter that runs alone while a post is undelivered completes. *)
Lemma auto_solo n sched s ths tr t k :
  light n sched -> exec auto_step (auto_init n) sched = Some ((s, ths), tr) ->
  0 < posts_of s -> nth_error ths t = Some (WLoad k) ->
  exists c', exec auto_step (s, ths) (repeat (ARun t CNorm) 3) = Some (c', [Ret t (kop k) (kres k)]).
Proof.
  intros Hl H Hp Ht. eexists. cbn [repeat exec]. unfold auto_step. rewrite Ht. cbn [auto_run].
  destruct (Z.ltb_spec 0 (posts_of s)); [|lia].
  rewrite (nth_upd_eq _ _ _ _ Ht). cbn [auto_run]. rewrite Z.eqb_refl.
  rewrite upd_upd, (nth_upd_eq _ _ _ _ Ht). cbn [app]. reflexivity.
Qed.

(** A post that runs alone on a signalled event with no thread in a wait changes nothing. *)
Lemma auto_post_again n sched s ths tr t :
  light n sched -> exec auto_step (auto_init n) sched = Some ((s, ths), tr) ->
  0 < posts_of s -> nth_error ths t = Some ARest -> (forall u p, nth_error ths u = Some p -> in_wait p = 0) ->
  exec auto_step (s, ths) [ACall t EPost; ARun t CNorm; ARun t CNorm] = Some ((s, ths), [Call t EPost; Ret t EPost EOk]).
Proof.
  intros Hl H Hp Ht Hno. destruct (auto_word _ _ _ _ _ Hl H) as (H1 & H2 & _).
  assert (Hz : sumf areg ths = 0).
  { pose proof (sumf_nonneg areg ths areg_nn). destruct (Z.eq_dec (sumf areg ths) 0); auto.
    destruct (sumf_pos_ex areg ths) as (u & p & Hu & Hpp); [lia|].
    specialize (Hno _ _ Hu). pose proof (areg_in_wait p). lia. }
  cbn [exec]. unfold auto_step. rewrite Ht. cbn [auto_entry].
  rewrite (nth_upd_eq _ _ _ _ Ht). cbn [auto_run]. unfold post_try.
  destruct (Z.leb_spec (posts_of s) (waiters_of s)); [lia|].
  rewrite !upd_upd, (nth_upd_eq _ _ _ _ Ht). rewrite ?upd_upd, upd_same by exact Ht. reflexivity.
Qed.

(** Capacity. *)
Definition n1023 : nat := 1023.
Definition n1024 : nat := S n1023.
Definition fill_waiters : list aact :=
  flat_map (fun t => [ACall t EWait; ARun t CNorm; ARun t CNorm; ARun t CNorm]) (seq 0 n1023).
Definition all_posts : list aact :=
  flat_map (fun u => [ACall n1023 EPost; ARun n1023 CNorm; ARun n1023 CNorm; ARun n1023 (CWake u); ARun n1023 CNorm]) (seq 0 n1023)
  ++ [ACall n1023 EPost; ARun n1023 CNorm; ARun n1023 CNorm; ARun n1023 CNorm; ARun n1023 CNorm]
  ++ flat_map (fun t => [ARun t CNorm; ARun t CNorm]) (seq 0 n1023).

Definition asleep_in_wait (p : apc) : bool := match p with WSleep KWait => true | _ => false end.

Definition overflow_check (c0 : acfg) (k : nat) (s1 s2 : list aact) (m : Z) : bool :=
  match exec auto_step c0 s1 with
  | None => false
  | Some (c1, tr1) =>
      forallb asleep_in_wait (firstn k (snd c1)) && Nat.leb k (length (snd c1)) &&
      match exec auto_step c1 s2 with
      | None => false
      | Some (c2, tr2) =>
          forallb asleep_in_wait (firstn k (snd c2)) && Nat.leb k (length (snd c2)) &&
          (posts_returned tr2 =? m) && (takes tr2 =? 0) && (posts_of (fst c2) =? 0)
      end
  end.

Lemma forallb_firstn {A} (f : A -> bool) k l :
  forallb f (firstn k l) = true -> forall i a, (i < k)%nat -> nth_error l i = Some a -> f a = true.
Proof.
  revert l; induction k as [|k IH]; intros l H i a Hi Ha; [lia|].
  destruct l as [|b l]; [destruct i; discriminate|]. cbn in H. apply andb_true_iff in H. destruct H as (H1 & H2).
  destruct i as [|i]; cbn in Ha; [inversion Ha; subst; auto|]. eapply IH; eauto. lia.
Qed.

Lemma overflow_check_spec c0 k s1 s2 m : overflow_check c0 k s1 s2 m = true ->
  exists c1 tr1 c2 tr2,
  exec auto_step c0 s1 = Some (c1, tr1) /\
  exec auto_step c1 s2 = Some (c2, tr2) /\
  (forall t, (t < k)%nat -> nth_error (snd c1) t = Some (WSleep KWait)) /\
  (forall t, (t < k)%nat -> nth_error (snd c2) t = Some (WSleep KWait)) /\
  posts_returned tr2 = m /\ takes tr2 = 0 /\ posts_of (fst c2) = 0.
Proof.
  unfold overflow_check. intros H.
  destruct (exec auto_step c0 s1) as [[c1 tr1]|] eqn:E1; [|discriminate].
  destruct (exec auto_step c1 s2) as [[c2 tr2]|] eqn:E2; [|rewrite andb_false_r in H; discriminate].
  rewrite !andb_true_iff in H. destruct H as ((F1 & L1) & ((((F2 & L2) & Hp) & Ht) & Hq)).
  apply Nat.leb_le in L1, L2. apply Z.eqb_eq in Hp, Ht, Hq.
  exists c1, tr1, c2, tr2.
  assert (G : forall c : acfg, (k <= length (snd c))%nat -> forallb asleep_in_wait (firstn k (snd c)) = true ->
            forall t, (t < k)%nat -> nth_error (snd c) t = Some (WSleep KWait)).
  { intros c Lc F t Hlt. destruct (nth_error (snd c) t) as [p|] eqn:En.
    - pose proof (forallb_firstn _ _ _ F _ _ Hlt En) as Hb. destruct p; try discriminate Hb. destruct k0; try discriminate Hb. reflexivity.
    - apply nth_error_None in En. lia. }
  repeat split; auto.
Qed.

Lemma auto_overflow : exists s1 c1 tr1 s2 c2 tr2,
  exec auto_step (auto_init n1024) s1 = Some (c1, tr1) /\
  exec auto_step c1 s2 = Some (c2, tr2) /\
  (forall t, (t < n1023)%nat -> nth_error (snd c1) t = Some (WSleep KWait)) /\
  (forall t, (t < n1023)%nat -> nth_error (snd c2) t = Some (WSleep KWait)) /\
  posts_returned tr2 = 1024 /\ takes tr2 = 0 /\ posts_of (fst c2) = 0.
Proof.
  assert (H : overflow_check (auto_init n1024) n1023 fill_waiters all_posts 1024 = true) by (vm_cast_no_check (eq_refl true)).
  apply overflow_check_spec in H. destruct H as (c1 & tr1 & c2 & tr2 & H).
  exists fill_waiters, c1, tr1, all_posts, c2, tr2. exact H.
Qed.

(** Two sequential posts while one waiter is registered: two later sequential try_waits succeed. *)
Definition double_sched : list aact :=
  [ACall 0 EWait; ARun 0 CNorm; ARun 0 CNorm; ARun 0 CNorm;
   ACall 1 EPost; ARun 1 CNorm; ARun 1 CNorm; ARun 1 (CWake 0); ARun 1 CNorm;
   ACall 1 EPost; ARun 1 CNorm; ARun 1 CNorm; ARun 1 CNorm; ARun 1 CNorm;
   ACall 1 ETry; ARun 1 CNorm; ARun 1 CNorm; ARun 1 CNorm;
   ACall 1 ETry; ARun 1 CNorm; ARun 1 CNorm; ARun 1 CNorm]%nat.

Lemma auto_double : exists c tr,
  exec auto_step (auto_init 2) double_sched = Some (c, tr) /\
  tr = [Call 0 EWait; Call 1 EPost; Ret 1 EPost EOk; Call 1 EPost; Ret 1 EPost EOk;
        Call 1 ETry; Ret 1 ETry ETrue; Call 1 ETry; Ret 1 ETry ETrue]%nat /\
  ~ linearizable (ev_spec 0 post_binary) 2 tr.
Proof.
  eexists. eexists. split; [vm_compute; reflexivity|]. split; [reflexivity|].
  apply not_binary. vm_compute. reflexivity.
Qed.

(** The decisive step of a post either records it or finds more undelivered posts than registered waiters. *)
Lemma auto_post_effect n sched s ths tr t p ch s' ths' e :
  light n sched -> exec auto_step (auto_init n) sched = Some ((s, ths), tr) ->
  nth_error ths t = Some p -> (p = PLoad \/ exists old, p = PCas old) ->
  auto_step (s, ths) (ARun t ch) = Some ((s', ths'), e) ->
  (nth_error ths' t = Some PSignal \/ nth_error ths' t = Some (ADone EPost EOk)) ->
  (posts_of s' = posts_of s + 1 /\ waiters_of s' = waiters_of s) \/ (s' = s /\ posts_of s = sumf areg ths + 1).
Proof.
  intros Hl H Ht Hp Hs Hd. destruct (auto_word _ _ _ _ _ Hl H) as (H1 & H2 & H3 & H4 & H5 & H6 & H7).
  pose proof (sumf_nonneg areg ths areg_nn) as Hrn.
  assert (Habs : forall q, nth_error (upd ths t (post_try s)) t = Some q -> q = PSignal \/ q = ADone EPost EOk ->
                  posts_of s = sumf areg ths + 1).
  { intros q Hq Hqq. rewrite (nth_upd_eq _ _ _ _ Ht) in Hq. inversion Hq as [Hq']. unfold post_try in Hq'.
    destruct (Z.leb_spec (posts_of s) (waiters_of s)); [subst q; destruct Hqq; discriminate|]. lia. }
  unfold auto_step in Hs. rewrite Ht in Hs.
  destruct Hp as [->|(old & ->)]; cbn [auto_run] in Hs.
  - assert (s' = s /\ ths' = upd ths t (post_try s)) as (-> & ->) by (split; congruence).
    right. split; auto. destruct Hd as [Hd|Hd]; eapply Habs; eauto.
  - assert (G : (s' = s /\ ths' = upd ths t (post_try s)) \/ (s = old /\ s' = u32 (old + post_one))).
    { destruct (Z.eqb_spec s old); destruct ch; (left; split; congruence) || (right; split; congruence). }
    destruct G as [(-> & ->)|(<- & ->)].
    + right. split; auto. destruct Hd as [Hd|Hd]; eapply Habs; eauto.
    + left. pose proof (H6 _ _ Ht) as Hq. cbn [aloc] in Hq.
      rewrite u32_id by (unfold two32; ap_unf; lia).
      replace (s + post_one) with ((posts_of s + 1) * post_one + waiters_of s) by lia.
      rewrite posts_val, waiters_val by (ap_unf; lia). auto.
Qed.

Lemma auto_length c a c' e : auto_step c a = Some (c', e) -> length (snd c') = length (snd c).
Proof.
  destruct c as [s l]. destruct a as [u o|u b]; cbn [auto_step]; destruct (nth_error l u) as [q|]; try discriminate; intros Hs.
  - destruct q; inversion Hs; subst; apply upd_length.
  - destruct q; try (destruct (auto_run _ _ _) as [[? ?]|]); try discriminate;
      try (inversion Hs; subst; cbn [snd]; apply upd_length).
    destruct b; try (destruct (existsb _ _); inversion Hs; subst; cbn [snd]; apply upd_length).
    destruct (nth_error l u0) as [[]|]; inversion Hs; subst; cbn [snd]; rewrite !upd_length; reflexivity.
Qed.

(** With at most 1022 threads every schedule is light. *)
Lemma few_threads_light n sched : Z.of_nat n <= 1022 -> light n sched.
Proof.
  intros Hn s1 s2 c tr _ H.
  assert (G : length (snd c) = n).
  { eapply (exec_inv_state auto_step (fun c => length (snd c) = n)); [| |exact H].
    - unfold auto_init. cbn. apply repeat_length.
    - intros c1 a c2 e Hl Hs. rewrite (auto_length _ _ _ _ Hs). exact Hl. }
  unfold at_most_waiting. rewrite <- G in Hn.
  assert (B : forall x, in_wait x <= 1) by (intros []; cbn; try lia; destruct k; lia).
  pose proof (sumf_bound in_wait (snd c) 1 B). lia.
Qed.
