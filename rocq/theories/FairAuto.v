(** Proofs of progress under fair scheduling: the futex-based auto_reset_event. *)
From Coq Require Import List Bool Arith ZArith Lia.
From Verif Require Import ListSum Exec Lin Word EventSpec AutoFutexModel AutoFutexProof Fair.
Import ListNotations.
Local Open Scope Z_scope.

(** A step of thread [t] inside auto_reset_event_futex.hpp 58-315, whatever the environment chooses. *)
Definition auto_acts (a : aact) (t : nat) : Prop := match a with ARun u _ => u = t | ACall _ _ => False end.
(** Thread [t] has a next access or system call that does not block; for FUTEX_WAKE (auto_reset_event_futex.hpp 81) the kernel picks the thread. A thread asleep in FUTEX_WAIT has none. *)
Definition auto_enabled (c : acfg) (t : nat) : Prop :=
  exists ch c' e, (ch = CNorm \/ exists u, ch = CWake u) /\ auto_step c (ARun t ch) = Some (c', e).
(** About to execute a weak compare-exchange: auto_reset_event_futex.hpp 68, 124, 137, 211, 267, 303, 309. *)
Definition at_cas (p : apc) : Prop := match p with PCas _ | TCas _ _ | WCas _ _ | OCas _ => True | _ => False end.
(** From moment [i0] on no weak compare-exchange fails without reason; a sleeping thread may still return without reason. *)
Definition no_spurious_cas (cf : nat -> acfg) (ac : nat -> option aact) (i0 : nat) : Prop :=
  forall j u p, (i0 <= j)%nat -> ac j = Some (ARun u CSpur) -> nth_error (snd (cf j)) u = Some p -> ~ at_cas p.
(** The step from [c] to [c'] takes a signal (auto_reset_event_futex.hpp 124, 137, 211, 267, 309) and the waiting function of [u] is about to report success. *)
Definition auto_taken (c c' : acfg) (u : nat) : Prop :=
  posts_of (fst c') = posts_of (fst c) - 1 /\ exists k, nth_error (snd c') u = Some (ADone (kop k) (kres k)).

Definition aadd (p : apc) : Z := match p with WAdd _ => 1 | _ => 0 end.
Lemma aadd_nn p : 0 <= aadd p.  Proof. destruct p; cbn; lia. Qed.
Definition want (p : apc) : Prop :=
  match p with TLoad _ | TCas _ _ | WAdd _ | WFutex _ _ | WLoad _ | WCas _ _ | OLoad | OCas _ => True | _ => False end.
Definition arank (s : Z) (p : apc) : nat :=
  match p with
  | WFutex _ _ => 4 | WLoad _ | OLoad | TLoad _ => 3
  | TCas _ old | WCas _ old | OCas old => if Z.eqb old s then 1 else 2
  | _ => 0
  end%nat.
Definition apot (c : acfg) : Z := 2 * sumf aadd (snd c) + waiters_of (fst c) + 1 - posts_of (fst c).
Definition apc_of (c : acfg) (u : nat) : apc := match nth_error (snd c) u with Some p => p | None => ARest end.
Definition ameas (c : acfg) (u : nat) : nat := (8 * Z.to_nat (apot c) + arank (fst c) (apc_of c u))%nat.

Definition aok (c : acfg) : Prop := AI c /\ acap c.

Lemma aok_word c : aok c -> exists P W, fst c = P * post_one + W /\ posts_of (fst c) = P /\ waiters_of (fst c) = W /\
  W = sumf areg (snd c) /\ 0 <= W <= 1022 /\ 0 <= P <= W + 1 /\ Z.min P W <= sumf aaw (snd c) /\ forall t p, nth_error (snd c) t = Some p -> aloc p.
Proof.
  intros ((P & Hs & HP & Hm & Hl) & Hc). unfold acap in Hc. pose proof (sumf_nonneg areg (snd c) areg_nn) as Hn.
  exists P, (sumf areg (snd c)). rewrite Hs. rewrite posts_val, waiters_val by (ap_unf; lia). repeat split; auto; lia.
Qed.

Lemma apot_nn c : aok c -> 0 <= apot c.
Proof. intros H. destruct (aok_word c H) as (P & W & _ & H1 & H2 & _ & H3 & H4 & _). unfold apot. pose proof (sumf_nonneg aadd (snd c) aadd_nn). lia. Qed.

Lemma arank_le s p : (arank s p <= 4)%nat.
Proof. destruct p; cbn; try lia; destruct (_ =? _); lia. Qed.

Lemma u32_sm x : 0 <= x < 2 ^ 32 -> u32 x = x.
Proof. intros H. unfold u32, two32. apply Z.mod_small. exact H. Qed.

Lemma post_try_add s : aadd (post_try s) = 0.
Proof. unfold post_try. destruct (_ <=? _); reflexivity. Qed.

Ltac fin := split; [reflexivity|split; [first [exact (post_try_add _)|reflexivity]|split; [reflexivity|split; [first [solve [intros Hf; destruct Hf] | intros _; split; [exact I|lia] ]|first [intros HH; discriminate HH|intros _; exact I]]]]].

(** One access while a signal is pending. *)
Lemma arun_cases P W p ch s' p' s :
  s = P * post_one + W ->
  0 <= W <= 1022 -> 0 < P <= W + 1 -> areg p <= W -> aloc p -> (ch = CSpur -> ~ at_cas p) -> auto_run s p ch = Some (s', p') ->
  (posts_of s' = P - 1 /\ exists k, p' = ADone (kop k) (kres k))
  \/ (s' = s /\ aadd p' = 0 /\ aadd p = 0 /\ (want p -> want p' /\ (arank s p' < arank s p)%nat) /\ (is_sleep p = true -> want p'))
  \/ (s' = s + 1 /\ exists k, p = WAdd k /\ p' = WCas k s)
  \/ (s' = s + post_one /\ ~ want p /\ aadd p = 0 /\ aadd p' = 0 /\ is_sleep p = false).
Proof.
  intros Es HW HP Hr Hl Hsp H.
  assert (Ep : posts_of s = P) by (rewrite Es; apply posts_val; ap_unf; lia).
  assert (Ew : waiters_of s = W) by (rewrite Es; apply waiters_val; ap_unf; lia).
  assert (Bs : post_one <= s < 2 ^ 32) by (rewrite Es; ap_unf; lia).
  assert (Tt : forall k c, try_test k c s = Some (TCas k s)) by (intros k c; unfold try_test; rewrite Ep; destruct (Z.ltb_spec 0 P); [reflexivity|lia]).
  assert (Wt : forall k, wait_test k s = WCas k s) by (intros k; unfold wait_test; rewrite Ep; destruct (Z.eqb_spec P 0); [lia|reflexivity]).
  assert (C1 : posts_of (u32 (s - post_one)) = P - 1).
  { replace (s - post_one) with ((P - 1) * post_one + W) by (rewrite Es; lia). rewrite u32_sm by (ap_unf; lia). apply posts_val. ap_unf; lia. }
  assert (C2 : 1 <= W -> posts_of (u32 (s - (post_one + 1))) = P - 1).
  { intros Hw. replace (s - (post_one + 1)) with ((P - 1) * post_one + (W - 1)) by (rewrite Es; lia). rewrite u32_sm by (ap_unf; lia). apply posts_val. ap_unf; lia. }
  destruct p; cbn [auto_run] in H; try discriminate; cbn [want aadd arank is_sleep at_cas areg aloc] in *.
  - (* PLoad *) inversion H; subst s' p'. right; left. fin.
  - (* PCas *) destruct (s =? old) eqn:E.
    + assert (H' : s' = u32 (old + post_one) /\ p' = (if 0 <? waiters_of old then PSignal else ADone EPost EOk)).
      { destruct ch; try (exfalso; exact (Hsp eq_refl I)); inversion H; auto. }
      destruct H' as (-> & ->). right; right; right. apply Z.eqb_eq in E. subst old. rewrite Ep, Ew in Hl.
      split; [rewrite u32_sm by (rewrite Es; ap_unf; lia); reflexivity|]. split; [tauto|]. split; [reflexivity|]. split; [destruct (0 <? _); reflexivity|reflexivity].
    + assert (H' : s' = s /\ p' = post_try s) by (destruct ch; inversion H; auto). destruct H' as (-> & ->). right; left. fin.
  - (* TLoad *) rewrite Tt in H. inversion H; subst s' p'. right; left. cbn [want aadd arank]. rewrite Z.eqb_refl. fin.
  - (* TCas *) rewrite Tt in H. destruct (s =? old) eqn:E.
    + assert (H' : s' = u32 (old - post_one) /\ p' = ADone (kop k) (kres k)) by (destruct ch; try (exfalso; exact (Hsp eq_refl I)); inversion H; auto).
      destruct H' as (-> & ->). apply Z.eqb_eq in E. subst old. left. eauto.
    + assert (H' : s' = s /\ p' = TCas k s) by (destruct ch; inversion H; auto). destruct H' as (-> & ->). right; left. cbn [want aadd arank]. rewrite Z.eqb_refl, (Z.eqb_sym old s), E. fin.
  - (* WAdd *) inversion H; subst s' p'. right; right; left. rewrite Wt. split; [apply u32_sm; rewrite Es; ap_unf; lia|eauto].
  - (* WFutex *) assert (E : (s =? e) = false) by (apply Z.eqb_neq; lia). rewrite E in H.
    assert (H' : s' = s /\ (p' = OLoad \/ p' = WLoad k)) by (destruct k, ch; inversion H; auto). destruct H' as (-> & [->| ->]); right; left; cbn [want aadd arank]; fin.
  - (* WSleep *) assert (H' : s' = s /\ (p' = OLoad \/ p' = WLoad k)) by (destruct k, ch; inversion H; auto). destruct H' as (-> & [->| ->]); right; left; cbn [want aadd arank]; fin.
  - (* WLoad *) rewrite Ep in H. destruct (Z.ltb_spec 0 P); [|lia]. inversion H; subst s' p'. right; left; cbn [want aadd arank]. rewrite Z.eqb_refl. fin.
  - (* WCas *) rewrite Wt in H. destruct (s =? old) eqn:E.
    + assert (H' : s' = u32 (old - (post_one + 1)) /\ p' = ADone (kop k) (kres k)) by (destruct ch; try (exfalso; exact (Hsp eq_refl I)); inversion H; auto).
      destruct H' as (-> & ->). apply Z.eqb_eq in E. subst old. left. split; [apply C2; lia|eauto].
    + assert (H' : s' = s /\ p' = WCas k s) by (destruct ch; inversion H; auto). destruct H' as (-> & ->). right; left. cbn [want aadd arank]. rewrite Z.eqb_refl, (Z.eqb_sym old s), E. fin.
  - (* OLoad *) inversion H; subst s' p'. right; left; cbn [want aadd arank]. rewrite Z.eqb_refl. fin.
  - (* OCas *) destruct (s =? old) eqn:E.
    + apply Z.eqb_eq in E; subst old; rewrite Ep in H; destruct (Z.eqb_spec P 0); [lia|].
      assert (H' : s' = u32 (s - (post_one + 1)) /\ p' = ADone ETimed ETrue) by (destruct ch; try (exfalso; exact (Hsp eq_refl I)); inversion H; auto).
      destruct H' as (-> & ->). left; split; [apply C2; lia|exists KTimed; reflexivity].
    + assert (H' : s' = s /\ p' = OCas s) by (destruct ch; inversion H; auto). destruct H' as (-> & ->). right; left. cbn [want aadd arank]. rewrite Z.eqb_refl, (Z.eqb_sym old s), E. fin.
Qed.

(** One step while a signal is pending: somebody takes a signal, or the potential does not grow, every thread that wants a signal still does,
    its rank falls if it acts and is unchanged if nothing happens to the word. *)
Lemma astep_cases c a c' e : aok c -> aok c' -> 0 < posts_of (fst c) -> auto_step c a = Some (c', e) ->
  (forall u p, a = ARun u CSpur -> nth_error (snd c) u = Some p -> ~ at_cas p) ->
  (exists u, auto_taken c c' u) \/
  0 < posts_of (fst c') /\ apot c' <= apot c /\ (fst c' = fst c \/ apot c' < apot c) /\
  (forall u p, nth_error (snd c) u = Some p -> want p -> exists p', nth_error (snd c') u = Some p' /\ want p' /\
      (~ auto_acts a u -> p' = p) /\ (auto_acts a u -> apot c' < apot c \/ (arank (fst c) p' < arank (fst c) p)%nat)).
Proof.
  intros Hok Hok' HP0 Hst Hsp. destruct (aok_word c Hok) as (P & W & Es & EP & EW & HW & BW & BP & _ & Hloc).
  destruct (aok_word c' Hok') as (P' & W' & Es' & EP' & EW' & HW' & BW' & BP' & _ & _).
  clear Es'.
  destruct c as [s ths], c' as [s' ths']. cbn [fst snd] in *. unfold auto_step in Hst.
  unfold apot. cbn [fst snd]. rewrite EP, EW, EP', EW'.
  assert (Sil : forall v q p2 w q2 p3, nth_error ths v = Some q -> aadd q = 0 -> aadd p2 = 0 -> s' = s ->
     (ths' = upd ths v p2 \/ nth_error ths w = Some q2 /\ aadd q2 = 0 /\ aadd p3 = 0 /\ w <> v /\ ths' = upd (upd ths w p3) v p2) ->
     0 < P' /\ 2 * sumf aadd ths' + W' + 1 - P' <= 2 * sumf aadd ths + W + 1 - P /\ (s' = s \/ 2 * sumf aadd ths' + W' + 1 - P' < 2 * sumf aadd ths + W + 1 - P)).
  { intros v q p2 w q2 p3 Ev Eq Ep2 -> Hths. assert (P' = P) as -> by congruence. assert (W' = W) as -> by congruence.
    assert (E : sumf aadd ths' = sumf aadd ths).
    { destruct Hths as [->|(Ew & E1 & E2 & Hne & ->)].
      - rewrite (sumf_upd aadd _ _ _ _ Ev). lia.
      - rewrite (sumf_upd aadd _ v q _) by (rewrite nth_upd_neq by auto; exact Ev). rewrite (sumf_upd aadd _ _ _ _ Ew). lia. }
    rewrite E. repeat split; auto; lia. }
  destruct a as [v o|v ch]; destruct (nth_error ths v) as [q|] eqn:Ev; try discriminate.
  - destruct q; try discriminate. inversion Hst; subst s' ths' e. right.
    destruct (Sil v ARest (auto_entry o) v ARest ARest Ev eq_refl) as (X1 & X2 & X3); auto; [destruct o; reflexivity|].
    split; [exact X1|]. split; [exact X2|]. split; [exact X3|].
    intros u p Eu Hw. assert (v <> u) by (intros ->; rewrite Eu in Ev; inversion Ev; subst; contradiction).
    exists p. rewrite nth_upd_neq by auto. cbn [auto_acts]. tauto.
  - assert (Hcase : (exists o r, q = ADone o r /\ (s', ths') = (s, upd ths v ARest)) \/
       (q = PSignal /\ s' = s /\ (ths' = upd ths v (ADone EPost EOk) \/ exists w k, nth_error ths w = Some (WSleep k) /\ ths' = upd (upd ths w (WLoad k)) v (ADone EPost EOk))) \/
       exists p', auto_run s q ch = Some (s', p') /\ ths' = upd ths v p').
    { destruct q; try (destruct (auto_run s _ ch) as [[s1 p1]|] eqn:Er; [|discriminate]; inversion Hst; subst; right; right; eauto; fail).
      - right; left. destruct ch; try (destruct (existsb is_sleep ths); [discriminate|]; inversion Hst; subst; auto; fail).
        destruct (nth_error ths u) as [q|] eqn:Eu; [|discriminate]. destruct q; try discriminate. inversion Hst; subst. eauto 8.
      - left. inversion Hst; subst. eauto. }
    clear Hst. destruct Hcase as [(o & r & -> & E)|[(-> & -> & Hths)|(p' & Er & ->)]].
    + inversion E; subst s' ths'. right. destruct (Sil v (ADone o r) ARest v ARest ARest Ev eq_refl) as (X1 & X2 & X3); auto.
      split; [exact X1|]. split; [exact X2|]. split; [exact X3|].
      intros u p Eu Hw. assert (v <> u) by (intros ->; rewrite Eu in Ev; inversion Ev; subst; contradiction).
      exists p. rewrite nth_upd_neq by auto. cbn [auto_acts]. tauto.
    + right. assert (G : forall u p, nth_error ths u = Some p -> want p -> nth_error ths' u = Some p /\ v <> u).
      { intros u p Eu Hw. assert (v <> u) by (intros ->; rewrite Eu in Ev; inversion Ev; subst; contradiction). split; [|auto].
        destruct Hths as [->|(w & k & Ew & ->)]; rewrite nth_upd_neq by auto; auto.
        rewrite nth_upd_neq; [auto|]. intros ->. rewrite Eu in Ew. inversion Ew; subst. contradiction. }
      assert (X : 0 < P' /\ 2 * sumf aadd ths' + W' + 1 - P' <= 2 * sumf aadd ths + W + 1 - P /\ (s = s \/ 2 * sumf aadd ths' + W' + 1 - P' < 2 * sumf aadd ths + W + 1 - P)).
      { destruct Hths as [Ht|(w & k & Ew & Ht)].
        - apply (Sil v PSignal (ADone EPost EOk) v ARest ARest Ev); auto.
        - apply (Sil v PSignal (ADone EPost EOk) w (WSleep k) (WLoad k) Ev); auto. right. repeat split; auto. intros ->. congruence. }
      destruct X as (X1 & X2 & X3). split; [exact X1|]. split; [exact X2|]. split; [exact X3|].
      intros u p Eu Hw. destruct (G u p Eu Hw) as (G1 & G2). exists p. cbn [auto_acts]. tauto.
    + pose proof (sumf_elem areg _ _ _ areg_nn Ev) as Hreg. rewrite <- HW in Hreg.
      destruct (arun_cases P W q ch s' p' s Es BW ltac:(lia) Hreg (Hloc _ _ Ev)) as [(C & k & ->)|[(-> & A1 & A2 & A3 & A4)|[(E1 & k & -> & ->)|(E1 & A1 & A2 & A3 & A4)]]]; auto.
      * intros ->. eapply Hsp; eauto.
      * left. exists v. split; [cbn [fst snd]; lia|]. exists k. cbn [snd]. rewrite (nth_upd_eq _ _ _ _ Ev). reflexivity.
      * right. destruct (Sil v q p' v ARest ARest Ev) as (X1 & X2 & X3); auto. split; [exact X1|]. split; [exact X2|]. split; [exact X3|].
        intros u p Eu Hw. destruct (Nat.eq_dec v u) as [->|Hne].
        -- rewrite Eu in Ev. inversion Ev; subst q. destruct (A3 Hw) as (A5 & A6). exists p'. rewrite (nth_upd_eq _ _ _ _ Eu). cbn [auto_acts]. tauto.
        -- exists p. rewrite nth_upd_neq by auto. cbn [auto_acts]. tauto.
      * right. assert (P' = P /\ W' = W + 1) as (-> & ->).
        { assert (E2 : s' = P * post_one + (W + 1)) by lia. rewrite E2 in EP', EW'. rewrite posts_val in EP' by (ap_unf; lia). rewrite waiters_val in EW' by (ap_unf; lia). auto. }
        rewrite (sumf_upd aadd _ _ _ _ Ev). cbn [aadd].
        split; [lia|]. split; [lia|]. split; [right; lia|].
        intros u p Eu Hw. destruct (Nat.eq_dec v u) as [->|Hne].
        -- exists (WCas k s). rewrite (nth_upd_eq _ _ _ _ Eu). cbn [auto_acts]. repeat split; [tauto|]. intros _. left. lia.
        -- exists p. rewrite nth_upd_neq by auto. cbn [auto_acts]. tauto.
      * right. assert (P' = P + 1 /\ W' = W) as (-> & ->).
        { assert (E2 : s' = (P + 1) * post_one + W) by lia. rewrite E2 in EP', EW'. rewrite posts_val in EP' by (ap_unf; lia). rewrite waiters_val in EW' by (ap_unf; lia). auto. }
        rewrite (sumf_upd aadd _ _ _ _ Ev), A2, A3.
        split; [lia|]. split; [lia|]. split; [right; lia|].
        intros u p Eu Hw. destruct (Nat.eq_dec v u) as [->|Hne]; [rewrite Eu in Ev; inversion Ev; subst; contradiction|].
        exists p. rewrite nth_upd_neq by auto. cbn [auto_acts]. tauto.
Qed.

Lemma want_enabled c u p : nth_error (snd c) u = Some p -> want p -> auto_enabled c u.
Proof.
  destruct c as [s ths]. cbn [snd]. intros Eu Hw. exists CNorm. unfold auto_step. rewrite Eu.
  assert (T : forall k, exists q, try_test k CNorm s = Some q) by (intros k; unfold try_test; destruct (0 <? _); [eauto|destruct k; eauto]).
  destruct p; try contradiction; cbn [auto_run].
  - destruct (T k) as (q & ->). eauto.
  - destruct (s =? old); [eauto|]. destruct (T k) as (q & ->). eauto.
  - eauto.
  - destruct k; destruct (s =? e); eauto.
  - destruct (0 <? posts_of s); eauto.
  - destruct (s =? old); eauto.
  - eauto.
  - destruct (s =? old); [destruct (posts_of old =? 0)|]; eauto.
Qed.

Lemma want_rank c c' u p p' : aok c -> aok c' -> nth_error (snd c) u = Some p -> nth_error (snd c') u = Some p' ->
  apot c' <= apot c -> (fst c' = fst c \/ apot c' < apot c) ->
  (p' = p -> (ameas c' u <= ameas c u)%nat) /\
  ((apot c' < apot c \/ (arank (fst c) p' < arank (fst c) p)%nat) -> (ameas c' u < ameas c u)%nat).
Proof.
  intros H H' E E' Hle Hor. pose proof (apot_nn c H). pose proof (apot_nn c' H'). unfold ameas, apc_of. rewrite E, E'.
  pose proof (arank_le (fst c') p'). pose proof (arank_le (fst c) p). split.
  - intros ->. destruct Hor as [->|Hlt]; lia.
  - destruct Hor as [Ef|Hlt]; intros [X|X]; try rewrite Ef in *; try lia.
Qed.

Section Auto.
  Variables (n : nat) (cf : nat -> acfg) (ac : nat -> option aact) (i0 : nat).
  Hypothesis Hlight : forall i, at_most_waiting 1022 (cf i).
  Hypothesis Hinf : infinite auto_step (auto_init n) cf ac.
  Hypothesis Hfair : fair auto_acts auto_enabled cf ac.
  Hypothesis Hcas : no_spurious_cas cf ac i0.

  Lemma auto_ok i : aok (cf i).
  Proof.
    split; [|apply cap_of; apply Hlight]. induction i as [|i IH].
    - destruct Hinf as (-> & _). apply AI_init.
    - destruct Hinf as (_ & HS). specialize (HS i). unfold happens in HS. destruct (ac i) as [a|]; [|rewrite HS; exact IH].
      destruct HS as (e & He). apply (auto_step_ok (cf i) a (cf (S i)) e); auto using cap_of.
  Qed.

  Lemma auto_want_fair i u p : (i0 <= i)%nat -> 0 < posts_of (fst (cf i)) -> nth_error (snd (cf i)) u = Some p -> want p ->
    exists j v, (i <= j)%nat /\ auto_taken (cf j) (cf (S j)) v.
  Proof.
    intros Hi HP Eu Hw.
    destruct (countdown_step auto_step auto_acts auto_enabled cf ac (fun _ => True)
      (fun c => 0 < posts_of (fst c) /\ exists p, nth_error (snd c) u = Some p /\ want p)
      (fun c _ c' => exists v, auto_taken c c' v) (fun c => ameas c u) u i) with (i := i) as (j & a & Hj & _ & v & Hv); eauto.
    - exact (proj2 Hinf).
    - intros c _ (_ & q & Eq & Hq). eapply want_enabled; eauto.
    - intros k a e Hk Ea (HPk & q & Eq & Hq) He.
      destruct (astep_cases (cf k) a (cf (S k)) e (auto_ok k) (auto_ok (S k)) HPk He) as [T|(X1 & X2 & X3 & X4)].
      + intros w r -> Er. apply (Hcas k w r); auto. lia.
      + left; exact T.
      + right. destruct (X4 u q Eq Hq) as (q' & Eq' & Hq' & Y1 & Y2).
        destruct (want_rank (cf k) (cf (S k)) u q q' (auto_ok k) (auto_ok (S k)) Eq Eq' X2 X3) as (Z1 & Z2).
        split; [eauto|]. split; [|auto].
        assert (D : auto_acts a u \/ ~ auto_acts a u) by (destruct a; cbn; [tauto|lia]).
        destruct D as [D|D]; [specialize (Z2 (Y2 D)); lia|auto].
  Qed.

  (** A thread asleep while a signal is pending: the wake-up on its way reaches somebody. *)
  Lemma auto_sleep_fair i t k : (i0 <= i)%nat -> 0 < posts_of (fst (cf i)) -> nth_error (snd (cf i)) t = Some (WSleep k) ->
    exists j v, (i <= j)%nat /\ auto_taken (cf j) (cf (S j)) v.
  Proof.
    intros Hi HP Et. destruct (aok_word _ (auto_ok i)) as (P & W & _ & EP & _ & HW & _ & _ & Hm & _).
    pose proof (sumf_elem areg _ _ _ areg_nn Et) as He. cbn [areg] in He.
    destruct (sumf_pos_ex aaw (snd (cf i))) as (v & q & Ev & Hq); [lia|].
    assert (D : want q \/ q = PSignal) by (destruct q; cbn in *; try lia; auto).
    destruct D as [D| ->]; [eapply auto_want_fair; eauto|].
    destruct (countdown_step auto_step auto_acts auto_enabled cf ac (fun _ => True)
      (fun c => 0 < posts_of (fst c) /\ nth_error (snd c) t = Some (WSleep k) /\ nth_error (snd c) v = Some PSignal)
      (fun c _ c' => (exists v, auto_taken c c' v) \/ 0 < posts_of (fst c') /\ exists w r, nth_error (snd c') w = Some r /\ want r)
      (fun c => match nth_error (snd c) v with Some PSignal => 1%nat | _ => 0%nat end) v i) with (i := i) as (j & a & Hj & _ & Hgoal); auto.
    - exact (proj2 Hinf).
    - intros [s ths] _ (_ & E1 & E2). cbn [snd] in *. exists (CWake t). unfold auto_step. rewrite E2, E1. eauto 8.
    - intros x a e Hx Ea (HPx & E1 & E2) Hst.
      destruct (astep_cases (cf x) a (cf (S x)) e (auto_ok x) (auto_ok (S x)) HPx Hst) as [T|(X1 & _ & _ & _)].
      + intros w r -> Er. apply (Hcas x w r); auto. lia.
      + left; left; exact T.
      + destruct (cf x) as [s ths], (cf (S x)) as [s' ths']. cbn [fst snd] in *. unfold auto_step in Hst.
        assert (K : forall w (r : apc), ths' = upd ths w r -> w <> v -> (w = t -> want r) ->
            (exists w0 r0, nth_error ths' w0 = Some r0 /\ want r0) \/ nth_error ths' t = Some (WSleep k) /\ nth_error ths' v = Some PSignal).
        { intros w r -> Hne Hr. destruct (Nat.eq_dec w t) as [->|Hwt].
          - left. exists t, r. rewrite (nth_upd_eq _ _ _ _ E1). auto.
          - right. rewrite !nth_upd_neq by auto. auto. }
        assert (F : ((exists w0 r0, nth_error ths' w0 = Some r0 /\ want r0) \/ (nth_error ths' t = Some (WSleep k) /\ nth_error ths' v = Some PSignal) /\ ~ auto_acts a v)).
        { destruct a as [w o|w ch]; destruct (nth_error ths w) as [r|] eqn:Ew; try discriminate.
          - destruct r; try discriminate. inversion Hst; subst. destruct (K w (auto_entry o) eq_refl); [congruence| |auto|].
            + intros ->. congruence.
            + right. cbn [auto_acts]. tauto.
          - destruct (Nat.eq_dec w v) as [->|Hne].
            + rewrite E2 in Ew. inversion Ew; subst r. destruct ch; try (destruct (existsb is_sleep ths) eqn:Ex; [discriminate|];
                exfalso; apply existsb_sleep in Ex; pose proof (sumf_elem aslp _ _ _ aslp_nn E1) as X; cbn in X; lia).
              destruct (nth_error ths u) as [r|] eqn:Eu; [|discriminate]. destruct r; try discriminate. inversion Hst; subst.
              left. exists u, (WLoad k0). rewrite nth_upd_neq by (intros ->; congruence). rewrite (nth_upd_eq _ _ _ _ Eu). split; [reflexivity|exact I].
            + cbn [auto_acts]. 
              assert (Hr : r = PSignal \/ exists r', ths' = upd ths w r' /\ (w = t -> want r')).
              { assert (Hc : r = PSignal \/ (exists o x, r = ADone o x /\ ths' = upd ths w ARest) \/ exists s1 p1, auto_run s r ch = Some (s1, p1) /\ ths' = upd ths w p1).
                { destruct r; try (destruct (auto_run s _ ch) as [[s1 p1]|] eqn:Er; [|discriminate]; inversion Hst; subst; right; right; eauto; fail); auto.
                  right; left. inversion Hst; subst. eauto. }
                destruct Hc as [->|[(o & x0 & -> & ->)|(s1 & p1 & Er & ->)]]; [auto| |].
                - right. exists ARest. split; [reflexivity|]. intros ->. congruence.
                - right. exists p1. split; [reflexivity|]. intros ->. rewrite E1 in Ew. inversion Ew; subst r. cbn [auto_run] in Er. destruct k, ch; inversion Er; exact I. }
              destruct Hr as [->|(r' & -> & Hr')].
              * destruct ch; try (destruct (existsb is_sleep ths) eqn:Ex; [discriminate|];
                  exfalso; apply existsb_sleep in Ex; pose proof (sumf_elem aslp _ _ _ aslp_nn E1) as X; cbn in X; lia).
                destruct (nth_error ths u) as [r|] eqn:Eu; [|discriminate]. destruct r; try discriminate. inversion Hst; subst.
                left. exists u, (WLoad k0). rewrite nth_upd_neq by (intros ->; congruence). rewrite (nth_upd_eq _ _ _ _ Eu). split; [reflexivity|exact I].
              * destruct (K w r' eq_refl Hne Hr'); [auto|tauto]. }
        destruct F as [F|((F1 & F2) & F3)]; [left; right; auto|]. right. rewrite E2, F2. split; [auto|]. split; [lia|tauto].
    - destruct Hgoal as [(u & Hu)|(HP' & w & r & Ew & Hr)]; [exists j, u; auto|].
      destruct (auto_want_fair (S j) w r ltac:(lia) HP' Ew Hr) as (j' & u & Hj' & Hu). exists j', u. split; [lia|exact Hu].
  Qed.

  Lemma auto_fair_taken i t p : (i0 <= i)%nat -> 0 < posts_of (fst (cf i)) -> nth_error (snd (cf i)) t = Some p -> in_wait p = 1 ->
    exists j v, (i <= j)%nat /\ auto_taken (cf j) (cf (S j)) v.
  Proof.
    intros Hi HP Et Hw. assert (D : want p \/ exists k, p = WSleep k) by (destruct p; cbn in *; try lia; eauto).
    destruct D as [D|(k & ->)]; [eapply auto_want_fair; eauto|eapply auto_sleep_fair; eauto].
  Qed.
End Auto.
