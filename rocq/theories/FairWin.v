(** Proofs of progress under fair scheduling: mutex and timed_mutex on Windows. *)
From Coq Require Import List Bool Arith ZArith Lia.
From Verif Require Import ListSum Exec Lin Thr Word MutexSpec WinMutexModel WinMutexProof Fair.
Import ListNotations.
Local Open Scope Z_scope.

(** A step of thread [t] inside basic_mutex_windows.hpp 76-184 or timed_mutex_windows.hpp 80-224, whatever the environment chooses. *)
Definition win_acts (a : tact mop wchoice) (t : nat) : Prop := match a with TRun u _ => u = t | TCall _ _ => False end.
(** Thread [t] has a next access or system call that does not block; a thread waiting for an event that is not signalled (basic_mutex_windows.hpp 169, timed_mutex_windows.hpp 132, 178) has none. *)
Definition win_enabled (c : wsh * list wpc) (t : nat) : Prop := exists c' e, wm_step c (TRun t CNorm) = Some (c', e).
(** About to execute a weak compare-exchange, basic_mutex_windows.hpp 134, 150. *)
Definition win_cas (p : wpc) : Prop := match p with WMark _ _ | WClear _ _ _ => True | _ => False end.
(** From moment [i0] on no weak compare-exchange fails without reason, and no wait for a part of a long duration (timed_mutex_windows.hpp 178) ends
    with WAIT_TIMEOUT although the event is signalled. *)
Definition win_due (cf : nat -> wsh * list wpc) (ac : nat -> option (tact mop wchoice)) (i0 : nat) : Prop :=
  forall j u p, (i0 <= j)%nat -> nth_error (snd (cf j)) u = Some p ->
    (ac j = Some (TRun u CSpur) -> ~ win_cas p) /\
    (ac j = Some (TRun u CSlice) -> forall k old h, p = WWait k old h -> nth_error (events (fst (cf j))) h <> Some true).
(** The thread called lock() or a timed lock and has neither acquired the mutex nor given up: basic_mutex_windows.hpp 76-80, 157-170, timed_mutex_windows.hpp 80-224. *)
Definition win_wants (p : wpc) : Prop :=
  match p with
  | WFirst _ | WClock _ | WLoad _ | WMark _ _ | WTimer _ _ | WWait _ _ _ | WClear _ _ _ => True
  | WEvLoad (CLock _ _) | WEvCreate (CLock _ _) | WEvCas (CLock _ _) _ | WEvClose (CLock _ _) _ _ => True
  | _ => False
  end.
(** The step from [c] to [c'] locks the mutex for thread [u], whose function is about to report success. basic_mutex_windows.hpp 97, 134, 150. *)
Definition win_taken (c c' : wsh * list wpc) (u : nat) : Prop :=
  locked (word (fst c)) = false /\ locked (word (fst c')) = true /\
  exists m o r, nth_error (snd c') u = Some (WDone m o r) /\ (o = MLock /\ r = ROk \/ (o = MTryLock \/ o = MTimed) /\ r = RTrue).

(** Bound for the number of steps that remain while the word is [w]; no counterpart in /repo. *)
Definition wrank (w : Z) (p : wpc) : Z :=
  match p with
  | WRest _ => 2 | WTry _ | WFirst _ | WSub _ _ | WUnl => 1 | WClock _ => 4 | WLoad _ => 3
  | WMark _ old | WClear _ old _ => if old =? w then 1 else 2
  | WEvLoad _ => 8 | WEvCreate _ => 7 | WEvCas _ _ => 6 | WEvClose _ _ _ => 5 | WTimer _ _ => 4 | WWait _ _ _ => 3
  | WBts => 9 | WSet _ => 4 | WDone _ _ _ => 3
  end.
(** Proof or specification device; no counterpart in /repo. *)
Definition wchg (p : wpc) : Z := reg p + pend p.
(** Proof or specification device; no counterpart in /repo. *)
Definition wmeas (c : wsh * list wpc) : Z :=
  sumf wchg (snd c) * (9 * Z.of_nat (length (snd c)) + 1) + sumf (wrank (word (fst c))) (snd c).
(** Waits on for the next part of a long duration, timed_mutex_windows.hpp 187-189. *)
Definition win_idle (c : wsh * list wpc) (a : tact mop wchoice) : Prop :=
  exists u k old h, a = TRun u CSlice /\ nth_error (snd c) u = Some (WWait k old h) /\ nth_error (events (fst c)) h <> Some true.

Lemma wrank_b w p : 0 <= wrank w p <= 9.
Proof. destruct p; cbn; try lia; destruct (_ =? _); lia. Qed.
Lemma wchg_nn p : 0 <= wchg p.
Proof. unfold wchg. pose proof (reg_nn p). pose proof (pend_nn p). lia. Qed.
Lemma wmeas_nn c : 0 <= wmeas c.
Proof.
  unfold wmeas. pose proof (sumf_nonneg wchg (snd c) wchg_nn). pose proof (sumf_nonneg (wrank (word (fst c))) (snd c) (fun p => proj1 (wrank_b _ p))). nia.
Qed.
Lemma wrank_sum w l : sumf (wrank w) l <= 9 * Z.of_nat (length l).
Proof. induction l as [|p l IH]; cbn [sumf length]; [lia|]. pose proof (wrank_b w p). lia. Qed.

(** A step that leaves the word alone and brings its thread forward. *)
Lemma meas_same s ths s' t p q : nth_error ths t = Some p -> word s' = word s -> wchg q <= wchg p -> wrank (word s) q < wrank (word s) p ->
  wmeas (s', upd ths t q) < wmeas (s, ths).
Proof.
  intros Ht Hw Hc Hr. unfold wmeas. cbn [fst snd]. rewrite Hw, upd_length, (sumf_upd _ _ _ _ _ Ht), (sumf_upd _ _ _ _ _ Ht). nia.
Qed.
(** A step that changes the word, which its thread will not do again. *)
Lemma meas_word s ths s' t p q : nth_error ths t = Some p -> wchg q < wchg p -> wmeas (s', upd ths t q) < wmeas (s, ths).
Proof.
  intros Ht Hc. unfold wmeas. cbn [fst snd]. rewrite upd_length, (sumf_upd _ _ _ _ _ Ht).
  pose proof (wrank_sum (word s') (upd ths t q)) as B. rewrite upd_length in B.
  pose proof (sumf_nonneg (wrank (word s)) ths (fun p => proj1 (wrank_b _ p))). nia.
Qed.

Section Step.
  Variables (s : wsh) (ths : list wpc).
  Hypothesis HI : WI (s, ths).
  Hypothesis Hcap : wcap (s, ths).
  Hypothesis Hfree : locked (word s) = false.
  Hypothesis Hdead : dead s = false.

  Lemma free_word : exists E, word s = wd false E (sumf reg ths) /\ sumf hz ths = 0 /\ small (sumf reg ths) /\
    Z.b2z E = sumf Z.b2z (events s) + sumf tok ths /\ (sumf reg ths = 0 \/ E = true \/ 0 < sumf pend ths).
  Proof.
    destruct HI as ((L & E & H1 & H2 & H3 & H4) & _). destruct (sum_reg_small _ Hcap) as (Hsm & _). cbn [snd] in Hsm.
    rewrite H1, wd_locked in Hfree by exact Hsm. subst L. exists E. split; [exact H1|]. split; [exact (eq_sym H2)|]. split; [exact Hsm|]. split; [exact H3|].
    destruct H4 as [H4|H4]; [discriminate|exact H4].
  Qed.
  Lemma nobody t p : nth_error ths t = Some p -> hold p = false.
  Proof.
    intros Ht. destruct free_word as (E & _ & H2 & _). pose proof (hz_elem _ _ _ Ht) as H. assert (H0 : hz p <= 0) by lia. unfold hz in H0.
    destruct (hold p); [cbn in H0; lia|reflexivity].
  Qed.

  (** Some thread can go on, and not only by waiting on. *)
  Lemma win_doer t p : nth_error ths t = Some p -> win_wants p ->
    exists u, win_enabled (s, ths) u /\ forall a, win_acts a u -> ~ win_idle (s, ths) a.
  Proof.
    intros Ht Hw.
    assert (En : forall u q, nth_error ths u = Some q -> (forall k old h, q <> WWait k old h) -> (forall m, q <> WRest m) ->
      exists u, win_enabled (s, ths) u /\ forall a, win_acts a u -> ~ win_idle (s, ths) a).
    { intros u q Hu Hnw Hnr. exists u. split.
      - unfold win_enabled, wm_step, tstep. rewrite Hu. destruct (wm_ret q) as [[[o r] q']|] eqn:Er; [eexists _, _; reflexivity|].
        assert (X : exists x, wm_run1 s q CNorm = Some x).
        { unfold wm_run1. rewrite Hdead. destruct q; try discriminate; try (exfalso; eapply Hnr; reflexivity); try (exfalso; eapply Hnw; reflexivity);
            repeat match goal with
            | |- context[let (_, _) := ?x in _] => destruct x
            | |- context[match ?x with _ => _ end] => destruct x
            end; eexists; reflexivity. }
        destruct X as ([s' q'] & X). unfold wm_run. rewrite X. eexists _, _. reflexivity.
      - intros a Ha (v & k & old & h & -> & Hv & _). cbn in Ha. subst v. cbn [snd] in Hv. rewrite Hu in Hv. inversion Hv; subst. exact (Hnw _ _ _ eq_refl). }
    destruct free_word as (E & E1 & E2 & E3 & E4 & E5). destruct (Z.eq_dec (sumf reg ths) 0) as [Hz|Hz].
    - apply (En t p Ht).
      + intros k old h ->. pose proof (reg_elem _ _ _ Ht). cbn in *. lia.
      + intros m ->. exact Hw.
    - destruct (Z_lt_le_dec 0 (sumf pend ths)) as [Hp|Hp].
      { destruct (sumf_pos_ex _ _ Hp) as (u & q & Hu & Hq). apply (En u q Hu); intros; intros ->; cbn in Hq; lia. }
      destruct E5 as [E5|[->|E5]]; [lia| |lia]. cbn [Z.b2z] in E4.
      destruct (Z_lt_le_dec 0 (sumf tok ths)) as [Hp'|Hp'].
      { destruct (sumf_pos_ex _ _ Hp') as (u & q & Hu & Hq). apply (En u q Hu); intros; intros ->; cbn in Hq; lia. }
      destruct (sumf_pos_ex Z.b2z (events s)) as (i & b & Hi & Hb); [lia|]. destruct b; [|cbn in Hb; lia].
      destruct (sumf_pos_ex reg ths) as (u & q & Hu & Hq); [unfold small in E3; lia|].
      assert (Hnr : forall m, q <> WRest m) by (intros m ->; cbn in Hq; lia).
      assert (D : (exists k old h, q = WWait k old h) \/ forall k old h, q <> WWait k old h) by (destruct q; eauto; right; discriminate).
      destruct D as [(k & old & h & ->)|D]; [|exact (En u q Hu D Hnr)].
      destruct HI as (_ & _ & H6 & H7 & _). pose proof (H7 _ _ _ Hu eq_refl) as Hm. rewrite (H6 _ Hi) in Hm. inversion Hm; subst i.
      exists u. split.
      + unfold win_enabled, wm_step, tstep. rewrite Hu. cbn [wm_ret]. unfold wm_run, wm_run1. rewrite Hdead, Hi. eexists _, _. reflexivity.
      + intros a Ha (v & k' & old' & h' & -> & Hv & Hne). cbn in Ha. subst v. cbn [snd fst] in *. rewrite Hu in Hv. inversion Hv; subst. contradiction.
  Qed.

  (** One step of a thread while the mutex is free. *)
  Lemma win_run t p ch s' q : nth_error ths t = Some p -> wm_run1 s p ch = Some (s', q) -> dead s' = false ->
    (ch = CSpur -> ~ win_cas p) -> (ch = CSlice -> forall k old h, p = WWait k old h -> nth_error (events s) h <> Some true) ->
    win_taken (s, ths) (s', upd ths t q) t \/
    locked (word s') = false /\
    (wmeas (s', upd ths t q) < wmeas (s, ths) \/ (s', upd ths t q) = (s, ths) /\ win_idle (s, ths) (TRun t ch)) /\
    (win_wants p -> win_wants q \/ ch = CTimeout \/ ch = CFail).
  Proof.
    intros Ht Hr Hd Hsp Hsl. destruct free_word as (E & E1 & E2 & E3 & E4 & E5).
    pose proof (nobody _ _ Ht) as Hh. pose proof (reg_elem _ _ _ Ht) as Hreg.
    assert (Bt : fst (bts (word s) lock_bit) = false) by exact Hfree.
    assert (Bs : locked (snd (bts (word s) lock_bit)) = true) by (unfold bts; cbn [snd]; rewrite E1, wd_set_lock by exact E3; apply wd_locked; exact E3).
    assert (Same : forall s1 q1, s' = s1 -> q = q1 -> word s1 = word s -> wchg q1 <= wchg p -> wrank (word s) q1 < wrank (word s) p -> (win_wants p -> win_wants q1 \/ ch = CTimeout \/ ch = CFail) ->
       win_taken (s, ths) (s', upd ths t q) t \/ locked (word s') = false /\
       (wmeas (s', upd ths t q) < wmeas (s, ths) \/ (s', upd ths t q) = (s, ths) /\ win_idle (s, ths) (TRun t ch)) /\ (win_wants p -> win_wants q \/ ch = CTimeout \/ ch = CFail)).
    { intros s1 q1 -> -> Hw Hc Hrk Hwt. right. split; [rewrite Hw; exact Hfree|]. split; [left; eapply meas_same; eauto|exact Hwt]. }
    assert (Take : forall s1 m o r, s' = s1 -> q = WDone m o r -> locked (word s1) = true -> (o = MLock /\ r = ROk \/ (o = MTryLock \/ o = MTimed) /\ r = RTrue) ->
       win_taken (s, ths) (s', upd ths t q) t).
    { intros s1 m o r -> -> Hl Ho. split; [exact Hfree|]. split; [exact Hl|]. exists m, o, r. split; [eapply nth_upd_eq; eauto|exact Ho]. }
    assert (Ko : forall k, kop k = MLock /\ kgot k = ROk \/ (kop k = MTryLock \/ kop k = MTimed) /\ kgot k = RTrue) by (intros []; cbn; auto).
    unfold wm_run1 in Hr. rewrite Hdead in Hr. destruct p; try discriminate.
    - (* WTry *) destruct (bts (word s) lock_bit) as [b w]. cbn [fst snd] in *. subst b. inversion Hr; subst. left. eapply Take; eauto.
    - (* WFirst *) destruct (bts (word s) lock_bit) as [b w]. cbn [fst snd] in *. subst b. inversion Hr; subst. left. eapply Take; eauto.
    - (* WClock *) destruct ch; inversion Hr; subst; eapply Same; eauto; cbn; auto; lia.
    - (* WLoad *) inversion Hr; subst. eapply Same; eauto; cbn; auto; try lia. rewrite Z.eqb_refl. lia.
    - (* WMark *) destruct (Z.eqb_spec (word s) old) as [<-|Hne]; cbn [andb] in Hr.
      + destruct (spurious ch) eqn:Es; [destruct ch; try discriminate; exfalso; exact (Hsp eq_refl I)|]. cbn [negb] in Hr. rewrite Hfree in Hr. inversion Hr; subst.
        left. eapply Take; eauto. cbn [word set_word]. unfold mark_new. rewrite Hfree, lor_lock. exact Bs.
      + inversion Hr; subst. eapply Same; eauto; cbn; auto; try lia. rewrite Z.eqb_refl. destruct (Z.eqb_spec old (word s')); [congruence|lia].
    - (* WEvLoad *) destruct (m_event s) as [h|]; inversion Hr; subst; eapply Same; eauto.
      + unfold wchg. rewrite got_reg, got_pend. unfold wchg; cbn [reg pend wrank]; lia.
      + destruct c as [[]|]; cbn; lia.
      + destruct c as [[]|]; cbn; auto.
      + unfold wchg; cbn [reg pend]; lia.
      + unfold wchg; cbn [reg pend wrank]; lia.
    - (* WEvCreate *) assert (D : ch = CFail \/ s' = Sh (word s) (m_event s) (events s ++ [false]) (closed s) false /\ q = WEvCas c (length (events s))) by (destruct ch; inversion Hr; subst; auto).
      destruct D as [->|(-> & ->)].
      + destruct c as [k old|]; inversion Hr; subst; [|discriminate]. eapply Same; eauto; unfold wchg; cbn [reg pend wrank creg word]; auto; try lia.
      + eapply Same; eauto; unfold wchg; cbn [reg pend wrank creg word]; auto; try lia.
    - (* WEvCas *) destruct (m_event s) as [h'|]; inversion Hr; subst; eapply Same; eauto.
      + unfold wchg; cbn [reg pend]; lia.
      + unfold wchg; cbn [reg pend wrank]; lia.
      + unfold wchg. rewrite got_reg, got_pend. unfold wchg; cbn [reg pend wrank]; lia.
      + destruct c as [[]|]; cbn; lia.
      + destruct c as [[]|]; cbn; auto.
    - (* WEvClose *) inversion Hr; subst; eapply Same; eauto.
      + unfold wchg. rewrite got_reg, got_pend. unfold wchg; cbn [reg pend wrank]; lia.
      + destruct c as [[]|]; cbn; lia.
      + destruct c as [[]|]; cbn; auto.
    - (* WTimer *) destruct ch; inversion Hr; subst; eapply Same; eauto; cbn; auto; lia.
    - (* WWait *) destruct ch.
      + destruct (nth_error (events s) h) as [[]|]; inversion Hr; subst. eapply Same; eauto; cbn; auto; try lia. destruct (_ =? _); lia.
      + destruct (nth_error (events s) h) as [[]|]; inversion Hr; subst. eapply Same; eauto; cbn; auto; try lia. destruct (_ =? _); lia.
      + inversion Hr; subst. eapply Same; eauto; cbn; auto; lia.
      + destruct k; inversion Hr; subst; eapply Same; eauto; cbn; auto; lia.
      + right. assert (D : s' = s /\ q = WWait k old h) by (destruct k; inversion Hr; auto). destruct D as (-> & ->). rewrite upd_same by exact Ht.
        split; [exact Hfree|]. split; [|auto]. right. split; [reflexivity|]. exists t, k, old, h. cbn [fst snd]. eauto.
      + destruct (nth_error (events s) h) as [[]|]; inversion Hr; subst. eapply Same; eauto; cbn; auto; try lia. destruct (_ =? _); lia.
    - (* WClear *) destruct (Z.eqb_spec (word s) old) as [<-|Hne]; cbn [andb] in Hr.
      + destruct (spurious ch) eqn:Es; [destruct ch; try discriminate; exfalso; exact (Hsp eq_refl I)|]. cbn [negb] in Hr. rewrite Hfree in Hr. inversion Hr; subst.
        left. eapply Take; eauto. cbn [word set_word]. cbn [reg] in Hreg. rewrite E1, wd_clear by (auto; lia). apply wd_locked. unfold small in *. lia.
      + inversion Hr; subst. eapply Same; eauto; cbn; auto; try lia. rewrite Z.eqb_refl. destruct (Z.eqb_spec old (word s')); [congruence|lia].
    - (* WSub *) right. cbn [reg] in Hreg. injection Hr as Es Eq. split; [|split].
      + rewrite <- Es. cbn [word set_word]. rewrite E1, wd_sub1 by (auto; lia). apply wd_locked. unfold small in *. lia.
      + left. eapply meas_word; eauto. rewrite <- Eq. destruct k; cbn; try lia; destruct r; cbn; lia.
      + intros [].
    - (* WBts *) right. unfold bts in Hr. injection Hr as Es Eq. split; [|split].
      + rewrite <- Es. cbn [word set_word]. rewrite E1, wd_set_event by exact E3. apply wd_locked. exact E3.
      + left. eapply meas_word; eauto. rewrite <- Eq. match goal with |- context[if ?b then _ else _] => destruct b end; cbn; lia.
      + intros [].
    - (* WSet *) inversion Hr; subst; eapply Same; eauto; cbn; auto; lia.
  Qed.
End Step.

Theorem win_fair_taken n cf ac i0 : Z.of_nat n < 2 ^ 30 -> infinite wm_step (wm_init n) cf ac -> fair win_acts win_enabled cf ac -> win_due cf ac i0 ->
  (forall i, dead (fst (cf i)) = false) ->
  forall i t p, (i0 <= i)%nat -> locked (word (fst (cf i))) = false -> nth_error (snd (cf i)) t = Some p -> win_wants p ->
  exists j, (i <= j)%nat /\ ((exists u, win_taken (cf j) (cf (S j)) u) \/ ac j = Some (TRun t CTimeout) \/ ac j = Some (TRun t CFail)).
Proof.
  intros Hn Hinf HF Hdue Hdead i t p Hi Hl Ht Hw.
  assert (HW : forall i, WI (cf i) /\ wcap (cf i)).
  { intros k. destruct (inf_reach _ _ _ _ Hinf k) as (sched & tr & H). split; [exact (proj2 (wm_lin _ _ _ _ Hn H))|].
    unfold wcap.
    assert (Hlen : forall s ths t p ch c', wm_run s ths t p ch = Some c' -> length (snd c') = length ths).
    { intros s0 ths0 t0 p0 ch c' Hr. unfold wm_run in Hr. destruct (wm_run1 s0 p0 ch) as [[s' q]|]; inversion Hr; subst. apply upd_length. }
    rewrite (tlength wm_call wm_ret wm_run (wm_init n) Hlen _ _ _ H). cbn [snd wm_init]. rewrite repeat_length. exact Hn. }
  destruct (runs_down wm_step win_acts win_enabled cf ac (fun c => locked (word (fst c)) = false /\ exists p, nth_error (snd c) t = Some p /\ win_wants p)
    (fun c a c' => (exists u, win_taken c c' u) \/ a = TRun t CTimeout \/ a = TRun t CFail) win_idle (fun c => Z.to_nat (wmeas c)) i0 (proj2 Hinf) HF) with (i := i) as (j & a & Hj & Ea & HQ).
  - intros k Hk (L & q & Hq & W). pose proof (HW k) as (I & Cp). pose proof (Hdead k) as Dd. destruct (cf k) as [s ths]. cbn [fst snd] in *. exact (win_doer s ths I Cp L Dd t q Hq W).
  - intros k a e Hk Ea (L & q & Hq & W) Hst. pose proof (HW k) as (I & Cp). pose proof (Hdead k) as Dd. pose proof (Hdead (S k)) as Dd'. pose proof (Hdue k) as Du. rewrite Ea in Du.
    destruct (cf k) as [s ths]. remember (cf (S k)) as c' eqn:Ec. clear Ec. cbn [fst snd] in *.
    destruct (tstep_cases _ _ _ _ _ _ _ _ Hst) as [(v & o & p1 & p' & -> & Hv & Hc & -> & _)|[(v & ch & p1 & o & r & p' & -> & Hv & Hc & -> & _)|(v & ch & p1 & -> & Hv & Hc & Hr & _)]].
    + right. cbn [fst snd]. assert (Hne : v <> t) by (intros ->; rewrite Hq in Hv; inversion Hv; subst; destruct p1; try discriminate; contradiction).
      split; [split; [exact L|exists q; rewrite nth_upd_neq by exact Hne; auto]|]. left.
      apply Z2Nat.inj_lt; [apply wmeas_nn|apply wmeas_nn|]. pose proof (nobody s ths I Cp L _ _ Hv) as Hh.
      destruct p1; try discriminate. cbn in Hh. subst m. apply (meas_same s ths s v _ _ Hv eq_refl); destruct o; inversion Hc; subst; cbn; lia.
    + right. cbn [fst snd]. assert (Hne : v <> t) by (intros ->; rewrite Hq in Hv; inversion Hv; subst; destruct p1; try discriminate; contradiction).
      split; [split; [exact L|exists q; rewrite nth_upd_neq by exact Hne; auto]|]. left.
      apply Z2Nat.inj_lt; [apply wmeas_nn|apply wmeas_nn|]. destruct p1; try discriminate. inversion Hc; subst. apply (meas_same s ths s v _ _ Hv eq_refl); cbn; lia.
    + unfold wm_run in Hr. destruct (wm_run1 s p1 ch) as [[s' q']|] eqn:Er; [|discriminate]. inversion Hr; subst c'. cbn [fst snd] in *.
      destruct (Du v p1 Hk Hv) as (Du1 & Du2).
      destruct (win_run s ths I Cp L Dd v p1 ch s' q' Hv Er Dd') as [Tk|(L' & M & Wt)].
      * intros ->. exact (Du1 eq_refl).
      * intros ->. exact (Du2 eq_refl).
      * left. left. eauto.
      * destruct (Nat.eq_dec v t) as [->|Hne].
        -- rewrite Hq in Hv. inversion Hv; subst p1. destruct (Wt W) as [W'|[->| ->]]; [|left; auto|left; auto].
           right. split; [split; [exact L'|exists q'; split; [eapply nth_upd_eq; eauto|exact W']]|].
           destruct M as [M|(M1 & M2)]; [left; apply Z2Nat.inj_lt; auto using wmeas_nn|right; auto].
        -- right. split; [split; [exact L'|exists q; rewrite nth_upd_neq by exact Hne; auto]|].
           destruct M as [M|(M1 & M2)]; [left; apply Z2Nat.inj_lt; auto using wmeas_nn|right; auto].
  - exact Hi.
  - split; [exact Hl|eauto].
  - exists j. split; [exact Hj|]. destruct HQ as [H|[->| ->]]; auto.
Qed.
