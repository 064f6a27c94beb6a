(** Property theorems: the Linux auto_reset_event on weakly ordered memory (C60). *)
From Coq Require Import List Bool Arith ZArith Lia.
From Verif Require Import ListSum Exec Events Lin Word EventSpec AutoFutexModel AutoFutexProof Hb HbSpin HbAuto Weak WeakAuto WeakAutoHb.
Import ListNotations.
Local Open Scope Z_scope.

(** * Wake-ups *)

(** C60: while a post is undelivered and a thread sleeps in the kernel, some thread is about to wake one up or is a registered waiter that is awake; in fact enough of them. *)
Theorem C60_enough_awake : forall n sched w ths tr,
  Z.of_nat n <= 1022 -> exec wauto_step (wauto_init n) sched = Some ((w, ths), tr) ->
  Z.min (posts_of (newest w)) (sumf areg ths) <= sumf aaw ths /\ waiters_of (newest w) = sumf areg ths /\ 0 <= posts_of (newest w) <= sumf areg ths + 1.
Proof.
  intros n sched w ths tr Hn H. destruct (WA_exec _ _ _ _ Hn H) as (L & _ & _ & (P & H1 & H2 & H3 & _)). cbn [fst snd] in *.
  pose proof (acap_len (newest w) ths n L Hn) as Hc. unfold acap in Hc. cbn [snd] in Hc. pose proof (sumf_nonneg areg ths areg_nn).
  rewrite H1, posts_val, waiters_val by (ap_unf; lia). auto.
Qed.
Print Assumptions C60_enough_awake.

(** If every thread is outside the library or asleep and some thread sleeps, no post is undelivered. *)
Theorem C60_quiescent : forall n sched w ths tr t k,
  Z.of_nat n <= 1022 -> exec wauto_step (wauto_init n) sched = Some ((w, ths), tr) ->
  (forall u p, nth_error ths u = Some p -> p = ARest \/ exists k, p = WSleep k) ->
  nth_error ths t = Some (WSleep k) -> posts_of (newest w) = 0.
Proof.
  intros n sched w ths tr t k Hn H Hq Ht. destruct (C60_enough_awake _ _ _ _ _ Hn H) as (H1 & _ & H2).
  pose proof (sumf_elem areg _ _ _ areg_nn Ht) as He. cbn [areg] in He.
  destruct (Z.eq_dec (posts_of (newest w)) 0) as [|Hne]; [assumption|]. exfalso.
  destruct (sumf_pos_ex aaw ths) as (u & p & Hu & Hp); [lia|]. destruct (Hq _ _ Hu) as [->|(k' & ->)]; cbn in Hp; lia.
Qed.
Print Assumptions C60_quiescent.

(** Completed waits never outnumber the posts begun. *)
Theorem C60_conservation : forall n sched c tr,
  Z.of_nat n <= 1022 -> exec wauto_step (wauto_init n) sched = Some (c, tr) -> takes (flat_map base_ev tr) <= posts_called (flat_map base_ev tr).
Proof.
  intros n sched [w ths] tr Hn H. destruct (WAC_exec _ _ _ _ Hn H) as (HW & HC). unfold WC in HC. cbn [fst snd] in HC.
  destruct (vok_posts _ (WA_newest _ _ _ Hn HW)) as (H1 & _). pose proof (sumf_nonneg dtake ths dtake_nn). pose proof (sumf_nonneg inpost ths inpost_nn). unfold wtakes, wcalled in HC. lia.
Qed.
Print Assumptions C60_conservation.

(** * Notifications *)

(** C60 is false of the code.  Thread 0 posts; thread 1 waits, consumes the post, and reads the data (location 1, acquire): nothing yet.  Thread 2 stores the data (release) and calls post(): its relaxed
    load still returns the state before the consumption, so post() takes the event for signalled and returns without effect.  Thread 1 waits again and sleeps for ever: the data is stored,
    all calls of post() have returned, every other thread is idle.  (On x86: thread 2's store waits in its store buffer while the load of m_state executes.) *)
Theorem C60_lost_refuted : exists s1 w1 ths1 tr1 w2 s2 w3 ths3 tr3,
  exec wauto_step (wauto_init 3) s1 = Some ((w1, ths1), tr1) /\ flat_map base_ev tr1 = [Call 0 EPost; Ret 0 EPost EOk; Call 1 EWait; Ret 1 EWait EOk]%nat /\
  wclient 1 1 (CLoad true) 0 w1 = Some (0, w2) /\
  exec wauto_step (w2, ths1) (WClient 2 1 (CStore true 1) 0 :: WCall 2 EPost :: s2) = Some ((w3, ths3), tr3) /\
  flat_map base_ev tr3 = [Call 2 EPost; Ret 2 EPost EOk; Call 1 EWait]%nat /\
  map mval (hist w3 1) = [0; 1] /\ ths3 = [ARest; WSleep KWait; ARest] /\ posts_of (newest w3) = 0.
Proof.
  exists [WCall 0 EPost; WRun 0 (CNorm, 0); WRun 0 (CNorm, 0); WRun 0 (CNorm, 0); WCall 1 EWait; WRun 1 (CNorm, 1); WRun 1 (CNorm, 1); WRun 1 (CNorm, 0)]%nat.
  eexists. eexists. eexists. eexists. exists [WRun 2 (CNorm, 1); WRun 2 (CNorm, 0); WCall 1 EWait; WRun 1 (CNorm, 2); WRun 1 (CNorm, 2); WRun 1 (CNorm, 0)]%nat.
  eexists. eexists. eexists. split; [vm_compute; reflexivity|]. split; [reflexivity|]. split; [vm_compute; reflexivity|]. split; [vm_compute; reflexivity|]. repeat split.
Qed.
Print Assumptions C60_lost_refuted.

(** What holds for a post that returns without effect: if its caller knows of all consumptions so far (they happen before it, e.g. because the waiters take a mutex after each wait
    and the poster has held it since), the event is still signalled at that moment.  So the next wait need not sleep. *)
Theorem C60_absorbed_partial : forall n sched w ths tr u p ch w' ths' e,
  Z.of_nat n <= 1022 -> exec wauto_step (wauto_init n) sched = Some ((w, ths), tr) ->
  nth_error ths u = Some p -> p = PLoad \/ (exists old, p = PCas old) ->
  wauto_step (w, ths) (WRun u ch) = Some ((w', ths'), e) -> nth_error ths' u = Some (ADone EPost EOk) -> newest w' = newest w ->
  (forall v o r, nth_error ths v = Some (ADone o r) -> took o r = 0) ->
  (forall v o r K, In (HEv (Ret v o r) K) tr -> took o r = 1 -> incl K (wkn w u)) ->
  0 < posts_of (newest w).
Proof.
  intros n sched w ths tr u p ch w' ths' e Hn H Hu Hp Hs Hd Hne H1 H2.
  eapply absorbed_signalled; [exact Hn|eapply WAK_exec; eauto|exact Hu| |exact Hs|exact Hd|exact Hne|].
  - destruct Hp as [->|(old & ->)]; reflexivity.
  - split; [|exact H2]. intros v q Hv. destruct q; try reflexivity. exact (H1 _ _ _ Hv).
Qed.
Print Assumptions C60_absorbed_partial.

(** The hypotheses can be met: thread 0 posts; thread 1 consumes it, then tells thread 2 (release store, acquire load of location 1); thread 0 posts again; thread 2 posts and is absorbed. *)
Definition absorb_sched : list (wact (O := eop) (Ch := achoice * nat)) :=
  [WCall 0 EPost; WRun 0 (CNorm, 0); WRun 0 (CNorm, 0); WRun 0 (CNorm, 0); WCall 1 EWait; WRun 1 (CNorm, 1); WRun 1 (CNorm, 1); WRun 1 (CNorm, 0);
   WClient 1 1 (CStore true 5%Z) 0; WClient 2 1 (CLoad true) 1; WCall 0 EPost; WRun 0 (CNorm, 2); WRun 0 (CNorm, 2); WRun 0 (CNorm, 0); WCall 2 EPost]%nat.
Example C60_absorbed_ex : exists w ths tr w' ths' e,
  exec wauto_step (wauto_init 3) absorb_sched = Some ((w, ths), tr) /\ nth_error ths 2 = Some PLoad /\
  wauto_step (w, ths) (WRun 2 (CNorm, 3))%nat = Some ((w', ths'), e) /\ nth_error ths' 2 = Some (ADone EPost EOk) /\ newest w' = newest w /\
  (forall v o r, nth_error ths v = Some (ADone o r) -> took o r = 0) /\
  (forall v o r K, In (HEv (Ret v o r) K) tr -> took o r = 1 -> incl K (wkn w 2)) /\ (exists K, In (HEv (Ret 1%nat EWait EOk) K) tr) /\
  wauto_step (w, ths) (WRun 2 (CNorm, 1))%nat = None.
Proof.
  eexists. eexists. eexists. eexists. eexists. eexists. split; [vm_compute; reflexivity|]. split; [reflexivity|]. split; [vm_compute; reflexivity|]. split; [reflexivity|]. split; [reflexivity|].
  split; [intros v o r Hv; apply nth_error_In in Hv; cbn [In] in Hv; repeat (destruct Hv as [E|Hv]; [discriminate E|]); contradiction|]. split.
  - intros v o r K Hin. cbn [In] in Hin.
    repeat (destruct Hin as [E|Hin]; [first [discriminate E|injection E as <- <- <- <-; intros F; first [discriminate F|intros x Hx; revert Hx; vm_compute; tauto]]|]); contradiction.
  - split; [|vm_compute; reflexivity]. eexists. cbn [In]. right; right; right; left. reflexivity.
Qed.

(** A post that adds to the counter publishes everything its caller knows to every wait that does not have its result yet. *)
Theorem C60_counted_partial : forall n s1 w ths tr1 u p ch w2 ths2 e2 s2 c tr2 a t o r K' d,
  Z.of_nat n <= 1022 -> exec wauto_step (wauto_init n) s1 = Some ((w, ths), tr1) ->
  nth_error ths u = Some p -> p = PLoad \/ (exists old, p = PCas old) ->
  wauto_step (w, ths) (WRun u ch) = Some ((w2, ths2), e2) -> newest w2 <> newest w ->
  exec wauto_step (w2, ths2) s2 = Some (c, tr2) -> tr2 = a ++ HEv (Ret t o r) K' :: d ->
  (o = EWait /\ r = EOk) \/ (o = ETry /\ r = ETrue) \/ (o = ETimed /\ r = ETrue) ->
  (forall o r, nth_error ths t <> Some (ADone o r)) -> posts_of (newest w2) = posts_of (newest w) + 1 /\ incl (wkn w u) K'.
Proof.
  intros n s1 w ths tr1 u p ch w2 ths2 e2 s2 c tr2 a t o r K' d Hn H1 Hu Hp Hs Hne H2 E0 Ho Hd. pose proof (WA_exec _ _ _ _ Hn H1) as HW.
  assert (Hp1 : inpost p = 1) by (destruct Hp as [->|(old & ->)]; reflexivity).
  destruct (counted_nrel _ _ _ _ _ _ _ _ _ Hn HW Hu Hp1 Hs Hne) as (G1 & G2 & G3). split; [exact G1|].
  eapply wauto_pub; [exact Hn| |exact H2|exact G2| |exact E0|destruct Ho as [(-> & ->)|[(-> & ->)|(-> & ->)]]; reflexivity].
  - eapply wauto_case; eauto.
  - intros q Hq. pose proof (dtake01 q). destruct (Z.eq_dec (dtake q) 1) as [E|]; [|lia]. pose proof (G3 _ _ Hq E) as F. destruct q; try discriminate E. destruct (Hd _ _ F).
Qed.
Print Assumptions C60_counted_partial.

(** Every successful wait knows what happened before some post() called earlier. *)
Theorem C60_some_partial : forall n sched c tr a t o r K' d,
  Z.of_nat n <= 1022 -> exec wauto_step (wauto_init n) sched = Some (c, tr) -> tr = a ++ HEv (Ret t o r) K' :: d ->
  (o = EWait /\ r = EOk) \/ (o = ETry /\ r = ETrue) \/ (o = ETimed /\ r = ETrue) ->
  exists u K, In (HEv (Call u EPost) K) a /\ incl K K'.
Proof.
  intros n sched c tr a t o r K' d Hn H E0 Ho. eapply wauto_some; eauto. destruct Ho as [(-> & ->)|[(-> & ->)|(-> & ->)]]; reflexivity.
Qed.
Print Assumptions C60_some_partial.

(** Hand-off: a post called when every earlier post has been consumed by a wait that returned, and the caller knows of these waits, is not lost: everything before it happens before the return
    of every successful wait that comes before the next call of post(). *)
Theorem C60_handoff_partial : forall n sched c tr a u K b t o r K' d,
  Z.of_nat n <= 1022 -> exec wauto_step (wauto_init n) sched = Some (c, tr) ->
  tr = a ++ HEv (Call u EPost) K :: b ++ HEv (Ret t o r) K' :: d ->
  (o = EWait /\ r = EOk) \/ (o = ETry /\ r = ETrue) \/ (o = ETimed /\ r = ETrue) ->
  takes (flat_map base_ev a) = posts_called (flat_map base_ev a) ->
  (forall v o r L, In (HEv (Ret v o r) L) a -> took o r = 1 -> incl L K) ->
  (forall v L, ~ In (HEv (Call v EPost) L) b) -> incl K K' /\ forall k, In (HWork u k) a -> In k K'.
Proof.
  intros n sched c tr a u K b t o r K' d Hn H E0 Ho Ha Hk Hb.
  assert (G : incl K K').
  2: { split; [exact G|]. intros k Hin. apply G. eapply (wown_ev _ _ _ _ wauto_mono); [exact H|exact E0|exact Hin]. }
  destruct (exec_cut _ _ _ _ _ _ _ _ H E0) as (s1 & act & s2 & [w1 ths1] & [w2 ths2] & x1 & dd & es & d' & y1 & H1 & H2 & H3 & H4 & H5 & H6).
  destruct (WAK_exec _ _ _ _ Hn H1) as ((HW & HC) & HK). destruct (wauto_case _ _ _ _ _ _ _ Hn HW H2) as (HW2 & _ & Hc).
  assert (F : dd = [] /\ d' = [] /\ nth_error ths1 u = Some ARest /\ w2 = w1 /\ ths2 = upd ths1 u PLoad /\ K = wkn w1 u).
  { destruct Hc as [t1 o1 Ht -> -> ->|t1 o1 r1 Ht -> -> ->|t1 p Ht Hd He ->|Eh -> Ee].
    - destruct dd as [|? [|]]; try discriminate H4. injection H4 as -> -> <- <-. auto 10.
    - destruct dd as [|? [|]]; discriminate H4.
    - destruct dd; discriminate H4.
    - rewrite H4, flat_map_app in Ee. cbn in Ee. destruct (flat_map base_ev dd); discriminate Ee. }
  destruct F as (-> & -> & Hu & -> & -> & ->). rewrite app_nil_r in H5. subst x1. cbn [app] in H6. subst y1.
  unfold WC in HC. cbn [fst snd] in HC. fold (wtakes a) (wcalled a) in Ha.
  destruct (vok_posts _ (WA_newest _ _ _ Hn HW)) as (V1 & _). pose proof (sumf_nonneg dtake ths1 dtake_nn) as V2. pose proof (sumf_nonneg inpost ths1 inpost_nn) as V3.
  assert (Z1 : forall v q, nth_error ths1 v = Some q -> dtake q = 0).
  { intros v q Hv. pose proof (sumf_elem dtake _ _ _ dtake_nn Hv). pose proof (dtake_nn q). lia. }
  assert (Z2 : forall v q, nth_error ths1 v = Some q -> inpost q = 0).
  { intros v q Hv. pose proof (sumf_elem inpost _ _ _ inpost_nn Hv). pose proof (inpost_nn q). lia. }
  assert (J0 : HJ n (wkn w1 u) u (w1, upd ths1 u PLoad) []).
  { split; [exact HW2|]. intros _. left. cbn [fst snd]. split; [lia|]. split; [|split; [|split; [apply incl_refl|split; [exists PLoad; rewrite (nth_upd_eq _ _ _ _ Hu); auto|]]]].
    - intros v q Hv. destruct (nth_upd_inv _ _ _ _ _ Hv) as [(<- & -> & _)|(_ & Hv')]; [reflexivity|eauto].
    - intros v q Hv Hq. destruct (nth_upd_inv _ _ _ _ _ Hv) as [(<- & -> & _)|(_ & Hv')]; [reflexivity|]. rewrite (Z2 _ _ Hv') in Hq. discriminate.
    - intros i m Hi Hr. assert (KT : knows_takes w1 ths1 a u) by (split; [exact Z1|exact Hk]).
      pose proof (knows_readable _ _ _ _ _ _ HK KT Hi Hr). destruct (vok_posts _ (hist_nth _ _ _ _ _ HW Hi)) as (? & _). lia. }
  refine (exec_events wauto_step (HJ n (wkn w1 u) u) (fun b x => match x with HEv (Ret t o r) K' => nopost b -> took o r = 1 -> incl (wkn w1 u) K' | _ => True end) _ J0 (HJ_step n _ _ Hn) _ s2 c _ b (HEv (Ret t o r) K') d H3 eq_refl Hb _).
  - intros [w ths] tr0 act0 [w' ths'] es0 d0 x b0 (HW0 & HJ0) Hs0 Ees. destruct x as [|[|t0 o0 r0] K0]; try exact I. intros Hnp Hg.
    destruct (wauto_case _ _ _ _ _ _ _ Hn HW0 Hs0) as (_ & _ & Hc0). destruct (wcase_ret _ _ _ _ _ _ _ _ _ _ _ Hc0 Ees) as (-> & Ht0 & ->). rewrite app_nil_r in Hnp.
    destruct (HJ0 Hnp) as [(_ & A2 & _)|(_ & B2)]; cbn [fst snd] in *; [specialize (A2 _ _ Ht0); cbn in A2; lia|exact (B2 _ _ Ht0 Hg)].
  - destruct Ho as [(-> & ->)|[(-> & ->)|(-> & ->)]]; reflexivity.
Qed.
Print Assumptions C60_handoff_partial.

(** Thread 0 posts, thread 1 consumes and tells thread 2, which works and posts; thread 1 waits asleep and knows the work. *)
Example C60_handoff_ex : exists c tr a K b K' d k,
  exec wauto_step (wauto_init 3)
    [WCall 0 EPost; WRun 0 (CNorm, 0); WRun 0 (CNorm, 0); WRun 0 (CNorm, 0); WCall 1 EWait; WRun 1 (CNorm, 1); WRun 1 (CNorm, 1); WRun 1 (CNorm, 0);
     WClient 1 1 (CStore true 5%Z) 0; WCall 1 EWait; WRun 1 (CNorm, 2); WRun 1 (CNorm, 2); WRun 1 (CNorm, 0);
     WClient 2 1 (CLoad true) 1; WWork 2; WCall 2 EPost; WRun 2 (CNorm, 2); WRun 2 (CNorm, 3); WRun 2 (CNorm, 3); WRun 2 (CWake 1, 0); WRun 2 (CNorm, 0);
     WRun 1 (CNorm, 4); WRun 1 (CNorm, 4); WRun 1 (CNorm, 0)]%nat = Some (c, tr) /\
  tr = a ++ HEv (Call 2%nat EPost) K :: b ++ HEv (Ret 1%nat EWait EOk) K' :: d /\
  takes (flat_map base_ev a) = posts_called (flat_map base_ev a) /\ In (HWork 2%nat k) a /\ In k K' /\ (exists L, In (HEv (Ret 1%nat EWait EOk) L) a) /\
  (forall v o r L, In (HEv (Ret v o r) L) a -> took o r = 1 -> incl L K) /\ (forall v L, ~ In (HEv (Call v EPost) L) b).
Proof.
  eexists. eexists. eexists [_; _; _; _; _; _]. eexists. eexists [_]. eexists. eexists. eexists. split; [vm_compute; reflexivity|]. split; [reflexivity|]. split; [reflexivity|].
  split; [cbn [In]; do 5 right; left; reflexivity|]. split; [vm_compute; tauto|]. split; [eexists; cbn [In]; do 3 right; left; reflexivity|]. split.
  - intros v o r K Hin. cbn [In] in Hin.
    repeat (destruct Hin as [E|Hin]; [first [discriminate E|injection E as <- <- <- <-; intros F; first [discriminate F|intros x Hx; revert Hx; vm_compute; tauto]]|]); contradiction.
  - intros v L [E|[]]. discriminate E.
Qed.
