(** Property theorems: the semaphore-based auto_reset_event on weakly ordered memory (C68). *)
From Coq Require Import List Bool Arith ZArith Lia.
From Verif Require Import ListSum Exec Events Lin Word EventSpec AutoSemModel AutoSemProof Hb HbSpin HbTokens HbAutoSem Weak WeakAuto WeakAutoHb WeakSem WeakSemHb.
Import ListNotations.
Local Open Scope Z_scope.

(** * Counting *)

(** C68: m_state is the number of registered waiters minus the posts under way to them (value of the semaphore and posters about to post it), and it stays far from the
    bounds of int32_t although posters act on values that may be old. *)
Theorem C68_balance : forall n sched w ths tr,
  Z.of_nat n < 2 ^ 31 - 1 -> exec wsem_step (wsem_init n) sched = Some ((w, ths), tr) ->
  top w 0 = sumf sreg ths - (top w 1 + sumf spst ths) /\ 0 <= top w 1 /\ top w 1 + sumf spst ths <= Z.of_nat n + 1 /\ - (Z.of_nat n + 1) <= top w 0 <= Z.of_nat n.
Proof.
  intros n sched w ths tr Hn H. destruct (WS_exec _ _ _ _ Hn H) as (L & _ & (H1 & H2 & H3 & _)). cbn [fst snd] in *. rewrite L in H3.
  pose proof (sumf_nonneg sreg ths sreg_nn). pose proof (sumf_nonneg spst ths spst_nn). pose proof (sumf_bound sreg ths 1 sreg_le). lia.
Qed.
Print Assumptions C68_balance.

(** While a post is under way and a thread waits, the thread can take it or a poster is about to post the semaphore: a post that was counted is not lost. *)
Theorem C68_no_lost_post : forall n sched w ths tr t k,
  Z.of_nat n < 2 ^ 31 - 1 -> exec wsem_step (wsem_init n) sched = Some ((w, ths), tr) ->
  nth_error ths t = Some (SSemWait k) -> top w 0 < sumf sreg ths ->
  (exists w', wsem_step (w, ths) (WRun t (SNorm, 0%nat)) = Some ((w', upd ths t (SDone (skop k) (skres k))), [])) \/ exists u, nth_error ths u = Some SSemPost.
Proof.
  intros n sched w ths tr t k Hn H Ht Hs. pose proof (WS_exec _ _ _ _ Hn H) as (L & HH & (Hv & Hst & _)). cbn [fst snd] in *.
  destruct (Z_lt_le_dec 0 (top w 1)) as [Hp|Hv0].
  - left. unfold wsem_step. cbn [wstep]. rewrite Ht. cbn [as_ret wsem_run]. destruct (Z.ltb_spec 0 (top w 1)); [|lia].
    replace (true && negb (s_fail k SNorm))%bool with true by (destruct k; reflexivity).
    destruct (HH 1%nat ltac:(lia)) as (m0 & h & E & _). unfold wrmw.
    assert (Hlt : (pred (length (hist w 1%nat)) < length (hist w 1%nat))%nat) by (rewrite E; cbn; lia).
    destruct (nth_error (hist w 1%nat) (pred (length (hist w 1%nat)))) as [m|] eqn:En; [|apply nth_error_None in En; lia].
    assert (ES : S (pred (length (hist w 1%nat))) = length (hist w 1%nat)) by lia.
    unfold readable, room. rewrite ES, skipn_all. cbn [existsb negb andb]. rewrite (proj2 (nth_error_None _ _)) by lia. eexists. reflexivity.
  - right. destruct (sumf_pos_ex spst ths) as (u & p & Hu & Hp); [lia|]. exists u. destruct p; cbn in Hp; try lia. exact Hu.
Qed.
Print Assumptions C68_no_lost_post.

(** Thread 0 posts; thread 1 is registered. *)
Example C68_no_lost_post_ex : exists w ths tr, exec wsem_step (wsem_init 2)
  [WCall 0 EPost; WRun 0 (SNorm, 0); WCall 1 EWait; WRun 1 (SNorm, 0); WRun 0 (SNorm, 1); WRun 0 (SNorm, 1); WRun 0 (SNorm, 0)]%nat = Some ((w, ths), tr) /\
  nth_error ths 1 = Some (SSemWait SKWait) /\ top w 0 < sumf sreg ths.
Proof. eexists. eexists. eexists. split; [vm_compute; reflexivity|]. split; vm_compute; reflexivity. Qed.

(** No wait returns without a post of its own. *)
Theorem C68_conserved : forall n sched w ths tr,
  Z.of_nat n < 2 ^ 31 - 1 -> exec wsem_step (wsem_init n) sched = Some ((w, ths), tr) ->
  takes (flat_map base_ev tr) + top w 1 <= posts_called (flat_map base_ev tr).
Proof.
  intros n sched w ths tr Hn H. destruct (WSK_exec _ _ _ _ Hn H) as (_ & HC & _). unfold SC in HC. cbn [fst snd] in HC. fold (wtakes tr) (wcalled tr).
  pose proof (sumf_nonneg sdtake ths (fun p => proj1 (sdtake01 p))). pose proof (sumf_nonneg sinpost ths (fun p => proj1 (sinpost01 p))). lia.
Qed.
Print Assumptions C68_conserved.

(** * Notifications *)

(** C68 is false of the code.  Thread 0 posts; thread 1 waits, consumes the post, and reads the data (location 2, acquire): nothing yet.  Thread 2 stores the data (release) and calls post():
    its relaxed load still returns the negative value from before the wait, so post() takes the event for signalled and returns without effect.  Thread 1 waits again and blocks for ever. *)
Theorem C68_lost_refuted : exists s1 w1 ths1 tr1 w2 s2 w3 ths3 tr3,
  exec wsem_step (wsem_init 3) s1 = Some ((w1, ths1), tr1) /\ flat_map base_ev tr1 = [Call 0 EPost; Ret 0 EPost EOk; Call 1 EWait; Ret 1 EWait EOk]%nat /\
  wclient 1 2 (CLoad true) 0 w1 = Some (0, w2) /\
  exec wsem_step (w2, ths1) (WClient 2 2 (CStore true 1) 0 :: WCall 2 EPost :: s2) = Some ((w3, ths3), tr3) /\
  flat_map base_ev tr3 = [Call 2 EPost; Ret 2 EPost EOk; Call 1 EWait]%nat /\
  map mval (hist w3 2) = [0; 1] /\ ths3 = [SRest; SSemWait SKWait; SRest] /\ top w3 1 = 0.
Proof.
  exists [WCall 0 EPost; WRun 0 (SNorm, 0); WRun 0 (SNorm, 0); WRun 0 (SNorm, 0); WRun 0 (SNorm, 0); WCall 1 EWait; WRun 1 (SNorm, 1); WRun 1 (SNorm, 0); WRun 1 (SNorm, 0)]%nat.
  eexists. eexists. eexists. eexists. exists [WRun 2 (SNorm, 1); WRun 2 (SNorm, 0); WCall 1 EWait; WRun 1 (SNorm, 2)]%nat.
  eexists. eexists. eexists. split; [vm_compute; reflexivity|]. split; [reflexivity|]. split; [vm_compute; reflexivity|]. split; [vm_compute; reflexivity|]. repeat split.
Qed.
Print Assumptions C68_lost_refuted.

(** What holds for a post that returns without effect: if its caller knows of all consumptions so far, a post is still under way at that moment: the semaphore is positive or about to be posted. *)
Theorem C68_absorbed_partial : forall n sched w ths tr u p ch w' ths' e,
  Z.of_nat n < 2 ^ 31 - 1 -> exec wsem_step (wsem_init n) sched = Some ((w, ths), tr) ->
  nth_error ths u = Some p -> p = SLoad \/ (exists old, p = SCas old) ->
  wsem_step (w, ths) (WRun u ch) = Some ((w', ths'), e) -> nth_error ths' u = Some (SDone EPost EOk) ->
  (forall v o r, nth_error ths v = Some (SDone o r) -> took o r = 0) ->
  (forall v o r K, In (HEv (Ret v o r) K) tr -> took o r = 1 -> incl K (wkn w u)) ->
  0 < top w 1 \/ exists v, nth_error ths v = Some SSemPost.
Proof.
  intros n sched w ths tr u p ch w' ths' e Hn H Hu Hp Hs Hd H1 H2.
  assert (G : 0 < top w 1 + sumf spst ths).
  { eapply sabsorbed; [exact Hn|eapply WSK_exec; eauto|exact Hu|exact Hp|exact Hs|exact Hd|]. split; [|exact H2]. intros v q Hv. destruct q; try reflexivity. exact (H1 _ _ _ Hv). }
  destruct (Z_lt_le_dec 0 (top w 1)) as [|Hz]; [left; assumption|right]. destruct (sumf_pos_ex spst ths) as (v & q & Hv & Hq); [lia|]. exists v. destruct q; cbn in Hq; try lia. exact Hv.
Qed.
Print Assumptions C68_absorbed_partial.

(** The hypotheses can be met: thread 0 posts; thread 1 consumes it and tells thread 2 (release store, acquire load of location 2); thread 0 posts again; thread 2 posts and is absorbed.  What it
    read is the newest value: the older negative value (message 1) it can no longer read. *)
Definition sabsorb_sched : list (wact (O := eop) (Ch := schoice * nat)) :=
  [WCall 0 EPost; WRun 0 (SNorm, 0); WRun 0 (SNorm, 0); WRun 0 (SNorm, 0); WRun 0 (SNorm, 0); WCall 1 EWait; WRun 1 (SNorm, 1); WRun 1 (SNorm, 0); WRun 1 (SNorm, 0);
   WClient 1 2 (CStore true 5%Z) 0; WClient 2 2 (CLoad true) 1; WCall 0 EPost; WRun 0 (SNorm, 2); WRun 0 (SNorm, 2); WRun 0 (SNorm, 0); WRun 0 (SNorm, 0); WCall 2 EPost]%nat.
Example C68_absorbed_ex : exists w ths tr w' ths' e,
  exec wsem_step (wsem_init 3) sabsorb_sched = Some ((w, ths), tr) /\ nth_error ths 2 = Some SLoad /\
  wsem_step (w, ths) (WRun 2 (SNorm, 3))%nat = Some ((w', ths'), e) /\ nth_error ths' 2 = Some (SDone EPost EOk) /\
  (forall v o r, nth_error ths v = Some (SDone o r) -> took o r = 0) /\
  (forall v o r K, In (HEv (Ret v o r) K) tr -> took o r = 1 -> incl K (wkn w 2)) /\ (exists K, In (HEv (Ret 1%nat EWait EOk) K) tr) /\
  wsem_step (w, ths) (WRun 2 (SNorm, 1))%nat = None.
Proof.
  eexists. eexists. eexists. eexists. eexists. eexists. split; [vm_compute; reflexivity|]. split; [reflexivity|]. split; [vm_compute; reflexivity|]. split; [reflexivity|].
  split; [intros v o r Hv; apply nth_error_In in Hv; cbn [In] in Hv; repeat (destruct Hv as [E|Hv]; [discriminate E|]); contradiction|]. split.
  - intros v o r K Hin. cbn [In] in Hin.
    repeat (destruct Hin as [E|Hin]; [first [discriminate E|injection E as <- <- <- <-; intros F; first [discriminate F|intros x Hx; revert Hx; vm_compute; tauto]]|]); contradiction.
  - split; [|vm_compute; reflexivity]. eexists. cbn [In]. right; right; right; left. reflexivity.
Qed.

(** A post that reaches the semaphore publishes everything its caller knows to every wait that does not have its result yet. *)
Theorem C68_counted_partial : forall n s1 w ths tr1 u ch w2 ths2 e2 s2 c tr2 a t o r K' d,
  Z.of_nat n < 2 ^ 31 - 1 -> exec wsem_step (wsem_init n) s1 = Some ((w, ths), tr1) ->
  nth_error ths u = Some SSemPost -> wsem_step (w, ths) (WRun u ch) = Some ((w2, ths2), e2) ->
  exec wsem_step (w2, ths2) s2 = Some (c, tr2) -> tr2 = a ++ HEv (Ret t o r) K' :: d ->
  (o = EWait /\ r = EOk) \/ (o = ETry /\ r = ETrue) \/ (o = ETimed /\ r = ETrue) ->
  (forall o r, nth_error ths t <> Some (SDone o r)) -> top w2 1 = top w 1 + 1 /\ incl (wkn w u) K'.
Proof.
  intros n s1 w ths tr1 u ch w2 ths2 e2 s2 c tr2 a t o r K' d Hn H1 Hu Hs H2 E0 Ho Hd. pose proof (WS_exec _ _ _ _ Hn H1) as HW. pose proof Hs as Hs0.
  unfold wsem_step in Hs. cbn [wstep] in Hs. rewrite Hu in Hs. cbn [as_ret] in Hs.
  destruct (wsem_run u w ths SSemPost ch) as [c1|] eqn:E; [|discriminate Hs]. injection Hs as -> _.
  destruct (wsem_eff _ _ _ _ _ _ _ _ Hn HW Hu E) as (p' & -> & He & _).
  destruct He as [E1 E2 S1 S2 S3 S4 S5 S6 S7|x E1 E2 X1 X2 X3 S1 S2 S3 S4 Y1 Y2 Y3 Y4|x E1 E2 X1 _ -> X2 X3 X4|k x E1 E2 X1 Ep _ X2 X3 X4 X5]; [discriminate S2|discriminate S1| |discriminate Ep].
  rewrite (top_end _ _ _ _ E2). split; [exact X2|]. eapply wsem_pub; [exact Hn| |exact H2|rewrite (trel_end _ _ _ _ E2); exact X4| |exact E0|destruct Ho as [(-> & ->)|[(-> & ->)|(-> & ->)]]; reflexivity].
  - eapply wsem_case; eauto.
  - intros q Hq. destruct (nth_upd_inv _ _ _ _ _ Hq) as [(<- & -> & _)|(_ & Hq')]; [reflexivity|]. destruct q; try reflexivity. destruct (Hd _ _ Hq').
Qed.
Print Assumptions C68_counted_partial.

(** Thread 1 is registered before thread 0 works and posts; it knows the work. *)
Example C68_counted_ex : exists w ths tr1 w2 ths2 e2 c tr2 K' k,
  exec wsem_step (wsem_init 2) [WCall 1 EWait; WRun 1 (SNorm, 0); WWork 0; WCall 0 EPost; WRun 0 (SNorm, 1); WRun 0 (SNorm, 1)]%nat = Some ((w, ths), tr1) /\
  nth_error ths 0 = Some SSemPost /\ wsem_step (w, ths) (WRun 0 (SNorm, 0))%nat = Some ((w2, ths2), e2) /\
  exec wsem_step (w2, ths2) [WRun 1 (SNorm, 0); WRun 1 (SNorm, 0)]%nat = Some (c, tr2) /\ tr2 = [HEv (Ret 1%nat EWait EOk) K'] /\
  (forall o r, nth_error ths 1 <> Some (SDone o r)) /\ In (HWork 0%nat k) tr1 /\ In k K' /\ ~ In k (wkn w 1).
Proof.
  eexists. eexists. eexists. eexists. eexists. eexists. eexists. eexists. eexists. eexists. split; [vm_compute; reflexivity|]. split; [reflexivity|]. split; [vm_compute; reflexivity|]. split; [vm_compute; reflexivity|].
  split; [reflexivity|]. split; [discriminate|]. split; [cbn [In]; right; left; reflexivity|]. split; [vm_compute; tauto|]. vm_compute. lia.
Qed.

(** Moreover, as soon as a post is counted (its compare-exchange succeeds, before the semaphore is posted), every wait, try_wait and timed wait that registers later, successful or not,
    knows everything its caller knew: through m_state. *)
Theorem C68_registered_partial : forall n s1 w ths tr1 u old ch w2 ths2 e2 s2 c tr2 a t o r K' d,
  Z.of_nat n < 2 ^ 31 - 1 -> exec wsem_step (wsem_init n) s1 = Some ((w, ths), tr1) ->
  nth_error ths u = Some (SCas old) -> wsem_step (w, ths) (WRun u ch) = Some ((w2, ths2), e2) -> nth_error ths2 u = Some SSemPost ->
  exec wsem_step (w2, ths2) s2 = Some (c, tr2) -> tr2 = a ++ HEv (Ret t o r) K' :: d -> o = EWait \/ o = ETry \/ o = ETimed ->
  (nth_error ths t = Some SRest \/ exists k, nth_error ths t = Some (SAdd k)) -> incl (wkn w u) K'.
Proof.
  intros n s1 w ths tr1 u old ch w2 ths2 e2 s2 c tr2 a t o r K' d Hn H1 Hu Hs Hp H2 E0 Ho Ht. pose proof (WS_exec _ _ _ _ Hn H1) as HW. pose proof Hs as Hs0.
  unfold wsem_step in Hs. cbn [wstep] in Hs. rewrite Hu in Hs. cbn [as_ret] in Hs.
  destruct (wsem_run u w ths (SCas old) ch) as [c1|] eqn:E; [|discriminate Hs]. injection Hs as -> _.
  destruct (wsem_eff _ _ _ _ _ _ _ _ Hn HW Hu E) as (p' & -> & He & _). rewrite (nth_upd_eq _ _ _ _ Hu) in Hp. injection Hp as ->.
  destruct He as [E1 E2 S1 S2 S3 S4 S5 S6 S7|x E1 E2 X1 X2 X3 S1 S2 S3 S4 Y1 Y2 Y3 Y4|x E1 E2 X1 Ep _ X2 X3 X4|k x E1 E2 X1 Ep _ X2 X3 X4 X5]; [discriminate S3| |discriminate Ep|discriminate Ep].
  eapply wsem_reg; [exact Hn| |exact H2|rewrite (trel_end _ _ _ _ E1); apply Y2; reflexivity| |exact E0|destruct Ho as [-> | [-> | ->]]; discriminate].
  - eapply wsem_case; eauto.
  - intros q Hq. destruct (nth_upd_inv _ _ _ _ _ Hq) as [(<- & -> & _)|(_ & Hq')]; [auto|]. destruct Ht as [Ht|(k & Ht)]; rewrite Ht in Hq'; injection Hq' as <-; auto.
Qed.
Print Assumptions C68_registered_partial.

(** Thread 0 works and posts but has not posted the semaphore; thread 1's try_wait fails and knows the work. *)
Example C68_registered_ex : exists w ths tr1 w2 ths2 e2 c tr2 K' k,
  exec wsem_step (wsem_init 2) [WWork 0; WCall 0 EPost; WRun 0 (SNorm, 0)]%nat = Some ((w, ths), tr1) /\
  nth_error ths 0 = Some (SCas 0) /\ wsem_step (w, ths) (WRun 0 (SNorm, 0))%nat = Some ((w2, ths2), e2) /\ nth_error ths2 0 = Some SSemPost /\
  exec wsem_step (w2, ths2) [WCall 1 ETry; WRun 1 (SNorm, 1); WRun 1 (SNorm, 0); WRun 1 (SNorm, 2); WRun 1 (SNorm, 0)]%nat = Some (c, tr2) /\
  (exists K, tr2 = [HEv (Call 1%nat ETry) K; HEv (Ret 1%nat ETry EFalse) K']) /\ nth_error ths 1 = Some SRest /\ In (HWork 0%nat k) tr1 /\ In k K'.
Proof.
  eexists. eexists. eexists. eexists. eexists. eexists. eexists. eexists. eexists. eexists. split; [vm_compute; reflexivity|]. split; [reflexivity|]. split; [vm_compute; reflexivity|]. split; [reflexivity|].
  split; [vm_compute; reflexivity|]. split; [eexists; reflexivity|]. split; [reflexivity|]. split; [cbn [In]; left; reflexivity|]. vm_compute. tauto.
Qed.

(** Every successful wait knows what happened before some post() called earlier. *)
Theorem C68_some_partial : forall n sched c tr a t o r K' d,
  Z.of_nat n < 2 ^ 31 - 1 -> exec wsem_step (wsem_init n) sched = Some (c, tr) -> tr = a ++ HEv (Ret t o r) K' :: d ->
  (o = EWait /\ r = EOk) \/ (o = ETry /\ r = ETrue) \/ (o = ETimed /\ r = ETrue) ->
  exists u K, In (HEv (Call u EPost) K) a /\ incl K K'.
Proof.
  intros n sched c tr a t o r K' d Hn H E0 Ho. eapply wsem_some; eauto. destruct Ho as [(-> & ->)|[(-> & ->)|(-> & ->)]]; reflexivity.
Qed.
Print Assumptions C68_some_partial.

(** Hand-off: a post called when every earlier post has been consumed by a wait that returned, and the caller knows of these waits, is not lost: everything before it happens before the return
    of every successful wait that comes before the next call of post(). *)
Theorem C68_handoff_partial : forall n sched c tr a u K b t o r K' d,
  Z.of_nat n < 2 ^ 31 - 1 -> exec wsem_step (wsem_init n) sched = Some (c, tr) ->
  tr = a ++ HEv (Call u EPost) K :: b ++ HEv (Ret t o r) K' :: d ->
  (o = EWait /\ r = EOk) \/ (o = ETry /\ r = ETrue) \/ (o = ETimed /\ r = ETrue) ->
  takes (flat_map base_ev a) = posts_called (flat_map base_ev a) ->
  (forall v o r L, In (HEv (Ret v o r) L) a -> took o r = 1 -> incl L K) ->
  (forall v L, ~ In (HEv (Call v EPost) L) b) -> incl K K' /\ forall k, In (HWork u k) a -> In k K'.
Proof.
  intros n sched c tr a u K b t o r K' d Hn H E0 Ho Ha Hk Hb.
  assert (G : incl K K').
  2: { split; [exact G|]. intros k Hin. apply G. eapply (wown_ev _ _ _ _ wsem_mono); [exact H|exact E0|exact Hin]. }
  destruct (exec_cut _ _ _ _ _ _ _ _ H E0) as (s1 & act & s2 & [w1 ths1] & [w2 ths2] & x1 & dd & es & d' & y1 & H1 & H2 & H3 & H4 & H5 & H6).
  pose proof (WSK_exec _ _ _ _ Hn H1) as HWK. pose proof HWK as (HW & HC & _). destruct (wsem_case _ _ _ _ _ _ _ Hn HW H2) as (HW2 & _ & Hc).
  assert (F : dd = [] /\ d' = [] /\ nth_error ths1 u = Some SRest /\ w2 = w1 /\ ths2 = upd ths1 u SLoad /\ K = wkn w1 u).
  { destruct Hc as [t1 o1 Ht -> -> ->|t1 o1 r1 Ht -> -> ->|t1 p p' Ht Hd -> He ->|E1 E2 -> Ee].
    - destruct dd as [|? [|]]; try discriminate H4. injection H4 as -> -> <- <-. auto 10.
    - destruct dd as [|? [|]]; discriminate H4.
    - destruct dd; discriminate H4.
    - rewrite H4, flat_map_app in Ee. cbn in Ee. destruct (flat_map base_ev dd); discriminate Ee. }
  destruct F as (-> & -> & Hu & -> & -> & ->). rewrite app_nil_r in H5. subst x1. cbn [app] in H6. subst y1.
  unfold SC in HC. cbn [fst snd] in HC. fold (wtakes a) (wcalled a) in Ha.
  pose proof HW as (_ & _ & (Hv0 & Hst & _)). cbn [fst snd] in *.
  pose proof (sumf_nonneg sdtake ths1 (fun p => proj1 (sdtake01 p))) as N1. pose proof (sumf_nonneg sinpost ths1 (fun p => proj1 (sinpost01 p))) as N2.
  assert (Z1 : forall v q, nth_error ths1 v = Some q -> sdtake q = 0).
  { intros v q Hv. pose proof (sumf_elem sdtake _ _ _ (fun p => proj1 (sdtake01 p)) Hv). pose proof (sdtake01 q). lia. }
  assert (Z2 : forall v q, nth_error ths1 v = Some q -> sinpost q = 0).
  { intros v q Hv. pose proof (sumf_elem sinpost _ _ _ (fun p => proj1 (sinpost01 p)) Hv). pose proof (sinpost01 q). lia. }
  assert (Z3 : sumf spst ths1 <= 0).
  { assert (sumf spst ths1 <= sumf sinpost ths1) by (apply sumf_le; intros []; cbn; lia). lia. }
  assert (J0 : SJ n (wkn w1 u) u (w1, upd ths1 u SLoad) []).
  { split; [exact HW2|]. intros _. left. cbn [fst snd]. split; [lia|]. split; [|split; [|split; [apply incl_refl|exists SLoad; rewrite (nth_upd_eq _ _ _ _ Hu); split; [reflexivity|split; [reflexivity|right]]]]].
    - intros v q Hv. destruct (nth_upd_inv _ _ _ _ _ Hv) as [(<- & -> & _)|(_ & Hv')]; [reflexivity|eauto].
    - intros v q Hv Hq. destruct (nth_upd_inv _ _ _ _ _ Hv) as [(<- & -> & _)|(_ & Hv')]; [reflexivity|]. rewrite (Z2 _ _ Hv') in Hq. discriminate.
    - intros i m Hi Hr. assert (KT : sknows w1 ths1 a u) by (split; [exact Z1|exact Hk]). pose proof (sknows_readable _ _ _ _ _ _ _ HWK KT Hi Hr). lia. }
  refine (exec_events wsem_step (SJ n (wkn w1 u) u) (fun b x => match x with HEv (Ret t o r) K' => nopost b -> took o r = 1 -> incl (wkn w1 u) K' | _ => True end) _ J0 (SJ_step n _ _ Hn) _ s2 c _ b (HEv (Ret t o r) K') d H3 eq_refl Hb _).
  - intros [w ths] tr0 act0 [w' ths'] es0 d0 x b0 (HW0 & HJ0) Hs0 Ees. destruct x as [|[|t0 o0 r0] K0]; try exact I. intros Hnp Hg.
    destruct (wsem_case _ _ _ _ _ _ _ Hn HW0 Hs0) as (_ & _ & Hc0). destruct (scase_ret _ _ _ _ _ _ _ _ _ _ _ Hc0 Ees) as (-> & Ht0 & ->). rewrite app_nil_r in Hnp.
    destruct (HJ0 Hnp) as [(_ & A2 & _)|(_ & B2)]; cbn [fst snd] in *; [specialize (A2 _ _ Ht0); cbn in A2; lia|exact (B2 _ _ Ht0 Hg)].
  - destruct Ho as [(-> & ->)|[(-> & ->)|(-> & ->)]]; reflexivity.
Qed.
Print Assumptions C68_handoff_partial.

(** Thread 0 posts, thread 1 consumes, tells thread 2 and waits again; thread 2 works and posts; thread 1 knows the work. *)
Example C68_handoff_ex : exists c tr a K b K' d k,
  exec wsem_step (wsem_init 3)
    [WCall 0 EPost; WRun 0 (SNorm, 0); WRun 0 (SNorm, 0); WRun 0 (SNorm, 0); WRun 0 (SNorm, 0); WCall 1 EWait; WRun 1 (SNorm, 1); WRun 1 (SNorm, 0); WRun 1 (SNorm, 0);
     WClient 1 2 (CStore true 5%Z) 0; WCall 1 EWait; WRun 1 (SNorm, 2);
     WClient 2 2 (CLoad true) 1; WWork 2; WCall 2 EPost; WRun 2 (SNorm, 2); WRun 2 (SNorm, 3); WRun 2 (SNorm, 3); WRun 2 (SNorm, 0); WRun 2 (SNorm, 0);
     WRun 1 (SNorm, 0); WRun 1 (SNorm, 0)]%nat = Some (c, tr) /\
  tr = a ++ HEv (Call 2%nat EPost) K :: b ++ HEv (Ret 1%nat EWait EOk) K' :: d /\
  takes (flat_map base_ev a) = posts_called (flat_map base_ev a) /\ In (HWork 2%nat k) a /\ In k K' /\ (exists L, In (HEv (Ret 1%nat EWait EOk) L) a) /\
  (forall v o r L, In (HEv (Ret v o r) L) a -> took o r = 1 -> incl L K) /\ (forall v L, ~ In (HEv (Call v EPost) L) b).
Proof.
  eexists. eexists. eexists [_; _; _; _; _; _]. eexists. eexists [_]. eexists. eexists. eexists. split; [vm_compute; reflexivity|]. split; [reflexivity|]. split; [reflexivity|].
  split; [cbn [In]; do 5 right; left; reflexivity|]. split; [vm_compute; tauto|]. split; [eexists; cbn [In]; do 3 right; left; reflexivity|]. split.
  - intros v o r K Hin. cbn [In] in Hin.
    repeat (destruct Hin as [E|Hin]; [first [discriminate E|injection E as <- <- <- <-; intros F; first [discriminate F|intros x Hx; revert Hx; vm_compute; tauto]]|]); contradiction.
  - intros v L [E|[]]. discriminate E.
Qed.
