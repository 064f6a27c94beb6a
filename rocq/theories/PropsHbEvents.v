(** Property theorems: what post() and set() publish to the waits they release (C49). *)
From Coq Require Import List Bool Arith ZArith Lia.
From Verif Require Import ListSum Exec Events Lin Thr Word EventSpec FlagSpec AutoFutexModel AutoFutexProof AutoSemModel AutoSemProof ManualFutexModel Hb HbSpin HbTokens HbAuto HbAutoSem HbManual.
Import ListNotations.
Local Open Scope nat_scope.

(** * manual_reset_event (Linux) *)

(** C49, manual_reset_event: whatever happened before the call of set() by [u] happens before the return of every wait that is called after that set()
    returned and reports the event as signalled; also when the event was signalled already, and whatever resets and sets come in between. *)
Theorem C49_manual : forall n sched c tr a u K b Kr b2 t o Kc b3 r K' d,
  exec man_hstep (man_init n, hst0) sched = Some (c, tr) ->
  tr = a ++ HEv (Call u FSet) K :: b ++ HEv (Ret u FSet FOk) Kr :: b2 ++ HEv (Call t o) Kc :: b3 ++ HEv (Ret t o r) K' :: d ->
  (o = FWait /\ r = FOk) \/ (o = FTry /\ r = FTrue) \/ (o = FTimed /\ r = FTrue) ->
  incl K K' /\ forall k, In (HWork u k) a -> In k K'.
Proof.
  intros n sched c tr a u K b Kr b2 t o Kc b3 r K' d H E0 Ho.
  assert (G : incl K K').
  { eapply man_published; [exact H|exact E0|]. destruct Ho as [(-> & ->)|[(-> & ->)|(-> & ->)]]; reflexivity. }
  split; [exact G|]. intros k Hk. apply G. eapply (hb_own man_step man_who man_acts ev_thr man_thr); [exact H|exact E0|exact Hk].
Qed.
Print Assumptions C49_manual.

(** The same for waits that overlap the set(): from the moment of the atomic operation of set() on, everything its caller knows is known to every wait
    that does not have its result yet. *)
Theorem C49_manual_now : forall n s1 s ths h tr1 u ch c2 e2 s2 c tr2 a t o r K' d,
  exec man_hstep (man_init n, hst0) s1 = Some (((s, ths), h), tr1) ->
  nth_error ths u = Some FOr ->
  man_hstep ((s, ths), h) (HBase (FRun u ch)) = Some (c2, e2) ->
  exec man_hstep c2 s2 = Some (c, tr2) -> tr2 = a ++ HEv (Ret t o r) K' :: d ->
  (o = FWait /\ r = FOk) \/ (o = FTry /\ r = FTrue) \/ (o = FTimed /\ r = FTrue) ->
  (forall o r, nth_error ths t <> Some (FDone o r)) -> incl (kn h u) K'.
Proof.
  intros n s1 s ths h tr1 u ch c2 e2 s2 c tr2 a t o r K' d H1 Hu Hs H2 E0 Ho Hd.
  eapply man_published_now; eauto. destruct Ho as [(-> & ->)|[(-> & ->)|(-> & ->)]]; reflexivity.
Qed.
Print Assumptions C49_manual_now.

(** Every wait that reports the event as signalled knows what happened before some set() that was called earlier. *)
Theorem C49_manual_some : forall n sched c tr a t o r K' d,
  exec man_hstep (man_init n, hst0) sched = Some (c, tr) -> tr = a ++ HEv (Ret t o r) K' :: d ->
  (o = FWait /\ r = FOk) \/ (o = FTry /\ r = FTrue) \/ (o = FTimed /\ r = FTrue) ->
  exists u K, In (HEv (Call u FSet) K) a /\ incl K K'.
Proof.
  intros n sched c tr a t o r K' d H E0 Ho. eapply man_some; eauto. destruct Ho as [(-> & ->)|[(-> & ->)|(-> & ->)]]; reflexivity.
Qed.
Print Assumptions C49_manual_some.

(** Thread 2 sets the event; thread 0 works (7) and sets it again although it is signalled; thread 1 waits and knows 7. *)
Example C49_manual_ex : exists c tr a b b2 b3 d,
  exec man_hstep (man_init 3, hst0)
    (map HBase [FCall 2 FSet; FRun 2 FNorm; FRun 2 FNorm] ++ HDo 0 7 :: map HBase [FCall 0 FSet; FRun 0 FNorm; FRun 0 FNorm; FCall 1 FWait; FRun 1 FNorm; FRun 1 FNorm]) = Some (c, tr) /\
  tr = a ++ HEv (Call 0 FSet) [7] :: b ++ HEv (Ret 0 FSet FOk) [7] :: b2 ++ HEv (Call 1 FWait) [] :: b3 ++ HEv (Ret 1 FWait FOk) [7] :: d.
Proof. eexists. eexists. eexists [_; _; _]. eexists []. eexists []. eexists []. eexists. split; [vm_compute; reflexivity|reflexivity]. Qed.

(** * auto_reset_event (Linux) *)

(** C49 is false of post() on an event that is signalled already: thread 1 works (7) and posts; the event has an undelivered post and no waiter, so post() only executes
    a release fence, which is followed by no store and so synchronises with nothing; the wait called by thread 2 after post() returned consumes the post and does not know 7. *)
Theorem C49_auto_refuted : exists n sched c tr a u K b Kr b2 t K' d,
  exec auto_hstep (auto_init n, hst0) sched = Some (c, tr) /\
  tr = a ++ HEv (Call u EPost) K :: b ++ HEv (Ret u EPost EOk) Kr :: b2 ++ HEv (Ret t EWait EOk) K' :: d /\
  In (HEv (Call t EWait) []) b2 /\ In (HWork u 7) a /\ In 7 K /\ ~ In 7 K'.
Proof.
  exists 3. exists (map HBase [ACall 0 EPost; ARun 0 CNorm; ARun 0 CNorm; ARun 0 CNorm] ++ HDo 1 7 :: map HBase [ACall 1 EPost; ARun 1 CNorm; ARun 1 CNorm; ACall 2 EWait; ARun 2 CNorm; ARun 2 CNorm; ARun 2 CNorm]).
  eexists. eexists. eexists [_; _; _]. exists 1. eexists. eexists []. eexists. eexists [_]. exists 2. eexists. eexists. split; [vm_compute; reflexivity|]. split; [reflexivity|].
  split; [left; reflexivity|]. split; [cbn; tauto|]. split; [cbn; tauto|]. cbn. tauto.
Qed.
Print Assumptions C49_auto_refuted.

(** What holds: a post called when every earlier post has been consumed by a wait that returned. Everything before it happens before the return of every
    successful wait that comes before the next call of post() (hand-off). *)
Theorem C49_auto_handoff_partial : forall n sched c tr a u K b t o r K' d,
  (Z.of_nat n <= 1022)%Z ->
  exec auto_hstep (auto_init n, hst0) sched = Some (c, tr) ->
  tr = a ++ HEv (Call u EPost) K :: b ++ HEv (Ret t o r) K' :: d ->
  (o = EWait /\ r = EOk) \/ (o = ETry /\ r = ETrue) \/ (o = ETimed /\ r = ETrue) ->
  takes (flat_map base_ev a) = posts_called (flat_map base_ev a) ->
  (forall v L, ~ In (HEv (Call v EPost) L) b) -> incl K K'.
Proof.
  intros n sched c tr a u K b t o r K' d Hn H E0 Ho Ha Hb.
  assert (E1 : tr = (a ++ HEv (Call u EPost) K :: b) ++ HEv (Ret t o r) K' :: d) by (rewrite E0, <- app_assoc; reflexivity).
  refine (proj2 (auto_hb n Hn sched c tr H _ t o r K' d E1 _) a u K b eq_refl Ha Hb). destruct Ho as [(-> & ->)|[(-> & ->)|(-> & ->)]]; reflexivity.
Qed.
Print Assumptions C49_auto_handoff_partial.

(** Every successful wait knows what happened before some post() called earlier. *)
Theorem C49_auto_some_partial : forall n sched c tr a t o r K' d,
  (Z.of_nat n <= 1022)%Z ->
  exec auto_hstep (auto_init n, hst0) sched = Some (c, tr) -> tr = a ++ HEv (Ret t o r) K' :: d ->
  (o = EWait /\ r = EOk) \/ (o = ETry /\ r = ETrue) \/ (o = ETimed /\ r = ETrue) ->
  exists u K, In (HEv (Call u EPost) K) a /\ incl K K'.
Proof.
  intros n sched c tr a t o r K' d Hn H E0 Ho. refine (proj1 (auto_hb n Hn sched c tr H a t o r K' d E0 _)). destruct Ho as [(-> & ->)|[(-> & ->)|(-> & ->)]]; reflexivity.
Qed.
Print Assumptions C49_auto_some_partial.

(** A post that adds to the counter (its compare-exchange succeeds) publishes everything its caller knows to every wait that does not have its result yet. *)
Theorem C49_auto_counted_partial : forall n s1 s ths h tr1 u old ch c2 e2 s2 c tr2 a t o r K' d,
  (Z.of_nat n <= 1022)%Z ->
  exec auto_hstep (auto_init n, hst0) s1 = Some (((s, ths), h), tr1) ->
  nth_error ths u = Some (PCas old) -> s = old -> ch <> CSpur ->
  auto_hstep ((s, ths), h) (HBase (ARun u ch)) = Some (c2, e2) ->
  exec auto_hstep c2 s2 = Some (c, tr2) -> tr2 = a ++ HEv (Ret t o r) K' :: d ->
  (o = EWait /\ r = EOk) \/ (o = ETry /\ r = ETrue) \/ (o = ETimed /\ r = ETrue) ->
  (forall o r, nth_error ths t <> Some (ADone o r)) -> incl (kn h u) K'.
Proof.
  intros n s1 s ths h tr1 u old ch c2 e2 s2 c tr2 a t o r K' d Hn H1 Hu <- Hch Hs H2 E0 Ho Hd.
  assert (HR : hreach auto_step (auto_init n) (s, ths)) by (eexists; eexists; eapply hb_proj; exact H1).
  refine (auto_now n Hn (s, ths) h (ARun u ch) c2 e2 s2 c tr2 t HR Hs _ H2 _ a o r K' d E0 _).
  - cbn [auto_acts snd fst]. rewrite Hu. cbn [auto_mem]. replace (cas_ok s s ch) with true; [reflexivity|]. unfold cas_ok. destruct ch; rewrite ?Z.eqb_refl; congruence.
  - intros p Hp. cbn [snd] in Hp. destruct p; try reflexivity. exfalso. eapply Hd; eauto.
  - destruct Ho as [(-> & ->)|[(-> & ->)|(-> & ->)]]; reflexivity.
Qed.
Print Assumptions C49_auto_counted_partial.

(** Two rounds of the hand-off: 7 is passed from thread 0 to thread 1, then 8 in the same way; the second hand-off starts with all posts consumed. *)
Example C49_auto_ex : exists c tr a b d,
  exec auto_hstep (auto_init 2, hst0)
    (HDo 0 7 :: map HBase [ACall 0 EPost; ARun 0 CNorm; ARun 0 CNorm; ARun 0 CNorm; ACall 1 ETry; ARun 1 CNorm; ARun 1 CNorm; ARun 1 CNorm] ++
     HDo 0 8 :: map HBase [ACall 0 EPost; ACall 1 EWait; ARun 1 CNorm; ARun 1 CNorm; ARun 0 CNorm; ARun 0 CNorm; ARun 1 CNorm; ARun 0 CNorm; ARun 1 CNorm; ARun 1 CNorm; ARun 1 CNorm]) = Some (c, tr) /\
  tr = a ++ HEv (Call 0 EPost) [8; 7] :: b ++ HEv (Ret 1 EWait EOk) [8; 7; 7; 7] :: d /\ takes (flat_map base_ev a) = posts_called (flat_map base_ev a) /\ In (HEv (Ret 1 ETry ETrue) [7]) a.
Proof. eexists. eexists. eexists [_; _; _; _; _; _]. eexists [_]. eexists. split; [vm_compute; reflexivity|]. split; [reflexivity|]. split; [reflexivity|]. cbn. tauto. Qed.

(** * auto_reset_event over a semaphore *)

(** The same gap: the absorbed post executes only a release fence. *)
Theorem C49_sem_refuted : exists n sched c tr a u K b Kr b2 t K' d,
  exec as_hstep (as_init n, hst0) sched = Some (c, tr) /\
  tr = a ++ HEv (Call u EPost) K :: b ++ HEv (Ret u EPost EOk) Kr :: b2 ++ HEv (Ret t EWait EOk) K' :: d /\
  In (HEv (Call t EWait) []) b2 /\ In (HWork u 7) a /\ In 7 K /\ ~ In 7 K'.
Proof.
  exists 3. exists (map HBase [TCall 0 EPost; TRun 0 SNorm; TRun 0 SNorm; TRun 0 SNorm; TRun 0 SNorm] ++ HDo 1 7 :: map HBase [TCall 1 EPost; TRun 1 SNorm; TRun 1 SNorm; TCall 2 EWait; TRun 2 SNorm; TRun 2 SNorm; TRun 2 SNorm]).
  eexists. eexists. eexists [_; _; _]. exists 1. eexists. eexists []. eexists. eexists [_]. exists 2. eexists. eexists. split; [vm_compute; reflexivity|]. split; [reflexivity|].
  split; [left; reflexivity|]. split; [cbn; tauto|]. split; [cbn; tauto|]. cbn. tauto.
Qed.
Print Assumptions C49_sem_refuted.

Theorem C49_sem_handoff_partial : forall n sched c tr a u K b t o r K' d,
  (Z.of_nat n < 2 ^ 31 - 1)%Z ->
  exec as_hstep (as_init n, hst0) sched = Some (c, tr) ->
  tr = a ++ HEv (Call u EPost) K :: b ++ HEv (Ret t o r) K' :: d ->
  (o = EWait /\ r = EOk) \/ (o = ETry /\ r = ETrue) \/ (o = ETimed /\ r = ETrue) ->
  takes (flat_map base_ev a) = posts_called (flat_map base_ev a) ->
  (forall v L, ~ In (HEv (Call v EPost) L) b) -> incl K K'.
Proof.
  intros n sched c tr a u K b t o r K' d Hn H E0 Ho Ha Hb.
  assert (E1 : tr = (a ++ HEv (Call u EPost) K :: b) ++ HEv (Ret t o r) K' :: d) by (rewrite E0, <- app_assoc; reflexivity).
  refine (proj2 (as_hb n Hn sched c tr H _ t o r K' d E1 _) a u K b eq_refl Ha Hb). destruct Ho as [(-> & ->)|[(-> & ->)|(-> & ->)]]; reflexivity.
Qed.
Print Assumptions C49_sem_handoff_partial.

Theorem C49_sem_some_partial : forall n sched c tr a t o r K' d,
  (Z.of_nat n < 2 ^ 31 - 1)%Z ->
  exec as_hstep (as_init n, hst0) sched = Some (c, tr) -> tr = a ++ HEv (Ret t o r) K' :: d ->
  (o = EWait /\ r = EOk) \/ (o = ETry /\ r = ETrue) \/ (o = ETimed /\ r = ETrue) ->
  exists u K, In (HEv (Call u EPost) K) a /\ incl K K'.
Proof.
  intros n sched c tr a t o r K' d Hn H E0 Ho. refine (proj1 (as_hb n Hn sched c tr H a t o r K' d E0 _)). destruct Ho as [(-> & ->)|[(-> & ->)|(-> & ->)]]; reflexivity.
Qed.
Print Assumptions C49_sem_some_partial.

Theorem C49_sem_counted_partial : forall n s1 s ths h tr1 u ch c2 e2 s2 c tr2 a t o r K' d,
  (Z.of_nat n < 2 ^ 31 - 1)%Z ->
  exec as_hstep (as_init n, hst0) s1 = Some (((s, ths), h), tr1) ->
  nth_error ths u = Some SSemPost ->
  as_hstep ((s, ths), h) (HBase (TRun u ch)) = Some (c2, e2) ->
  exec as_hstep c2 s2 = Some (c, tr2) -> tr2 = a ++ HEv (Ret t o r) K' :: d ->
  (o = EWait /\ r = EOk) \/ (o = ETry /\ r = ETrue) \/ (o = ETimed /\ r = ETrue) ->
  (forall o r, nth_error ths t <> Some (SDone o r)) -> incl (kn h u) K'.
Proof.
  intros n s1 s ths h tr1 u ch c2 e2 s2 c tr2 a t o r K' d Hn H1 Hu Hs H2 E0 Ho Hd.
  assert (HR : hreach as_step (as_init n) (s, ths)) by (eexists; eexists; eapply hb_proj; exact H1).
  refine (as_now n Hn (s, ths) h (TRun u ch) c2 e2 s2 c tr2 t HR Hs _ H2 _ a o r K' d E0 _).
  - cbn [as_acts snd fst]. rewrite Hu. destruct s; reflexivity.
  - intros p Hp. cbn [snd] in Hp. destruct p; try reflexivity. exfalso. eapply Hd; eauto.
  - destruct Ho as [(-> & ->)|[(-> & ->)|(-> & ->)]]; reflexivity.
Qed.
Print Assumptions C49_sem_counted_partial.

(** Thread 1 waits first, thread 0 works (7) and posts, thread 1 wakes up and knows 7. *)
Example C49_sem_ex : exists c tr a b d,
  exec as_hstep (as_init 2, hst0)
    (map HBase [TCall 1 EWait; TRun 1 SNorm] ++ HDo 0 7 :: map HBase [TCall 0 EPost; TRun 0 SNorm; TRun 0 SNorm; TRun 0 SNorm; TRun 1 SNorm; TRun 1 SNorm]) = Some (c, tr) /\
  tr = a ++ HEv (Call 0 EPost) [7] :: b ++ HEv (Ret 1 EWait EOk) [7] :: d /\ takes (flat_map base_ev a) = posts_called (flat_map base_ev a).
Proof. eexists. eexists. eexists [_; _]. eexists []. eexists. split; [vm_compute; reflexivity|]. split; reflexivity. Qed.
