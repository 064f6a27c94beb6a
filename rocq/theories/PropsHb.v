(** Property theorems: what is published by unlocking and locking (C03: spin mutexes; C21: Windows mutex). *)
From Coq Require Import List Bool Arith ZArith Lia.
From Verif Require Import ListSum Exec Events Lin Thr Word MutexSpec RwSpec SpinModel SpinProof SharedSpinModel SharedSpinProof WinMutexModel WinMutexProof Hb HbSpin HbSharedSpin HbWinMutex.
Import ListNotations.
Local Open Scope nat_scope.

(** C03 (test-and-test-and-set): whatever happened before the call of unlock() by [u] (all of [K], in particular every piece of work [u] itself did before)
    happens before the return of every later successful lock() or try_lock(). Any number of threads, any schedule. *)
Theorem C03_ttas : forall n sched c tr a u K b t o r K' d,
  exec ttas_hstep (spin_init n, hst0) sched = Some (c, tr) ->
  tr = a ++ HEv (Call u MUnlock) K :: b ++ HEv (Ret t o r) K' :: d ->
  (o = MLock /\ r = ROk) \/ (o = MTryLock /\ r = RTrue) ->
  incl K K' /\ forall k, In (HWork u k) a -> In k K'.
Proof.
  intros n sched c tr a u K b t o r K' d H E0 Ho.
  assert (G : incl K K').
  { eapply (spin_hb _ _ ttas_entry_ok ttas_ok ttas_mem); [exact H|exact E0|]. destruct Ho as [(-> & ->)|(-> & ->)]; reflexivity. }
  split; [exact G|]. intros k Hk. apply G.
  eapply (hb_own ttas_step spin_who spin_acts ev_thr); [|exact H|exact E0|exact Hk].
  intros [s ths] act c' es e Hs Hin. apply spin_cases in Hs.
  destruct Hs as [(t0 & o0 & m & p & -> & _ & _ & _ & _ & ->)|[(t0 & m & o0 & r0 & -> & _ & _ & ->)|(t0 & p & s' & p' & -> & _ & _ & _ & ->)]]; cbn in Hin; try (destruct Hin as [<-|[]]; reflexivity); destruct Hin.
Qed.
Print Assumptions C03_ttas.

Theorem C03_tas : forall n sched c tr a u K b t o r K' d,
  exec tas_hstep (spin_init n, hst0) sched = Some (c, tr) ->
  tr = a ++ HEv (Call u MUnlock) K :: b ++ HEv (Ret t o r) K' :: d ->
  (o = MLock /\ r = ROk) \/ (o = MTryLock /\ r = RTrue) ->
  incl K K' /\ forall k, In (HWork u k) a -> In k K'.
Proof.
  intros n sched c tr a u K b t o r K' d H E0 Ho.
  assert (G : incl K K').
  { eapply (spin_hb _ _ tas_entry_ok tas_ok tas_mem); [exact H|exact E0|]. destruct Ho as [(-> & ->)|(-> & ->)]; reflexivity. }
  split; [exact G|]. intros k Hk. apply G.
  eapply (hb_own tas_step spin_who spin_acts ev_thr); [|exact H|exact E0|exact Hk].
  intros [s ths] act c' es e Hs Hin. apply spin_cases in Hs.
  destruct Hs as [(t0 & o0 & m & p & -> & _ & _ & _ & _ & ->)|[(t0 & m & o0 & r0 & -> & _ & _ & ->)|(t0 & p & s' & p' & -> & _ & _ & _ & ->)]]; cbn in Hin; try (destruct Hin as [<-|[]]; reflexivity); destruct Hin.
Qed.
Print Assumptions C03_tas.

(** Thread 0 works (7), unlocks; thread 1, which was already spinning, takes the lock and knows 7 but not the later piece 8. *)
Example C03_ex : exists c b d,
  exec ttas_hstep (spin_init 2, hst0)
    [HBase (SCall 0 MLock); HBase (SRun 0); HBase (SRun 0); HBase (SRun 0); HBase (SCall 1 MLock); HBase (SRun 1); HDo 0 7; HBase (SCall 0 MUnlock); HBase (SRun 0);
     HDo 0 8; HBase (SRun 0); HBase (SRun 1); HBase (SRun 1); HBase (SRun 1)]
  = Some (c, [HEv (Call 0 MLock) []; HEv (Ret 0 MLock ROk) []; HEv (Call 1 MLock) []; HWork 0 7] ++ HEv (Call 0 MUnlock) [7] :: b ++ HEv (Ret 1 MLock ROk) [7] :: d)
  /\ b = [HWork 0 8; HEv (Ret 0 MUnlock ROk) [8; 7]].
Proof. eexists. eexists. eexists. split; [|reflexivity]. vm_compute. reflexivity. Qed.

Lemma rw_thr : forall c a c' es e, rw_step c a = Some (c', es) -> In e es -> ev_thr e = rw_who a.
Proof.
  intros [s ths] act c' es e Hs Hin. apply rw_cases in Hs.
  destruct Hs as [(t0 & o0 & m & -> & _ & _ & _ & ->)|[(t0 & b & m & o0 & r0 & -> & _ & _ & ->)|(t0 & b & p & s' & p' & -> & _ & _ & _ & ->)]]; cbn in Hin; try (destruct Hin as [<-|[]]; reflexivity); destruct Hin.
Qed.

(** C03 (shared_spin_mutex), exclusive locking: knows what happened before every earlier unlock() and unlock_shared(). *)
Theorem C03_shared_exclusive : forall n sched c tr a u x K b t o r K' d,
  exec rw_hstep (rw_init n, hst0) sched = Some (c, tr) ->
  tr = a ++ HEv (Call u x) K :: b ++ HEv (Ret t o r) K' :: d ->
  x = XUnlock \/ x = SUnlock ->
  (o = XLock /\ r = QOk) \/ (o = XTry /\ r = QTrue) ->
  incl K K' /\ forall k, In (HWork u k) a -> In k K'.
Proof.
  intros n sched c tr a u x K b t o r K' d H E0 Hx Ho.
  assert (G : incl K K').
  { assert (E1 : tr = (a ++ HEv (Call u x) K :: b) ++ HEv (Ret t o r) K' :: d) by (rewrite E0, <- app_assoc; reflexivity).
    refine (proj1 (rw_hb_pre _ _ _ _ _ _ _ _ _ _ H E1) _ u x K _ Hx); [destruct Ho as [(-> & ->)|(-> & ->)]; reflexivity|]. apply in_or_app. right. left. reflexivity. }
  split; [exact G|]. intros k Hk. apply G. eapply (hb_own rw_step rw_who rw_acts ev_thr rw_thr); [exact H|exact E0|exact Hk].
Qed.
Print Assumptions C03_shared_exclusive.

(** C03 (shared_spin_mutex), shared locking: knows what happened before every earlier exclusive unlock(). *)
Theorem C03_shared_shared : forall n sched c tr a u K b t o r K' d,
  exec rw_hstep (rw_init n, hst0) sched = Some (c, tr) ->
  tr = a ++ HEv (Call u XUnlock) K :: b ++ HEv (Ret t o r) K' :: d ->
  (o = SLock /\ r = QOk) \/ (o = RwSpec.STry /\ r = QTrue) ->
  incl K K' /\ forall k, In (HWork u k) a -> In k K'.
Proof.
  intros n sched c tr a u K b t o r K' d H E0 Ho.
  assert (G : incl K K').
  { assert (E1 : tr = (a ++ HEv (Call u XUnlock) K :: b) ++ HEv (Ret t o r) K' :: d) by (rewrite E0, <- app_assoc; reflexivity).
    refine (proj2 (rw_hb_pre _ _ _ _ _ _ _ _ _ _ H E1) _ u K _); [destruct Ho as [(-> & ->)|(-> & ->)]; reflexivity|]. apply in_or_app. right. left. reflexivity. }
  split; [exact G|]. intros k Hk. apply G. eapply (hb_own rw_step rw_who rw_acts ev_thr rw_thr); [exact H|exact E0|exact Hk].
Qed.
Print Assumptions C03_shared_shared.

(** Two readers (one of them worked, 5) leave, a writer enters and knows 5, works (6) and leaves, a reader enters and knows both. *)
Example C03_shared_ex : exists c tr a b d,
  exec rw_hstep (rw_init 3, hst0)
    (map HBase [RCall 0 SLock; RRun 0 false; RRun 0 false; RRun 0 false; RRun 0 false; RCall 1 RwSpec.STry; RRun 1 false; RRun 1 false; RRun 1 false] ++
     HDo 0 5 :: map HBase [RCall 0 SUnlock; RRun 0 false; RRun 0 false; RCall 1 SUnlock; RRun 1 false; RRun 1 false; RCall 2 XTry; RRun 2 false; RRun 2 false] ++
     HDo 2 6 :: map HBase [RCall 2 XUnlock; RRun 2 false; RRun 2 false; RCall 1 SLock; RRun 1 false; RRun 1 false; RRun 1 false; RRun 1 false]) = Some (c, tr) /\
  tr = a ++ HEv (Call 0 SUnlock) [5] :: b ++ HEv (Ret 2 XTry QTrue) [5] :: d /\
  exists d1 d2, d = d1 ++ HEv (Call 2 XUnlock) [6; 5] :: d2 /\ exists d3 d4, d2 = d3 ++ HEv (Ret 1 SLock QOk) [6; 5; 6; 5] :: d4.
Proof.
  eexists. eexists. eexists [_; _; _; _; _]. eexists [_; _; _; _]. eexists. split; [vm_compute; reflexivity|]. split; [reflexivity|].
  eexists [_]. eexists. split; [reflexivity|]. eexists [_; _]. eexists. reflexivity.
Qed.

(** * C21 *)

(** C21 is false of the code: thread 1 finds the mutex held, reads the counter, the owner (work 7) unlocks, thread 1's compare-exchange fails, is retried with the
    value it got and takes the lock with memory_order_relaxed; it does not know 7. *)
Theorem C21_refuted : exists n sched c tr a u K b t K' d,
  exec (wm_hstep false) (wm_init n, hst0) sched = Some (c, tr) /\
  tr = a ++ HEv (Call u MUnlock) K :: b ++ HEv (Ret t MLock ROk) K' :: d /\
  In (HWork u 7) a /\ In 7 K /\ ~ In 7 K'.
Proof.
  exists 2. exists (map HBase [TCall 0 MLock; TRun 0 CNorm; TRun 0 CNorm; TCall 1 MLock; TRun 1 CNorm; TRun 1 CNorm] ++ HDo 0 7 ::
    map HBase [TCall 0 MUnlock; TRun 0 CNorm; TRun 0 CNorm; TRun 1 CNorm; TRun 1 CNorm; TRun 1 CNorm]).
  eexists. eexists. eexists [_; _; _; _]. exists 0. eexists. eexists [_]. exists 1. eexists. eexists. split; [vm_compute; reflexivity|]. split; [reflexivity|].
  split; [cbn; tauto|]. split; [cbn; tauto|]. cbn. tauto.
Qed.
Print Assumptions C21_refuted.

(** The same through the event: thread 1 sleeps, thread 0 unlocks and sets the event, thread 2 locks, works (9) and unlocks before thread 1 has finished waking up;
    thread 1 takes the lock in clear_waiting_and_try_lock and does not know 9. *)
Theorem C21_event_refuted : exists n sched c tr a u K b t K' d,
  exec (wm_hstep false) (wm_init n, hst0) sched = Some (c, tr) /\
  tr = a ++ HEv (Call u MUnlock) K :: b ++ HEv (Ret t MLock ROk) K' :: d /\
  In (HWork u 9) a /\ In 9 K /\ ~ In 9 K' /\ In 7 K'.
Proof.
  exists 3. exists (map HBase [TCall 0 MLock; TRun 0 CNorm; TRun 0 CNorm; TCall 1 MLock; TRun 1 CNorm; TRun 1 CNorm; TRun 1 CNorm; TRun 1 CNorm; TRun 1 CNorm; TRun 1 CNorm] ++ HDo 0 7 ::
    map HBase [TCall 0 MUnlock; TRun 0 CNorm; TRun 0 CNorm; TRun 0 CNorm; TRun 0 CNorm; TRun 0 CNorm; TRun 1 CNorm; TCall 2 MLock; TRun 2 CNorm; TRun 2 CNorm] ++ HDo 2 9 ::
    map HBase [TCall 2 MUnlock; TRun 2 CNorm; TRun 2 CNorm; TRun 1 CSpur; TRun 1 CNorm; TRun 1 CNorm]).
  eexists. eexists. eexists [_; _; _; _; _; _; _; _; _]. exists 2. eexists. eexists [_]. exists 1. eexists. eexists. split; [vm_compute; reflexivity|]. split; [reflexivity|].
  split; [cbn; tauto|]. split; [cbn; tauto|]. split; cbn; [|tauto]. intuition discriminate.
Qed.
Print Assumptions C21_event_refuted.

Lemma wm_thr : forall c a c' es e, wm_step c a = Some (c', es) -> In e es -> ev_thr e = wm_who a.
Proof.
  intros [s ths] act c' es e Hs Hin. apply tstep_cases in Hs.
  destruct Hs as [(t & o & p & p' & -> & Ht & Hc & -> & ->)|[(t & ch & p & o & r & p' & -> & Ht & Hc & -> & ->)|(t & ch & p & -> & Ht & Hret & Hc & ->)]]; cbn in Hin; try (destruct Hin as [<-|[]]; reflexivity); destruct Hin.
Qed.

(** C21, what holds: a successful try_lock knows what happened before every earlier unlock (missing: lock and the timed functions, see the refutations). *)
Theorem C21_try_lock_partial : forall n sched c tr a u K b t K' d,
  (Z.of_nat n < 2 ^ 30)%Z ->
  exec (wm_hstep false) (wm_init n, hst0) sched = Some (c, tr) ->
  tr = a ++ HEv (Call u MUnlock) K :: b ++ HEv (Ret t MTryLock RTrue) K' :: d ->
  incl K K' /\ forall k, In (HWork u k) a -> In k K'.
Proof.
  intros n sched c tr a u K b t K' d Hn H E0.
  assert (G : incl K K').
  { assert (E1 : tr = (a ++ HEv (Call u MUnlock) K :: b) ++ HEv (Ret t MTryLock RTrue) K' :: d) by (rewrite E0, <- app_assoc; reflexivity).
    refine (proj2 (WJ_run false n Hn _ _ _ H) _ _ _ _ E1 eq_refl u K _). apply in_or_app. right. left. reflexivity. }
  split; [exact G|]. intros k Hk. apply G. eapply (hb_own wm_step wm_who (wm_acts false) ev_thr wm_thr); [exact H|exact E0|exact Hk].
Qed.
Print Assumptions C21_try_lock_partial.

(** C21, what holds: when the first attempt of lock() or of a timed function takes the mutex (the counter's lock bit is clear when it runs), the thread
    knows what happened before every earlier unlock at once. *)
Theorem C21_first_attempt_partial : forall n sched s ths h tr t k ch c' e u K,
  (Z.of_nat n < 2 ^ 30)%Z ->
  exec (wm_hstep false) (wm_init n, hst0) sched = Some (((s, ths), h), tr) ->
  nth_error ths t = Some (WFirst k) -> locked (word s) = false ->
  wm_hstep false ((s, ths), h) (HBase (TRun t ch)) = Some (c', e) ->
  In (HEv (Call u MUnlock) K) tr -> incl K (kn (snd c') t).
Proof.
  intros n sched s ths h tr t k ch c' e u K Hn H Ht Hl Hs Hin.
  destruct (WJ_run false n Hn _ _ _ H) as ((H1 & _) & _). cbn [fst snd] in H1.
  assert (HR : hreach wm_step (wm_init n) (s, ths)) by (eexists; eexists; eapply hb_proj; exact H).
  destruct (wm_reach _ _ Hn HR) as (HI & Hcap). destruct (WI_excl _ _ HI Hcap) as (Hfree & _).
  destruct (H1 u K Hin) as [G|(G & _)]; [|specialize (Hfree Hl _ _ G); discriminate].
  unfold wm_hstep in Hs. cbn [hstep fst snd] in Hs. destruct (wm_step (s, ths) (TRun t ch)) as [[c1 es]|]; [|discriminate]. injection Hs as <- _. cbn [snd wm_acts wm_who]. cbn [fst snd]. rewrite Ht.
  cbn. rewrite fset_eq. apply incl_appl. exact G.
Qed.
Print Assumptions C21_first_attempt_partial.

(** C21: nothing else is missing.  If the two compare-exchanges had acquire order, every successful lock would know what happened before every earlier unlock. *)
Theorem C21_with_acquire_partial : forall n sched c tr a u K b t o r K' d,
  (Z.of_nat n < 2 ^ 30)%Z ->
  exec (wm_hstep true) (wm_init n, hst0) sched = Some (c, tr) ->
  tr = a ++ HEv (Call u MUnlock) K :: b ++ HEv (Ret t o r) K' :: d ->
  (o = MLock /\ r = ROk) \/ (o = MTryLock /\ r = RTrue) \/ (o = MTimed /\ r = RTrue) ->
  incl K K'.
Proof.
  intros n sched c tr a u K b t o r K' d Hn H E0 Ho.
  assert (E1 : tr = (a ++ HEv (Call u MUnlock) K :: b) ++ HEv (Ret t o r) K' :: d) by (rewrite E0, <- app_assoc; reflexivity).
  refine (proj2 (WJ_run true n Hn _ _ _ H) _ _ _ _ E1 _ u K _); [|apply in_or_app; right; left; reflexivity].
  destruct Ho as [(-> & ->)|[(-> & ->)|(-> & ->)]]; reflexivity.
Qed.
Print Assumptions C21_with_acquire_partial.

(** The schedule of C21_refuted with the stronger orders: thread 1 knows 7; and a try_lock after an unlock, with the orders of the code. *)
Example C21_ex : exists c tr c2 tr2,
  exec (wm_hstep true) (wm_init 2, hst0) (map HBase [TCall 0 MLock; TRun 0 CNorm; TRun 0 CNorm; TCall 1 MLock; TRun 1 CNorm; TRun 1 CNorm] ++ HDo 0 7 ::
    map HBase [TCall 0 MUnlock; TRun 0 CNorm; TRun 0 CNorm; TRun 1 CNorm; TRun 1 CNorm; TRun 1 CNorm]) = Some (c, tr ++ [HEv (Ret 1 MLock ROk) [7]]) /\
  exec (wm_hstep false) (wm_init 2, hst0) (map HBase [TCall 0 MLock; TRun 0 CNorm; TRun 0 CNorm] ++ HDo 0 7 ::
    map HBase [TCall 0 MUnlock; TRun 0 CNorm; TRun 0 CNorm; TCall 1 MTryLock; TRun 1 CNorm; TRun 1 CNorm]) = Some (c2, tr2 ++ [HEv (Ret 1 MTryLock RTrue) [7]]).
Proof. eexists. eexists [_; _; _; _; _; _]. eexists. eexists [_; _; _; _; _; _]. split; vm_compute; reflexivity. Qed.
