(** Property theorems: the spin mutexes on weakly ordered memory (C59). *)
From Coq Require Import List Bool Arith ZArith Lia.
From Verif Require Import ListSum Exec Events Lin Word MutexSpec MutexSpecFacts RwSpec RwSpecFacts SpinModel SpinProof SharedSpinModel SharedSpinProof Hb HbSpin Weak WeakSpin WeakShared.
Import ListNotations.
Local Open Scope nat_scope.

(** * spin_mutex *)

(** Holding as the history shows it. *)
Definition sin (p : spc) : bool :=
  match p with SRest m => m | STry m => m | SDone m MUnlock _ => false | SDone m _ _ => m | _ => false end.
Lemma sin_holds p : sin p = true -> sholds p = true.
Proof. destruct p as [m| | |m| |m o r]; cbn; auto; try discriminate. destruct o, r; cbn; auto; discriminate. Qed.
Definition SH (c : wmem * list spc) (tr : list (hev (event mop mres))) : Prop :=
  forall t, In t (holders (flat_map base_ev tr)) -> exists p, nth_error (snd c) t = Some p /\ sin p = true.

Lemma SH_keep (ths : list spc) t p p' (h h' : list nat) : nth_error ths t = Some p ->
  (forall t, In t h -> exists p, nth_error ths t = Some p /\ sin p = true) -> (forall u, u <> t -> In u h' -> In u h) -> (In t h' -> sin p' = true) ->
  forall u, In u h' -> exists q, nth_error (upd ths t p') u = Some q /\ sin q = true.
Proof.
  intros Ht H H1 H2 u Hu. destruct (Nat.eq_dec u t) as [->|Hn].
  - exists p'. split; [eapply nth_upd_eq; eauto|auto].
  - rewrite nth_upd_neq by auto. apply H, H1; auto.
Qed.
Lemma SH_step ttas c tr a c' e : SH c tr -> wspin_step ttas c a = Some (c', e) -> SH c' (tr ++ e).
Proof.
  destruct c as [w ths]. intros HI Hs. apply wstep_cases in Hs. unfold SH in *. cbn [snd] in HI. rewrite flat_map_app.
  destruct Hs as [(t & o & p & p' & -> & Ht & Hc & -> & ->)|[(t & ch & p & o & r & p' & -> & Ht & Hr & -> & ->)|[(t & ch & p & -> & Ht & Hr & Hrun & ->)|[(t & -> & -> & ->)|(t & l & o & i & v & w' & -> & Hl & Hc & -> & ->)]]]];
    cbn [flat_map base_ev app snd]; rewrite ?app_nil_r; auto.
  - rewrite holders_snoc. eapply SH_keep; [exact Ht|exact HI| |].
    + intros u Hn. destruct o; cbn; auto. intros H. apply in_remove_all in H. tauto.
    + intros Hin. destruct p; cbn in Hc; try discriminate. destruct (mpre m o) eqn:Hp; [|discriminate].
      assert (G : In t (holders (flat_map base_ev tr)) -> m = true) by (intros H; destruct (HI _ H) as (q & Hq & Hs); rewrite Ht in Hq; injection Hq as <-; exact Hs).
      destruct o; cbn in Hin, Hp; try (rewrite (G Hin) in *; discriminate).
      * rewrite (G Hin) in *. destruct ttas; cbn in Hc; injection Hc as <-; reflexivity.
      * apply in_remove_all in Hin. tauto.
  - rewrite holders_snoc. destruct p; cbn in Hr; try discriminate. injection Hr as -> -> <-. eapply SH_keep; [exact Ht|exact HI| |].
    + intros u Hn. destruct o, r; cbn; auto; intros [F|]; auto; congruence.
    + intros Hin. cbn. assert (G : In t (holders (flat_map base_ev tr)) -> o <> MUnlock /\ m = true).
      { intros H; destruct (HI _ H) as (q & Hq & Hs); rewrite Ht in Hq; injection Hq as <-. destruct o; cbn in Hs; split; congruence. }
      destruct o, r; cbn in *; auto; destruct (G Hin); congruence.
  - assert (exists p', snd c' = upd ths t p' /\ (sin p = true -> sin p' = true)) as (p' & E & Hp').
    { destruct p; cbn [wspin_run] in Hrun; try discriminate.
      - destruct ttas; [|discriminate]. destruct (wload _ _ _ _ _) as [[v w1]|]; [|discriminate]. injection Hrun as <-. eexists. split; [reflexivity|]. discriminate.
      - destruct (wrmw _ _ _ _ _ _ _) as [[v w1]|]; [|discriminate]. injection Hrun as <-. eexists. split; [reflexivity|]. discriminate.
      - destruct (wrmw _ _ _ _ _ _ _) as [[v w1]|]; [|discriminate]. injection Hrun as <-. eexists. split; [reflexivity|]. auto.
      - destruct (wstore _ _ _ _ _ _) as [w1|]; [|discriminate]. injection Hrun as <-. eexists. split; [reflexivity|]. discriminate. }
    rewrite E. eapply SH_keep; [exact Ht|exact HI|auto|]. intros Hin. destruct (HI _ Hin) as (q & Hq & Hs). rewrite Ht in Hq. injection Hq as <-. auto.
Qed.

(** C59: on weakly ordered memory, with loads that may return old values, at most one thread holds the mutex (both implementations; any number of threads). *)
Theorem C59_spin_exclusion : forall ttas n sched c tr t u,
  exec (wspin_step ttas) (wspin_init n) sched = Some (c, tr) ->
  In t (holders (flat_map base_ev tr)) -> In u (holders (flat_map base_ev tr)) -> t = u.
Proof.
  intros ttas n sched c tr t u H Ht Hu. pose proof (WI_exec _ _ _ _ _ H) as (_ & HC).
  assert (HS : SH c tr).
  { revert H. apply exec_inv; [intros x []|]. intros c1 t1 a c2 e. apply SH_step. }
  destruct (HS _ Ht) as (p & Hp & Hsp), (HS _ Hu) as (q & Hq & Hsq). apply sin_holds in Hsp, Hsq.
  destruct HC as [(Hno & _)|(v & Hun & _)]; [rewrite (Hno _ _ Hp) in Hsp; discriminate|]. rewrite (Hun _ _ Hp Hsp), (Hun _ _ Hq Hsq). reflexivity.
Qed.
Print Assumptions C59_spin_exclusion.

(** C59: whatever happened before the call of unlock() by [u] happens before the return of every later successful lock() or try_lock(). *)
Theorem C59_spin_publish : forall ttas n sched c tr a u K b t o r K' d,
  exec (wspin_step ttas) (wspin_init n) sched = Some (c, tr) ->
  tr = a ++ HEv (Call u MUnlock) K :: b ++ HEv (Ret t o r) K' :: d ->
  (o = MLock /\ r = ROk) \/ (o = MTryLock /\ r = RTrue) ->
  incl K K' /\ forall k, In (HWork u k) a -> In k K'.
Proof.
  intros ttas n sched c tr a u K b t o r K' d H E0 Ho.
  assert (G : incl K K').
  { eapply wspin_pub; [exact H|exact E0|]. destruct Ho as [(-> & ->)|(-> & ->)]; reflexivity. }
  split; [exact G|]. intros k Hk. apply G. eapply (wown_ev _ _ _ _ (wspin_mono ttas)); [exact H|exact E0|exact Hk].
Qed.
Print Assumptions C59_spin_publish.

Lemma last_step w h m : hist w 0 = h ++ [m] -> nth_error (hist w 0) (length h) = Some m /\ (forall K, readable K (hist w 0) (length h) = true) /\ room (hist w 0) (length h) = true.
Proof.
  intros E. rewrite E. split; [rewrite nth_error_app2, Nat.sub_diag by lia; reflexivity|]. split.
  - intros K. unfold readable. rewrite skipn_all2 by (rewrite app_length; cbn; lia). reflexivity.
  - unfold room. rewrite (proj2 (nth_error_None _ _)) by (rewrite app_length; cbn; lia). reflexivity.
Qed.
Lemma wrmw_last w t acq rel f h m : hist w 0 = h ++ [m] -> exists w', wrmw t 0 acq rel f (length h) w = Some (mval m, w').
Proof. intros E. destruct (last_step _ _ _ E) as (H1 & H2 & H3). unfold wrmw. rewrite H1, H2, H3. cbn. eauto. Qed.
Lemma wload_last w t acq h m : hist w 0 = h ++ [m] -> exists w', wload t 0 acq (length h) w = Some (mval m, w') /\ hist w' = hist w.
Proof. intros E. destruct (last_step _ _ _ E) as (H1 & H2 & H3). unfold wload. rewrite H1, H2. eexists. split; reflexivity. Qed.

(** C59: a release is not lost.  When no thread is in possession, every thread inside lock() can complete in at most three steps, by reading the newest value. *)
Theorem C59_spin_progress : forall ttas n sched w ths tr t p,
  exec (wspin_step ttas) (wspin_init n) sched = Some ((w, ths), tr) ->
  nth_error ths t = Some p -> p = SLoad /\ ttas = true \/ p = SXchg ->
  (forall u q, nth_error ths u = Some q -> sholds q = false) ->
  exists k i c' K, k <= 3 /\ exec (wspin_step ttas) (w, ths) (repeat (WRun t i) k) = Some (c', [HEv (Ret t MLock ROk) K]).
Proof.
  intros ttas n sched w ths tr t p H Ht Hp Hno. pose proof (WI_exec _ _ _ _ _ H) as (_ & HC). cbn [fst snd] in HC.
  destruct HC as [(_ & h & m & E & Hv & _)|(v & _ & _ & (q & Hq & Hs) & _)]; [|rewrite (Hno _ _ Hq) in Hs; discriminate].
  assert (X : forall w1 ths1, hist w1 0 = h ++ [m] -> nth_error ths1 t = Some SXchg ->
            exists c' K, exec (wspin_step ttas) (w1, ths1) [WRun t (length h); WRun t (length h)] = Some (c', [HEv (Ret t MLock ROk) K])).
  { intros w1 ths1 E1 Ht1. destruct (wrmw_last w1 t true false (fun _ => vlocked) h m E1) as (w2 & E2).
    eexists. eexists. cbn [exec]. unfold wspin_step at 1. cbn [wstep]. rewrite Ht1. cbn [wspin_ret wspin_run]. rewrite E2, Hv. cbn [Z.eqb vunlocked Pos.eqb].
    unfold wspin_step. cbn [wstep]. rewrite (nth_upd_eq _ _ _ _ Ht1). cbn [wspin_ret app]. reflexivity. }
  destruct Hp as [(-> & ->)| ->].
  - destruct (wload_last w t false h m E) as (w1 & E1 & Hh).
    destruct (X w1 (upd ths t SXchg)) as (c' & K & HX); [congruence|eapply nth_upd_eq; eauto|].
    exists 3, (length h), c', K. split; [lia|]. cbn [repeat]. change (exec (wspin_step true) (w, ths) [WRun t (length h); WRun t (length h); WRun t (length h)])
      with (match wspin_step true (w, ths) (WRun t (length h)) with Some (c1, e1) => match exec (wspin_step true) c1 [WRun t (length h); WRun t (length h)] with Some (c2, e2) => Some (c2, e1 ++ e2) | None => None end | None => None end).
    unfold wspin_step at 1. cbn [wstep]. rewrite Ht. cbn [wspin_ret wspin_run]. rewrite E1, Hv. cbn [Z.eqb vunlocked Pos.eqb]. rewrite HX. reflexivity.
  - destruct (X w ths E Ht) as (c' & K & HX). exists 2, (length h), c', K. split; [lia|exact HX].
Qed.
Print Assumptions C59_spin_progress.

(** Thread 0 locks, works (token 2) and unlocks; thread 1, which has read nothing yet, first reads the initial (old) value in the spin loop, then takes the mutex by
    the exchange and knows token 2; thread 2's relaxed load still returns the locked value that thread 0 wrote. *)
Example C59_spin_ex : exists c a b d K K',
  exec (wspin_step true) (wspin_init 3)
    [WCall 0 MLock; WRun 0 0; WRun 0 0; WRun 0 0; WWork 0; WCall 1 MLock; WRun 1 0; WCall 0 MUnlock; WRun 0 1; WRun 0 0; WCall 2 MLock; WRun 2 1; WRun 1 2; WRun 1 0]
  = Some (c, a ++ HEv (Call 0 MUnlock) K :: b ++ HEv (Ret 1 MLock ROk) K' :: d) /\ In (HWork 0 2) a /\ In 2 K' /\ map mval (hist (fst c) 0) = [1; 0; 1; 0]%Z /\
  nth_error (snd c) 2 = Some SLoad.
Proof. eexists. exists [HEv (Call 0 MLock) []; HEv (Ret 0 MLock ROk) [1; 0; 0]; HWork 0 2; HEv (Call 1 MLock) []]. eexists [_; _]. eexists. eexists. eexists. split; [vm_compute; reflexivity|]. cbn. tauto. Qed.

(** * shared_spin_mutex *)

Definition rin (p : rpc) : rmode := match p with RRest m => m | _ => HNone end.
Lemma rin_hold p : rin p <> HNone -> rhold p = rin p. Proof. destruct p; cbn; congruence. Qed.
Definition RH (c : wmem * list rpc) (tr : list (hev (event rop rres))) : Prop :=
  forall t, rw_hold t (flat_map base_ev tr) = match nth_error (snd c) t with Some p => rin p | None => HNone end.
(** A call other than an unlock starts with nothing held. *)
Definition RM (c : wmem * list rpc) (tr : list (hev (event rop rres))) : Prop :=
  forall t m o r, nth_error (snd c) t = Some (RDone m o r) -> rnext HNone o r = rnext m o r.
Lemma RH_step c tr a c' e : RH c tr -> RM c tr -> wshared_step c a = Some (c', e) -> RH c' (tr ++ e) /\ RM c' (tr ++ e).
Proof.
  destruct c as [w ths]. intros HI HM Hs. apply wstep_cases in Hs. unfold RH, RM in *. cbn [snd] in HI, HM.
  assert (UM : forall t p', (forall m o r, p' = RDone m o r -> rnext HNone o r = rnext m o r) ->
            forall u m o r, nth_error (upd ths t p') u = Some (RDone m o r) -> rnext HNone o r = rnext m o r).
  { intros t p' Hp u m o r Hu. destruct (nth_upd_inv _ _ _ _ _ Hu) as [(_ & E & _)|(_ & Hu')]; eauto. }
  destruct Hs as [(t & o & p & p' & -> & Ht & Hc & -> & ->)|[(t & ch & p & o & r & p' & -> & Ht & Hr & -> & ->)|[(t & ch & p & -> & Ht & Hr & Hrun & ->)|[(t & -> & -> & ->)|(t & l & o & i & v & w' & -> & Hl & Hc & -> & ->)]]]];
    rewrite flat_map_app; cbn [flat_map base_ev app snd]; rewrite ?app_nil_r; auto.
  - destruct p; cbn in Hc; try discriminate. destruct (rpre m o) eqn:Hp; [|discriminate]. injection Hc as <-. split.
    + intros u. rewrite rw_hold_snoc. destruct (Nat.eq_dec u t) as [->|Hn].
      * rewrite (nth_upd_eq _ _ _ _ Ht), HI, Ht. destruct o, m; cbn in *; rewrite ?Nat.eqb_refl; congruence.
      * rewrite nth_upd_neq by auto. rewrite <- HI. apply Nat.eqb_neq in Hn. destruct o; cbn; rewrite ?Hn; reflexivity.
    + apply UM. destruct o; discriminate.
  - destruct p; cbn in Hr; try discriminate. injection Hr as -> -> <-. split.
    + intros u. rewrite rw_hold_snoc. destruct (Nat.eq_dec u t) as [->|Hn].
      * rewrite (nth_upd_eq _ _ _ _ Ht), HI, Ht. cbn. rewrite Nat.eqb_refl. eapply HM; eauto.
      * rewrite nth_upd_neq by auto. rewrite <- HI. apply Nat.eqb_neq in Hn. cbn. rewrite Hn. reflexivity.
    + apply UM. discriminate.
  - assert (exists p', snd c' = upd ths t p' /\ rin p' = HNone /\ rin p = HNone /\ forall m o r, p' = RDone m o r -> rnext HNone o r = rnext m o r) as (p' & E & Hp' & Hp & Hm).
    { destruct p; cbn [wshared_run] in Hrun; try discriminate; unfold ws_cas in Hrun;
        match type of Hrun with context [match ?X with _ => _ end] => destruct X as [[[b v] w1]|] || destruct X as [[v w1]|] || destruct X as [w1|]; [|discriminate] end;
        try destruct b; injection Hrun as <-; eexists; (split; [reflexivity|]);
        try (match goal with |- context [if ?B then _ else _] => destruct B end);
        repeat split; try discriminate; intros m0 o0 r0 F; injection F as <- <- <-; reflexivity. }
    rewrite E. split; [|apply UM; exact Hm]. intros u. rewrite HI. destruct (Nat.eq_dec u t) as [->|Hn].
    + rewrite (nth_upd_eq _ _ _ _ Ht), Ht. congruence.
    + rewrite nth_upd_neq by auto. reflexivity.
Qed.

Lemma RH_exec n sched c tr : exec wshared_step (wshared_init n) sched = Some (c, tr) -> RH c tr.
Proof.
  intros H. assert (G : RH c tr /\ RM c tr); [|apply G]. revert H. apply (exec_inv wshared_step (fun c tr => RH c tr /\ RM c tr)).
  - split; unfold RH, RM; cbn [wshared_init snd].
    + intros t. destruct (nth_error _ t) eqn:E; [apply nth_repeat in E; subst|]; reflexivity.
    + intros t m o r E. apply nth_repeat in E. discriminate.
  - intros c1 t1 a c2 e (H1 & H2). apply RH_step; auto.
Qed.

(** C59: on weakly ordered memory, while one thread holds exclusively no other holds in any mode. *)
Theorem C59_shared_exclusion : forall n sched c tr t u,
  exec wshared_step (wshared_init n) sched = Some (c, tr) -> t <> u ->
  rw_hold t (flat_map base_ev tr) = HExcl -> rw_hold u (flat_map base_ev tr) = HNone.
Proof.
  intros n sched c tr t u H Hn Ht. pose proof (RH_exec _ _ _ _ H) as HR. rewrite HR in *. destruct (nth_error (snd c) t) as [p|] eqn:Et; [|discriminate].
  destruct (nth_error (snd c) u) as [q|] eqn:Eu; [|reflexivity].
  pose proof (rin_hold p ltac:(congruence)) as Hp. rewrite Ht in Hp.
  destruct (WS_exec _ _ _ _ H) as (_ & _ & h & m & _ & [(_ & _ & Hnx & _)|(v & _ & _ & _ & Ho & _)]); [exfalso; exact (Hnx _ _ Et Hp)|].
  destruct (Nat.eq_dec t v) as [->|Hv]; [|rewrite (Ho _ _ Et Hv) in Hp; discriminate].
  specialize (Ho _ _ Eu (not_eq_sym Hn)). destruct (rin q) eqn:Eq; [reflexivity| |]; rewrite rin_hold in Ho; congruence.
Qed.
Print Assumptions C59_shared_exclusion.

(** C59: exclusive locking knows what happened before every earlier unlock() and unlock_shared(), shared locking what happened before every earlier unlock(). *)
Theorem C59_shared_publish : forall n sched c tr a u x K b t o r K' d,
  exec wshared_step (wshared_init n) sched = Some (c, tr) ->
  tr = a ++ HEv (Call u x) K :: b ++ HEv (Ret t o r) K' :: d ->
  (x = XUnlock \/ x = SUnlock) /\ (o = XLock /\ r = QOk \/ o = XTry /\ r = QTrue) \/ x = XUnlock /\ (o = SLock /\ r = QOk \/ o = RwSpec.STry /\ r = QTrue) ->
  incl K K' /\ forall k, In (HWork u k) a -> In k K'.
Proof.
  intros n sched c tr a u x K b t o r K' d H E0 Ho.
  assert (E1 : tr = (a ++ HEv (Call u x) K :: b) ++ HEv (Ret t o r) K' :: d) by (rewrite E0, <- app_assoc; reflexivity).
  assert (Hin : ws_ev (a ++ HEv (Call u x) K :: b) x u K) by (apply in_or_app; right; left; reflexivity).
  destruct (wshared_pub _ _ _ _ _ _ _ _ _ _ H E1) as (G1 & G2).
  assert (G : incl K K').
  { destruct Ho as [(Hx & Ho)|(-> & Ho)].
    - eapply G1; [|exact Hin|exact Hx]. destruct Ho as [(-> & ->)|(-> & ->)]; reflexivity.
    - eapply G2; [|exact Hin]. destruct Ho as [(-> & ->)|(-> & ->)]; reflexivity. }
  split; [exact G|]. intros k Hk. apply G. eapply (wown_ev _ _ _ _ wshared_mono); [exact H|exact E0|exact Hk].
Qed.
Print Assumptions C59_shared_publish.

(** Two readers; one works (token 2) and leaves, reading the newest count; the writer, after a failed attempt on an old value, locks when both are gone and knows token 2. *)
Example C59_shared_ex : exists c a b d K K',
  exec wshared_step (wshared_init 3)
    [WCall 0 SLock; WRun 0 (false, 0); WRun 0 (false, 0); WRun 0 (false, 0); WRun 0 (false, 0); WWork 0;
     WCall 1 RwSpec.STry; WRun 1 (false, 0); WRun 1 (false, 1); WRun 1 (false, 0); WCall 1 RwSpec.STry; WRun 1 (false, 1); WRun 1 (false, 1); WRun 1 (false, 0);
     WCall 0 SUnlock; WRun 0 (false, 2); WRun 0 (false, 0); WCall 2 XTry; WRun 2 (false, 1); WRun 2 (false, 0);
     WCall 1 SUnlock; WRun 1 (false, 3); WRun 1 (false, 0); WCall 2 XTry; WRun 2 (false, 4); WRun 2 (false, 0)]
  = Some (c, a ++ HEv (Call 0 SUnlock) K :: b ++ HEv (Ret 2 XTry QTrue) K' :: d) /\ In (HWork 0 2) a /\ In 2 K' /\ In (Ret 2 XTry QFalse) (flat_map base_ev b) /\
  map mval (hist (fst c) 0) = [0; 1; 2; 1; 0; 2147483648]%Z.
Proof.
  eexists. eexists [_; _; _; _; _; _; _]. eexists [_; _; _; _; _; _]. eexists. eexists. eexists. split; [vm_compute; reflexivity|]. cbn. tauto.
Qed.
