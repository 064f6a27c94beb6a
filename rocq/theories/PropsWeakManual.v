(** Property theorems: the Linux manual_reset_event on weakly ordered memory (C61).  [racq]: whether reset() has acquire order; the code is [racq = false].
    Theorems that hold for both are stated for every [racq]. *)
From Coq Require Import List Bool Arith ZArith Lia.
From Verif Require Import ListSum Exec Events Lin Word FlagSpec ManualFutexModel ManualFutexProof Hb HbSpin HbManual Weak WeakAuto WeakAutoHb WeakManual WeakManualHb.
Import ListNotations.
Local Open Scope Z_scope.

(** * Wake-ups *)

(** C61: while the event is signalled and a thread sleeps in the kernel, some set() is about to wake all sleepers; the word counts the registered waiters exactly. *)
Theorem C61_wakeup : forall racq n sched w ths tr,
  Z.of_nat n < 2 ^ 31 -> exec (wman_step racq) (wman_init n) sched = Some ((w, ths), tr) ->
  newest w / 2 = sumf freg ths /\ forall t k, newest w mod 2 = 1 -> nth_error ths t = Some (FSleep k) -> exists u, nth_error ths u = Some FBcast.
Proof.
  intros racq n sched w ths tr Hn H. destruct (MW_exec _ _ _ _ _ Hn H) as (_ & _ & b & Hb & Hw & Hbc & _). cbn [fst snd] in *. split.
  - rewrite Hw, Z.mul_comm, Z.div_add_l by lia. rewrite Z.div_small by lia. lia.
  - intros t k Hs Ht. rewrite Hw, flag_val in Hs by auto. pose proof (sumf_elem fslp _ _ _ fslp_nn Ht) as He. cbn in He.
    destruct (sumf_pos_ex fbc ths) as (u & p & Hu & Hp); [apply Hbc; lia|]. exists u. destruct p; cbn in Hp; try lia. exact Hu.
Qed.
Print Assumptions C61_wakeup.

(** If every thread is outside the library or asleep and some thread sleeps, the event is not signalled. *)
Theorem C61_quiescent : forall racq n sched w ths tr t k,
  Z.of_nat n < 2 ^ 31 -> exec (wman_step racq) (wman_init n) sched = Some ((w, ths), tr) ->
  (forall u p, nth_error ths u = Some p -> p = FRest \/ exists k, p = FSleep k) ->
  nth_error ths t = Some (FSleep k) -> newest w mod 2 = 0.
Proof.
  intros racq n sched w ths tr t k Hn H Hq Ht. pose proof (Z.mod_pos_bound (newest w) 2 ltac:(lia)).
  destruct (Z.eq_dec (newest w mod 2) 1) as [E|]; [|lia].
  destruct (C61_wakeup _ _ _ _ _ _ Hn H) as (_ & G). destruct (G _ _ E Ht) as (u & Hu). destruct (Hq _ _ Hu) as [?|(? & ?)]; discriminate.
Qed.
Print Assumptions C61_quiescent.

(** * Waits and sets *)

(** Every successful wait knows everything that happened before some set() called earlier, whichever (possibly old) value it read. *)
Theorem C61_some : forall racq n sched c tr a t o r K' d,
  Z.of_nat n < 2 ^ 31 -> exec (wman_step racq) (wman_init n) sched = Some (c, tr) -> tr = a ++ HEv (Ret t o r) K' :: d ->
  (o = FWait /\ r = FOk) \/ (o = FTry /\ r = FTrue) \/ (o = FTimed /\ r = FTrue) ->
  exists u K, In (HEv (Call u FSet) K) a /\ incl K K' /\ forall a1 a2 k, a = a1 ++ HEv (Call u FSet) K :: a2 -> In (HWork u k) a1 -> In k K'.
Proof.
  intros racq n sched c tr a t o r K' d Hn H E0 Ho.
  destruct (wman_some _ _ _ _ _ _ _ _ _ _ _ Hn H E0) as (u & K & G1 & G2); [destruct Ho as [(-> & ->)|[(-> & ->)|(-> & ->)]]; reflexivity|].
  exists u, K. split; [exact G1|]. split; [exact G2|]. intros a1 a2 k Ea Hin. apply G2.
  refine (wown_ev _ _ _ _ (wman_mono racq) _ _ _ _ (Call u FSet) K k a1 (a2 ++ HEv (Ret t o r) K' :: d) H _ Hin). rewrite E0, Ea, <- app_assoc. reflexivity.
Qed.
Print Assumptions C61_some.

(** A wait that leaves through the slow path (L:81 / 141 / 182) after a set() has passed its fetch_or knows everything before that set(), even if the event has been reset since. *)
Theorem C61_slow : forall racq n sched w ths tr u K t k ch w' ths' e,
  Z.of_nat n < 2 ^ 31 -> exec (wman_step racq) (wman_init n) sched = Some ((w, ths), tr) ->
  In (HEv (Call u FSet) K) tr -> nth_error ths u <> Some FOr -> nth_error ths t = Some (FSub k) ->
  wman_step racq (w, ths) (WRun t ch) = Some ((w', ths'), e) -> incl K (wkn w' t) /\ nth_error ths' t = Some (FDone (fkop k) (fkres k)).
Proof.
  intros racq n sched w ths tr u K t k ch w' ths' e Hn H Hin Hu Ht Hs. destruct (MK_exec _ _ _ _ _ Hn H) as (HW & _ & HP & _).
  assert (HK : incl K (nrel w)) by (destruct (HP _ _ Hin) as [F|(F & _)]; [exact F|contradiction]).
  unfold wman_step in Hs. cbn [wstep] in Hs. rewrite Ht in Hs. destruct ch as [ch i]. cbn [wman_ret wman_run] in Hs.
  destruct (wrmw t 0 true false (fun v => u32 (v - mwait_one)) i w) as [[v w1]|] eqn:E; [|discriminate]. apply some_pair in Hs. destruct Hs as (Hs & _). assert (Ew : w1 = w' /\ upd ths t (FDone (fkop k) (fkres k)) = ths') by (inversion Hs; auto). destruct Ew as (<- & <-).
  destruct HW as (_ & (m0 & l & E0 & Hl) & _). cbn [fst] in E0. destruct (rmw_push _ _ _ _ _ _ _ _ _ _ E0 Hl E) as (h & m & x & E1 & _ & _ & _ & _ & _ & _ & _ & _ & _ & _ & G).
  rewrite (nrel_end _ _ _ E1) in HK. split; [exact (incl_tran HK (G eq_refl))|]. apply (nth_upd_eq _ _ _ _ Ht).
Qed.
Print Assumptions C61_slow.

(** Thread 1 sleeps, thread 0 works and sets; the woken thread reloads, leaves through the slow path and knows the work. *)
Example C61_slow_ex : exists w ths tr K k w' ths' e,
  exec (wman_step false) (wman_init 2)
    [WCall 1 FWait; WRun 1 (FNorm, 0); WRun 1 (FNorm, 0); WRun 1 (FNorm, 0); WWork 0; WCall 0 FSet; WRun 0 (FNorm, 1); WRun 0 (FNorm, 0); WRun 1 (FNorm, 2)]%nat = Some ((w, ths), tr) /\
  In (HEv (Call 0%nat FSet) K) tr /\ nth_error ths 0 <> Some FOr /\ nth_error ths 1 = Some (FSub FKWait) /\ In (HWork 0%nat k) tr /\
  wman_step false (w, ths) (WRun 1%nat (FNorm, 2%nat)) = Some ((w', ths'), e) /\ In k (wkn w' 1).
Proof.
  eexists. eexists. eexists. eexists. eexists. eexists. eexists. eexists. split; [vm_compute; reflexivity|].
  split; [cbn [In]; right; right; left; reflexivity|]. split; [discriminate|]. split; [reflexivity|]. split; [cbn [In]; right; left; reflexivity|].
  split; [vm_compute; reflexivity|]. vm_compute. tauto.
Qed.

(** * set() before wait, reset() before wait *)

(** A set() whose return happens before the call of a wait makes that wait succeed, if no reset() was in progress when the set() was called and none is called before the wait returns.
    The waiter cannot read a state older than the set(). *)
Theorem C61_visible : forall racq n s0 w0 ths0 tr0 sched c tr u a r Kr b t o Kc b2 r' K' d,
  Z.of_nat n < 2 ^ 31 -> exec (wman_step racq) (wman_init n) s0 = Some ((w0, ths0), tr0) ->
  (forall v, nth_error ths0 v <> Some FAnd) -> nth_error ths0 u = Some FRest ->
  exec (wman_step racq) (w0, ths0) sched = Some (c, tr) ->
  tr = (a ++ HEv (Ret u FSet r) Kr :: b) ++ HEv (Call t o) Kc :: b2 ++ HEv (Ret t o r') K' :: d ->
  (forall v K, ~ In (HEv (Call v FReset) K) ((a ++ HEv (Ret u FSet r) Kr :: b) ++ HEv (Call t o) Kc :: b2)) ->
  incl Kr Kc -> o = FTry \/ o = FTimed -> r' = FTrue.
Proof.
  intros racq n s0 w0 ths0 tr0 sched c tr u a r Kr b t o Kc b2 r' K' d Hn H0 HA Hu H E0 Hnr HK Ho.
  assert (F : fseen o r' = true) by (eapply (wman_visible racq n w0 ths0); eauto using MW_exec; unfold waitop; destruct Ho; auto).
  destruct Ho as [-> | ->]; destruct r'; try discriminate F; reflexivity.
Qed.
Print Assumptions C61_visible.

(** Such a wait, of any kind, is never asleep and never even registers as a waiter. *)
Theorem C61_visible_nosleep : forall racq n s0 w0 ths0 tr0 sched w ths tr u a r Kr b t o Kc b2 q,
  Z.of_nat n < 2 ^ 31 -> exec (wman_step racq) (wman_init n) s0 = Some ((w0, ths0), tr0) ->
  (forall v, nth_error ths0 v <> Some FAnd) -> nth_error ths0 u = Some FRest ->
  exec (wman_step racq) (w0, ths0) sched = Some ((w, ths), tr) ->
  tr = (a ++ HEv (Ret u FSet r) Kr :: b) ++ HEv (Call t o) Kc :: b2 ->
  (forall v K, ~ In (HEv (Call v FReset) K) tr) ->
  incl Kr Kc -> o = FWait \/ o = FTry \/ o = FTimed -> nth_error ths t = Some q -> (forall k, q <> FSleep k) /\ freg q = 0 /\ (forall k, q <> FAdd k).
Proof.
  intros racq n s0 w0 ths0 tr0 sched w ths tr u a r Kr b t o Kc b2 q Hn H0 HA Hu H E0 Hnr HK Ho Hq.
  assert (F : gpc q) by (eapply (wman_visible_pc racq n w0 ths0); eauto using MW_exec). destruct q; cbn in F; try contradiction; repeat split; discriminate.
Qed.
Print Assumptions C61_visible_nosleep.

(** Thread 0 sets and tells thread 1 through another location; thread 1's try_wait() succeeds. *)
Example C61_visible_ex : exists c tr a Kr Kc K',
  exec (wman_step false) (wman_init 2)
    [WCall 0 FSet; WRun 0 (FNorm, 0); WRun 0 (FNorm, 0); WClient 0 1 (CStore true 1%Z) 0; WClient 1 1 (CLoad true) 1; WCall 1 FTry; WRun 1 (FNorm, 1); WRun 1 (FNorm, 0)]%nat = Some (c, tr) /\
  tr = (a ++ HEv (Ret 0%nat FSet FOk) Kr :: []) ++ HEv (Call 1%nat FTry) Kc :: [] ++ HEv (Ret 1%nat FTry FTrue) K' :: [] /\ incl Kr Kc.
Proof.
  eexists. eexists. eexists [_]. eexists. eexists. eexists. split; [vm_compute; reflexivity|]. split; [reflexivity|]. intros x Hx. revert Hx. vm_compute. tauto.
Qed.

(** Without the happens-before edge the result may be false although the set() has returned: the waiter reads the old state. *)
Theorem C61_unordered_refuted : exists c tr Kr K1 K2,
  exec (wman_step false) (wman_init 2) [WCall 0 FSet; WRun 0 (FNorm, 0); WRun 0 (FNorm, 0); WCall 1 FTry; WRun 1 (FNorm, 0); WRun 1 (FNorm, 0)]%nat = Some (c, tr) /\
  exists K0, tr = [HEv (Call 0%nat FSet) K0; HEv (Ret 0%nat FSet FOk) Kr; HEv (Call 1%nat FTry) K1; HEv (Ret 1%nat FTry FFalse) K2].
Proof. eexists. eexists. eexists. eexists. eexists. split; [vm_compute; reflexivity|]. eexists. reflexivity. Qed.
Print Assumptions C61_unordered_refuted.

(** A reset() whose return happens before the call of a wait shields the wait from older sets: if no set() was about to take effect when the reset() was called, the wait succeeds only
    because of a set() called after that moment, and knows everything before that set(). *)
Theorem C61_nostale : forall racq n s0 w0 ths0 tr0 sched c tr u a r Kr b t o Kc b2 r' K' d,
  Z.of_nat n < 2 ^ 31 -> exec (wman_step racq) (wman_init n) s0 = Some ((w0, ths0), tr0) ->
  (forall v, nth_error ths0 v <> Some FOr) -> nth_error ths0 u = Some FRest ->
  exec (wman_step racq) (w0, ths0) sched = Some (c, tr) ->
  tr = (a ++ HEv (Ret u FReset r) Kr :: b) ++ HEv (Call t o) Kc :: b2 ++ HEv (Ret t o r') K' :: d ->
  incl Kr Kc -> (o = FWait /\ r' = FOk) \/ (o = FTry /\ r' = FTrue) \/ (o = FTimed /\ r' = FTrue) ->
  exists v K, In (HEv (Call v FSet) K) ((a ++ HEv (Ret u FReset r) Kr :: b) ++ HEv (Call t o) Kc :: b2) /\ incl K K'.
Proof.
  intros racq n s0 w0 ths0 tr0 sched c tr u a r Kr b t o Kc b2 r' K' d Hn H0 HA Hu H E0 HK Ho.
  destruct (MK_exec _ _ _ _ _ Hn H0) as (HW & _ & _ & HM & _).
  eapply (wman_nostale racq n w0 ths0); eauto; destruct Ho as [(-> & ->)|[(-> & ->)|(-> & ->)]]; unfold waitop; auto.
Qed.
Print Assumptions C61_nostale.

(** Thread 0 set the event before.  Thread 1 resets, waits asleep, and succeeds because of thread 0's second set(). *)
Example C61_nostale_ex : exists w0 ths0 tr0 c tr a Kr b Kc b2 K' K,
  exec (wman_step false) (wman_init 2) [WCall 0 FSet; WRun 0 (FNorm, 0); WRun 0 (FNorm, 0)]%nat = Some ((w0, ths0), tr0) /\
  ths0 = [FRest; FRest] /\
  exec (wman_step false) (w0, ths0)
    [WCall 1 FReset; WRun 1 (FNorm, 1); WRun 1 (FNorm, 0); WCall 1 FWait; WRun 1 (FNorm, 2); WRun 1 (FNorm, 2); WRun 1 (FNorm, 0);
     WCall 0 FSet; WRun 0 (FNorm, 3); WRun 0 (FNorm, 0); WRun 0 (FNorm, 0); WRun 1 (FNorm, 4); WRun 1 (FNorm, 4); WRun 1 (FNorm, 0)]%nat = Some (c, tr) /\
  tr = (a ++ HEv (Ret 1%nat FReset FOk) Kr :: b) ++ HEv (Call 1%nat FWait) Kc :: b2 ++ HEv (Ret 1%nat FWait FOk) K' :: [] /\ incl Kr Kc /\ In (HEv (Call 0%nat FSet) K) b2.
Proof.
  eexists. eexists. eexists. eexists. eexists. eexists [_]. eexists. eexists []. eexists. eexists [_; _]. eexists. eexists.
  split; [vm_compute; reflexivity|]. split; [reflexivity|]. split; [vm_compute; reflexivity|]. split; [reflexivity|]. split; [intros x Hx; exact Hx|left; reflexivity].
Qed.

(** * set() before reset() *)

(** The usual consumer loop "reset(); if nothing there, wait()" is wrong on weak memory, because reset() is relaxed (L:65).  Thread 0 stores the data (release) and calls set().  Thread 1 calls
    reset(), which clears the signal, then reads the data (acquire) and still sees none; it waits and sleeps for ever: the data is stored, set() has returned, thread 0 is idle. *)
Theorem C61_reset_refuted : exists s1 w1 ths1 tr1 w2 s2 w3 ths3 tr3,
  exec (wman_step false) (wman_init 2) (WClient 0 1 (CStore true 1) 0 :: WCall 0 FSet :: s1)%nat = Some ((w1, ths1), tr1) /\
  flat_map base_ev tr1 = [Call 0 FSet; Ret 0 FSet FOk; Call 1 FReset; Ret 1 FReset FOk]%nat /\
  wclient 1 1 (CLoad true) 0 w1 = Some (0, w2) /\
  exec (wman_step false) (w2, ths1) s2 = Some ((w3, ths3), tr3) /\ flat_map base_ev tr3 = [Call 1 FWait]%nat /\
  map mval (hist w3 1) = [0; 1] /\ ths3 = [FRest; FSleep FKWait] /\ newest w3 mod 2 = 0.
Proof.
  exists [WRun 0 (FNorm, 0); WRun 0 (FNorm, 0); WCall 1 FReset; WRun 1 (FNorm, 1); WRun 1 (FNorm, 0)]%nat. eexists. eexists. eexists. eexists.
  exists [WCall 1 FWait; WRun 1 (FNorm, 2); WRun 1 (FNorm, 2); WRun 1 (FNorm, 0)]%nat. eexists. eexists. eexists.
  split; [vm_compute; reflexivity|]. split; [reflexivity|]. split; [vm_compute; reflexivity|]. split; [vm_compute; reflexivity|]. repeat split.
Qed.
Print Assumptions C61_reset_refuted.

(** With acquire order in reset() the loop is right: everything before a set() that returned before the call of reset() is known when reset() returns. *)
Theorem C61_reset_acquire : forall n sched c tr a u K b Kr b2 t Kc b3 r K' d,
  Z.of_nat n < 2 ^ 31 -> exec (wman_step true) (wman_init n) sched = Some (c, tr) ->
  tr = ((a ++ HEv (Call u FSet) K :: b) ++ HEv (Ret u FSet FOk) Kr :: b2) ++ HEv (Call t FReset) Kc :: b3 ++ HEv (Ret t FReset r) K' :: d -> incl K K'.
Proof.
  intros n sched c tr a u K b Kr b2 t Kc b3 r K' d Hn H E0.
  assert (E1 : tr = (a ++ HEv (Call u FSet) K :: b) ++ HEv (Ret u FSet FOk) Kr :: (b2 ++ HEv (Call t FReset) Kc :: b3 ++ HEv (Ret t FReset r) K' :: d)) by (rewrite E0, <- (app_assoc (a ++ _)); reflexivity).
  destruct (exec_cut _ _ _ _ _ _ _ _ H E1) as (s1 & act & s2 & [w1 ths1] & [w2 ths2] & x1 & dd & es & d' & y1 & H1 & H2 & H3 & H4 & H5 & H6).
  destruct (MK_exec _ _ _ _ _ Hn H1) as (HW & _ & HP & _). destruct (wman_case _ _ _ _ _ _ _ _ Hn HW H2) as (HW2 & _ & Hc).
  destruct (mcase_ret _ _ _ _ _ _ _ _ _ _ _ _ Hc H4) as (-> & -> & Hu & _ & -> & ->). rewrite app_nil_r in H5. subst x1. cbn [app] in H6. subst y1.
  assert (HK : incl K (nrel w1)). { destruct (HP u K) as [F|(F & _)]; [apply in_or_app; right; left; reflexivity|exact F|]. cbn [snd] in F. congruence. }
  destruct (exec_cut _ _ _ _ _ _ _ _ H3 eq_refl) as (s3 & act3 & s4 & [w3 ths3] & [w4 ths4] & x3 & dd3 & es3 & d3 & y3 & G1 & G2 & G3 & G4 & G5 & G6).
  assert (HK3 : MW n (w3, ths3) /\ incl K (nrel w3)).
  { apply (exec_inv_state (wman_step true) (fun c => MW n c /\ incl K (nrel (fst c))) (w1, upd ths1 u FRest) s3 (w3, ths3) x3); [auto| |exact G1].
    intros [w ths] a0 [w' ths'] e (I1 & I2) Hs. cbn [fst] in *. destruct (wman_case _ _ _ _ _ _ _ _ Hn I1 Hs) as (I1' & _ & Ic). split; [exact I1'|].
    destruct Ic as [t1 o1 Ht1 -> -> ->|t1 o1 r1 Ht1 -> -> ->|t1 p1 Ht1 Hd1 Hr1 He1 ->|Eh -> Ee]; auto; [|rewrite (nrel_same _ _ Eh); exact I2].
    destruct He1 as [p' Eh _ _ _ _ _ _ _ _ _| -> _ _|p' h m x X1 X2 _ Gi _ _ _ _ _ _ _ _ _ _ _]; [rewrite (nrel_same _ _ Eh); exact I2|exact I2|].
    rewrite two_end in X2. rewrite (nrel_end _ _ _ X1) in I2. rewrite (nrel_end _ _ _ X2). exact (incl_tran I2 Gi). }
  destruct HK3 as (HW3 & HK3). destruct (wman_case _ _ _ _ _ _ _ _ Hn HW3 G2) as (HW4 & _ & Hc3).
  destruct (mcase_call _ _ _ _ _ _ _ _ _ _ _ Hc3 G4) as (-> & -> & Ht & -> & -> & ->). cbn [app] in G6. subst y3.
  eapply (wman_pubreset n w3); [exact Hn|exact HW4|exact G3|exact HK3| |reflexivity].
  intros r0. rewrite (nth_upd_eq _ _ _ _ Ht). discriminate.
Qed.
Print Assumptions C61_reset_acquire.

(** The execution of [C61_reset_refuted] with an acquiring reset(): the read of the old data is no longer possible. *)
Example C61_reset_acquire_ex : exists w1 ths1 tr1,
  exec (wman_step true) (wman_init 2) [WClient 0 1 (CStore true 1) 0; WCall 0 FSet; WRun 0 (FNorm, 0); WRun 0 (FNorm, 0); WCall 1 FReset; WRun 1 (FNorm, 1); WRun 1 (FNorm, 0)]%nat = Some ((w1, ths1), tr1) /\
  wclient 1 1 (CLoad true) 0 w1 = None /\ exists w2, wclient 1 1 (CLoad true) 1 w1 = Some (1, w2).
Proof. eexists. eexists. eexists. split; [vm_compute; reflexivity|]. split; [reflexivity|]. eexists. vm_compute. reflexivity. Qed.
