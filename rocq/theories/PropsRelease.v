(** Property C64: "If one or more threads are blocked on the event, [post] releases one thread from its wait function"
    (/repo/include/boost/sync/events/auto_reset_event.hpp 44, semaphore.hpp 42-43).  With k threads blocked and nobody else waiting, m posts
    release min(k, m) threads.  True of the Linux event, of the event built on a semaphore, and of the emulated semaphore; false of the
    event emulated with a mutex and a condition variable, which remembers one post only. *)
From Coq Require Import List Bool Arith ZArith Lia.
From Verif Require Import ListSum Exec Lin Thr Word EventSpec EventSpecFacts.
From Verif Require AutoFutexModel AutoFutexProof AutoSemModel AutoSemProof Monitor MonitorProof EmuModel PropsEmu.
Import ListNotations.
Local Open Scope Z_scope.

(** Returned calls of wait(), a function of the history. Proof or specification device; no counterpart in /repo. *)
Definition waits_returned (tr : list (event eop eres)) : Z :=
  sumf (fun e => match e with Ret _ EWait _ => 1 | _ => 0 end) tr.

Lemma waits_app a b : waits_returned (a ++ b) = waits_returned a + waits_returned b.
Proof. apply sumf_app. Qed.
Lemma posts_app a b : posts_called (a ++ b) = posts_called a + posts_called b.
Proof. apply sumf_app. Qed.

(** ** Linux *)
Section Futex.
Import AutoFutexModel AutoFutexProof.

(** Every thread is outside the library or blocked in the kernel inside wait(). Proof or specification device; no counterpart in /repo. *)
Definition futex_quiet (c : acfg) : Prop := forall t p, nth_error (snd c) t = Some p -> p = ARest \/ p = WSleep KWait.
(** Number of blocked threads. Proof or specification device; no counterpart in /repo. *)
Definition futex_blocked (c : acfg) : Z := sumf aslp (snd c).
(** No new waits: the threads that call the event meanwhile only post. Proof or specification device; no counterpart in /repo. *)
Definition futex_posts_only (sched : list aact) : Prop := forall t o, In (ACall t o) sched -> o = EPost.

(** Proof or specification device; no counterpart in /repo. *)
Definition okp (p : apc) : Prop :=
  match p with
  | ARest | PLoad | PCas _ | PSignal | WFutex KWait _ | WSleep KWait | WLoad KWait | WCas KWait _ | ADone EPost _ | ADone EWait _ => True
  | _ => False
  end.
(** Proof or specification device; no counterpart in /repo. *)
Definition adw (p : apc) : Z := match p with ADone EWait _ => 1 | _ => 0 end.
(** Proof or specification device; no counterpart in /repo. *)
Definition apend (p : apc) : Z := match p with PLoad | PCas _ => 1 | _ => 0 end.

(** Proof or specification device; no counterpart in /repo. *)
Definition RInv (k : Z) (c : acfg) (tr : list (event eop eres)) : Prop :=
  (forall t p, nth_error (snd c) t = Some p -> okp p) /\
  sumf areg (snd c) + waits_returned tr + sumf adw (snd c) = k /\
  let d := posts_called tr - sumf apend (snd c) - (k - sumf areg (snd c)) in
  posts_of (fst c) = d \/ (posts_of (fst c) = sumf areg (snd c) + 1 /\ posts_of (fst c) <= d).

Lemma okp_upd ths t p : (forall t p, nth_error ths t = Some p -> okp p) -> okp p ->
  forall u q, nth_error (upd ths t p) u = Some q -> okp q.
Proof. intros H Hp u q Hu. destruct (nth_upd_inv _ _ _ _ _ Hu) as [(_ & -> & _)|(_ & Hk)]; eauto. Qed.

Lemma posts_take P W s : s = P * post_one + W -> 0 <= W -> W <= 1022 -> 0 < P <= W + 1 -> 0 < W ->
  posts_of (u32 (s - (post_one + 1))) = P - 1.
Proof.
  intros -> HW HW2 HP HW1. rewrite u32_id by (unfold two32; ap_unf; lia).
  replace (P * post_one + W - (post_one + 1)) with ((P - 1) * post_one + (W - 1)) by lia. apply posts_val. ap_unf. lia.
Qed.
Lemma posts_give P W s : s = P * post_one + W -> 0 <= W -> W <= 1022 -> 0 <= P <= W -> posts_of (u32 (s + post_one)) = P + 1.
Proof.
  intros -> HW HW2 HP. rewrite u32_id by (unfold two32; ap_unf; lia).
  replace (P * post_one + W + post_one) with ((P + 1) * post_one + W) by lia. apply posts_val. ap_unf. lia.
Qed.

Ltac fin := cbn [okp areg adw apend]; unfold waits_returned, posts_called; cbn [sumf]; auto; lia.

Lemma RInv_step k s ths tr a c' e :
  posts_of s <= sumf areg ths + 1 -> waiters_of s = sumf areg ths -> 0 <= posts_of s -> s = posts_of s * post_one + waiters_of s ->
  (forall t p, nth_error ths t = Some p -> aloc p) -> sumf areg ths <= 1022 ->
  (forall t o, a = ACall t o -> o = EPost) ->
  RInv k (s, ths) tr -> auto_step (s, ths) a = Some (c', e) -> RInv k c' (tr ++ e).
Proof.
  intros H1 H2 H3 H4 H5 H6 Ha (I1 & I2 & I3) Hs. cbn [fst snd] in *.
  rewrite H2 in H4.
  pose proof (sumf_nonneg areg ths areg_nn) as Hrn.
  assert (One : forall t q s' p' e, nth_error ths t = Some q -> okp p' ->
     areg p' + adw p' + waits_returned e = areg q + adw q ->
     (posts_of s' = posts_of s + (posts_called e - apend p' + apend q) + (areg p' - areg q) \/
      (posts_of s' = posts_of s + (areg p' - areg q) /\ posts_of s = sumf areg ths + 1 /\ 0 <= posts_called e - apend p' + apend q)) ->
     (posts_of s = sumf areg ths + 1 -> posts_called e - apend p' + apend q = 0 \/ posts_of s' = posts_of s + (areg p' - areg q)) ->
     0 <= posts_called e - apend p' + apend q ->
     RInv k (s', upd ths t p') (tr ++ e)).
  { intros t q s' p' e0 Ht Hp E1 E2 E4 E5. split; [apply okp_upd; auto|]. cbn [fst snd].
    rewrite (sumf_upd areg _ _ _ _ Ht), (sumf_upd adw _ _ _ _ Ht), (sumf_upd apend _ _ _ _ Ht), waits_app, posts_app.
    split; [lia|]. cbn zeta in *. lia. }
  destruct a as [t o|t ch]; cbn [auto_step] in Hs; destruct (nth_error ths t) as [q|] eqn:Ht; try discriminate.
  - rewrite (Ha t o eq_refl) in *. destruct q; try discriminate. inversion Hs; subst.
    eapply One; eauto; fin.
  - pose proof (I1 _ _ Ht) as Hq. pose proof (H5 _ _ Ht) as Hl.
    destruct q; cbn [okp] in Hq; try contradiction; try discriminate; try (destruct k0; try contradiction); cbn [auto_run] in Hs.
    + (* PLoad *) inversion Hs; subst. unfold post_try. destruct (Z.leb_spec (posts_of s) (waiters_of s)); eapply One; eauto; fin.
    + (* PCas *)
      cbn [aloc] in Hl.
      assert (F : Some ((s, upd ths t (post_try s)), []) = Some (c', e) -> RInv k c' (tr ++ e)).
      { intros X. inversion X; subst c' e. unfold post_try.
        destruct (Z.leb_spec (posts_of s) (waiters_of s)); eapply One; eauto; fin. }
      assert (G : ch = CSpur \/ (ch <> CSpur /\ s = old) \/ s <> old)
        by (destruct (Z.eq_dec s old); auto; destruct ch; auto; right; left; split; auto; discriminate).
      destruct G as [-> |[(Hc & <-)|Hne]].
      * apply F. exact Hs.
      * assert (Hs' : Some ((u32 (s + post_one), upd ths t (if 0 <? waiters_of s then PSignal else ADone EPost EOk)), []) = Some (c', e))
          by (destruct ch; try contradiction; rewrite Z.eqb_refl in Hs; exact Hs).
        assert (P1 : posts_of (u32 (s + post_one)) = posts_of s + 1) by (eapply posts_give; eauto; lia).
        inversion Hs'; subst. destruct (0 <? waiters_of s); eapply One; eauto; fin.
      * apply F. assert (s =? old = false) as X by (apply Z.eqb_neq; auto). destruct ch; rewrite ?X in Hs; exact Hs.
    + (* PSignal *)
      assert (G : (exists u kk, nth_error ths u = Some (WSleep kk) /\ c' = (s, upd (upd ths u (WLoad kk)) t (ADone EPost EOk)) /\ e = []) \/
                  (c' = (s, upd ths t (ADone EPost EOk)) /\ e = [])).
      { destruct ch; try (destruct (existsb is_sleep ths); [discriminate|inversion Hs; subst; auto]).
        destruct (nth_error ths u) as [[]|] eqn:Eu; try discriminate. inversion Hs; subst. left. eauto. }
      destruct G as [(u & kk & Hu & -> & ->)|(-> & ->)]; [|eapply One; eauto; fin].
      assert (u <> t) by congruence. pose proof (I1 _ _ Hu) as Hk. cbn in Hk. destruct kk; try contradiction.
      assert (R1 : RInv k (s, upd ths u (WLoad KWait)) (tr ++ [])) by (eapply One; eauto; fin).
      rewrite app_nil_r in R1 |- *. destruct R1 as (J1 & J2 & J3). cbn [fst snd] in *.
      assert (Ht' : nth_error (upd ths u (WLoad KWait)) t = Some PSignal) by (rewrite nth_upd_neq; auto).
      split; [apply okp_upd; cbn; auto|]. cbn [fst snd].
      rewrite (sumf_upd areg _ _ _ _ Ht'), (sumf_upd adw _ _ _ _ Ht'), (sumf_upd apend _ _ _ _ Ht'). cbn [areg adw apend]. split; [lia|]. cbn zeta in *. lia.
    + (* WFutex *)
      assert (G : exists p', c' = (s, upd ths t p') /\ e = [] /\ (p' = WSleep KWait \/ p' = WLoad KWait))
        by (destruct ch; try destruct (s =? e0); inversion Hs; subst; eauto 6).
      destruct G as (p' & -> & -> & [-> | ->]); eapply One; eauto; fin.
    + (* WSleep *) destruct ch; try discriminate. inversion Hs; subst. eapply One; eauto; fin.
    + (* WLoad *) destruct (0 <? posts_of s); inversion Hs; subst; eapply One; eauto; fin.
    + (* WCas *)
      cbn [aloc] in Hl. pose proof (sumf_elem areg _ _ _ areg_nn Ht) as He. cbn [areg] in He.
      assert (F : Some ((s, upd ths t (wait_test KWait s)), []) = Some (c', e) -> RInv k c' (tr ++ e)).
      { intros X. inversion X; subst c' e. unfold wait_test.
        destruct (posts_of s =? 0); eapply One; eauto; fin. }
      assert (G : ch = CSpur \/ (ch <> CSpur /\ s = old) \/ s <> old)
        by (destruct (Z.eq_dec s old); auto; destruct ch; auto; right; left; split; auto; discriminate).
      destruct G as [-> |[(Hc & <-)|Hne]].
      * apply F. exact Hs.
      * assert (Hs' : Some ((u32 (s - (post_one + 1)), upd ths t (ADone EWait EOk)), []) = Some (c', e))
          by (destruct ch; try contradiction; rewrite Z.eqb_refl in Hs; exact Hs).
        assert (P1 : posts_of (u32 (s - (post_one + 1))) = posts_of s - 1) by (eapply posts_take; eauto; lia).
        assert (c' = (u32 (s - (post_one + 1)), upd ths t (ADone EWait EOk)) /\ e = []) as (-> & ->) by (split; congruence). eapply One; eauto; fin.
      * apply F. assert (s =? old = false) as X by (apply Z.eqb_neq; auto). destruct ch; rewrite ?X in Hs; exact Hs.
    + (* ADone *)
      inversion Hs; subst. destruct o; try contradiction; eapply One; eauto; fin.
Qed.

Lemma quiet_sums c : futex_quiet c -> sumf areg (snd c) = futex_blocked c /\ sumf adw (snd c) = 0 /\ sumf apend (snd c) = 0.
Proof.
  unfold futex_quiet, futex_blocked. destruct c as [s ths]. cbn [snd]. induction ths as [|p ths IH]; intros H; cbn [sumf]; [lia|].
  destruct IH as (A & B & C); [intros t q Hq; exact (H (S t) q Hq)|].
  destruct (H O p eq_refl) as [-> | ->]; unfold aslp in *; cbn [areg adw apend is_sleep]; lia.
Qed.

(** C64, Linux: k blocked threads, m posts, no other waits; when everything has settled exactly min(k, m) waits have returned. *)
Theorem C64_futex : forall n sched1 c1 tr1 sched2 c tr,
  light n (sched1 ++ sched2) -> exec auto_step (auto_init n) sched1 = Some (c1, tr1) -> futex_quiet c1 ->
  exec auto_step c1 sched2 = Some (c, tr) -> futex_posts_only sched2 -> futex_quiet c ->
  waits_returned tr = Z.min (futex_blocked c1) (posts_called tr) /\ futex_blocked c = futex_blocked c1 - waits_returned tr.
Proof.
  intros n sched1 c1 tr1 sched2 c tr Hl H1 Hq1 H2 Hp Hq.
  assert (W : forall l l' s ths tr', sched2 = l ++ l' -> exec auto_step c1 l = Some ((s, ths), tr') ->
     light n (sched1 ++ l) /\ exec auto_step (auto_init n) (sched1 ++ l) = Some ((s, ths), tr1 ++ tr')).
  { intros l l' s ths tr' E H. split; [|rewrite exec_app, H1, H; reflexivity].
    intros x y c0 tr0 E0 Hx. apply (Hl x (y ++ l') c0 tr0); [rewrite app_assoc, <- E0, <- app_assoc, E; reflexivity|exact Hx]. }
  set (k := futex_blocked c1).
  destruct (quiet_sums _ Hq1) as (A1 & A2 & A3). destruct (quiet_sums _ Hq) as (B1 & B2 & B3). fold k in A1.
  assert (P1 : 0 < k -> posts_of (fst c1) = 0).
  { intros Hk. destruct c1 as [s1 ths1]. destruct (W [] sched2 s1 ths1 [] eq_refl eq_refl) as (L & E). rewrite app_nil_r in L, E.
    destruct (sumf_pos_ex aslp ths1) as (t & p & Ht & Hpp); [exact Hk|].
    assert (exists kk, p = WSleep kk) as (kk & ->) by (destruct (Hq1 _ _ Ht) as [-> | ->]; [discriminate Hpp|eauto]).
    eapply auto_quiescent; eauto. intros u q Hu. destruct (Hq1 _ _ Hu) as [-> | ->]; eauto. }
  assert (Kn : 0 <= k) by (apply sumf_nonneg, aslp_nn).
  assert (R : forall l l' c' tr', sched2 = l ++ l' -> exec auto_step c1 l = Some (c', tr') ->
     (0 < k -> RInv k c' tr') /\ (forall t p, nth_error (snd c') t = Some p -> okp p) /\ sumf areg (snd c') + waits_returned tr' + sumf adw (snd c') = k).
  { induction l as [|a l IH] using rev_ind; intros l' c' tr' E H.
    - inversion H; subst.
      assert (O : forall t p, nth_error (snd c') t = Some p -> okp p) by (intros t p Ht; destruct (Hq1 _ _ Ht) as [-> | ->]; exact I).
      split; [|split; [auto|]].
      + intros Hk. split; [auto|]. rewrite A1, A2, A3, (P1 Hk). cbn. lia.
      + rewrite A1, A2. cbn. lia.
    - rewrite exec_app in H. destruct (exec auto_step c1 l) as [[c0 tr0]|] eqn:E0; [|discriminate].
      cbn [exec] in H. destruct (auto_step c0 a) as [[c2 e]|] eqn:Ea; [|discriminate]. rewrite app_nil_r in H. inversion H; subst c' tr'; clear H.
      rewrite <- app_assoc in E. destruct (IH _ _ _ E eq_refl) as (J1 & J2 & J3). destruct c0 as [s ths].
      destruct (W _ _ _ _ _ E E0) as (L & X).
      destruct (auto_word _ _ _ _ _ L X) as (Y1 & Y2 & Y3 & _ & Y5 & Y6 & Y7).
      assert (Ha : forall t o, a = ACall t o -> o = EPost)
        by (intros t o ->; apply (Hp t); rewrite E; apply in_or_app; right; left; reflexivity).
      destruct (Z_lt_le_dec 0 k) as [Hk|Hk].
      + assert (RInv k c2 (tr0 ++ e)) as (Q1 & Q2 & Q3) by (eapply RInv_step; eauto). split; [intros _; split; auto|auto].
      + assert (Z0 : sumf areg ths = 0 /\ sumf adw ths = 0).
        { pose proof (sumf_nonneg areg ths areg_nn). assert (0 <= sumf adw ths) by (apply sumf_nonneg; intros []; cbn; try lia; destruct o; lia).
          assert (0 <= waits_returned tr0) by (apply sumf_nonneg; intros []; cbn; try lia; destruct o; lia). cbn [snd] in J3. lia. }
        (* nobody waits: bookkeeping of posts is irrelevant; use the step lemma with a made-up history *)
        set (kk := 0).
        assert (RR : exists m, RInv kk (s, ths) (repeat (Call 0%nat EPost) m)).
        { cbn [snd] in *. exists (Z.to_nat (posts_of s + sumf apend ths)). split; [auto|]. cbn [fst snd].
          assert (PC : forall m, posts_called (repeat (Call 0%nat EPost) m) = Z.of_nat m) by (intros m; unfold posts_called; rewrite sumf_repeat; lia).
          assert (WC : forall m, waits_returned (repeat (Call 0%nat EPost) m) = 0) by (intros m; unfold waits_returned; rewrite sumf_repeat; lia).
          rewrite PC, WC. assert (0 <= sumf apend ths) by (apply sumf_nonneg; intros []; cbn; lia). split; [unfold kk; lia|]. cbn zeta. unfold kk. left. lia. }
        destruct RR as (m & RR). assert (RInv kk c2 (repeat (Call 0%nat EPost) m ++ e)) as (Q1 & Q2 & _) by (eapply RInv_step; eauto).
        rewrite waits_app in Q2 |- *. assert (WC : waits_returned (repeat (Call 0%nat EPost) m) = 0) by (unfold waits_returned; rewrite sumf_repeat; lia).
        rewrite WC in Q2. cbn [snd] in J3. split; [lia|]. split; [auto|]. unfold kk in Q2. lia. }
  destruct (R sched2 [] c tr (eq_sym (app_nil_r _)) H2) as (R1 & R2 & R3). rewrite B1, B2 in R3.
  split; [|lia].
  assert (0 <= posts_called tr) by (apply sumf_nonneg; intros []; cbn; try lia; destruct o; lia).
  assert (0 <= futex_blocked c) by (apply sumf_nonneg, aslp_nn).
  destruct (Z_lt_le_dec 0 k) as [Hk|Hk].
  2: { assert (0 <= waits_returned tr) by (apply sumf_nonneg; intros []; cbn; try lia; destruct o; lia). lia. }
  destruct (R1 Hk) as (_ & _ & R4). cbn zeta in R4. rewrite B1, B3 in R4. destruct c as [s ths]. cbn [fst snd] in *.
  destruct (W sched2 [] s ths tr (eq_sym (app_nil_r _)) H2) as (L & X).
  destruct (auto_word _ _ _ _ _ L X) as (_ & _ & Y3 & _).
  destruct (Z_lt_le_dec 0 (futex_blocked (s, ths))) as [Hb|Hb].
  - assert (posts_of s = 0); [|lia].
    destruct (sumf_pos_ex aslp ths) as (t & p & Ht & Hpp); [exact Hb|].
    assert (exists kk, p = WSleep kk) as (kk & ->) by (destruct (Hq _ _ Ht) as [-> | ->]; [discriminate Hpp|eauto]).
    eapply auto_quiescent; eauto. intros u q Hu. destruct (Hq _ _ Hu) as [-> | ->]; eauto.
  - lia.
Qed.
Print Assumptions C64_futex.

(** Two threads blocked, two posts before either of them runs: both return (compare C64_emulated_refuted). *)
Example C64_futex_example : exists c1 tr1 c tr,
  exec auto_step (auto_init 3) [ACall 1 EWait; ARun 1 CNorm; ARun 1 CNorm; ARun 1 CNorm; ACall 2 EWait; ARun 2 CNorm; ARun 2 CNorm; ARun 2 CNorm]%nat = Some (c1, tr1) /\
  futex_quiet c1 /\ futex_blocked c1 = 2 /\
  exec auto_step c1 [ACall 0 EPost; ARun 0 CNorm; ARun 0 CNorm; ARun 0 (CWake 1); ARun 0 CNorm;
                     ACall 0 EPost; ARun 0 CNorm; ARun 0 CNorm; ARun 0 (CWake 2); ARun 0 CNorm;
                     ARun 1 CNorm; ARun 1 CNorm; ARun 1 CNorm; ARun 2 CNorm; ARun 2 CNorm; ARun 2 CNorm]%nat = Some (c, tr) /\
  futex_quiet c /\ posts_called tr = 2 /\ waits_returned tr = 2.
Proof.
  do 4 eexists. split; [vm_compute; reflexivity|].
  split; [intros [|[|[|t]]] p Hp; cbn in Hp; inversion Hp; auto; destruct t; discriminate|]. split; [reflexivity|].
  split; [vm_compute; reflexivity|].
  split; [intros [|[|[|t]]] p Hp; cbn in Hp; inversion Hp; auto; destruct t; discriminate|]. split; reflexivity.
Qed.
End Futex.

(** ** auto_reset_event built on a semaphore *)
Section Sem.
Import AutoSemModel AutoSemProof.

(** Every thread is outside the library or blocked in the semaphore (whose value is then 0). Proof or specification device; no counterpart in /repo. *)
Definition as_quiet_cfg (c : ssh * list spc) : Prop :=
  forall t p, nth_error (snd c) t = Some p -> p = SRest \/ (p = SSemWait SKWait /\ snd (fst c) = 0).
(** Proof or specification device; no counterpart in /repo. *)
Definition as_blk (p : spc) : Z := match p with SSemWait _ => 1 | _ => 0 end.
(** Proof or specification device; no counterpart in /repo. *)
Definition as_blocked (c : ssh * list spc) : Z := sumf as_blk (snd c).
(** Proof or specification device; no counterpart in /repo. *)
Definition as_posts_only (sched : list (tact eop schoice)) : Prop := forall t o, In (TCall t o) sched -> o = EPost.

(** Proof or specification device; no counterpart in /repo. *)
Definition sokp (p : spc) : Prop :=
  match p with
  | SRest | SLoad | SCas _ | SSemPost | SSemWait SKWait | SDone EPost _ | SDone EWait _ => True
  | _ => False
  end.
(** Proof or specification device; no counterpart in /repo. *)
Definition sdw (p : spc) : Z := match p with SDone EWait _ => 1 | _ => 0 end.
(** Proof or specification device; no counterpart in /repo. *)
Definition spend (p : spc) : Z := match p with SLoad | SCas _ => 1 | _ => 0 end.

(** Proof or specification device; no counterpart in /repo. *)
Definition SRInv (k : Z) (c : ssh * list spc) (tr : list (event eop eres)) : Prop :=
  (forall t p, nth_error (snd c) t = Some p -> sokp p) /\
  sumf sreg (snd c) + waits_returned tr + sumf sdw (snd c) = k /\
  let u := snd (fst c) + sumf spst (snd c) in
  let d := posts_called tr - sumf spend (snd c) - (k - sumf sreg (snd c)) in
  (0 < k -> u <= sumf sreg (snd c) + 1 /\ (u = d \/ (u = sumf sreg (snd c) + 1 /\ u <= d))).

Lemma sokp_upd ths t p : (forall t p, nth_error ths t = Some p -> sokp p) -> sokp p ->
  forall u q, nth_error (upd ths t p) u = Some q -> sokp q.
Proof. intros H Hp u q Hu. destruct (nth_upd_inv _ _ _ _ _ Hu) as [(_ & -> & _)|(_ & Hk)]; eauto. Qed.

Ltac sfin := cbn [sokp sreg sdw spend spst]; unfold waits_returned, posts_called; cbn [sumf]; auto; lia.

Lemma SRInv_step k c tr a c' e :
  SI c -> scap c -> (forall t o, a = TCall t o -> o = EPost) ->
  SRInv k c tr -> as_step c a = Some (c', e) -> SRInv k c' (tr ++ e).
Proof.
  destruct c as [[st v] ths]. intros (H1 & H2 & H3 & H4) Hc Ha (I1 & I2 & I3) Hs. cbn [fst snd] in *.
  pose proof (sumf_nonneg sreg ths sreg_nn) as Hrn. pose proof (sumf_nonneg spst ths spst_nn) as Hpn.
  assert (One : forall t q v' st' p' e, nth_error ths t = Some q -> sokp p' ->
     sreg p' + sdw p' + waits_returned e = sreg q + sdw q ->
     0 <= posts_called e - spend p' + spend q <= 1 ->
     (v' + spst p' - spst q = v + (posts_called e - spend p' + spend q) + (sreg p' - sreg q) /\
        (posts_called e - spend p' + spend q = 0 \/ v + sumf spst ths <= sumf sreg ths)
      \/ (v' + spst p' - spst q = v + (sreg p' - sreg q) /\ v + sumf spst ths >= sumf sreg ths + 1)) ->
     SRInv k ((st', v'), upd ths t p') (tr ++ e)).
  { intros t q v' st' p' e0 Ht Hp E1 E2 E3. split; [apply sokp_upd; auto|]. cbn [fst snd].
    rewrite (sumf_upd sreg _ _ _ _ Ht), (sumf_upd sdw _ _ _ _ Ht), (sumf_upd spend _ _ _ _ Ht), (sumf_upd spst _ _ _ _ Ht), waits_app, posts_app.
    split; [lia|]. cbn zeta in *. intros Hk. specialize (I3 Hk). lia. }
  apply tstep_cases in Hs.
  destruct Hs as [(t & o & p & p' & -> & Ht & H & -> & ->)|[(t & ch & p & o & r & p' & -> & Ht & H & -> & ->)|(t & ch & p & -> & Ht & _ & H & ->)]].
  - rewrite (Ha t o eq_refl) in *. destruct p; try discriminate. inversion H; subst. eapply One; eauto; sfin.
  - pose proof (I1 _ _ Ht) as Hq. destruct p; try discriminate. inversion H; subst. destruct o; try contradiction; eapply One; eauto; sfin.
  - pose proof (I1 _ _ Ht) as Hq. pose proof (H4 _ _ Ht) as Hl. unfold as_run in H.
    destruct p; cbn [sokp] in Hq; try contradiction; try discriminate; try (destruct k0; try contradiction); cbn [as_run1] in H.
    + inversion H; subst. destruct (Z.leb_spec 0 (sumf sreg ths - (v + sumf spst ths))); eapply One; eauto; sfin.
    + destruct (_ && _) eqn:Ec.
      * apply andb_prop in Ec as (Ec & _). apply Z.eqb_eq in Ec. cbn [sloc] in Hl. inversion H. eapply One; eauto; sfin.
      * inversion H; subst. destruct (Z.ltb_spec (sumf sreg ths - (v + sumf spst ths)) 0); eapply One; eauto; sfin.
    + inversion H; subst. eapply One; eauto; sfin.
    + destruct (Z.ltb_spec 0 v); [|discriminate]. inversion H; subst. eapply One; eauto; sfin.
Qed.

Lemma as_quiet_sums c : as_quiet_cfg c -> sumf sreg (snd c) = as_blocked c /\ sumf sdw (snd c) = 0 /\ sumf spend (snd c) = 0 /\ sumf spst (snd c) = 0.
Proof.
  unfold as_quiet_cfg, as_blocked. destruct c as [s ths]. cbn [snd fst]. induction ths as [|p ths IH]; intros H; cbn [sumf]; [lia|].
  destruct IH as (A & B & C & D); [intros t q Hq; exact (H (S t) q Hq)|].
  destruct (H O p eq_refl) as [-> |(-> & _)]; cbn [sreg sdw spend spst as_blk]; lia.
Qed.
Lemma as_blk_nn p : 0 <= as_blk p. Proof. destruct p; cbn; lia. Qed.
Lemma as_quiet_zero c : as_quiet_cfg c -> 0 < as_blocked c -> snd (fst c) = 0.
Proof.
  intros Hq Hb. destruct (sumf_pos_ex as_blk (snd c)) as (t & p & Ht & Hp); [exact Hb|].
  destruct (Hq _ _ Ht) as [-> |(_ & E)]; [discriminate Hp|exact E].
Qed.

(** C64, the event built on a semaphore. *)
Theorem C64_auto_sem : forall n sched1 c1 tr1 sched2 c tr,
  Z.of_nat n < 2 ^ 31 - 1 -> exec as_step (as_init n) sched1 = Some (c1, tr1) -> as_quiet_cfg c1 ->
  exec as_step c1 sched2 = Some (c, tr) -> as_posts_only sched2 -> as_quiet_cfg c ->
  waits_returned tr = Z.min (as_blocked c1) (posts_called tr) /\ as_blocked c = as_blocked c1 - waits_returned tr.
Proof.
  intros n sched1 c1 tr1 sched2 c tr Hn H1 Hq1 H2 Hp Hq.
  assert (W : forall l c' tr', exec as_step c1 l = Some (c', tr') -> SI c' /\ scap c').
  { intros l c' tr' H. assert (X : exec as_step (as_init n) (sched1 ++ l) = Some (c', tr1 ++ tr')) by (rewrite exec_app, H1, H; reflexivity).
    split; [exact (proj2 (as_main _ _ _ _ Hn X))|]. exact (as_along n (sched1 ++ l) Hn (sched1 ++ l) [] c' _ (eq_sym (app_nil_r _)) X). }
  set (k := as_blocked c1).
  destruct (as_quiet_sums _ Hq1) as (A1 & A2 & A3 & A4). destruct (as_quiet_sums _ Hq) as (B1 & B2 & B3 & B4). fold k in A1.
  assert (R : SRInv k c tr).
  { clear Hq B1 B2 B3 B4. revert c tr H2 Hp. induction sched2 as [|a l IH] using rev_ind; intros c tr H Hp.
    - inversion H; subst. split; [intros t p Ht; destruct (Hq1 _ _ Ht) as [-> |(-> & _)]; exact I|]. rewrite A1, A2, A3, A4. split; [cbn; lia|].
      cbn zeta. intros Hk. rewrite (as_quiet_zero _ Hq1 Hk). cbn. lia.
    - rewrite exec_app in H. destruct (exec as_step c1 l) as [[c0 tr0]|] eqn:E0; [|discriminate].
      cbn [exec] in H. destruct (as_step c0 a) as [[c2 e]|] eqn:Ea; [|discriminate]. rewrite app_nil_r in H. inversion H; subst c tr; clear H.
      destruct (W _ _ _ E0) as (S0 & S1).
      eapply SRInv_step; [exact S0|exact S1| |apply (IH c0 tr0)|exact Ea]; auto.
      + intros t o ->. apply (Hp t), in_or_app. right. left. reflexivity.
      + intros t o Hi. apply (Hp t), in_or_app. auto. }
  destruct R as (_ & R2 & R3). cbn zeta in R3. rewrite B1, B3, B4 in R3. rewrite B1, B2 in R2. split; [|lia].
  assert (0 <= posts_called tr) by (apply sumf_nonneg; intros []; cbn; try lia; destruct o; lia).
  assert (0 <= waits_returned tr) by (apply sumf_nonneg; intros []; cbn; try lia; destruct o; lia).
  assert (0 <= as_blocked c) by (apply sumf_nonneg, as_blk_nn).
  destruct (Z_lt_le_dec 0 k) as [Hk|Hk]; [|lia]. specialize (R3 Hk).
  assert (0 <= snd (fst c)) by (destruct (W _ _ _ H2) as (S0 & _); destruct c as [[st v] ths]; exact (proj1 S0)).
  destruct (Z_lt_le_dec 0 (as_blocked c)) as [Hb|Hb]; [rewrite (as_quiet_zero _ Hq Hb) in R3; lia|lia].
Qed.
Print Assumptions C64_auto_sem.

Example C64_auto_sem_example : exists c1 tr1 c tr,
  exec as_step (as_init 3) [TCall 1 EWait; TRun 1 SNorm; TCall 2 EWait; TRun 2 SNorm]%nat = Some (c1, tr1) /\ as_quiet_cfg c1 /\ as_blocked c1 = 2 /\
  exec as_step c1 [TCall 0 EPost; TRun 0 SNorm; TRun 0 SNorm; TRun 0 SNorm; TRun 0 SNorm; TRun 2 SNorm; TRun 2 SNorm]%nat = Some (c, tr) /\
  as_quiet_cfg c /\ posts_called tr = 1 /\ waits_returned tr = 1 /\ as_blocked c = 1.
Proof.
  do 4 eexists. split; [vm_compute; reflexivity|].
  split; [intros [|[|[|t]]] p Hp; cbn in Hp; inversion Hp; auto; destruct t; discriminate|]. split; [reflexivity|].
  split; [vm_compute; reflexivity|].
  split; [intros [|[|[|t]]] p Hp; cbn in Hp; inversion Hp; auto; destruct t; discriminate|]. repeat split.
Qed.
End Sem.

(** ** The emulated semaphore *)
Section EmuSem.
Import Monitor MonitorProof EmuModel PropsEmu.

(** Proof or specification device; no counterpart in /repo. *)
Definition xo (i : Z) (x : xth (ev_spec i post_count)) : Prop :=
  match x with XPend _ o l => forall r, In r l -> took o r = 0 /\ o <> EPost | _ => True end.

(** In the semaphore specification nothing is lost: units = initial count + posts that took effect - completed waits. *)
Lemma count_exact i n tr z : 0 <= i -> xsteps (ev_spec i post_count) (xinit (ev_spec i post_count) n) tr z ->
  fst z + sumf (xpend (etrans post_count) i) (snd z) + sumf (xtake (etrans post_count) i) (snd z) + takes tr = i + posts_called tr.
Proof.
  intros Hi. set (SP := ev_spec i post_count). set (xp := xpend (etrans post_count) i). set (xt := xtake (etrans post_count) i).
  assert (TE : forall o c r c', 0 <= c -> etrans post_count o c r c' -> 0 <= c' /\ c' + took o r = c + match o with EPost => 1 | _ => 0 end).
  { intros o c r c' Hc H. inversion H; subst; cbn [took]; unfold post_count in *; lia. }
  assert (G0 : forall acc x tr z, xsteps SP x tr z ->
     0 <= fst x -> Forall (xo i) (snd x) -> fst x + sumf xp (snd x) + sumf xt (snd x) + takes acc = i + posts_called acc ->
     fst z + sumf xp (snd z) + sumf xt (snd z) + takes (acc ++ tr) = i + posts_called (acc ++ tr)).
  { clear tr z. intros acc x tr z H. revert acc.
    induction H as [x|x e1 y e2 z H1 H2 IH]; intros acc Hnn Hob Hle.
    - rewrite app_nil_r. auto.
    - rewrite app_assoc.
      assert (Hnth : forall l t x, Forall (xo i) l -> nth_error l t = Some x -> xo i x)
        by (intros l t0 x0 Hf Hn; rewrite Forall_forall in Hf; apply Hf; eapply nth_error_In; eauto).
      assert (Hup : forall l t x, Forall (xo i) l -> xo i x -> Forall (xo i) (upd l t x)).
      { intros l t0 x0 Hf Hx. rewrite Forall_forall in Hf |- *. intros y0 Hy. apply In_nth_error in Hy. destruct Hy as (k & Hk).
        destruct (nth_upd_inv _ _ _ _ _ Hk) as [(_ & -> & _)|(_ & Hk')]; auto. apply Hf. eapply nth_error_In; eauto. }
      apply IH.
      + inversion H1; subst; cbn [fst snd] in *; auto.
        match goal with H : otrans _ _ _ _ _ _ |- _ => cbn in H; apply TE in H; tauto end.
      + inversion H1; subst; cbn [fst snd] in *; apply Hup; auto; cbn; try tauto.
        intros r0 [<-|Hin]; [|apply (Hnth _ _ _ Hob H r0 Hin)].
        match goal with H : otrans _ _ _ _ _ _ |- _ => cbn in H; apply TE in H; auto; destruct H end.
        split; [destruct o, r; cbn in *; lia|intros ->; cbn in *; lia].
      + unfold takes, posts_called in *.
        rewrite !sumf_app. inversion H1; subst; cbn [fst snd sumf] in *;
          match goal with H : nth_error _ _ = Some _ |- _ =>
            pose proof (Hnth _ _ _ Hob H) as Hx0; rewrite (sumf_upd xp _ _ _ _ H), (sumf_upd xt _ _ _ _ H) end;
          unfold xp, xt in *; cbn [xpend xtake xo] in *.
        * destruct o; cbn; lia.
        * destruct o; lia.
        * match goal with H : In _ _ |- _ => apply Hx0 in H; destruct H as (Hz & Ho); rewrite Hz end. destruct o; try lia. congruence.
        * match goal with H : otrans _ _ _ _ _ _ |- _ => cbn in H; apply TE in H; auto; destruct H end.
          destruct o; lia.
        * destruct o, r; cbn; lia. }
  intros H. apply (G0 [] (xinit SP n) tr z H); unfold xinit; cbn [fst snd oinit minit SP ev_spec].
  - exact Hi.
  - apply Forall_forall. intros x Hx. apply repeat_spec in Hx. subst. exact I.
  - rewrite !sumf_repeat. cbn. lia.
Qed.

(** C64, emulated semaphore: when every thread is outside or asleep and some thread is blocked, every unit ever there (initial count and
    posts) has been used up by a wait that returned: no post was wasted on a thread that is still blocked.
    Partial: timed waits by chrono clocks are excluded, they can swallow a wake-up (C17_chrono_refuted). *)
Theorem C64_semaphore_partial : forall i n sched s ths tr t p, 0 <= i ->
  along (sem_step i false) (fun c => snd (fst c) < 2 ^ 32 - 1) (sem_init i n) sched ->
  exec (sem_step i false) (sem_init i n) sched = Some ((s, ths), tr) ->
  (forall u q, nth_error ths u = Some q -> asleep q = true \/ exists m, q = PRest m) ->
  nth_error ths t = Some p -> asleep p = true ->
  takes tr = i + posts_called tr.
Proof.
  intros i n sched s ths tr t p Hi Ha H Hq Ht Hs.
  destruct (mon_lin_x (ev_spec i post_count) sem_body ev_timed false false nothrow sem_mi sem_cap (fun _ => Hi) (sem_done i) (sem_fail i) (nothrow_ok _ _) n sched _ tr Ha H) as (X & _).
  pose proof (count_exact _ _ _ _ Hi X) as E. unfold tabs in E. cbn [fst snd] in E.
  assert (TL : forall o c r c', 0 <= c -> etrans post_count o c r c' -> 0 <= c' /\ c' + took o r <= c + match o with EPost => 1 | _ => 0 end)
    by (intros o c r c' Hc H0; inversion H0; subst; cbn [took]; unfold post_count in *; lia).
  destruct (conservation_x (etrans post_count) i TL Hi n tr _ X) as (V0 & _). unfold tabs in V0. cbn [fst snd] in V0.
  pose proof (mon_quiescent (ev_spec i post_count) sem_body ev_timed false false nothrow sem_mi sem_cap (fun _ => Hi)
    (sem_done i) (sem_fail i) (nothrow_ok _ _) (fun d : Z => d) ev_waitop eq_refl sem_wait_z sem_fail_z (sem_take_z i) (sem_give_z i)
    n sched s ths tr t p Ha H Hq Ht Hs) as V1.
  destruct (mon_enough_awake (ev_spec i post_count) sem_body ev_timed false false nothrow sem_mi sem_cap (fun _ => Hi)
    (sem_done i) (sem_fail i) (nothrow_ok _ _) (fun d : Z => d) ev_waitop eq_refl sem_wait_z sem_fail_z (sem_take_z i) (sem_give_z i)
    n sched _ tr Ha H) as (_ & _ & WL). cbn [snd] in WL.
  assert (S0 : sumf (xpend (etrans post_count) i) (map (mabs (ev_spec i post_count)) ths) = 0 /\ sumf (xtake (etrans post_count) i) (map (mabs (ev_spec i post_count)) ths) = 0).
  { clear - Hq WL. induction ths as [|q ths IH]; [split; reflexivity|]. cbn [map sumf].
    destruct IH as (A & B); [intros u x Hx; exact (Hq (S u) x Hx)|intros u x Hx; exact (WL (S u) x Hx)|]. rewrite A, B.
    specialize (Hq O q eq_refl). specialize (WL O q eq_refl).
    destruct Hq as [Hq|(m & ->)]; [|split; reflexivity]. destruct q; try discriminate Hq. cbn in WL |- *. destruct o; try discriminate WL; split; reflexivity. }
  destruct S0 as (A & B). rewrite A, B in E. unfold mg in *. cbn [fst snd] in *. lia.
Qed.
Print Assumptions C64_semaphore_partial.

(** Two threads blocked, one post: one thread returns, the other is left blocked. Proof or specification device; no counterpart in /repo. *)
Definition sem_two : list (tact eop mchoice) :=
  [TCall 1 EWait; TRun 1 MNorm; TRun 1 MNorm; TRun 1 MNorm; TCall 2 EWait; TRun 2 MNorm; TRun 2 MNorm; TRun 2 MNorm;
   TCall 0 EPost; TRun 0 MNorm; TRun 0 MNorm; TRun 0 MNorm; TRun 0 (MWake 1); TRun 0 MNorm; TRun 0 MNorm;
   TRun 1 MNorm; TRun 1 MNorm; TRun 1 MNorm; TRun 1 MNorm; TRun 1 MNorm]%nat.
Example C64_semaphore_example : exists s ths tr p,
  exec (sem_step 0 false) (sem_init 0 3) sem_two = Some ((s, ths), tr) /\ nth_error ths 2%nat = Some p /\ asleep p = true /\
  (forall u q, nth_error ths u = Some q -> asleep q = true \/ exists m, q = PRest m) /\ takes tr = 1 /\ posts_called tr = 1.
Proof.
  do 4 eexists. split; [vm_compute; reflexivity|]. split; [reflexivity|]. split; [reflexivity|]. split; [|split; reflexivity].
  intros [|[|[|u]]] q Hq; cbn in Hq; inversion Hq; subst; cbn; eauto. destruct u; discriminate.
Qed.

(** C64 is false of the emulated event: two threads are blocked, two posts are made (with no other thread waiting), and when everything has settled
    one thread is still blocked: the second post() found m_is_set still true and did nothing. *)
Theorem C64_emulated_refuted : exists sched1 c1 tr1 sched2 s ths tr,
  exec (are_step false) (are_init 3) sched1 = Some (c1, tr1) /\
  (exists p q, nth_error (snd c1) 1%nat = Some p /\ nth_error (snd c1) 2%nat = Some q /\ asleep p = true /\ asleep q = true) /\
  exec (are_step false) c1 sched2 = Some ((s, ths), tr) /\ (forall t o, In (TCall t o) sched2 -> o = EPost) /\
  (forall u q, nth_error ths u = Some q -> asleep q = true \/ exists m, q = PRest m) /\
  posts_called tr = 2 /\ waits_returned tr = 1 /\ exists p, nth_error ths 2%nat = Some p /\ asleep p = true.
Proof.
  exists [TCall 1 EWait; TRun 1 MNorm; TRun 1 MNorm; TRun 1 MNorm; TCall 2 EWait; TRun 2 MNorm; TRun 2 MNorm; TRun 2 MNorm]%nat.
  eexists. eexists.
  exists [TCall 0 EPost; TRun 0 MNorm; TRun 0 MNorm; TRun 0 MNorm; TRun 0 (MWake 1); TRun 0 MNorm; TRun 0 MNorm;
          TCall 0 EPost; TRun 0 MNorm; TRun 0 MNorm; TRun 0 MNorm; TRun 0 MNorm; TRun 0 MNorm;
          TRun 1 MNorm; TRun 1 MNorm; TRun 1 MNorm; TRun 1 MNorm; TRun 1 MNorm]%nat.
  do 3 eexists. split; [vm_compute; reflexivity|]. split; [do 2 eexists; repeat split|]. split; [vm_compute; reflexivity|].
  split; [intros t o Hi; cbn in Hi; repeat (destruct Hi as [Hi|Hi]; [inversion Hi; auto|]); contradiction|].
  split; [intros [|[|[|u]]] q Hq; cbn in Hq; inversion Hq; subst; cbn; eauto; destruct u; discriminate|].
  split; [reflexivity|]. split; [reflexivity|]. eexists. split; reflexivity.
Qed.
Print Assumptions C64_emulated_refuted.
End EmuSem.
