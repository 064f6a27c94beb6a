(** Property theorems: Windows mutex and timed_mutex (C19, C20, C22, C51). *)
From Coq Require Import List Bool Arith ZArith Lia.
From Verif Require Import ListSum Exec Lin Thr Word MutexSpec MutexSpecFacts WinMutexModel WinMutexProof.
Import ListNotations.
Local Open Scope Z_scope.

(** ** C19 *)
(** Every history of fewer than 2^30 threads - with timeouts, failed waits, failed event creation, stale signals - is one of an atomic
    mutex: try_lock and the timed locks return false only if the mutex was held at an instant of the call, an exception
    means no effect. *)
Theorem C19_atomic : forall n sched c tr, Z.of_nat n < 2 ^ 30 ->
  exec wm_step (wm_init n) sched = Some (c, tr) -> linearizable (mutex_spec true) n tr.
Proof. intros n sched c tr Hn H. exact (proj1 (wm_lin n sched c tr Hn H)). Qed.
Print Assumptions C19_atomic.

Theorem C19_exclusion : forall n sched c tr, Z.of_nat n < 2 ^ 30 ->
  exec wm_step (wm_init n) sched = Some (c, tr) -> (length (holders tr) <= 1)%nat.
Proof. intros n sched c tr Hn H. exact (mutex_spec_exclusion _ _ _ (C19_atomic _ _ _ _ Hn H)). Qed.
Print Assumptions C19_exclusion.

(** When no call is in progress, m_active_count carries no trace of past waits, timeouts and failures: it consists of the lock bit, set iff a
    thread holds the mutex, and the event bit, set iff the event is signalled. *)
Theorem C19_idle_word : forall n sched s ths tr, Z.of_nat n < 2 ^ 30 ->
  exec wm_step (wm_init n) sched = Some ((s, ths), tr) ->
  (forall t p, nth_error ths t = Some p -> exists m, p = WRest m) ->
  word s = 2 ^ 31 * sumf (fun p => match p with WRest true => 1 | _ => 0 end) ths
         + 2 ^ 30 * sumf (fun b : bool => if b then 1 else 0) (events s).
Proof.
  intros n sched s ths tr Hn H Hrest. destruct (proj2 (wm_lin _ _ _ _ Hn H)) as ((L & E & H1 & H2 & H3 & _) & _).
  assert (Hz : forall f : wpc -> Z, (forall m, f (WRest m) = 0) -> sumf f ths = 0).
  { intros f Hf. clear - Hrest Hf. induction ths as [|p l IH]; [reflexivity|]. cbn [sumf]. rewrite IH by (intros t q Hq; apply (Hrest (S t) q Hq)).
    destruct (Hrest O p eq_refl) as (m & ->). rewrite Hf. reflexivity. }
  rewrite (Hz reg) in H1 by reflexivity. rewrite (Hz tok) in H3 by reflexivity.
  assert (Hh : sumf (fun p => match p with WRest true => 1 | _ => 0 end) ths = sumf hz ths).
  { clear - Hrest. induction ths as [|p l IH]; [reflexivity|]. cbn [sumf]. rewrite IH by (intros t q Hq; apply (Hrest (S t) q Hq)).
    destruct (Hrest O p eq_refl) as (m & ->). destruct m; reflexivity. }
  rewrite Hh, <- H2. change (fun b : bool => if b then 1 else 0) with Z.b2z. rewrite H1. unfold wd. lia.
Qed.
Print Assumptions C19_idle_word.

(** Non-vacuity: thread 0 holds; thread 1 blocks; thread 2's timed lock waits and times out, thread 0 unlocks and signals; thread 1 gets it. *)
Definition wm_ex : list (tact mop wchoice) :=
  let r t := TRun t CNorm in
  [TCall 0 MLock; r 0%nat; r 0%nat;
   TCall 1 MLock; r 1%nat; r 1%nat; r 1%nat; r 1%nat; r 1%nat; r 1%nat;
   TCall 2 MTimed; r 2%nat; r 2%nat; r 2%nat; r 2%nat; TRun 2 CTimeout; r 2%nat; r 2%nat;
   TCall 0 MUnlock; r 0%nat; r 0%nat; r 0%nat; r 0%nat; r 0%nat; r 1%nat; r 1%nat; r 1%nat].
Example C19_example : exists s ths,
  exec wm_step (wm_init 3) wm_ex =
    Some ((s, ths), [Call 0 MLock; Ret 0 MLock ROk; Call 1 MLock; Call 2 MTimed; Ret 2 MTimed RFalse;
                     Call 0 MUnlock; Ret 0 MUnlock ROk; Ret 1 MLock ROk]) /\
  ths = [WRest false; WRest true; WRest false] /\ word s = 2 ^ 31.
Proof. eexists _, _. split; [vm_compute; reflexivity|]. split; reflexivity. Qed.

(** ** C20 *)
Definition about_to_signal (p : wpc) : bool :=
  match p with
  | WBts | WEvLoad CUnlock | WEvCreate CUnlock | WEvCas CUnlock _ | WEvClose CUnlock _ _ | WSet _ => true
  | _ => false
  end.
(** A thread whose wait has succeeded and that is about to try for the mutex. *)
Definition woken (p : wpc) : bool := match p with WClear _ _ _ => true | _ => false end.

Lemma tok_split p : 0 < tok p -> about_to_signal p = true \/ woken p = true.
Proof. destruct p; cbn; try lia; auto; destruct c; cbn; auto; lia. Qed.

(** In every reachable state in which the mutex is free and some thread is blocked waiting for it: the event it waits for is
    signalled, or an unlock() call is about to signal it, or another waiter has been woken and is about to try. *)
Theorem C20_no_lost_wakeup : forall n sched s ths tr t k old h, Z.of_nat n < 2 ^ 30 ->
  exec wm_step (wm_init n) sched = Some ((s, ths), tr) ->
  nth_error ths t = Some (WWait k old h) -> locked (word s) = false ->
  nth_error (events s) h = Some true \/ exists u p, nth_error ths u = Some p /\ (about_to_signal p = true \/ woken p = true).
Proof.
  intros n sched s ths tr t k old h Hn H Ht Hl. destruct (proj2 (wm_lin _ _ _ _ Hn H)) as ((L & E & H1 & H2 & H3 & H4) & _ & H6 & H7 & _).
  assert (Hc : wcap (s, ths)).
  { unfold wcap. cbn [snd].
    assert (Hlen : forall s ths t p ch c', wm_run s ths t p ch = Some c' -> length (snd c') = length ths).
    { intros s0 ths0 t0 p ch c' Hr. unfold wm_run in Hr. destruct (wm_run1 s0 p ch) as [[s' q]|]; inversion Hr; subst. apply upd_length. }
    pose proof (tlength wm_call wm_ret wm_run (wm_init n) Hlen _ _ _ H) as E0. cbn [snd wm_init] in E0. rewrite repeat_length in E0. rewrite E0. assumption. }
  destruct (sum_reg_small _ Hc) as (Hsm & _). cbn [snd] in Hsm. rewrite H1, wd_locked in Hl by assumption. subst L.
  pose proof (reg_elem _ _ _ Ht) as Hr. cbn in Hr.
  destruct H4 as [H4|[H4|[H4|H4]]]; [discriminate|lia| |].
  - subst E. cbn [Z.b2z] in H3. destruct (Z_lt_le_dec 0 (sumf tok ths)) as [Hp|Hp].
    + right. destruct (sumf_pos_ex _ _ Hp) as (u & p & Hu & Hpos). exists u, p. split; [exact Hu|apply tok_split; exact Hpos].
    + left. destruct (sumf_pos_ex Z.b2z (events s)) as (i & b & Hi & Hb); [lia|]. destruct b; [|cbn in Hb; lia].
      rewrite (H7 _ _ _ Ht eq_refl) in H6. specialize (H6 _ Hi). congruence.
  - right. destruct (sumf_pos_ex _ _ H4) as (u & p & Hu & Hpos). exists u, p. split; [exact Hu|]. destruct p; cbn in Hpos; try lia. auto.
Qed.
Print Assumptions C20_no_lost_wakeup.

(** Hence a waiter on a free mutex is never stuck: with all other threads outside the library it gets the mutex in at most
    three steps of its own. *)
Theorem C20_progress : forall n sched s ths tr t k old h, Z.of_nat n < 2 ^ 30 ->
  exec wm_step (wm_init n) sched = Some ((s, ths), tr) ->
  nth_error ths t = Some (WWait k old h) -> locked (word s) = false -> dead s = false ->
  (forall u p, u <> t -> nth_error ths u = Some p -> exists m, p = WRest m) ->
  exists j c', (j <= 4)%nat /\ exec wm_step (s, ths) (repeat (TRun t CNorm) j) = Some (c', [Ret t (kop k) (kgot k)]).
Proof.
  intros n sched s ths tr t k old h Hn H Ht Hl Hd Hrest.
  assert (He : nth_error (events s) h = Some true).
  { destruct (C20_no_lost_wakeup _ _ _ _ _ _ _ _ _ Hn H Ht Hl) as [He|(u & p & Hu & Hp)]; [exact He|exfalso].
    destruct (Nat.eq_dec u t) as [->|Hne]; [rewrite Ht in Hu; inversion Hu; subst; cbn in Hp; intuition discriminate|].
    destruct (Hrest u p Hne Hu) as (m & ->). cbn in Hp. intuition discriminate. }
  set (s1 := Sh (word s) (m_event s) (upd (events s) h false) (closed s) (dead s)).
  assert (S1 : wm_step (s, ths) (TRun t CNorm) = Some ((s1, upd ths t (WClear k (clear_first old) h)), [])).
  { unfold wm_step, tstep, wm_run, wm_run1. rewrite Ht. cbn [wm_ret]. rewrite Hd, He. unfold s1. rewrite Hd. reflexivity. }
  assert (S2 : forall s0 ths0, dead s0 = false -> nth_error ths0 t = Some (WClear k (word s0) h) -> locked (word s0) = false ->
     wm_step (s0, ths0) (TRun t CNorm) = Some ((set_word s0 (clear_new (word s0)), upd ths0 t (WDone false (kop k) (kgot k))), [])).
  { intros s0 ths0 Hd0 Ht0 Hl0. unfold wm_step, tstep, wm_run, wm_run1. rewrite Ht0. cbn [wm_ret]. rewrite Hd0, Z.eqb_refl. cbn [andb negb spurious]. rewrite Hl0. reflexivity. }
  assert (S3 : forall s0 ths0, nth_error ths0 t = Some (WDone false (kop k) (kgot k)) ->
     wm_step (s0, ths0) (TRun t CNorm) = Some ((s0, upd ths0 t (WRest (mnext false (kop k) (kgot k)))), [Ret t (kop k) (kgot k)])).
  { intros s0 ths0 Ht0. unfold wm_step, tstep. rewrite Ht0. reflexivity. }
  pose proof (nth_upd_eq _ _ (WClear k (clear_first old) h) _ Ht) as T1.
  destruct (Z.eq_dec (word s) (clear_first old)) as [Heq|Hneq].
  - exists 3%nat. eexists. split; [lia|]. cbn [repeat exec]. rewrite S1. rewrite S2; [|exact Hd|cbn [s1 word]; rewrite Heq; exact T1|exact Hl].
    rewrite S3 by (eapply nth_upd_eq; eauto). reflexivity.
  - assert (S4 : wm_step (s1, upd ths t (WClear k (clear_first old) h)) (TRun t CNorm) = Some ((s1, upd (upd ths t (WClear k (clear_first old) h)) t (WClear k (word s) h)), [])).
    { unfold wm_step, tstep, wm_run, wm_run1. rewrite T1. cbn [wm_ret s1 dead word]. rewrite Hd. destruct (Z.eqb_spec (word s) (clear_first old)); [contradiction|]. reflexivity. }
    exists 4%nat. eexists. split; [lia|]. cbn [repeat exec]. rewrite S1, S4. rewrite S2; [|exact Hd|eapply nth_upd_eq; eauto|exact Hl].
    rewrite S3 by (eapply nth_upd_eq; eapply nth_upd_eq; eauto). reflexivity.
Qed.
Print Assumptions C20_progress.

(** Non-vacuity: a state with a free mutex, one blocked waiter and a signalled event, all others outside. *)
Example C20_example : exists s ths tr old,
  exec wm_step (wm_init 2)
    (let r t := TRun t CNorm in
     [TCall 0 MLock; r 0%nat; r 0%nat; TCall 1 MLock; r 1%nat; r 1%nat; r 1%nat; TCall 0 MUnlock; r 0%nat; r 0%nat; r 0%nat; r 0%nat;
      r 1%nat; r 0%nat; r 0%nat; r 0%nat; r 1%nat; r 1%nat; r 1%nat])
    = Some ((s, ths), tr) /\ ths = [WRest false; WWait KLock old 0] /\ locked (word s) = false /\ dead s = false.
Proof. eexists _, _, _, _. split; [vm_compute; reflexivity|]. repeat split. Qed.

(** ** C22 *)
(** Every thread that uses the event uses the one handle stored in m_event, and that handle is open. *)
Theorem C22_unique_event : forall n sched s ths tr t p h, Z.of_nat n < 2 ^ 30 ->
  exec wm_step (wm_init n) sched = Some ((s, ths), tr) ->
  nth_error ths t = Some p -> (exists k old, p = WWait k old h) \/ p = WSet h \/ (exists old, p = WTimer old h) ->
  m_event s = Some h /\ (h < length (events s))%nat /\ ~ In h (closed s).
Proof.
  intros n sched s ths tr t p h Hn H Ht Hp. destruct (proj2 (wm_lin _ _ _ _ Hn H)) as (_ & H5 & _ & H7 & _).
  assert (Hm : m_event s = Some h) by (apply (H7 t p h Ht); destruct Hp as [(k & old & ->)|[->|(old & ->)]]; reflexivity).
  split; [exact Hm|]. specialize (H5 h). rewrite Hm in H5. cbn [mz] in H5. rewrite Nat.eqb_refl in H5.
  assert (0 <= sumf (inhand h) ths) by (apply sumf_nonneg; intros a; destruct a; cbn; try lia; destruct (Nat.eqb _ _); lia).
  unfold cz in H5. destruct (Nat.ltb_spec h (length (events s))) as [Hlt|Hge]; [|lia]. split; [exact Hlt|].
  intros Hin. apply (count_occ_In Nat.eq_dec) in Hin. lia.
Qed.
Print Assumptions C22_unique_event.

(** No handle is ever closed twice, and the stored one is not closed while the mutex exists. *)
Theorem C22_no_double_close : forall n sched s ths tr, Z.of_nat n < 2 ^ 30 ->
  exec wm_step (wm_init n) sched = Some ((s, ths), tr) -> NoDup (wm_dtor s).
Proof.
  intros n sched s ths tr Hn H. destruct (proj2 (wm_lin _ _ _ _ Hn H)) as (_ & H5 & _).
  assert (Hz : forall id, cz (wm_dtor s) id = cz (closed s) id + mz (m_event s) id).
  { intros id. unfold wm_dtor, cz, mz. destruct (m_event s) as [h|]; [|lia]. cbn [count_occ]. destruct (Nat.eq_dec h id) as [->|Hn']; [rewrite Nat.eqb_refl; lia|].
    rewrite (proj2 (Nat.eqb_neq h id) Hn'). lia. }
  apply (NoDup_count_occ Nat.eq_dec). intros id. specialize (H5 id). specialize (Hz id).
  assert (0 <= sumf (inhand id) ths) by (apply sumf_nonneg; intros a; destruct a; cbn; try lia; destruct (Nat.eqb _ _); lia).
  unfold cz in *. destruct (id <? length (events s))%nat; lia.
Qed.
Print Assumptions C22_no_double_close.

(** When no call is in progress and the mutex is destroyed, exactly the handles that were created have been closed, once each. *)
Theorem C22_no_leak : forall n sched s ths tr, Z.of_nat n < 2 ^ 30 ->
  exec wm_step (wm_init n) sched = Some ((s, ths), tr) ->
  (forall t p, nth_error ths t = Some p -> exists m, p = WRest m) ->
  NoDup (wm_dtor s) /\ forall h, In h (wm_dtor s) <-> (h < length (events s))%nat.
Proof.
  intros n sched s ths tr Hn H Hrest. split; [eapply C22_no_double_close; eauto|]. intros id.
  destruct (proj2 (wm_lin _ _ _ _ Hn H)) as (_ & H5 & _). specialize (H5 id).
  assert (Hi : sumf (inhand id) ths = 0).
  { clear - Hrest. induction ths as [|p l IH]; [reflexivity|]. cbn [sumf]. rewrite IH by (intros t q Hq; apply (Hrest (S t) q Hq)).
    destruct (Hrest O p eq_refl) as (m & ->). reflexivity. }
  rewrite Hi in H5. unfold wm_dtor. unfold cz, mz in H5.
  destruct (Nat.ltb_spec id (length (events s))) as [Hlt|Hge].
  - split; [auto|]. intros _. destruct (m_event s) as [h|].
    + destruct (Nat.eqb_spec h id) as [Heq|Hne]; [left; exact Heq|right]. apply (count_occ_In Nat.eq_dec). lia.
    + apply (count_occ_In Nat.eq_dec). lia.
  - split; [|lia]. intros Hin. exfalso. destruct (m_event s) as [h|].
    + destruct (Nat.eqb_spec h id) as [Heq|Hne]; [lia|]. destruct Hin as [Hin|Hin]; [contradiction|]. apply (count_occ_In Nat.eq_dec) in Hin. lia.
    + apply (count_occ_In Nat.eq_dec) in Hin. lia.
Qed.
Print Assumptions C22_no_leak.

(** Non-vacuity: two waiters race to create the event; the loser closes its own and both wait on handle 0. *)
Example C22_example : exists s ths tr o1 o2,
  exec wm_step (wm_init 3)
    (let r t := TRun t CNorm in
     [TCall 0 MLock; r 0%nat; r 0%nat; TCall 1 MLock; r 1%nat; r 1%nat; r 1%nat; r 1%nat; TCall 2 MLock; r 2%nat; r 2%nat; r 2%nat; r 2%nat;
      r 1%nat; r 2%nat; r 1%nat; r 2%nat; r 2%nat])
    = Some ((s, ths), tr) /\ ths = [WRest true; WWait KLock o1 0; WWait KLock o2 0] /\ closed s = [1%nat] /\ length (events s) = 2%nat.
Proof. eexists _, _, _, _, _. split; [vm_compute; reflexivity|]. repeat split. Qed.

(** ** C51: unlock() is declared noexcept, but creating the event inside it can fail: the program is then terminated.  One waiter that has
    announced itself and not yet created the event is enough. *)
Theorem C51_unlock_terminates_refuted : exists sched s ths tr,
  exec wm_step (wm_init 2) sched = Some ((s, ths), tr) /\ dead s = true /\ tr = [Call 0 MLock; Ret 0 MLock ROk; Call 1 MLock; Call 0 MUnlock].
Proof.
  exists (let r t := TRun t CNorm in [TCall 0 MLock; r 0%nat; r 0%nat; TCall 1 MLock; r 1%nat; r 1%nat; r 1%nat; TCall 0 MUnlock; r 0%nat; r 0%nat; r 0%nat; TRun 0%nat CFail]).
  eexists _, _, _. split; [vm_compute; reflexivity|]. split; reflexivity.
Qed.
Print Assumptions C51_unlock_terminates_refuted.

(** It is the only way: the program is terminated only by a failure to create the event inside unlock(). *)
Theorem C51_only_cause : forall s ths a c e, wm_step (s, ths) a = Some (c, e) -> dead s = false -> dead (fst c) = true ->
  exists t, a = TRun t CFail /\ nth_error ths t = Some (WEvCreate CUnlock).
Proof.
  intros s ths a c e H Hd Hc. destruct a as [t o|t ch]; unfold wm_step, tstep in H; destruct (nth_error ths t) as [p|] eqn:Ht; try discriminate.
  - destruct (wm_call p o); inversion H; subst; cbn in Hc; congruence.
  - destruct (wm_ret p) as [[[o r] q]|]; [inversion H; subst; cbn in Hc; congruence|].
    destruct (wm_run s ths t p ch) as [c'|] eqn:Hr; [|discriminate]. inversion H; subst c' e. clear H.
    unfold wm_run in Hr. destruct (wm_run1 s p ch) as [[s' q]|] eqn:H1; [|discriminate]. inversion Hr; subst c. clear Hr. cbn [fst] in Hc.
    exists t. unfold wm_run1 in H1. rewrite Hd in H1.
    assert (Hb : forall x, dead (set_word s x) = dead s) by reflexivity.
    destruct p; try discriminate; unfold bts in H1;
      repeat match type of H1 with context [match ?x with _ => _ end] => destruct x eqn:?; try discriminate end;
      inversion H1; subst s' q; rewrite ?Hb in Hc; cbn [dead] in Hc; try congruence; auto.
Qed.
Print Assumptions C51_only_cause.
