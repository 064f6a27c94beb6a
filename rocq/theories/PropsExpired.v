(** Property theorems: a timed function whose deadline has already passed still takes an available object (C57).
    In the interleaving models the choice of the scheduler at each step includes "no time is left", so the theorems quantify over the choices. *)
From Coq Require Import List Bool Arith ZArith Lia.
From Verif Require Import ListSum Exec Lin Thr Word MutexSpec EventSpec FlagSpec Monitor EmuModel TimedLoops.
From Verif Require AutoFutexModel ManualFutexModel AutoSemModel WinMutexModel.
Import ListNotations.
Local Open Scope Z_scope.

(** Linux auto-reset event: with a post pending, a timed wait run without interference takes it, whatever the clock says at its first step.  (Its second
    step is the compare-exchange, which must not fail spuriously for ever.) *)
Theorem C57_auto_futex : forall s ths t ch1 ch2, AutoFutexModel.posts_of s > 0 -> nth_error ths t = Some AutoFutexModel.ARest ->
  exists c, exec AutoFutexModel.auto_step (s, ths)
    [AutoFutexModel.ACall t ETimed; AutoFutexModel.ARun t ch1; AutoFutexModel.ARun t AutoFutexModel.CNorm; AutoFutexModel.ARun t ch2]
    = Some (c, [Call t ETimed; Ret t ETimed ETrue]).
Proof.
  intros s ths t ch1 ch2 Hp Ht. cbn [exec]. unfold AutoFutexModel.auto_step at 1. rewrite Ht. cbn [AutoFutexModel.auto_entry].
  unfold AutoFutexModel.auto_step at 1. rewrite (nth_upd_eq _ _ _ _ Ht). cbn [AutoFutexModel.auto_run]. unfold AutoFutexModel.try_test.
  destruct (Z.ltb_spec 0 (AutoFutexModel.posts_of s)); [|lia].
  unfold AutoFutexModel.auto_step at 1. erewrite nth_upd_eq by (eapply nth_upd_eq; eauto). cbn [AutoFutexModel.auto_run]. rewrite Z.eqb_refl.
  unfold AutoFutexModel.auto_step at 1. erewrite nth_upd_eq by (eapply nth_upd_eq; eapply nth_upd_eq; eauto). eexists. reflexivity.
Qed.
Print Assumptions C57_auto_futex.

(** Linux manual-reset event, while set. *)
Theorem C57_manual_futex : forall s ths t ch1 ch2, Z.land s ManualFutexModel.mpost_bit <> 0 -> nth_error ths t = Some ManualFutexModel.FRest ->
  exists c, exec ManualFutexModel.man_step (s, ths) [ManualFutexModel.FCall t FTimed; ManualFutexModel.FRun t ch1; ManualFutexModel.FRun t ch2]
    = Some (c, [Call t FTimed; Ret t FTimed FTrue]).
Proof.
  intros s ths t ch1 ch2 Hp Ht. cbn [exec]. unfold ManualFutexModel.man_step at 1. rewrite Ht. cbn [ManualFutexModel.man_entry].
  unfold ManualFutexModel.man_step at 1. rewrite (nth_upd_eq _ _ _ _ Ht). cbn [ManualFutexModel.man_run].
  destruct (Z.eqb_spec (Z.land s ManualFutexModel.mpost_bit) 0); [contradiction|].
  unfold ManualFutexModel.man_step at 1. erewrite nth_upd_eq by (eapply nth_upd_eq; eauto). eexists. reflexivity.
Qed.
Print Assumptions C57_manual_futex.

(** Auto-reset event on a semaphore: with a unit in the semaphore, unless the semaphore's timed wait fails. *)
Theorem C57_auto_semaphore : forall st v ths t ch1 ch2 ch3, 0 < v -> ch2 <> AutoSemModel.SFail -> nth_error ths t = Some AutoSemModel.SRest ->
  exists c, exec AutoSemModel.as_step ((st, v), ths) [TCall t ETimed; TRun t ch1; TRun t ch2; TRun t ch3]
    = Some (c, [Call t ETimed; Ret t ETimed ETrue]).
Proof.
  intros st v ths t ch1 ch2 ch3 Hv Hf Ht. unfold AutoSemModel.as_step. cbn [exec].
  unfold tstep at 1. rewrite Ht. cbn [AutoSemModel.as_call].
  unfold tstep at 1. rewrite (nth_upd_eq _ _ _ _ Ht). cbn [AutoSemModel.as_ret AutoSemModel.as_run AutoSemModel.as_run1].
  unfold tstep at 1. erewrite nth_upd_eq by (eapply nth_upd_eq; eauto). cbn [AutoSemModel.as_ret AutoSemModel.as_run AutoSemModel.as_run1].
  unfold AutoSemModel.as_run at 1, AutoSemModel.as_run1 at 1. destruct (Z.ltb_spec 0 v); [|lia].
  replace (true && negb (AutoSemModel.s_fail AutoSemModel.SKTimed ch2)) with true by (destruct ch2; reflexivity || congruence).
  unfold tstep at 1. erewrite nth_upd_eq by (eapply nth_upd_eq; eapply nth_upd_eq; eauto). cbn [AutoSemModel.as_ret]. eexists. reflexivity.
Qed.
Print Assumptions C57_auto_semaphore.

(** The emulations: an operation whose body, reading the current data, is done without waiting and without a notification returns its result in one critical section. *)
Lemma mon_immediate SP body timed inner outer : forall m d ths t o d' r chs1 chs2 chs3 chs4 chs5, pre SP m o = true ->
  nth_error ths t = Some (PRest (SP := SP) m) -> body t o false d = BDone d' r NNone ->
  exists c, exec (mon_step SP body timed inner outer nothrow) ((false, d), ths)
    [TCall t o; TRun t chs1; TRun t chs2; TRun t chs3; TRun t chs4; TRun t chs5] = Some (c, [Call t o; Ret t o r]).
Proof.
  intros m d ths t o d' r ch1 ch2 ch3 ch4 ch5 Hp Ht Hb. unfold mon_step. cbn [exec].
  unfold tstep at 1. rewrite Ht. cbn [mon_call]. rewrite Hp.
  unfold tstep at 1. rewrite (nth_upd_eq _ _ _ _ Ht). cbn [mon_ret mon_run].
  unfold tstep at 1. erewrite nth_upd_eq by (eapply nth_upd_eq; eauto). cbn [mon_ret mon_run].
  unfold tstep at 1. erewrite nth_upd_eq by (do 2 (eapply nth_upd_eq); eauto). cbn [mon_ret mon_run]. rewrite Hb.
  unfold tstep at 1. erewrite nth_upd_eq by (do 3 (eapply nth_upd_eq); eauto). cbn [mon_ret mon_run].
  unfold tstep at 1. erewrite nth_upd_eq by (do 4 (eapply nth_upd_eq); eauto). cbn [mon_ret]. eexists. reflexivity.
Qed.

(** Emulated semaphore, auto-reset event, manual-reset event and timed mutex: available object, internal mutex free. *)
Theorem C57_emulations : forall t (ch1 ch2 ch3 ch4 ch5 : mchoice),
  let sched {O} (o : O) := [TCall t o; TRun t ch1; TRun t ch2; TRun t ch3; TRun t ch4; TRun t ch5] in
  (forall i chr c ths, 0 < c -> nth_error ths t = Some (PRest (SP := ev_spec i post_count) tt) ->
     exists c', exec (sem_step i chr) ((false, c), ths) (sched ETimed) = Some (c', [Call t ETimed; Ret t ETimed ETrue])) /\
  (forall chr ths, nth_error ths t = Some (PRest (SP := ev_spec 0 post_binary) tt) ->
     exists c', exec (are_step chr) ((false, 1), ths) (sched ETimed) = Some (c', [Call t ETimed; Ret t ETimed ETrue])) /\
  (forall chr ths, nth_error ths t = Some (PRest (SP := flag_spec false) tt) ->
     exists c', exec (mre_step chr) ((false, true), ths) (sched FTimed) = Some (c', [Call t FTimed; Ret t FTimed FTrue])) /\
  (forall ths, nth_error ths t = Some (PRest (SP := mutex_spec false) false) ->
     exists c', exec tm_step ((false, None), ths) (sched MTimed) = Some (c', [Call t MTimed; Ret t MTimed RTrue])).
Proof.
  intros t ch1 ch2 ch3 ch4 ch5 sched. repeat split.
  - intros i chr c ths Hc Ht. apply (mon_immediate (ev_spec i post_count) sem_body ev_timed chr false tt c ths t ETimed (c - 1) ETrue); auto.
    cbn. destruct (Z.eqb_spec c 0); [lia|reflexivity].
  - intros chr ths Ht. apply (mon_immediate (ev_spec 0 post_binary) are_body ev_timed chr false tt 1 ths t ETimed 0 ETrue); auto.
  - intros chr ths Ht. apply (mon_immediate (flag_spec false) mre_body fl_timed chr false tt true ths t FTimed true FTrue); auto.
  - intros ths Ht. apply (mon_immediate (mutex_spec false) tm_body mu_timed false true false None ths t MTimed (Some t) RTrue); auto.
Qed.
Print Assumptions C57_emulations.

(** Windows timed mutex: whichever overload, a free mutex is taken by the first step. *)
Theorem C57_windows_mutex : forall s ths t ch1 ch2, WinMutexModel.locked (WinMutexModel.word s) = false -> WinMutexModel.dead s = false ->
  nth_error ths t = Some (WinMutexModel.WRest false) ->
  exists c, exec WinMutexModel.wm_step (s, ths) [TCall t MTimed; TRun t ch1; TRun t ch2] = Some (c, [Call t MTimed; Ret t MTimed RTrue]).
Proof.
  intros s ths t ch1 ch2 Hl Hd Ht. unfold WinMutexModel.wm_step. cbn [exec].
  unfold tstep at 1. rewrite Ht. cbn [WinMutexModel.wm_call mpre negb].
  unfold tstep at 1. rewrite (nth_upd_eq _ _ _ _ Ht). cbn [WinMutexModel.wm_ret]. unfold WinMutexModel.wm_run, WinMutexModel.wm_run1. rewrite Hd.
  unfold WinMutexModel.bts. unfold WinMutexModel.locked in Hl. rewrite Hl.
  assert (K : WinMutexModel.kop (match ch1 with WinMutexModel.CKind WinMutexModel.KAbs => WinMutexModel.KAbs | WinMutexModel.CKind WinMutexModel.KChrono => WinMutexModel.KChrono | _ => WinMutexModel.KRel end) = MTimed
    /\ WinMutexModel.kgot (match ch1 with WinMutexModel.CKind WinMutexModel.KAbs => WinMutexModel.KAbs | WinMutexModel.CKind WinMutexModel.KChrono => WinMutexModel.KChrono | _ => WinMutexModel.KRel end) = RTrue)
    by (destruct ch1 as [| | | | |[]]; split; reflexivity).
  destruct K as (-> & ->).
  unfold tstep at 1. erewrite nth_upd_eq by (eapply nth_upd_eq; eauto). cbn [WinMutexModel.wm_ret]. eexists. reflexivity.
Qed.
Print Assumptions C57_windows_mutex.

(** Windows events and semaphores, relative overload: one kernel wait is made whatever the duration, and its success is reported. *)
Theorem C57_windows_event_semaphore : forall d ks, - two63 <= d < two63 -> exists x, ev_timed_wait d (WSig :: ks) = (WTrue, [(x, Some WSig)]) /\ (d <= 0 -> x = 0).
Proof.
  intros d ks Hd. unfold ev_timed_wait. eexists. split; [reflexivity|]. intros H. destruct (Z.ltb_spec d 0); [reflexivity|].
  replace d with 0 by lia. reflexivity.
Qed.
Print Assumptions C57_windows_event_semaphore.

(** Overloads for other clocks that are do-while loops (Linux and Windows events, POSIX, dispatch and Windows semaphores): one inner wait is made however late
    it is, and its success is reported. *)
Theorem C57_clock_do : forall t now c env, chrono_do t now ((true, c) :: env) = (CTrue, [t - now]).
Proof. reflexivity. Qed.
Print Assumptions C57_clock_do.

(** Mach semaphores: the loop tests the clock first, so after the deadline false is returned without looking at the semaphore (and every other timed function
    of the same class does look).  Whatever an inner wait would have returned, here true: *)
Theorem C57_mach_clock_refuted : exists t now, t <= now /\ forall env, chrono_while t now env = (CFalse, []) /\ chrono_do t now ((true, now) :: env) = (CTrue, [t - now]).
Proof. exists 5, 5. split; [lia|]. intros env. split; [destruct env; reflexivity|reflexivity]. Qed.
Print Assumptions C57_mach_clock_refuted.
(** In fact for every deadline that has passed. *)
Theorem C57_mach_clock_never_looks : forall t now env, t <= now -> chrono_while t now env = (CFalse, []).
Proof. intros t now env H. destruct env; cbn [chrono_while]; destruct (Z.ltb_spec now t); try lia; reflexivity. Qed.
Print Assumptions C57_mach_clock_never_looks.

(** Non-vacuity: states that meet the hypotheses. *)
Example C57_example :
  (exists c tr, exec AutoFutexModel.auto_step (AutoFutexModel.auto_init 2)
     [AutoFutexModel.ACall 0 EPost; AutoFutexModel.ARun 0 AutoFutexModel.CNorm; AutoFutexModel.ARun 0 AutoFutexModel.CNorm; AutoFutexModel.ARun 0 AutoFutexModel.CNorm] = Some (c, tr) /\
     AutoFutexModel.posts_of (fst c) = 1 /\ snd c = [AutoFutexModel.ARest; AutoFutexModel.ARest]) /\
  (exists c tr, exec ManualFutexModel.man_step (ManualFutexModel.man_init 2)
     [ManualFutexModel.FCall 0 FSet; ManualFutexModel.FRun 0 ManualFutexModel.FNorm; ManualFutexModel.FRun 0 ManualFutexModel.FNorm] = Some (c, tr) /\
     Z.land (fst c) ManualFutexModel.mpost_bit = 1 /\ snd c = [ManualFutexModel.FRest; ManualFutexModel.FRest]).
Proof. split; (eexists _, _; split; [vm_compute; reflexivity|split; vm_compute; reflexivity]). Qed.
