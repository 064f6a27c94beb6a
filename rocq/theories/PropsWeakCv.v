(** Property theorems: the Windows condition variable on weakly ordered memory, with the Windows mutex as the user's lock (C70). *)
From Coq Require Import List Bool Arith ZArith Lia.
From Verif Require Import ListSum Exec Events Lin Thr Word MutexSpec MutexSpecFacts WinMutexModel WinMutexProof WinCvModel WinCvRing WinCvProof PropsWinCv Hb HbSpin HbWinMutex Weak WeakAuto WeakSem WeakWin WeakWinHb WeakCv WeakCvProof.
Import ListNotations.
Local Open Scope Z_scope.

(** [q] = false is the mutex of the library; [q] = true is the mutex with acquire order where it takes the lock (C69).  The theorems are about executions in which locking the
    internal mutex does not throw, as in PropsWinCv.v. *)

(** * Counting *)

(** C70: although notify_* may read an old number of waiters, a notification that has an effect releases one un-notified waiter, or all of them. *)
Theorem C70_released : forall q n sched c tr a t al k K b, Z.of_nat n < 2 ^ 30 -> Forall x_nomf sched ->
  exec (x_step q) (x_init n) sched = Some (c, tr) -> tr = a ++ HEv (XCv (ENotify t al k)) K :: b -> k <> 0 ->
  0 < unnotified (cvs a) /\ k = if al then unnotified (cvs a) else 1.
Proof. intros q n sched c tr a t al k K b Hn HF H E Hk. destruct (XI_ev _ _ _ _ _ _ _ _ Hn HF H E) as (_ & _ & P). exact (P Hk). Qed.
Print Assumptions C70_released.

(** The number of waiters is exact and no loop hangs. *)
Theorem C70_exact : forall q n sched wk mths s cths tr, Z.of_nat n < 2 ^ 30 -> Forall x_nomf sched ->
  exec (x_step q) (x_init n) sched = Some ((wk, mths), (s, cths), tr) -> total s = unnotified (cvs tr) /\ 0 <= total s /\ forall t, nth_error cths t <> Some CHung.
Proof.
  intros q n sched wk mths s cths tr Hn HF H. destruct (XI_exec _ _ _ _ _ Hn HF H) as (_ & HI & _ & Ht & _). cbn [snd fst] in *.
  split; [exact Ht|]. split; [exact (avail_nn _ HI)|]. apply HI.
Qed.
Print Assumptions C70_exact.

(** * Which waiters a notification cannot miss *)

(** A notification without effect, by a thread that knows of a registered waiter: at some instant after the registration nobody was waiting un-notified.
    ("Knows": the registration happens before one of the thread's own earlier events.) *)
Theorem C70_known_waiter : forall q n sched c tr a u K b t al K' d e Ke, Z.of_nat n < 2 ^ 30 -> Forall x_nomf sched ->
  exec (x_step q) (x_init n) sched = Some (c, tr) ->
  tr = a ++ HEv (XCv (EJoin u)) K :: b ++ HEv (XCv (ENotify t al 0)) K' :: d ->
  In (HEv e Ke) b -> xth e = t -> incl K Ke ->
  exists b1 b2, b = b1 ++ b2 /\ unnotified (cvs (a ++ HEv (XCv (EJoin u)) K :: b1)) = 0.
Proof.
  intros q n sched c tr a u K b t al K' d e Ke Hn HF H E Hin Hth Hk.
  assert (E1 : tr = (a ++ HEv (XCv (EJoin u)) K :: b) ++ HEv (XCv (ENotify t al 0)) K' :: d) by (rewrite E, <- app_assoc; reflexivity).
  destruct (XI_ev _ _ _ _ _ _ _ _ Hn HF H E1) as (P & _). cbn [placed] in P.
  eapply P; [reflexivity| |exact Hth|exact Hk]. apply in_or_app. right. right. exact Hin.
Qed.
Print Assumptions C70_known_waiter.

(** The same in the words of the user: the waiter registers and unlocks the user's mutex; the notifying thread takes the mutex after that and notifies. *)
Lemma user_lock q n sched c tr a u K b1 Ku b2 t o r Kt b3 al K' d : Z.of_nat n < 2 ^ 30 -> Forall x_nomf sched ->
  exec (x_step q) (x_init n) sched = Some (c, tr) -> covered q o r = true ->
  tr = a ++ HEv (XCv (EJoin u)) K :: (b1 ++ HEv (XMut (Call u MUnlock)) Ku :: b2 ++ HEv (XMut (Ret t o r)) Kt :: b3) ++ HEv (XCv (ENotify t al 0)) K' :: d ->
  exists x y, b1 ++ HEv (XMut (Call u MUnlock)) Ku :: b2 ++ HEv (XMut (Ret t o r)) Kt :: b3 = x ++ y /\ unnotified (cvs (a ++ HEv (XCv (EJoin u)) K :: x)) = 0.
Proof.
  intros Hn HF H Hc E.
  assert (G1 : incl K Ku).
  { eapply (x_own q n sched c tr (a ++ HEv (XCv (EJoin u)) K :: b1) (XMut (Call u MUnlock)) Ku) with (e1 := XCv (EJoin u)); eauto; [|apply in_or_app; right; left; reflexivity].
    rewrite E, <- !app_assoc. cbn. rewrite <- !app_assoc. reflexivity. }
  assert (G2 : incl Ku Kt).
  { destruct (x_proj _ _ _ _ _ H) as (ms & Hms). apply (wwm_pub _ _ _ _ _ (muts (a ++ HEv (XCv (EJoin u)) K :: b1 ++ HEv (XMut (Call u MUnlock)) Ku :: b2)) t o r Kt (muts (b3 ++ HEv (XCv (ENotify t al 0)) K' :: d)) Hn Hms) with (u := u); [|exact Hc|].
    - rewrite E. repeat (rewrite ?muts_app, <- ?app_assoc; cbn [muts flat_map xm app]). reflexivity.
    - repeat (rewrite ?muts_app, <- ?app_assoc; cbn [muts flat_map xm app]). apply in_or_app. right. apply in_or_app. right. left. reflexivity. }
  eapply (C70_known_waiter q n sched c tr a u K _ t al K' d (XMut (Ret t o r)) Kt); eauto.
  - apply in_or_app. right. right. apply in_or_app. right. left. reflexivity.
  - eapply incl_tran; eauto.
Qed.

(** With the mutex of the library, if the notifying thread took the mutex with try_lock(). *)
Theorem C70_try_lock_partial : forall n sched c tr a u K b1 Ku b2 t Kt b3 al K' d, Z.of_nat n < 2 ^ 30 -> Forall x_nomf sched ->
  exec (x_step false) (x_init n) sched = Some (c, tr) ->
  tr = a ++ HEv (XCv (EJoin u)) K :: (b1 ++ HEv (XMut (Call u MUnlock)) Ku :: b2 ++ HEv (XMut (Ret t MTryLock RTrue)) Kt :: b3) ++ HEv (XCv (ENotify t al 0)) K' :: d ->
  exists x y, b1 ++ HEv (XMut (Call u MUnlock)) Ku :: b2 ++ HEv (XMut (Ret t MTryLock RTrue)) Kt :: b3 = x ++ y /\ unnotified (cvs (a ++ HEv (XCv (EJoin u)) K :: x)) = 0.
Proof. intros. eapply user_lock; eauto. Qed.
Print Assumptions C70_try_lock_partial.

(** With acquire order in the mutex, however the thread took it. *)
Theorem C70_with_acquire_partial : forall n sched c tr a u K b1 Ku b2 t o r Kt b3 al K' d, Z.of_nat n < 2 ^ 30 -> Forall x_nomf sched ->
  exec (x_step true) (x_init n) sched = Some (c, tr) ->
  (o = MLock /\ r = ROk) \/ (o = MTryLock /\ r = RTrue) \/ (o = MTimed /\ r = RTrue) ->
  tr = a ++ HEv (XCv (EJoin u)) K :: (b1 ++ HEv (XMut (Call u MUnlock)) Ku :: b2 ++ HEv (XMut (Ret t o r)) Kt :: b3) ++ HEv (XCv (ENotify t al 0)) K' :: d ->
  exists x y, b1 ++ HEv (XMut (Call u MUnlock)) Ku :: b2 ++ HEv (XMut (Ret t o r)) Kt :: b3 = x ++ y /\ unnotified (cvs (a ++ HEv (XCv (EJoin u)) K :: x)) = 0.
Proof. intros n sched c tr a u K b1 Ku b2 t o r Kt b3 al K' d Hn HF H Ho E. eapply user_lock; eauto. destruct Ho as [(-> & ->)|[(-> & ->)|(-> & ->)]]; reflexivity. Qed.
Print Assumptions C70_with_acquire_partial.

(** * The notification that is lost *)

(** Thread 0 holds the mutex.  Thread 1's lock() finds it locked and reads m_active_count.  Thread 0 waits: it registers, unlocks, blocks.  Thread 1's compare-exchange fails, without
    acquire order; the next one takes the mutex, without acquire order.  Thread 1 does its work (sets the predicate), unlocks and calls notify_all(). *)
Definition cv_lost (last : list xact) : list xact :=
  (let r t i := XM (WRun t (WinMutexModel.CNorm, i)) in let k t := XC (ARun t CNorm) 0 in
  [XM (WCall 0 MLock); r 0 0; r 0 0; XM (WCall 1 MLock); r 1 1; r 1 2;
   XC (AWait 0 KInf) 0; k 0; XM (WCall 0 MUnlock); r 0 2; r 0 0; k 0;
   r 1 3; r 1 3; r 1 0; XM (WWork 1); XM (WCall 1 MUnlock); r 1 4; r 1 0;
   XC (ANotify 1 true) 0] ++ last)%nat.

(** C70 is false of the code: the waiter registered and unlocked the mutex before the other thread locked it and called notify_all(), which has no effect.  Nobody is left to
    notify; the waiter is blocked for ever. *)
Theorem C70_lost_refuted : exists sched w k mths s cths tr a K b1 Ku b2 Kt b3 K' d,
  Forall x_nomf sched /\ exec (x_step false) (x_init 2) sched = Some ((((w, k), mths), (s, cths)), tr) /\
  tr = a ++ HEv (XCv (EJoin 0)) K :: (b1 ++ HEv (XMut (Call 0 MUnlock)) Ku :: b2 ++ HEv (XMut (Ret 1 MLock ROk)) Kt :: b3) ++ HEv (XCv (ENotify 1 true 0)) K' :: d /\
  (forall t al j J, In (HEv (XCv (ENotify t al j)) J) tr -> j = 0) /\ (forall t r cc J, ~ In (HEv (XCv (EEnd t r cc)) J) tr) /\
  nth_error cths 0 = Some (CBlk KInf 0)%nat /\ (forall ch i, ch <> CFail -> x_step false (((w, k), mths), (s, cths)) (XC (ARun 0 ch) i) = None)%nat /\
  nth_error cths 1 = Some CIdle /\ nth_error mths 1 = Some (WRest false).
Proof.
  exists (cv_lost [XC (ARun 1 CNorm) 0]%nat). eexists. eexists. eexists. eexists. eexists. eexists. eexists [_; _; _; _]. eexists. eexists []. eexists. eexists [_]. eexists. eexists [_; _; _; _]. eexists. eexists.
  split; [repeat constructor|]. split; [vm_compute; reflexivity|]. split; [reflexivity|]. split; [|split; [|split; [|split; [|split]]]].
  - intros t al j J Hin. cbn in Hin. repeat (destruct Hin as [Hin|Hin]; [first [discriminate Hin|injection Hin; congruence]|]). destruct Hin.
  - intros t r cc J Hin. cbn in Hin. repeat (destruct Hin as [Hin|Hin]; [discriminate Hin|]). destruct Hin.
  - reflexivity.
  - intros ch i Hch. destruct ch; try congruence; reflexivity.
  - reflexivity.
  - reflexivity.
Qed.
Print Assumptions C70_lost_refuted.

(** With acquire order in the mutex thread 1 cannot read the old value; it reads the new one and the waiter is released. *)
Example C70_with_acquire_ex : exec (x_step true) (x_init 2) (cv_lost [XC (ARun 1 CNorm) 0]%nat) = None /\
  exists c tr K d, exec (x_step true) (x_init 2) (cv_lost [XC (ARun 1 CNorm) 1; XC (ARun 1 CNorm) 0; XC (ARun 0 CNorm) 0; XC (ARun 0 CNorm) 0]%nat) = Some (c, tr ++ [HEv (XCv (ENotify 1 true 1)) K; HEv (XCv (ENotifyRet 1)) K; HEv (XCv (EEnd 0 RNotified true)) d]).
Proof. split; [vm_compute; reflexivity|]. eexists. eexists [_; _; _; _; _; _; _; _; _; _; _; _]. eexists. eexists. vm_compute. reflexivity. Qed.

(** A notification that finds nobody although a waiter had registered: the waiter's time was over.  Thread 1 takes the mutex with try_lock(). *)
Example C70_known_waiter_ex : exists sched c tr a K b1 Ku b2 Kt b3 K' d,
  Forall x_nomf sched /\ exec (x_step false) (x_init 2) sched = Some (c, tr) /\
  tr = a ++ HEv (XCv (EJoin 0)) K :: (b1 ++ HEv (XMut (Call 0 MUnlock)) Ku :: b2 ++ HEv (XMut (Ret 1 MTryLock RTrue)) Kt :: b3) ++ HEv (XCv (ENotify 1 false 0)) K' :: d /\ incl K Kt.
Proof.
  exists (let r t i := XM (WRun t (WinMutexModel.CNorm, i)) in let k t := XC (ARun t CNorm) 0 in
    [XM (WCall 0 MLock); r 0 0; r 0 0; XC (AWait 0 KRel) 0; k 0; XM (WCall 0 MUnlock); r 0 1; r 0 0; XC (ARun 0 CTime) 0; k 0;
     XM (WCall 1 MTryLock); r 1 2; r 1 0; XC (ANotify 1 false) 0; XC (ARun 1 CNorm) 2])%nat.
  eexists. eexists. eexists [_; _; _]. eexists. eexists []. eexists. eexists [_; _; _]. eexists. eexists [_]. eexists. eexists.
  split; [repeat constructor|]. split; [vm_compute; reflexivity|]. split; [reflexivity|]. intros x Hx. cbn in Hx |- *. tauto.
Qed.

(** * What a woken waiter knows *)

(** Whatever a notifying thread did before its notification took effect is known to every waiter that ends its wait later with a notification. *)
Theorem C70_wake_publishes : forall q n sched c tr a t al k K b u r K' d e Ke, Z.of_nat n < 2 ^ 30 -> Forall x_nomf sched ->
  exec (x_step q) (x_init n) sched = Some (c, tr) ->
  tr = a ++ HEv (XCv (ENotify t al k)) K :: b ++ HEv (XCv (EEnd u r true)) K' :: d -> k <> 0 ->
  In (HEv e Ke) a -> xth e = t -> incl Ke K'.
Proof.
  intros q n sched c tr a t al k K b u r K' d e Ke Hn HF H E Hk Hin Hth.
  assert (E1 : tr = (a ++ HEv (XCv (ENotify t al k)) K :: b) ++ HEv (XCv (EEnd u r true)) K' :: d) by (rewrite E, <- app_assoc; reflexivity).
  destruct (XI_ev _ _ _ _ _ _ _ _ Hn HF H E1) as (_ & P & _). cbn [told] in P.
  eapply (P eq_refl); [reflexivity| |exact Hin|exact Hth]. cbn. apply negb_true_iff, Z.eqb_neq. exact Hk.
Qed.
Print Assumptions C70_wake_publishes.

(** Thread 1 does work number 9, then notify_all(); thread 0 knows it when it wakes up. *)
Example C70_wake_publishes_ex : exists c tr K d, exec (x_step true) (x_init 2) (cv_lost [XC (ARun 1 CNorm) 1; XC (ARun 1 CNorm) 0; XC (ARun 0 CNorm) 0; XC (ARun 0 CNorm) 0]%nat) =
  Some (c, tr ++ [HEv (XCv (ENotify 1 true 1)) K; HEv (XCv (ENotifyRet 1)) K; HEv (XCv (EEnd 0 RNotified true)) d]) /\ exists j, In (HWork 1 j) tr /\ In j d.
Proof.
  eexists. eexists [_; _; _; _; _; _; _; _; _; _; _; _]. eexists. eexists. split; [vm_compute; reflexivity|].
  match goal with |- context [HWork 1 ?j] => exists j end. split; cbn; tauto.
Qed.

(** * The user's lock around a wait *)

(** wait() is entered, registers and returns with the user's mutex held by the caller; it stops being a waiter while not holding it. *)
Theorem C70_lock_held : forall q n sched c tr a e K b, exec (x_step q) (x_init n) sched = Some (c, tr) -> tr = a ++ HEv (XCv e) K :: b ->
  match e with
  | EWaitCall u | EJoin u | EWaitRet u _ => holding u a = true
  | EEnd u _ _ => holding u a = false
  | _ => True
  end.
Proof. intros q n sched c tr a e K b H E. pose proof (lock_events _ _ _ _ _ _ _ _ H E) as G. destruct e; exact G. Qed.
Print Assumptions C70_lock_held.

(** Inside a wait the user's mutex is released only while the thread is registered: a notification issued by someone who locks the mutex afterwards is meant for it too. *)
Theorem C70_registers_first : forall q n sched c tr a u K b, exec (x_step q) (x_init n) sched = Some (c, tr) -> tr = a ++ HEv (XMut (Call u MUnlock)) K :: b ->
  phase u a = POut \/ phase u a = PRegistered.
Proof. intros q n sched c tr a u K b H E. exact (lock_events _ _ _ _ _ _ _ _ H E). Qed.
Print Assumptions C70_registers_first.

(** In the example above thread 0's unlock() is the one inside its wait; its wait returns with the mutex held again. *)
Example C70_lock_ex : exists c tr d K Ku K2, exec (x_step true) (x_init 2) (cv_lost ([XC (ARun 1 CNorm) 1; XC (ARun 1 CNorm) 0; XC (ARun 0 CNorm) 0; XC (ARun 0 CNorm) 0;
     XM (WCall 0 MLock); XM (WRun 0 (WinMutexModel.CNorm, 5)); XM (WRun 0 (WinMutexModel.CNorm, 0)); XC (ARun 0 CNorm) 0])%nat) = Some (c, tr ++ HEv (XMut (Call 0 MUnlock)) Ku :: d ++ [HEv (XMut (Ret 0 MLock ROk)) K; HEv (XCv (EWaitRet 0 RNotified)) K2])%nat /\
  phase 0 tr = PRegistered.
Proof. eexists. eexists [_; _; _; _; _]. eexists [_; _; _; _; _; _; _; _; _; _]. eexists. eexists. eexists. split; [vm_compute; reflexivity|]. reflexivity. Qed.
