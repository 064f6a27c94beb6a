(** Property theorems: system call results (C39). *)
From Coq Require Import List Bool ZArith Lia.
From Verif Require Import ErrModel.
Import ListNotations.
Local Open Scope Z_scope.

(** First result that is not an interruption. *)
Definition interruption (r : sysres) : bool := match r with SErr EINTR => true | _ => false end.
Fixpoint settled (rs : list sysres) : option sysres :=
  match rs with [] => None | r :: rs' => if interruption r then settled rs' else Some r end.

(** ** POSIX semaphores.  sem_wait on a valid semaphore fails with EINTR only; sem_trywait also with EAGAIN; sem_timedwait also
    with ETIMEDOUT; sem_post with EOVERFLOW. *)

(** wait(): however often it is interrupted, it returns exactly when a call succeeds, and never throws.  Partial: results
    restricted to success and EINTR, see [C39_posix_invalid_refuted]. *)
Theorem C39_posix_wait_partial : forall rs, Forall (fun r => r = SOk \/ r = SErr EINTR) rs ->
  psem_wait rs = (if existsb (fun r => match r with SOk => true | _ => false end) rs then OVoid else OBlocked).
Proof.
  induction rs as [|r rs IH]; intros H; [reflexivity|]. inversion H; subst. destruct H2 as [-> | ->]; cbn; auto.
Qed.
Print Assumptions C39_posix_wait_partial.

Theorem C39_posix_try_wait_partial : forall r, r = SOk \/ r = SErr EAGAIN \/ r = SErr EINTR ->
  (psem_try_wait r = OBool true <-> r = SOk) /\ (psem_try_wait r = OBool false <-> r = SErr EAGAIN \/ r = SErr EINTR).
Proof. intros r [->|[->| ->]]; cbn; intuition congruence. Qed.
Print Assumptions C39_posix_try_wait_partial.

Theorem C39_posix_timed_wait_partial : forall rs, Forall (fun r => r = SOk \/ r = SErr EINTR \/ r = SErr ETIMEDOUT) rs ->
  psem_timed_wait rs = match settled rs with None => OBlocked | Some SOk => OBool true | Some _ => OBool false end /\
  (psem_timed_wait rs = OBool false -> settled rs = Some (SErr ETIMEDOUT)).
Proof.
  induction rs as [|r rs IH]; intros H; [split; [reflexivity|discriminate]|]. inversion H; subst.
  destruct H2 as [->|[->| ->]]; cbn; auto; split; congruence.
Qed.
Print Assumptions C39_posix_timed_wait_partial.

(** An overflowing post raises overflow_error carrying the code; a successful one returns. *)
Theorem C39_posix_post : forall r, (r = SOk -> psem_post r = OVoid) /\ (r = SErr EOVERFLOW -> psem_post r = OThrow Xoverflow EOVERFLOW).
Proof. intros r. split; intros ->; reflexivity. Qed.
Print Assumptions C39_posix_post.

(** Refuted beyond that: any other error (an invalid semaphore) is swallowed: wait() returns as if it had succeeded, post() as if it
    had posted, and the timed wait reports a timeout at once. *)
Theorem C39_posix_invalid_refuted : exists e, e <> EINTR /\
  psem_wait [SErr e] = OVoid /\ psem_post (SErr e) = OVoid /\ psem_timed_wait [SErr e] = OBool false /\ psem_try_wait (SErr e) = OBool false.
Proof. exists EINVAL. repeat split. discriminate. Qed.
Print Assumptions C39_posix_invalid_refuted.

(** ** pthread mutexes and condition variables: total characterisation, any sequence of results, with and without the EINTR
    workaround. *)
Lemma pcall_spec eintr rs : pcall eintr rs = (if eintr then settled rs else match rs with [] => None | r :: _ => Some r end).
Proof.
  destruct eintr; [|destruct rs as [|[|[]] rs]; reflexivity].
  induction rs as [|r rs IH]; [reflexivity|]. cbn. destruct r as [|[]]; cbn; auto.
Qed.

Theorem C39_mutex : forall (eintr : bool) (rs : list sysres),
  let r := if eintr then settled rs else match rs with [] => None | r :: _ => Some r end in
  (pmutex_lock eintr rs = OVoid <-> r = Some SOk) /\
  (forall x e, pmutex_lock eintr rs = OThrow x e <-> x = Xlock /\ r = Some (SErr e)) /\
  (pmutex_try_lock eintr rs = OBool true <-> r = Some SOk) /\
  (pmutex_try_lock eintr rs = OBool false <-> r = Some (SErr EBUSY)) /\
  (forall x e, pmutex_try_lock eintr rs = OThrow x e <-> x = Xlock /\ e <> EBUSY /\ r = Some (SErr e)) /\
  (pmutex_timed_lock eintr rs = OBool true <-> r = Some SOk) /\
  (pmutex_timed_lock eintr rs = OBool false <-> r = Some (SErr ETIMEDOUT)) /\
  (forall x e, pmutex_timed_lock eintr rs = OThrow x e <-> x = Xlock /\ e <> ETIMEDOUT /\ r = Some (SErr e)).
Proof.
  intros eintr rs r. unfold pmutex_lock, pmutex_try_lock, pmutex_timed_lock. rewrite pcall_spec. fold r. clearbody r.
  destruct r as [[|e]|]; [| |repeat split; intros; intuition congruence].
  - repeat split; intros; intuition congruence.
  - split; [split; congruence|]. split; [intros; split; intros; intuition congruence|].
    destruct e; repeat split; intros; intuition congruence.
Qed.
Print Assumptions C39_mutex.

Theorem C39_condition_variable : forall (eintr : bool) (rs : list sysres),
  let r := if eintr then settled rs else match rs with [] => None | r :: _ => Some r end in
  (pcv_wait eintr rs = OVoid <-> r = Some SOk) /\
  (forall x e, pcv_wait eintr rs = OThrow x e <-> x = Xwait /\ r = Some (SErr e)) /\
  (pcv_timed_wait eintr rs = OBool true <-> r = Some SOk) /\
  (pcv_timed_wait eintr rs = OBool false <-> r = Some (SErr ETIMEDOUT)) /\
  (forall x e, pcv_timed_wait eintr rs = OThrow x e <-> x = Xwait /\ e <> ETIMEDOUT /\ r = Some (SErr e)).
Proof.
  intros eintr rs r. unfold pcv_wait, pcv_timed_wait. rewrite pcall_spec. fold r. clearbody r.
  destruct r as [[|e]|]; [| |repeat split; intros; intuition congruence].
  - repeat split; intros; intuition congruence.
  - split; [split; congruence|]. split; [intros; split; intros; intuition congruence|].
    destruct e; repeat split; intros; intuition congruence.
Qed.
Print Assumptions C39_condition_variable.

(** ** Mach *)
Theorem C39_mach_wait : forall rs, (mach_wait rs = OVoid <-> exists l, Forall (eq KAborted) l /\ exists l', rs = l ++ KSuccess :: l') /\
  (forall x e, mach_wait rs = OThrow x e -> x = Xwait /\ exists l k l', Forall (eq KAborted) l /\ rs = l ++ k :: l' /\ k <> KSuccess /\ k <> KAborted).
Proof.
  induction rs as [|k rs (IH1 & IH2)].
  - split; [|discriminate]. split; [discriminate|]. intros (l & _ & l' & E). destruct l; discriminate.
  - destruct k; cbn [mach_wait].
    4: { split.
         - rewrite IH1. split; intros (l & Hl & l' & E).
           + exists (KAborted :: l). split; [constructor; auto|]. exists l'. rewrite E. reflexivity.
           + destruct l as [|k l]; [discriminate|]. inversion E; subst. inversion Hl; subst. eauto.
         - intros x e Hx. destruct (IH2 _ _ Hx) as (E & l & k & l' & Hl & Hr & H1 & H2). split; auto.
           exists (KAborted :: l), k, l'. split; [constructor; auto|]. split; [rewrite Hr; reflexivity|auto]. }
    1: { split; [|discriminate]. split; [|reflexivity]. intros _. exists []. split; [constructor|]. eexists. reflexivity. }
    all: split; [split; [discriminate|]; intros (l & Hl & l' & E); destruct l; [discriminate|]; inversion E; subst; inversion Hl; discriminate|];
      intros x e Hx; inversion Hx; subst; split; [reflexivity|]; exists []; eexists; eexists; split; [constructor|]; split; [reflexivity|split; discriminate].
Qed.
Print Assumptions C39_mach_wait.

Theorem C39_mach_timed_wait : forall k, (mach_timed_wait k = OBool true <-> k = KSuccess) /\ (mach_timed_wait k = OBool false <-> k = KTimedOut) /\
  (k <> KSuccess -> k <> KTimedOut -> exists e, mach_timed_wait k = OThrow Xwait e).
Proof. intros []; cbn; repeat split; intros; try congruence; eauto. Qed.
Print Assumptions C39_mach_timed_wait.

(** ** Windows *)
Theorem C39_windows_event : forall last r, 
  (wev_wait last r = OVoid <-> r = WObj0) /\ (wev_try_wait last r = OBool true <-> r = WObj0) /\ (wev_try_wait last r = OBool false <-> r = WTimeout) /\
  (forall e, r = WFailed e -> wev_wait last r = OThrow Xwait e /\ wev_try_wait last r = OThrow Xwait e /\ wev_timed_wait None r = OThrow Xwait e) /\
  (wev_timed_wait None r = OBool true <-> r = WObj0) /\
  (r = WObj0 \/ r = WObj1 \/ (exists e, r = WFailed e) -> (wev_timed_wait None r = OBool false <-> r = WObj1)).
Proof.
  intros last r. destruct r; cbn; repeat split; intros; try congruence; intuition; try congruence.
  all: match goal with H : exists _, _ |- _ => destruct H; congruence | _ => idtac end.
Qed.
Print Assumptions C39_windows_event.

Theorem C39_windows_semaphore : forall last r,
  (forall e, wsem_post (Some e) = OThrow Xoverflow e) /\ wsem_post None = OVoid /\
  (wsem_wait last r = OVoid <-> r = WObj0) /\ (wsem_try_wait r = OBool true <-> r = WObj0) /\
  (forall e, r = WFailed e -> wsem_wait last r = OThrow Xwait e /\ wsem_try_wait r = OThrow Xwait e) /\
  (wsem_timed_wait None r = OBool true <-> r = WObj0).
Proof. intros last r. destruct r; cbn; repeat split; intros; congruence. Qed.
Print Assumptions C39_windows_semaphore.

(** The timed wait with an absolute deadline reports a failed wait as lock_error, not wait_error. *)
Theorem C39_windows_semaphore_exception_refuted : exists e, wsem_timed_wait None (WFailed e) = OThrow Xlock e /\
  wsem_timed_wait (Some e) WObj0 = OThrow Xwait e.
Proof. exists 6. split; reflexivity. Qed.
Print Assumptions C39_windows_semaphore_exception_refuted.

(** Everything the functions can do, for every result of the system calls (assertions compiled out).  POSIX semaphore: *)
Theorem C39_posix_semaphore_exact : forall r rs,
  (psem_post r = OVoid <-> r <> SErr EOVERFLOW) /\ (forall x e, psem_post r = OThrow x e <-> x = Xoverflow /\ e = EOVERFLOW /\ r = SErr EOVERFLOW) /\
  (psem_try_wait r = OBool true <-> r = SOk) /\ (psem_try_wait r = OBool false <-> r <> SOk) /\
  (psem_wait rs = OVoid <-> settled rs <> None) /\ (psem_wait rs = OBlocked <-> settled rs = None) /\
  (psem_timed_wait rs = OBool true <-> settled rs = Some SOk) /\ (psem_timed_wait rs = OBlocked <-> settled rs = None) /\
  (psem_timed_wait rs = OBool false <-> settled rs <> Some SOk /\ settled rs <> None).
Proof.
  intros r rs.
  assert (Hw : psem_wait rs = match settled rs with None => OBlocked | Some _ => OVoid end).
  { induction rs as [|[|[]] rs IH]; cbn; auto. }
  assert (Ht : psem_timed_wait rs = match settled rs with None => OBlocked | Some SOk => OBool true | Some (SErr _) => OBool false end).
  { induction rs as [|[|[]] rs IH]; cbn; auto. }
  rewrite Hw, Ht. destruct r as [|[]], (settled rs) as [[|e']|]; cbn; repeat split; intros; intuition congruence.
Qed.
Print Assumptions C39_posix_semaphore_exact.

(** Mach semaphore: which code goes with which exception. *)
Theorem C39_mach_exact : forall k rs x e,
  (mach_timed_wait k = OThrow x e <->
     x = Xwait /\ ((e = MInvalidArgument /\ (k = KInvalidArgument \/ k = KTerminated)) \/
                   (e = MOperationCanceled /\ (k = KAborted \/ exists c, k = KOther c)))) /\
  (mach_wait rs = OThrow x e <->
     x = Xwait /\ exists l k' l', rs = l ++ k' :: l' /\ Forall (eq KAborted) l /\
       ((e = MInvalidArgument /\ (k' = KInvalidArgument \/ k' = KTerminated)) \/
        (e = MOperationCanceled /\ (k' = KTimedOut \/ exists c, k' = KOther c)))) /\
  (mach_wait rs = OBlocked <-> Forall (eq KAborted) rs).
Proof.
  intros k rs x e. split; [|split].
  - destruct k; cbn; split; intros H; try discriminate; try (inversion H; subst; split; [reflexivity|]; eauto; right; eauto; fail);
      destruct H as (-> & [(-> & H)|(-> & H)]); try reflexivity; destruct H as [H|H]; try discriminate; try (destruct H; discriminate).
  - induction rs as [|k' rs IH]; cbn.
    + split; [discriminate|]. intros (_ & l & k' & l' & E & _). destruct l; discriminate.
    + assert (Hgo : forall y, mach_wait (k' :: rs) = OThrow Xwait y \/ mach_wait (k' :: rs) = OVoid -> k' <> KAborted ->
        forall P : Prop, (exists l k2 l', k' :: rs = l ++ k2 :: l' /\ Forall (eq KAborted) l /\
          ((e = MInvalidArgument /\ (k2 = KInvalidArgument \/ k2 = KTerminated)) \/ (e = MOperationCanceled /\ (k2 = KTimedOut \/ exists c, k2 = KOther c)))) ->
          (((e = MInvalidArgument /\ (k' = KInvalidArgument \/ k' = KTerminated)) \/ (e = MOperationCanceled /\ (k' = KTimedOut \/ exists c, k' = KOther c))) -> P) -> P).
      { intros y _ Hk P (l & k2 & l' & E & Hl & Hc) HP. destruct l as [|a l]; [inversion E; subst; auto|]. inversion E; subst. inversion Hl; subst. congruence. }
      destruct k'; cbn [mach_wait].
      * split; [discriminate|]. intros (_ & H). refine (Hgo MInvalidArgument (or_intror eq_refl) ltac:(discriminate) _ H _). intros [(_ & [H'|H'])|(_ & [H'|(c & H')])]; discriminate.
      * split; [intros H; inversion H; subst; split; [reflexivity|]; exists [], KInvalidArgument, rs; repeat split; auto|].
        intros (-> & H). refine (Hgo MInvalidArgument (or_introl eq_refl) ltac:(discriminate) _ H _). intros [(-> & _)|(_ & [H'|(c & H')])]; [reflexivity|discriminate|discriminate].
      * split; [intros H; inversion H; subst; split; [reflexivity|]; exists [], KTerminated, rs; repeat split; auto|].
        intros (-> & H). refine (Hgo MInvalidArgument (or_introl eq_refl) ltac:(discriminate) _ H _). intros [(-> & _)|(_ & [H'|(c & H')])]; [reflexivity|discriminate|discriminate].
      * rewrite IH. split; intros (-> & l & k2 & l' & E & Hl & Hc); (split; [reflexivity|]).
        -- exists (KAborted :: l), k2, l'. rewrite E. repeat split; auto.
        -- destruct l as [|a l]; [inversion E; subst; destruct Hc as [(_ & [H'|H'])|(_ & [H'|(c & H')])]; discriminate|]. inversion E; subst. inversion Hl; subst. exists l, k2, l'. auto.
      * split; [intros H; inversion H; subst; split; [reflexivity|]; exists [], KTimedOut, rs; repeat split; auto|].
        intros (-> & H). refine (Hgo MOperationCanceled (or_introl eq_refl) ltac:(discriminate) _ H _). intros [(_ & [H'|H'])|(-> & _)]; [discriminate|discriminate|reflexivity].
      * split; [intros H; inversion H; subst; split; [reflexivity|]; exists [], (KOther code), rs; repeat split; auto; right; eauto|].
        intros (-> & H). refine (Hgo MOperationCanceled (or_introl eq_refl) ltac:(discriminate) _ H _). intros [(_ & [H'|H'])|(-> & _)]; [discriminate|discriminate|reflexivity].
  - induction rs as [|k' rs IH]; cbn; [split; auto|]. destruct k'; cbn; try (split; [discriminate|intros H; inversion H; discriminate]). rewrite IH. split; intros H; [constructor; auto|inversion H; auto].
Qed.
Print Assumptions C39_mach_exact.

(** Windows events: set() and reset() return exactly if the system call succeeded and otherwise throw its error; a failing waitable timer or wait
    throws its error; a result that is neither the event nor a timeout throws in wait() and try_wait(), with whatever error code was there before,
    and counts as a timeout in the wait with a deadline. *)
Theorem C39_windows_event_exact : forall last t r st x e,
  (wev_set st = OVoid <-> st = None) /\ (wev_set st = OThrow x e <-> x = Xruntime /\ st = Some e) /\
  (wev_wait last r = OThrow x e <-> x = Xwait /\ (r = WFailed e \/ (e = last /\ (r = WObj1 \/ r = WTimeout \/ r = WAbandoned)))) /\
  (wev_try_wait last r = OThrow x e <-> x = Xwait /\ (r = WFailed e \/ (e = last /\ (r = WObj1 \/ r = WAbandoned)))) /\
  (wev_timed_wait t r = OThrow x e <-> x = Xwait /\ (t = Some e \/ (t = None /\ r = WFailed e))) /\
  (wev_timed_wait t r = OBool true <-> t = None /\ r = WObj0) /\
  (wev_timed_wait t r = OBool false <-> t = None /\ (r = WObj1 \/ r = WTimeout \/ r = WAbandoned)).
Proof.
  intros last t r st x e. destruct t, r, st; cbn; repeat split; intros; intuition (try congruence).
Qed.
Print Assumptions C39_windows_event_exact.

(** Windows semaphore. *)
Theorem C39_windows_semaphore_exact : forall last t r st x e,
  (wsem_post st = OVoid <-> st = None) /\ (wsem_post st = OThrow x e <-> x = Xoverflow /\ st = Some e) /\
  (wsem_wait last r = OThrow x e <-> x = Xwait /\ (r = WFailed e \/ (e = last /\ (r = WObj1 \/ r = WTimeout \/ r = WAbandoned)))) /\
  (wsem_try_wait r = OThrow x e <-> x = Xwait /\ r = WFailed e) /\
  (wsem_try_wait r = OBool false <-> r = WObj1 \/ r = WTimeout \/ r = WAbandoned) /\
  (wsem_timed_wait t r = OThrow x e <-> (x = Xwait /\ t = Some e) \/ (x = Xlock /\ t = None /\ r = WFailed e)) /\
  (wsem_timed_wait t r = OBool true <-> t = None /\ r = WObj0) /\
  (wsem_timed_wait t r = OBool false <-> t = None /\ (r = WObj1 \/ r = WTimeout \/ r = WAbandoned)).
Proof.
  intros last t r st x e. destruct t, r, st; cbn; repeat split; intros; intuition (try congruence).
Qed.
Print Assumptions C39_windows_semaphore_exact.

Example C39_example : psem_wait [SErr EINTR; SErr EINTR; SOk] = OVoid /\ pmutex_try_lock true [SErr EINTR; SErr EBUSY] = OBool false /\
  pmutex_lock false [SErr EINTR] = OThrow Xlock EINTR /\ mach_wait [KAborted; KTerminated] = OThrow Xwait MInvalidArgument.
Proof. repeat split. Qed.
