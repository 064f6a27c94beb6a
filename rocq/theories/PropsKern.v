(** C74: the objects that wrap one object of the operating system are atomic, and a call that throws has no effect. *)
From Coq Require Import List Bool Arith ZArith Lia.
From Verif Require Import ListSum Exec Lin LinCheck Thr Word MutexSpec MutexSpecFacts EventSpec EventSpecFacts FlagSpec EmuThrow PropsEmuThrow KernModel KernProof.
Import ListNotations.
Local Open Scope Z_scope.

(** ** Which failures are assumed away *)
(** POSIX semaphores: a full counter, and signals during sem_wait and sem_timedwait. Not: signals during sem_trywait, errors. *)
Definition p_env (o : eop) (c : kcall) (r : kres) : bool := match o, r with EPost, KFull | EWait, KIntr | ETimed, KIntr => true | _, _ => false end.
(** Besides, signals during sem_trywait and errors of sem_trywait and sem_timedwait. *)
Definition p_env_sp (o : eop) (c : kcall) (r : kres) : bool := match o, r with EPost, KFull | EWait, KIntr | ETimed, _ | ETry, _ => true | _, _ => false end.
(** Mach semaphores: anything but a failing semaphore_signal. *)
Definition m_env (o : eop) (c : kcall) (r : kres) : bool := match o with EPost => false | _ => true end.
(** POSIX mutexes: anything but a failing unlock; with the workaround it may be interrupted. *)
Definition x_env (wa : bool) (o : mop) (c : kcall) (r : kres) : bool := match o, r with MUnlock, KIntr => wa | MUnlock, _ => false | _, _ => true end.
Definition within (O : Type) (env env' : O -> kcall -> kres -> bool) : Prop := forall o c r, env o c r = true -> env' o c r = true.
Arguments within {O}.

(** ** What is known at the labels *)
Definition e_good (o : eop) : eres := match o with EPost | EWait => EOk | _ => ETrue end.
Definition e_fails (o : eop) : bool := match o with ETry | ETimed => true | _ => false end.
Definition e_can (o : eop) : bool := true.
Definition p_can (o : eop) : bool := match o with EPost => true | _ => false end.
Definition m_can (o : eop) : bool := match o with EPost => false | _ => true end.
Definition none (o : eop) : bool := false.
Definition nn (t : nat) (m : unit) (k : Z) : Prop := 0 <= k.
Definition bin (t : nat) (m : unit) (k : Z) : Prop := k = 0 \/ k = 1.
Definition p_lab (o : eop) (v : ovl) (l : nat) : lstat eres :=
  match o, l with
  | _, 0 => LOpen | (EPost | EWait), 1 => LDone EOk | EPost, 2 => LOpen
  | _, 1 => LDone ETrue | ETry, 2 => LSeen | ETimed, (2 | 3) => LSeen | _, _ => LDead
  end%nat.
Definition p_lab_sp (o : eop) (v : ovl) (l : nat) : lstat eres :=
  match o, l with
  | _, 0 => LOpen | (EPost | EWait), 1 => LDone EOk | EPost, 2 => LOpen
  | _, 1 => LDone ETrue | ETry, 2 => LOpen | ETimed, (2 | 3) => LOpen | _, _ => LDead
  end%nat.
Definition d_lab (o : eop) (v : ovl) (l : nat) : lstat eres := match o, l with EPost, 2 => LDead | _, _ => p_lab o v l end%nat.
Definition w_lab (o : eop) (v : ovl) (l : nat) : lstat eres :=
  match o, l with
  | _, 0 => LOpen | (EPost | EWait), 1 => LDone EOk | (EPost | EWait), 2 => LOpen
  | _, 1 => LDone ETrue | ETry, 2 => LSeen | ETry, 3 => LOpen | ETimed, (2 | 3) => LSeen | ETimed, 4 => LOpen | _, _ => LDead
  end%nat.
Definition m_lab (o : eop) (v : ovl) (l : nat) : lstat eres :=
  match o, l with
  | _, 0 => LOpen | (EPost | EWait), 1 => LDone EOk | EWait, 2 => LOpen
  | EPost, _ => LDead
  | _, 1 => LDone ETrue | ETry, 2 => LSeen | ETry, 3 => LOpen | ETimed, 3 => LSeen | ETimed, 4 => LOpen | _, _ => LDead
  end%nat.
Definition m_lab_sp (o : eop) (v : ovl) (l : nat) : lstat eres :=
  match o, v, l with
  | _, _, 0 => LOpen | (EPost | EWait), _, 1 => LDone EOk | EWait, _, 2 => LOpen
  | EPost, _, _ => LDead
  | _, _, 1 => LDone ETrue | ETry, _, 2 => LSeen | ETry, _, 3 => LOpen | ETimed, VClk, (3 | 5) => LOpen | ETimed, _, 3 => LSeen | ETimed, _, 4 => LOpen | _, _, _ => LDead
  end%nat.

Ltac lbl l := destruct l as [|[|[|[|[|[|l]]]]]].
Ltac code_tac We := intros o v l HHv HHd; destruct o, v; lbl l; cbn in *; try congruence; repeat split; auto; try discriminate;
  try (intros r HHr HHe; apply We in HHe; destruct HHr as [-> | [-> | [-> HHz]]]; cbn in *; auto; discriminate).
Ltac do_tac := intros o v l; intros; destruct o, v; lbl l; cbn in *; congruence.

Section Cnt.
  Variables (i mx : Z).
  Hypothesis Hi : 0 <= i.
  Lemma e_sig t o k k' m (P : Prop) : nn t m k -> cnt_sig mx t o k = Some k' -> o = EPost -> etrans post_count o k (e_good o) k' /\ nn t tt k' /\ (forall u m', u <> t -> nn u m' k -> nn u m' k').
  Proof. unfold cnt_sig, nn. intros Hm H ->. destruct (k <? mx); inversion H; subst. repeat split; try lia. constructor. reflexivity. Qed.
  Lemma e_take post t o k k' m : nn t m k -> cnt_take t o k = Some k' -> o <> EPost -> etrans post o k (e_good o) k' /\ nn t tt k' /\ (forall u m', u <> t -> nn u m' k -> nn u m' k').
  Proof. unfold cnt_take, nn. intros Hm H Ho. destruct (Z.ltb_spec 0 k); inversion H; subst. repeat split; try lia. destruct o; try contradiction; constructor; auto. Qed.
  Lemma e_busy post t o k m : nn t m k -> cnt_take t o k = None -> e_fails o = true -> etrans post o k EFalse k.
  Proof. unfold cnt_take, nn. intros Hm H Ho. destruct (Z.ltb_spec 0 k); inversion H. assert (k = 0) by lia. subst. destruct o; try discriminate; constructor. Qed.
End Cnt.
Section Obj.
  Variables (i mx : Z) (code : eop -> ovl -> nat -> instr eres) (env : eop -> kcall -> kres -> bool) (venv : eop -> ovl -> bool) (can : eop -> bool) (lab : eop -> ovl -> nat -> lstat eres).
  Hypothesis Hi : 0 <= i.
  Hypothesis Hdo : forall o v l c, code o v l = ICall KDo c -> o = EPost.
  Hypothesis Hwait : forall o v l w c, code o v l = ICall (KWait w) c -> o <> EPost.
  Notation CO SP spur := (forall o v l, venv o v = true -> lab o v l <> LDead ->
    match code o v l with
    | ICall c k =>
        untouched SP (lab o v l) /\ lab o v (k KOk) = LDone (e_good o) /\
        (match c with KWait WZero | KWait WUntil => lab o v (k KBusy) = LOpen \/ (lab o v (k KBusy) = LSeen /\ e_fails o = true) | _ => True end) /\
        (forall r, r = KIntr \/ r = KErr \/ (r = KFull /\ c = KDo) -> env o c r = true -> keeps SP (lab o v l) (lab o v (k r)))
    | IClock a e => keeps SP (lab o v l) (lab o v a) /\ keeps SP (lab o v l) (lab o v e)
    | IRet r => lab o v l = LDone r \/ (lab o v l = LSeen /\ e_fails o = true /\ r = EFalse) \/ (untouched SP (lab o v l) /\ spur o = true /\ r = EFalse)
    | IThrow => untouched SP (lab o v l) /\ can o = true
    | IStuck => False
    end).
  Hypothesis lab0 : forall o v, venv o v = true -> lab o v 0%nat = LOpen.

  Section Exact.
    Notation SP := (ev_spec i post_count).
    Hypothesis co : CO SP none.
    Lemma cnt_lin n sched c tr : exec (k_step SP (cnt_sig mx) cnt_take code env venv) (k_init SP n) sched = Some (c, tr) -> linearizable (xspec SP can) n tr /\ linearizable SP n (calm tr).
    Proof.
      intros H. enough (L : linearizable (xspec SP can) n tr) by (split; [exact L|exact (calm_lin SP can n tr L)]).
      refine (proj1 (kern_lin SP (cnt_sig mx) cnt_take code env venv can e_fails none e_good (fun _ => EFalse) lab nn (fun _ => Hi) _ _ _ _ _ lab0 co n sched c tr H)).
      - intros t o k k' m Hm _ Hs (v & l & c0 & _ & Ec). exact (e_sig mx t o k k' m True Hm Hs (Hdo _ _ _ _ Ec)).
      - intros t o k k' m Hm _ Hs (v & l & w & c0 & _ & Ec). exact (e_take post_count t o k k' m Hm Hs (Hwait _ _ _ _ _ Ec)).
      - intros t o k m Hm _ Hs Hf. exact (e_busy post_count t o k m Hm Hs Hf).
      - intros t o m k _ Hm. exact Hm.
      - intros t o k D. discriminate.
    Qed.
    Lemma cnt_progress n sched s ths tr t p : exec (k_step SP (cnt_sig mx) cnt_take code env venv) (k_init SP n) sched = Some ((s, ths), tr) -> (forall o, exists v, venv o v = true) ->
      (s < mx \/ forall o, env o KDo KFull = true) ->
      nth_error ths t = Some p -> (forall m, p <> QRest m) -> (forall m o v l ob, p = QSleep m o v l ob -> 0 < s) -> exists ch c e, k_step SP (cnt_sig mx) cnt_take code env venv (s, ths) (TRun t ch) = Some (c, e).
    Proof.
      intros H Hv Hf Ht Hr Hs.
      refine (kern_progress SP (cnt_sig mx) cnt_take code env venv can e_fails none e_good (fun _ => EFalse) lab nn (fun _ => Hi) _ _ _ _ _ lab0 co n sched s ths tr t p H Hv _ Ht Hr _).
      - intros t' o k k' m Hm _ Hs' (v & l & c0 & _ & Ec). exact (e_sig mx t' o k k' m True Hm Hs' (Hdo _ _ _ _ Ec)).
      - intros t' o k k' m Hm _ Hs' (v & l & w & c0 & _ & Ec). exact (e_take post_count t' o k k' m Hm Hs' (Hwait _ _ _ _ _ Ec)).
      - intros t' o k m Hm _ Hs' Hff. exact (e_busy post_count t' o k m Hm Hs' Hff).
      - intros t' o m k _ Hm. exact Hm.
      - intros t' o k D. discriminate.
      - intros o E. destruct Hf as [Hf|Hf]; [|apply Hf]. exfalso. revert E. unfold cnt_sig. destruct (Z.ltb_spec s mx); [discriminate|lia].
      - intros m o v l ob E. unfold cnt_take. pose proof (Hs _ _ _ _ _ E). destruct (Z.ltb_spec 0 s); [discriminate|lia].
    Qed.
  End Exact.
  Section Spur.
    Notation SP := (ev_spec_sp i post_count).
    Hypothesis co : CO SP e_fails.
    Lemma cnt_lin_sp n sched c tr : exec (k_step SP (cnt_sig mx) cnt_take code env venv) (k_init SP n) sched = Some (c, tr) -> linearizable (xspec SP can) n tr /\ linearizable SP n (calm tr).
    Proof.
      intros H. enough (L : linearizable (xspec SP can) n tr) by (split; [exact L|exact (calm_lin SP can n tr L)]).
      refine (proj1 (kern_lin SP (cnt_sig mx) cnt_take code env venv can e_fails e_fails e_good (fun _ => EFalse) lab nn (fun _ => Hi) _ _ _ _ _ lab0 co n sched c tr H)).
      - intros t o k k' m Hm _ Hs (v & l & c0 & _ & Ec). destruct (e_sig mx t o k k' m True Hm Hs (Hdo _ _ _ _ Ec)) as (H1 & H2 & H3). repeat split; auto. left. exact H1.
      - intros t o k k' m Hm _ Hs (v & l & w & c0 & _ & Ec). destruct (e_take post_count t o k k' m Hm Hs (Hwait _ _ _ _ _ Ec)) as (H1 & H2 & H3). repeat split; auto. left. exact H1.
      - intros t o k m Hm _ Hs Hf. left. exact (e_busy post_count t o k m Hm Hs Hf).
      - intros t o m k _ Hm. exact Hm.
      - intros t o k D. split; [exact D|]. right. destruct o; try discriminate; auto.
    Qed.
  End Spur.
End Obj.

Lemma cnt_cons i n tr : 0 <= i -> linearizable (ev_spec i post_count) n tr -> takes tr <= i + posts_called tr.
Proof. intros Hi. apply conservation; [unfold post_count; intros; lia|exact Hi]. Qed.
Lemma cnt_cons_sp i n tr : 0 <= i -> linearizable (ev_spec_sp i post_count) n tr -> takes tr <= i + posts_called tr.
Proof. intros Hi. apply conservation_sp; [unfold post_count; intros; lia|exact Hi]. Qed.

(** ** Semaphores: every history is one of an atomic counter; calls that throw have no effect; no unit is taken twice. *)
(** A semaphore on sem_t, with signals and a full counter: only post throws. *)
Theorem C74_posix_semaphore : forall i mx env venv n sched c tr, 0 <= i -> within env p_env ->
  exec (psem_step i mx env venv) (k_init (ev_spec i post_count) n) sched = Some (c, tr) ->
  linearizable (xspec (ev_spec i post_count) p_can) n tr /\ linearizable (ev_spec i post_count) n (calm tr) /\ takes (calm tr) <= i + posts_called (calm tr).
Proof.
  intros i mx env venv n sched c tr Hi We H. enough (G : _ /\ _) by (split; [exact (proj1 G)|split; [exact (proj2 G)|exact (cnt_cons i n _ Hi (proj2 G))]]).
  apply (cnt_lin i mx p_code env venv p_can p_lab Hi ltac:(do_tac) ltac:(do_tac) ltac:(intros [] [] _; reflexivity) ltac:(code_tac We) n sched c tr H).
Qed.
Print Assumptions C74_posix_semaphore.
(** If sem_trywait is interrupted, or sem_trywait or sem_timedwait fail, try_wait and the timed waits may return false although the count is positive; nothing else changes. *)
Theorem C74_posix_semaphore_spurious : forall i mx env venv n sched c tr, 0 <= i -> within env p_env_sp ->
  exec (psem_step i mx env venv) (k_init (ev_spec i post_count) n) sched = Some (c, tr) ->
  linearizable (xspec (ev_spec_sp i post_count) p_can) n tr /\ linearizable (ev_spec_sp i post_count) n (calm tr) /\ takes (calm tr) <= i + posts_called (calm tr).
Proof.
  intros i mx env venv n sched c tr Hi We H. enough (G : _ /\ _) by (split; [exact (proj1 G)|split; [exact (proj2 G)|exact (cnt_cons_sp i n _ Hi (proj2 G))]]).
  apply (cnt_lin_sp i mx p_code env venv p_can p_lab_sp Hi ltac:(do_tac) ltac:(do_tac) ltac:(intros [] [] _; reflexivity) ltac:(code_tac We) n sched c tr H).
Qed.
Print Assumptions C74_posix_semaphore_spurious.
(** Windows: whatever fails. *)
Theorem C74_windows_semaphore : forall i mx env venv n sched c tr, 0 <= i ->
  exec (wsem_step i mx env venv) (k_init (ev_spec i post_count) n) sched = Some (c, tr) ->
  linearizable (xspec (ev_spec i post_count) e_can) n tr /\ linearizable (ev_spec i post_count) n (calm tr) /\ takes (calm tr) <= i + posts_called (calm tr).
Proof.
  intros i mx env venv n sched c tr Hi H. enough (G : _ /\ _) by (split; [exact (proj1 G)|split; [exact (proj2 G)|exact (cnt_cons i n _ Hi (proj2 G))]]).
  assert (We : within env (fun _ _ _ => true)) by (intros o x r _; reflexivity).
  apply (cnt_lin i mx w_code env venv e_can w_lab Hi ltac:(do_tac) ltac:(do_tac) ltac:(intros [] [] _; reflexivity) ltac:(code_tac We) n sched c tr H).
Qed.
Print Assumptions C74_windows_semaphore.
(** Mach, as long as semaphore_signal does not fail and no time point of another clock is passed; post does not throw. *)
Theorem C74_mach_semaphore_partial : forall i mx env venv n sched c tr, 0 <= i -> within env m_env -> venv ETimed VClk = false ->
  exec (msem_step i mx env venv) (k_init (ev_spec i post_count) n) sched = Some (c, tr) ->
  linearizable (xspec (ev_spec i post_count) m_can) n tr /\ linearizable (ev_spec i post_count) n (calm tr) /\ takes (calm tr) <= i + posts_called (calm tr).
Proof.
  intros i mx env venv n sched c tr Hi We Hc H. enough (G : _ /\ _) by (split; [exact (proj1 G)|split; [exact (proj2 G)|exact (cnt_cons i n _ Hi (proj2 G))]]).
  apply (cnt_lin i mx m_code env venv m_can m_lab Hi ltac:(do_tac) ltac:(do_tac) ltac:(intros [] [] _; reflexivity) ltac:(code_tac We) n sched c tr H).
Qed.
Print Assumptions C74_mach_semaphore_partial.
(** With time points of any clock a timed wait may return false although the count is positive. *)
Theorem C74_mach_semaphore_spurious : forall i mx env venv n sched c tr, 0 <= i -> within env m_env ->
  exec (msem_step i mx env venv) (k_init (ev_spec i post_count) n) sched = Some (c, tr) ->
  linearizable (xspec (ev_spec_sp i post_count) m_can) n tr /\ linearizable (ev_spec_sp i post_count) n (calm tr) /\ takes (calm tr) <= i + posts_called (calm tr).
Proof.
  intros i mx env venv n sched c tr Hi We H. enough (G : _ /\ _) by (split; [exact (proj1 G)|split; [exact (proj2 G)|exact (cnt_cons_sp i n _ Hi (proj2 G))]]).
  apply (cnt_lin_sp i mx m_code env venv m_can m_lab_sp Hi ltac:(do_tac) ltac:(do_tac) ltac:(intros [] [] _; reflexivity) ltac:(code_tac We) n sched c tr H).
Qed.
Print Assumptions C74_mach_semaphore_spurious.
(** libdispatch: its functions report no errors; nothing throws. *)
Theorem C74_dispatch_semaphore : forall i mx venv n sched c tr, 0 <= i ->
  exec (dsem_step i mx (fun _ _ _ => false) venv) (k_init (ev_spec i post_count) n) sched = Some (c, tr) ->
  linearizable (xspec (ev_spec i post_count) none) n tr /\ linearizable (ev_spec i post_count) n (calm tr) /\ takes (calm tr) <= i + posts_called (calm tr).
Proof.
  intros i mx venv n sched c tr Hi H. enough (G : _ /\ _) by (split; [exact (proj1 G)|split; [exact (proj2 G)|exact (cnt_cons i n _ Hi (proj2 G))]]).
  assert (We : within (fun (_ : eop) _ _ => false) (fun _ _ _ => false)) by (intros o x r E; exact E).
  apply (cnt_lin i mx d_code (fun _ _ _ => false) venv none d_lab Hi ltac:(do_tac) ltac:(do_tac) ltac:(intros [] [] _; reflexivity) ltac:(code_tac We) n sched c tr H).
Qed.
Print Assumptions C74_dispatch_semaphore.

(** ** Events *)
Lemma wauto_both env venv n sched s ths tr : exec (wauto_step env venv) (k_init (ev_spec 0 post_binary) n) sched = Some ((s, ths), tr) ->
  linearizable (xspec (ev_spec 0 post_binary) e_can) n tr /\
  forall t p, (forall o, exists v, venv o v = true) -> (forall o, ev_sig t o s = None -> env o KDo KFull = true) ->
    nth_error ths t = Some p -> (forall m, p <> QRest m) -> (forall m o v l ob, p = QSleep m o v l ob -> cnt_take t o s <> None) -> exists ch c e, wauto_step env venv (s, ths) (TRun t ch) = Some (c, e).
Proof.
  intros H.
  assert (We : within env (fun _ _ _ => true)) by (intros o x r _; reflexivity).
  assert (Hdo : forall o v l c, w_code o v l = ICall KDo c -> o = EPost) by do_tac.
  assert (Hwait : forall o v l w c, w_code o v l = ICall (KWait w) c -> o <> EPost) by do_tac.
  refine (kern_both (ev_spec 0 post_binary) ev_sig cnt_take w_code env venv e_can e_fails none e_good (fun _ => EFalse) w_lab nn (fun _ => Z.le_refl 0) _ _ _ _ _ _ ltac:(code_tac We) n sched s ths tr H).
  - intros t o k k' m Hm _ Hs (v & l & c0 & _ & Ec). rewrite (Hdo _ _ _ _ Ec). inversion Hs; subst. unfold nn. repeat split; try lia. constructor. reflexivity.
  - intros t o k k' m Hm _ Hs (v & l & w & c0 & _ & Ec). exact (e_take post_binary t o k k' m Hm Hs (Hwait _ _ _ _ _ Ec)).
  - intros t o k m Hm _ Hs Hf. exact (e_busy post_binary t o k m Hm Hs Hf).
  - intros t o m k _ Hm. exact Hm.
  - intros t o k D. discriminate.
  - intros [] [] _; reflexivity.
Qed.
(** The auto-reset event of Windows, whatever fails: one bit. *)
Theorem C74_windows_auto_event : forall env venv n sched c tr,
  exec (wauto_step env venv) (k_init (ev_spec 0 post_binary) n) sched = Some (c, tr) ->
  linearizable (xspec (ev_spec 0 post_binary) e_can) n tr /\ linearizable (ev_spec 0 post_binary) n (calm tr) /\ takes (calm tr) <= posts_called (calm tr).
Proof.
  intros env venv n sched [s ths] tr H. destruct (wauto_both _ _ _ _ _ _ _ H) as (L & _). pose proof (calm_lin _ _ _ _ L) as L2.
  split; [exact L|split; [exact L2|]]. refine (conservation post_binary 0 _ (Z.le_refl 0) n _ L2). unfold post_binary. intros. lia.
Qed.
Print Assumptions C74_windows_auto_event.
Definition f_good (o : fop) : fres := match o with FSet | FReset | FWait => FOk | _ => FTrue end.
Definition f_fails (o : fop) : bool := match o with FTry | FTimed => true | _ => false end.
Definition f_can (o : fop) : bool := true.
Definition f_lab (o : fop) (v : ovl) (l : nat) : lstat fres :=
  match o, l with
  | _, 0 => LOpen | (FSet | FReset | FWait), 1 => LDone FOk | (FSet | FReset | FWait), 2 => LOpen
  | _, 1 => LDone FTrue | FTry, 2 => LSeen | FTry, 3 => LOpen | FTimed, (2 | 3) => LSeen | FTimed, 4 => LOpen | _, _ => LDead
  end%nat.
Lemma wmanual_both env venv n sched s ths tr : exec (wmanual_step env venv) (k_init (flag_spec false) n) sched = Some ((s, ths), tr) ->
  linearizable (xspec (flag_spec false) f_can) n tr /\
  forall t p, (forall o, exists v, venv o v = true) -> (forall o, fl_sig t o s = None -> env o KDo KFull = true) ->
    nth_error ths t = Some p -> (forall m, p <> QRest m) -> (forall m o v l ob, p = QSleep m o v l ob -> fl_take t o s <> None) -> exists ch c e, wmanual_step env venv (s, ths) (TRun t ch) = Some (c, e).
Proof.
  intros H. assert (We : within env (fun _ _ _ => true)) by (intros o x r _; reflexivity).
  refine (kern_both (flag_spec false) fl_sig fl_take f_code env venv f_can f_fails (fun _ => false) f_good (fun _ => FFalse) f_lab (fun _ _ _ => True) (fun _ => I) _ _ _ _ _ _ ltac:(code_tac We) n sched s ths tr H).
  - intros t o k k' m Hm _ Hs (v & l & c0 & _ & Ec). repeat split; auto. destruct o, v; lbl l; cbn in Ec; inversion Hs; subst; try congruence; constructor.
  - intros t o k k' m Hm _ Hs (v & l & w & c0 & _ & Ec). repeat split; auto. destruct k; inversion Hs; subst. destruct o, v; lbl l; cbn in Ec; try congruence; constructor.
  - intros t o k m Hm _ Hs Hf. destruct k; [discriminate|]. destruct o; try discriminate; constructor.
  - intros t o m k _ Hm. exact Hm.
  - intros t o k D. discriminate.
  - intros [] [] _; reflexivity.
Qed.
(** The manual-reset event of Windows, whatever fails: an atomic flag. *)
Theorem C74_windows_manual_event : forall env venv n sched c tr,
  exec (wmanual_step env venv) (k_init (flag_spec false) n) sched = Some (c, tr) ->
  linearizable (xspec (flag_spec false) f_can) n tr /\ linearizable (flag_spec false) n (calm tr).
Proof. intros env venv n sched [s ths] tr H. destruct (wmanual_both _ _ _ _ _ _ _ H) as (L & _). split; [exact L|exact (calm_lin _ _ _ _ L)]. Qed.
Print Assumptions C74_windows_manual_event.

(** ** Mutexes *)
Definition x_good (o : mop) : mres := match o with MLock | MUnlock => ROk | _ => RTrue end.
Definition x_fails (o : mop) : bool := match o with MTryLock | MTimed => true | _ => false end.
Definition x_can (o : mop) : bool := match o with MUnlock => false | _ => true end.
Definition x_lab (o : mop) (v : ovl) (l : nat) : lstat mres :=
  match o, v, l with
  | _, _, 0 => LOpen | (MLock | MUnlock), _, 1 => LDone ROk | MLock, _, 2 => LOpen
  | MUnlock, _, _ => LDead
  | _, _, 1 => LDone RTrue | MTryLock, _, 3 => LSeen | MTryLock, _, 4 => LOpen
  | MTimed, VClk, 2 => LSeen | MTimed, VClk, 5 => LOpen | MTimed, _, 3 => LSeen | MTimed, _, 4 => LOpen | _, _, _ => LDead
  end%nat.
Definition owns (t : nat) (m : bool) (k : option nat) : Prop := m = true <-> k = Some t.
Lemma pmutex_both wa env venv n sched s ths tr : within env (x_env wa) -> exec (pmutex_step wa env venv) (k_init (mutex_spec false) n) sched = Some ((s, ths), tr) ->
  linearizable (xspec (mutex_spec false) x_can) n tr /\
  forall t p, (forall o, exists v, venv o v = true) -> (forall o, mx_sig t o s = None -> env o KDo KFull = true) ->
    nth_error ths t = Some p -> (forall m, p <> QRest m) -> (forall m o v l ob, p = QSleep m o v l ob -> mx_take t o s <> None) -> exists ch c e, pmutex_step wa env venv (s, ths) (TRun t ch) = Some (c, e).
Proof.
  intros We H.
  refine (kern_both (mutex_spec false) mx_sig mx_take (x_code wa) env venv x_can x_fails (fun _ => false) x_good (fun _ => RFalse) x_lab owns _ _ _ _ _ _ _ _ n sched s ths tr H).
  - intros t. cbn. split; discriminate.
  - intros t o k k' m Hm Hp Hs (v & l & c0 & _ & Ec). assert (o = MUnlock) as -> by (destruct o, v; lbl l; cbn in Ec; congruence).
    inversion Hs; subst. cbn in Hp. subst. destruct Hm as (Hm & _). rewrite (Hm eq_refl). split; [constructor|split].
    + split; discriminate.
    + intros u m' Hne [H1 H2]. split; [intros ->; specialize (H1 eq_refl); congruence|discriminate].
  - intros t o k k' m Hm Hp Hs (v & l & w & c0 & _ & Ec). assert (o <> MUnlock) by (destruct o, v; lbl l; cbn in Ec; congruence).
    destruct k; inversion Hs; subst. split; [destruct o; try contradiction; constructor|split].
    + destruct o; try contradiction; cbn; split; auto.
    + intros u m' Hne [H1 H2]. split; [intros ->; specialize (H1 eq_refl); discriminate|congruence].
  - intros t o k m Hm Hp Hs Hf. destruct k; [|discriminate]. destruct o; try discriminate; constructor.
  - intros t o m k Hf Hm. destruct o; try discriminate; exact Hm.
  - intros t o k D. discriminate.
  - intros [] [] _; reflexivity.
  - destruct wa; code_tac We.
Qed.
(** mutex and timed_mutex on pthread_mutex_t, whatever fails but unlock: an atomic lock with at most one holder. *)
Theorem C74_posix_mutex : forall wa env venv n sched c tr, within env (x_env wa) ->
  exec (pmutex_step wa env venv) (k_init (mutex_spec false) n) sched = Some (c, tr) ->
  linearizable (xspec (mutex_spec false) x_can) n tr /\ linearizable (mutex_spec false) n (calm tr) /\ (length (holders (calm tr)) <= 1)%nat.
Proof.
  intros wa env venv n sched [s ths] tr We H. destruct (pmutex_both _ _ _ _ _ _ _ _ We H) as (L & _). pose proof (calm_lin _ _ _ _ L) as L2. split; [exact L|split; [exact L2|exact (mutex_spec_exclusion _ _ _ L2)]].
Qed.
Print Assumptions C74_posix_mutex.

(** ** An operation throws only if a system call it makes fails, is interrupted or finds the counter full. *)
Ltac thr_tac := let o := fresh in let v := fresh in let l := fresh in intros o v l; destruct o, v; lbl l; cbn; auto.
Theorem C74_exceptions : forall (env : eop -> kcall -> kres -> bool) (venv : eop -> ovl -> bool) (envm : mop -> kcall -> kres -> bool) (venvm : mop -> ovl -> bool) (envf : fop -> kcall -> kres -> bool) (venvf : fop -> ovl -> bool) i mx wa n,
  (forall sched c tr t o, exec (psem_step i mx env venv) (k_init (ev_spec i post_count) n) sched = Some (c, tr) -> In (Ret t o None) tr -> exists c r, env o c r = true) /\
  (forall sched c tr t o, exec (wsem_step i mx env venv) (k_init (ev_spec i post_count) n) sched = Some (c, tr) -> In (Ret t o None) tr -> exists c r, env o c r = true) /\
  (forall sched c tr t o, exec (msem_step i mx env venv) (k_init (ev_spec i post_count) n) sched = Some (c, tr) -> In (Ret t o None) tr -> exists c r, env o c r = true) /\
  (forall sched c tr t o, exec (wauto_step env venv) (k_init (ev_spec 0 post_binary) n) sched = Some (c, tr) -> In (Ret t o None) tr -> exists c r, env o c r = true) /\
  (forall sched c tr t o, exec (wmanual_step envf venvf) (k_init (flag_spec false) n) sched = Some (c, tr) -> In (Ret t o None) tr -> exists c r, envf o c r = true) /\
  (forall sched c tr t o, exec (pmutex_step wa envm venvm) (k_init (mutex_spec false) n) sched = Some (c, tr) -> In (Ret t o None) tr -> exists c r, envm o c r = true).
Proof.
  intros env venv envm venvm envf venvf i mx wa n. repeat split; intros sched c tr t o H Hi.
  - refine (throw_cause (ev_spec i post_count) (cnt_sig mx) cnt_take p_code env venv _ _ n sched c tr H t o Hi); [intros [] []; reflexivity|thr_tac].
  - refine (throw_cause (ev_spec i post_count) (cnt_sig mx) cnt_take w_code env venv _ _ n sched c tr H t o Hi); [intros [] []; reflexivity|thr_tac].
  - refine (throw_cause (ev_spec i post_count) (cnt_sig mx) cnt_take m_code env venv _ _ n sched c tr H t o Hi); [intros [] []; reflexivity|thr_tac].
  - refine (throw_cause (ev_spec 0 post_binary) ev_sig cnt_take w_code env venv _ _ n sched c tr H t o Hi); [intros [] []; reflexivity|thr_tac].
  - refine (throw_cause (flag_spec false) fl_sig fl_take f_code envf venvf _ _ n sched c tr H t o Hi); [intros [] []; reflexivity|thr_tac].
  - refine (throw_cause (mutex_spec false) mx_sig mx_take (x_code wa) envm venvm _ _ n sched c tr H t o Hi); [intros [] []; destruct wa; reflexivity|destruct wa; thr_tac].
Qed.
Print Assumptions C74_exceptions.

(** ** Nobody waits in the library: a thread inside a call can always go on, unless it waits in the system for a unit, the signal or the lock, and there is none. *)
Theorem C74_posix_semaphore_progress : forall i mx env venv n sched s ths tr t p, 0 <= i -> within env p_env -> (forall o, exists v, venv o v = true) ->
  exec (psem_step i mx env venv) (k_init (ev_spec i post_count) n) sched = Some ((s, ths), tr) -> s < mx \/ (forall o, env o KDo KFull = true) ->
  nth_error ths t = Some p -> (forall m, p <> QRest m) -> (forall m o v l ob, p = QSleep m o v l ob -> 0 < s) -> exists ch c e, psem_step i mx env venv (s, ths) (TRun t ch) = Some (c, e).
Proof.
  intros i mx env venv n sched s ths tr t p Hi We Hv H Hf. exact (cnt_progress i mx p_code env venv p_can p_lab Hi ltac:(do_tac) ltac:(do_tac) ltac:(intros [] [] _; reflexivity) ltac:(code_tac We) n sched s ths tr t p H Hv Hf).
Qed.
Print Assumptions C74_posix_semaphore_progress.
Theorem C74_windows_semaphore_progress : forall i mx env venv n sched s ths tr t p, 0 <= i -> (forall o, exists v, venv o v = true) ->
  exec (wsem_step i mx env venv) (k_init (ev_spec i post_count) n) sched = Some ((s, ths), tr) -> s < mx \/ (forall o, env o KDo KFull = true) ->
  nth_error ths t = Some p -> (forall m, p <> QRest m) -> (forall m o v l ob, p = QSleep m o v l ob -> 0 < s) -> exists ch c e, wsem_step i mx env venv (s, ths) (TRun t ch) = Some (c, e).
Proof.
  intros i mx env venv n sched s ths tr t p Hi Hv H Hf. assert (We : within env (fun _ _ _ => true)) by (intros o x r _; reflexivity).
  exact (cnt_progress i mx w_code env venv e_can w_lab Hi ltac:(do_tac) ltac:(do_tac) ltac:(intros [] [] _; reflexivity) ltac:(code_tac We) n sched s ths tr t p H Hv Hf).
Qed.
Print Assumptions C74_windows_semaphore_progress.
Theorem C74_mach_semaphore_progress_partial : forall i mx env venv n sched s ths tr t p, 0 <= i -> within env m_env -> venv ETimed VClk = false -> (forall o, exists v, venv o v = true) ->
  exec (msem_step i mx env venv) (k_init (ev_spec i post_count) n) sched = Some ((s, ths), tr) -> s < mx ->
  nth_error ths t = Some p -> (forall m, p <> QRest m) -> (forall m o v l ob, p = QSleep m o v l ob -> 0 < s) -> exists ch c e, msem_step i mx env venv (s, ths) (TRun t ch) = Some (c, e).
Proof.
  intros i mx env venv n sched s ths tr t p Hi We Hc Hv H Hf. exact (cnt_progress i mx m_code env venv m_can m_lab Hi ltac:(do_tac) ltac:(do_tac) ltac:(intros [] [] _; reflexivity) ltac:(code_tac We) n sched s ths tr t p H Hv (or_introl Hf)).
Qed.
Print Assumptions C74_mach_semaphore_progress_partial.
Theorem C74_dispatch_semaphore_progress : forall i mx venv n sched s ths tr t p, 0 <= i -> (forall o, exists v, venv o v = true) ->
  exec (dsem_step i mx (fun _ _ _ => false) venv) (k_init (ev_spec i post_count) n) sched = Some ((s, ths), tr) -> s < mx ->
  nth_error ths t = Some p -> (forall m, p <> QRest m) -> (forall m o v l ob, p = QSleep m o v l ob -> 0 < s) -> exists ch c e, dsem_step i mx (fun _ _ _ => false) venv (s, ths) (TRun t ch) = Some (c, e).
Proof.
  intros i mx venv n sched s ths tr t p Hi Hv H Hf. assert (We : within (fun (_ : eop) _ _ => false) (fun _ _ _ => false)) by (intros o x r E; exact E).
  exact (cnt_progress i mx d_code (fun _ _ _ => false) venv none d_lab Hi ltac:(do_tac) ltac:(do_tac) ltac:(intros [] [] _; reflexivity) ltac:(code_tac We) n sched s ths tr t p H Hv (or_introl Hf)).
Qed.
Print Assumptions C74_dispatch_semaphore_progress.
Theorem C74_windows_auto_event_progress : forall env venv n sched s ths tr t p, (forall o, exists v, venv o v = true) ->
  exec (wauto_step env venv) (k_init (ev_spec 0 post_binary) n) sched = Some ((s, ths), tr) ->
  nth_error ths t = Some p -> (forall m, p <> QRest m) -> (forall m o v l ob, p = QSleep m o v l ob -> 0 < s) -> exists ch c e, wauto_step env venv (s, ths) (TRun t ch) = Some (c, e).
Proof.
  intros env venv n sched s ths tr t p Hv H Ht Hr Hs. apply (proj2 (wauto_both _ _ _ _ _ _ _ H) t p Hv); auto; [discriminate|].
  intros m o v l ob E. unfold cnt_take. pose proof (Hs _ _ _ _ _ E). destruct (Z.ltb_spec 0 s); [discriminate|lia].
Qed.
Print Assumptions C74_windows_auto_event_progress.
Theorem C74_windows_manual_event_progress : forall env venv n sched s ths tr t p, (forall o, exists v, venv o v = true) ->
  exec (wmanual_step env venv) (k_init (flag_spec false) n) sched = Some ((s, ths), tr) ->
  nth_error ths t = Some p -> (forall m, p <> QRest m) -> (forall m o v l ob, p = QSleep m o v l ob -> s = true) -> exists ch c e, wmanual_step env venv (s, ths) (TRun t ch) = Some (c, e).
Proof.
  intros env venv n sched s ths tr t p Hv H Ht Hr Hs. apply (proj2 (wmanual_both _ _ _ _ _ _ _ H) t p Hv); auto; [intros []; discriminate|].
  intros m o v l ob E. rewrite (Hs _ _ _ _ _ E). discriminate.
Qed.
Print Assumptions C74_windows_manual_event_progress.
Theorem C74_posix_mutex_progress : forall wa env venv n sched s ths tr t p, within env (x_env wa) -> (forall o, exists v, venv o v = true) ->
  exec (pmutex_step wa env venv) (k_init (mutex_spec false) n) sched = Some ((s, ths), tr) ->
  nth_error ths t = Some p -> (forall m, p <> QRest m) -> (forall m o v l ob, p = QSleep m o v l ob -> s = None) -> exists ch c e, pmutex_step wa env venv (s, ths) (TRun t ch) = Some (c, e).
Proof.
  intros wa env venv n sched s ths tr t p We Hv H Ht Hr Hs. apply (proj2 (pmutex_both _ _ _ _ _ _ _ _ We H) t p Hv); auto; [discriminate|].
  intros m o v l ob E. rewrite (Hs _ _ _ _ _ E). discriminate.
Qed.
Print Assumptions C74_posix_mutex_progress.

(** ** What the assumptions exclude *)
Definition outs_cnt (t : nat) (o : eop) (c : Z) : list (eres * Z) :=
  match o with
  | EPost => [(EOk, c + 1)]
  | EWait => if 0 <? c then [(EOk, c - 1)] else []
  | ETry | ETimed => if 0 <? c then [(ETrue, c - 1)] else if c =? 0 then [(EFalse, 0)] else []
  end.
Lemma not_count i n tr : possible (ev_spec i post_count) outs_cnt eop_eqb eres_eqb n tr = false -> ~ linearizable (ev_spec i post_count) n tr.
Proof.
  apply not_linearizable.
  - intros t o s r s' H. cbn in H. inversion H; subst; cbn.
    1: match goal with H : post_count _ _ |- _ => unfold post_count in H; subst; auto end.
    1,2,4: destruct (Z.ltb_spec 0 s); [left; reflexivity|lia].
    all: left; reflexivity.
  - intros []; reflexivity.
  - intros []; reflexivity.
Qed.
Definition outs_mx (t : nat) (o : mop) (k : option nat) : list (mres * option nat) :=
  match o, k with
  | MLock, None => [(ROk, Some t)]
  | MTryLock, None | MTimed, None => [(RTrue, Some t)]
  | MTryLock, Some _ | MTimed, Some _ => [(RFalse, k)]
  | MUnlock, Some u => if (u =? t)%nat then [(ROk, None)] else []
  | _, _ => []
  end.
Definition mop_eqb (a b : mop) : bool := match a, b with MLock, MLock | MTryLock, MTryLock | MTimed, MTimed | MUnlock, MUnlock => true | _, _ => false end.
Definition mres_eqb (a b : mres) : bool := match a, b with ROk, ROk | RTrue, RTrue | RFalse, RFalse | RThrow, RThrow => true | _, _ => false end.
Lemma not_mutex n tr : possible (mutex_spec false) outs_mx mop_eqb mres_eqb n tr = false -> ~ linearizable (mutex_spec false) n tr.
Proof.
  apply not_linearizable.
  - intros t o s r s' H. cbn in H. inversion H; subst; cbn; auto; try discriminate. rewrite Nat.eqb_refl. left. reflexivity.
  - intros []; reflexivity.
  - intros []; reflexivity.
Qed.
Definition always (o : eop) (c : kcall) (r : kres) : bool := true.
Definition anyv {O : Type} (o : O) (v : ovl) : bool := true.
(** One whole call of thread [t], with the choice [ch] at its first system call. *)
Definition one {O : Type} (t : nat) (o : O) (v : ovl) (ch : hchoice) : list (tact O hchoice) := [TCall t o; TRun t (HOvl v); TRun t ch; TRun t HNorm; TRun t HNorm].

(** A sem_wait that fails with anything but EINTR ends wait as if a unit had been taken (P:92-96). *)
Theorem C74_posix_wait_error_refuted : exists i mx sched c tr, 0 <= i /\ exec (psem_step i mx always anyv) (k_init (ev_spec i post_count) 1) sched = Some (c, tr) /\
  In (Ret 0%nat EWait (Some EOk)) tr /\ takes (calm tr) > i + posts_called (calm tr).
Proof. exists 0, 5, (one 0 EWait VDur (HErr KErr)). eexists. eexists. split; [lia|]. split; [vm_compute; reflexivity|]. split; [cbn; tauto|]. vm_compute. reflexivity. Qed.
Print Assumptions C74_posix_wait_error_refuted.
(** A sem_post that fails with anything but EOVERFLOW is a post that is lost (P:71-75). *)
Theorem C74_posix_post_error_refuted : exists mx sched c tr, exec (psem_step 0 mx always anyv) (k_init (ev_spec 0 post_count) 1) sched = Some (c, tr) /\
  tr = [Call 0 EPost; Ret 0 EPost (Some EOk); Call 0 ETry; Ret 0 ETry (Some EFalse)]%nat /\ ~ linearizable (ev_spec 0 post_count) 1 (calm tr).
Proof. exists 5, (one 0 EPost VDur (HErr KErr) ++ one 0 ETry VDur HNorm). eexists. eexists. split; [vm_compute; reflexivity|]. split; [reflexivity|]. apply not_count. vm_compute. reflexivity. Qed.
Print Assumptions C74_posix_post_error_refuted.
(** A signal during sem_trywait makes try_wait return false although a unit is there (P:109-111). *)
Theorem C74_posix_try_refuted : exists mx sched c tr, exec (psem_step 1 mx p_env_sp anyv) (k_init (ev_spec 1 post_count) 1) sched = Some (c, tr) /\
  tr = [Call 0 ETry; Ret 0 ETry (Some EFalse)]%nat /\ ~ linearizable (ev_spec 1 post_count) 1 (calm tr).
Proof. exists 5, (one 0 ETry VDur (HErr KIntr)). eexists. eexists. split; [vm_compute; reflexivity|]. split; [reflexivity|]. apply not_count. vm_compute. reflexivity. Qed.
Print Assumptions C74_posix_try_refuted.
(** The Mach semaphore: wait_until with a time point of another clock that has passed returns false without looking at the count (M:140-147). *)
Theorem C74_mach_clock_refuted : exists mx sched c tr, exec (msem_step 1 mx m_env anyv) (k_init (ev_spec 1 post_count) 1) sched = Some (c, tr) /\
  tr = [Call 0 ETimed; Ret 0 ETimed (Some EFalse)]%nat /\ ~ linearizable (ev_spec 1 post_count) 1 (calm tr).
Proof. exists 5, (one 0 ETimed VClk HNorm). eexists. eexists. split; [vm_compute; reflexivity|]. split; [reflexivity|]. apply not_count. vm_compute. reflexivity. Qed.
Print Assumptions C74_mach_clock_refuted.
(** A semaphore_signal that fails is a lost post (M:61); likewise pthread_mutex_unlock leaves the mutex locked (L:98, T:132). *)
Theorem C74_mach_post_refuted : exists mx sched c tr, exec (msem_step 0 mx always anyv) (k_init (ev_spec 0 post_count) 1) sched = Some (c, tr) /\
  tr = [Call 0 EPost; Ret 0 EPost (Some EOk); Call 0 ETry; Ret 0 ETry (Some EFalse)]%nat /\ ~ linearizable (ev_spec 0 post_count) 1 (calm tr).
Proof. exists 5, (one 0 EPost VDur (HErr KErr) ++ one 0 ETry VDur HNorm). eexists. eexists. split; [vm_compute; reflexivity|]. split; [reflexivity|]. apply not_count. vm_compute. reflexivity. Qed.
Print Assumptions C74_mach_post_refuted.
Theorem C74_posix_unlock_refuted : exists sched c tr, exec (pmutex_step false (fun _ _ _ => true) anyv) (k_init (mutex_spec false) 2) sched = Some (c, tr) /\
  tr = [Call 0 MLock; Ret 0 MLock (Some ROk); Call 0 MUnlock; Ret 0 MUnlock (Some ROk); Call 1 MTryLock; Ret 1 MTryLock (Some RFalse)]%nat /\ ~ linearizable (mutex_spec false) 2 (calm tr).
Proof. exists (one 0 MLock VDur HNorm ++ one 0 MUnlock VDur (HErr KErr) ++ one 1 MTryLock VDur HNorm)%nat. eexists. eexists. split; [vm_compute; reflexivity|]. split; [reflexivity|]. apply not_mutex. vm_compute. reflexivity. Qed.
Print Assumptions C74_posix_unlock_refuted.

(** ** Concrete executions *)
(** Thread 0 waits and is interrupted by a signal; thread 1 posts up to the maximum and once more; thread 0 takes the unit; thread 2's timed wait with a clock loops once and times out. *)
Definition ks_ex (v : ovl) : list (tact eop hchoice) :=
  [TCall 0 EWait; TRun 0 (HOvl v); TRun 0 HNorm; TRun 0 (HErr KIntr); TRun 0 HNorm]%nat ++ one 1 EPost v HNorm ++ one 1 EPost v HNorm ++ one 1 EPost v HNorm ++
  [TRun 0 HNorm; TRun 0 HNorm; TRun 0 HNorm]%nat ++ one 1 EWait v HNorm ++
  [TCall 2 ETimed; TRun 2 (HOvl VClk); TRun 2 HNorm; TRun 2 HTimeout; TRun 2 HAgain; TRun 2 HNorm; TRun 2 HTimeout; TRun 2 HNorm; TRun 2 HNorm; TRun 2 HNorm]%nat.
Example C74_posix_semaphore_ex : within p_env p_env /\ exists c tr, exec (psem_step 0 2 p_env anyv) (k_init (ev_spec 0 post_count) 3) (ks_ex VDur) = Some (c, tr) /\
  tr = [Call 0 EWait; Call 1 EPost; Ret 1 EPost (Some EOk); Call 1 EPost; Ret 1 EPost (Some EOk); Call 1 EPost; Ret 1 EPost None; Ret 0 EWait (Some EOk);
        Call 1 EWait; Ret 1 EWait (Some EOk); Call 2 ETimed; Ret 2 ETimed (Some EFalse)]%nat /\ takes (calm tr) = 2 /\ posts_called (calm tr) = 2.
Proof. split; [intros o c r H; exact H|]. eexists. eexists. split; [vm_compute; reflexivity|]. repeat split. Qed.
(** The same on Windows, where the interruption is an exception. *)
Example C74_windows_semaphore_ex : exists c tr, exec (wsem_step 0 2 always anyv) (k_init (ev_spec 0 post_count) 3)
    ([TCall 0 EWait; TRun 0 (HOvl VDur); TRun 0 HNorm; TRun 0 (HErr KErr); TRun 0 HNorm; TRun 0 HNorm]%nat ++ one 1 EPost VDur HNorm ++ one 2 ETimed VAbs HNorm) = Some (c, tr) /\
  tr = [Call 0 EWait; Ret 0 EWait None; Call 1 EPost; Ret 1 EPost (Some EOk); Call 2 ETimed; Ret 2 ETimed (Some ETrue)]%nat.
Proof. eexists. eexists. split; [vm_compute; reflexivity|]. reflexivity. Qed.
Example C74_mach_semaphore_ex : within m_env m_env /\ exists c tr, exec (msem_step 0 9 m_env (fun _ v => match v with VClk => false | _ => true end)) (k_init (ev_spec 0 post_count) 3)
    ([TCall 0 EWait; TRun 0 (HOvl VDur); TRun 0 HNorm; TRun 0 (HErr KIntr); TRun 0 HNorm]%nat ++ one 1 EPost VDur HNorm ++ [TRun 0 HNorm; TRun 0 HNorm; TRun 0 HNorm]%nat ++ one 1 ETry VDur (HErr KIntr)) = Some (c, tr) /\
  tr = [Call 0 EWait; Call 1 EPost; Ret 1 EPost (Some EOk); Ret 0 EWait (Some EOk); Call 1 ETry; Ret 1 ETry None]%nat.
Proof. split; [intros o c r H; exact H|]. eexists. eexists. split; [vm_compute; reflexivity|]. reflexivity. Qed.
Example C74_dispatch_semaphore_ex : exists c tr, exec (dsem_step 0 9 (fun _ _ _ => false) anyv) (k_init (ev_spec 0 post_count) 3)
    ([TCall 2 ETimed; TRun 2 (HOvl VClk); TRun 2 HNorm; TRun 2 HTimeout; TRun 2 HAgain; TRun 2 HNorm]%nat ++ one 1 EPost VDur HNorm ++ [TRun 2 HNorm; TRun 2 HNorm; TRun 2 HNorm]%nat) = Some (c, tr) /\
  tr = [Call 2 ETimed; Call 1 EPost; Ret 1 EPost (Some EOk); Ret 2 ETimed (Some ETrue)]%nat.
Proof. eexists. eexists. split; [vm_compute; reflexivity|]. reflexivity. Qed.
(** Two posts are one signal; the second waiter is left waiting. *)
Example C74_windows_auto_event_ex : exists s ths tr, exec (wauto_step always anyv) (k_init (ev_spec 0 post_binary) 3)
    (one 1 EPost VDur HNorm ++ one 1 EPost VDur HNorm ++ one 0 EWait VDur HNorm ++ [TCall 2 EWait; TRun 2 (HOvl VDur); TRun 2 HNorm]%nat ++ one 1 EPost VDur (HErr KErr)) = Some ((s, ths), tr) /\
  tr = [Call 1 EPost; Ret 1 EPost (Some EOk); Call 1 EPost; Ret 1 EPost (Some EOk); Call 0 EWait; Ret 0 EWait (Some EOk); Call 2 EWait; Call 1 EPost; Ret 1 EPost None]%nat /\ s = 0.
Proof. eexists. eexists. eexists. split; [vm_compute; reflexivity|]. repeat split. Qed.
Example C74_windows_manual_event_ex : exists s ths tr, exec (wmanual_step (fun _ _ _ => true) anyv) (k_init (flag_spec false) 3)
    ([TCall 0 FWait; TRun 0 (HOvl VDur); TRun 0 HNorm]%nat ++ one 1 FSet VDur HNorm ++ [TRun 0 HNorm; TRun 0 HNorm; TRun 0 HNorm]%nat ++ one 2 FTimed VAbs HNorm ++ one 1 FReset VDur HNorm ++ one 2 FTry VDur HNorm) = Some ((s, ths), tr) /\
  tr = [Call 0 FWait; Call 1 FSet; Ret 1 FSet (Some FOk); Ret 0 FWait (Some FOk); Call 2 FTimed; Ret 2 FTimed (Some FTrue); Call 1 FReset; Ret 1 FReset (Some FOk); Call 2 FTry; Ret 2 FTry (Some FFalse)]%nat /\ s = false.
Proof. eexists. eexists. eexists. split; [vm_compute; reflexivity|]. repeat split. Qed.
(** Thread 1's timed lock with another clock waits while thread 0 holds the mutex, and takes it when it is unlocked; thread 2's lock throws. *)
Example C74_posix_mutex_ex : within (x_env true) (x_env true) /\ exists s ths tr, exec (pmutex_step true (x_env true) anyv) (k_init (mutex_spec false) 3)
    (one 0 MLock VDur HNorm ++ [TCall 1 MTimed; TRun 1 (HOvl VClk); TRun 1 HNorm; TRun 1 HAgain; TRun 1 HNorm; TRun 1 (HErr KIntr); TRun 1 HNorm]%nat ++ one 2 MLock VDur (HErr KErr) ++ one 0 MUnlock VDur HNorm ++ [TRun 1 HNorm; TRun 1 HNorm; TRun 1 HNorm]%nat) = Some ((s, ths), tr) /\
  tr = [Call 0 MLock; Ret 0 MLock (Some ROk); Call 1 MTimed; Call 2 MLock; Ret 2 MLock None; Call 0 MUnlock; Ret 0 MUnlock (Some ROk); Ret 1 MTimed (Some RTrue)]%nat /\ s = Some 1%nat /\ holders (calm tr) = [1%nat].
Proof. split; [intros o c r H; exact H|]. eexists. eexists. eexists. split; [vm_compute; reflexivity|]. repeat split. Qed.
