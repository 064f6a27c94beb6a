(** Property theorems: the Windows mutex and timed_mutex on weakly ordered memory (C69). *)
From Coq Require Import List Bool Arith ZArith Lia.
From Verif Require Import ListSum Exec Events Lin Thr Word MutexSpec MutexSpecFacts WinMutexModel WinMutexProof PropsWinMutex Hb HbSpin HbWinMutex Weak WeakAuto WeakSem WeakWin WeakWinHb.
Import ListNotations.
Local Open Scope Z_scope.

(** * Atomicity *)

(** C69: although the loads of the lock functions may return old values of m_active_count and m_event, every history is one of an atomic mutex.
    ([q] = false is the code.) *)
Theorem C69_atomic : forall q n sched w k ths tr, Z.of_nat n < 2 ^ 30 ->
  exec (wwm_step q) (wwm_init n) sched = Some (((w, k), ths), tr) -> linearizable (mutex_spec true) n (flat_map base_ev tr).
Proof. intros q n sched w k ths tr Hn H. exact (proj1 (wwm_lin _ _ _ _ _ _ _ Hn H)). Qed.
Print Assumptions C69_atomic.

Theorem C69_exclusion : forall q n sched w k ths tr, Z.of_nat n < 2 ^ 30 ->
  exec (wwm_step q) (wwm_init n) sched = Some (((w, k), ths), tr) -> (length (holders (flat_map base_ev tr)) <= 1)%nat.
Proof. intros q n sched w k ths tr Hn H. exact (mutex_spec_exclusion _ _ _ (C69_atomic _ _ _ _ _ _ _ Hn H)). Qed.
Print Assumptions C69_exclusion.

(** Thread 0 holds.  Threads 1 and 2 both announce themselves; thread 1 creates the event and stores its handle; thread 2 still reads a null handle, creates another event, finds the
    handle by its compare-exchange, closes its own event and waits for the same one.  Thread 0 unlocks (its load of m_event gives the handle) and signals; thread 1 takes the mutex
    after a failed compare-exchange. *)
Definition wwm_ex : list (@wact mop (wchoice * nat)) :=
  let r t i := WRun t (CNorm, i) in
  ([WCall 0 MLock; r 0 0; r 0 0; WCall 1 MLock; r 1 1; r 1 2; r 1 2; WCall 2 MTimed; r 2 3; r 2 4; r 2 4; r 1 0; r 1 0; r 1 0; r 2 0; r 2 0; r 2 1; r 2 0;
    WCall 0 MUnlock; r 0 5; r 0 6; r 0 1; r 0 0; r 0 0; r 1 0; r 1 7; r 1 7; r 1 0])%nat.
Example C69_ex : exists w k ths tr, exec (wwm_step false) (wwm_init 3) wwm_ex = Some (((w, k), ths), tr) /\
  flat_map base_ev tr = [Call 0 MLock; Ret 0 MLock ROk; Call 1 MLock; Call 2 MTimed; Call 0 MUnlock; Ret 0 MUnlock ROk; Ret 1 MLock ROk]%nat /\
  kclosed k = [1%nat] /\ map mval (hist w 1%nat) = [0; 1].
Proof. eexists _, _, _, _. split; [vm_compute; reflexivity|]. vm_compute. auto. Qed.

(** * Wake-ups *)

(** C69: in every reachable state in which the mutex is free (newest value of m_active_count) and a thread is blocked: its event is signalled, or an unlock() is about to
    signal it, or a woken thread is about to try. *)
Theorem C69_no_lost_wakeup : forall q n sched w k ths tr t kd old h, Z.of_nat n < 2 ^ 30 ->
  exec (wwm_step q) (wwm_init n) sched = Some (((w, k), ths), tr) ->
  nth_error ths t = Some (WWait kd old h) -> locked (top w 0) = false ->
  (exists R, nth_error (kev k) h = Some (true, R)) \/ exists u p, nth_error ths u = Some p /\ (about_to_signal p = true \/ woken p = true).
Proof.
  intros q n sched w k ths tr t kd old h Hn H Ht Hl. destruct (wwm_lin _ _ _ _ _ _ _ Hn H) as (_ & ((L & E & H1 & H2 & H3 & H4) & _ & H6 & H7 & _) & Hc & _).
  destruct (sum_reg_small _ Hc) as (Hsm & _). cbn [snd wsh_of word events m_event] in *. rewrite H1, wd_locked in Hl by assumption. subst L.
  pose proof (reg_elem _ _ _ Ht) as Hr. cbn in Hr.
  destruct H4 as [H4|[H4|[H4|H4]]]; [discriminate|lia| |].
  - subst E. cbn [Z.b2z] in H3. destruct (Z_lt_le_dec 0 (sumf tok ths)) as [Hp|Hp].
    + right. destruct (sumf_pos_ex _ _ Hp) as (u & p & Hu & Hpos). exists u, p. split; [exact Hu|apply tok_split; exact Hpos].
    + left. destruct (sumf_pos_ex Z.b2z (map fst (kev k))) as (i & b & Hi & Hb); [lia|]. destruct b; [|cbn in Hb; lia].
      pose proof (H6 _ Hi) as Hi2. rewrite (H7 _ _ _ Ht eq_refl) in Hi2. injection Hi2 as <-. rewrite nth_error_map in Hi. destruct (nth_error (kev k) h) as [[b R]|]; [|discriminate]. cbn in Hi. injection Hi as ->. eauto.
  - right. destruct (sumf_pos_ex _ _ H4) as (u & p & Hu & Hpos). exists u, p. split; [exact Hu|]. destruct p; cbn in Hpos; try lia. auto.
Qed.
Print Assumptions C69_no_lost_wakeup.

Lemma last_of w l m0 h : hist w l = m0 :: h -> exists h' m, hist w l = h' ++ [m] /\ top w l = mval m.
Proof. intros E. destruct (exists_last (l := m0 :: h)) as (h' & m & F); [discriminate|]. exists h', m. split; [congruence|]. apply (top_end w l h'). congruence. Qed.
Lemma at_last w l h m : hist w l = h ++ [m] -> nth_error (hist w l) (length h) = Some m /\ (forall K, readable K (hist w l) (length h) = true) /\ room (hist w l) (length h) = true.
Proof.
  intros E. rewrite E. split; [rewrite nth_error_app2, Nat.sub_diag by lia; reflexivity|]. split.
  - intros K. unfold readable. rewrite skipn_all2 by (rewrite app_length; cbn; lia). reflexivity.
  - unfold room. rewrite (proj2 (nth_error_None _ _)) by (rewrite app_length; cbn; lia). reflexivity.
Qed.
Lemma wcas_last w t l weak acq rel facq e d h m : hist w l = h ++ [m] ->
  if mval m =? e then exists w', wcas t l weak acq rel facq e d false (length h) w = Some (true, mval m, w')
  else exists w', wcas t l weak acq rel facq e d false (length h) w = Some (false, mval m, w') /\ hist w' = hist w.
Proof.
  intros E. destruct (at_last _ _ _ _ E) as (H1 & H2 & H3). unfold wcas. rewrite H1, andb_false_r. cbn [negb]. rewrite andb_true_r. destruct (mval m =? e).
  - unfold wrmw. rewrite H1, H2, H3. cbn. eauto.
  - unfold wload. rewrite H1, H2. eexists. split; reflexivity.
Qed.

(** Hence a waiter on a free mutex is never stuck: with all other threads outside the library it can get the mutex in at most four steps of its own, by reading the newest value
    (that a thread sees the newest value eventually is what C++ promises of atomic objects). *)
Theorem C69_progress : forall q n sched w k ths tr t kd old h, Z.of_nat n < 2 ^ 30 ->
  exec (wwm_step q) (wwm_init n) sched = Some (((w, k), ths), tr) ->
  nth_error ths t = Some (WWait kd old h) -> locked (top w 0) = false -> kdead k = false ->
  (forall u p, u <> t -> nth_error ths u = Some p -> exists m, p = WRest m) ->
  exists j i c' K, (j <= 4)%nat /\ exec (wwm_step q) ((w, k), ths) (repeat (WRun t (CNorm, i)) j) = Some (c', [HEv (Ret t (kop kd) (kgot kd)) K]).
Proof.
  intros q n sched w k ths tr t kd old h Hn H Ht Hl Hd Hrest.
  assert (He : exists R, nth_error (kev k) h = Some (true, R)).
  { destruct (C69_no_lost_wakeup _ _ _ _ _ _ _ _ _ _ _ Hn H Ht Hl) as [He|(u & p & Hu & Hp)]; [exact He|exfalso].
    destruct (Nat.eq_dec u t) as [->|Hne]; [rewrite Ht in Hu; inversion Hu; subst; cbn in Hp; intuition discriminate|].
    destruct (Hrest u p Hne Hu) as (m & ->). cbn in Hp. intuition discriminate. }
  destruct He as (R & He). destruct (wwm_lin _ _ _ _ _ _ _ Hn H) as (_ & _ & _ & (m0 & hs & E0 & _) & _).
  destruct (last_of _ _ _ _ E0) as (h' & m & Em & Tm). rewrite Tm in Hl. set (i := length h').
  set (w1 := klearn t R w). set (k1 := KS (upd (kev k) h (false, R)) (kclosed k) (kdead k)).
  assert (S1 : wwm_step q ((w, k), ths) (WRun t (CNorm, i)) = Some (((w1, k1), upd ths t (WClear kd (clear_first old) h)), [])).
  { cbn [wwm_step]. rewrite Ht. cbn [wm_ret]. unfold wwm_run. rewrite Hd, He. unfold k1. rewrite Hd. reflexivity. }
  assert (S2 : forall w0 ths0, hist w0 0%nat = h' ++ [m] -> nth_error ths0 t = Some (WClear kd (mval m) h) ->
     exists w2, wwm_step q ((w0, k1), ths0) (WRun t (CNorm, i)) = Some (((w2, k1), upd ths0 t (WDone false (kop kd) (kgot kd))), [])).
  { intros w0 ths0 E Ht0. pose proof (wcas_last w0 t 0 true q false false (mval m) (clear_new (mval m)) h' m E) as G. rewrite Z.eqb_refl in G. destruct G as (w2 & G).
    exists w2. cbn [wwm_step]. rewrite Ht0. cbn [wm_ret]. unfold wwm_run. cbn [k1 kdead]. rewrite Hd. cbn [spurious]. fold i in G. rewrite G, Hl. reflexivity. }
  assert (S3 : forall w0 ths0, nth_error ths0 t = Some (WDone false (kop kd) (kgot kd)) ->
     wwm_step q ((w0, k1), ths0) (WRun t (CNorm, i)) = Some (((w0, k1), upd ths0 t (WRest (mnext false (kop kd) (kgot kd)))), [HEv (Ret t (kop kd) (kgot kd)) (wkn w0 t)])).
  { intros w0 ths0 Ht0. cbn [wwm_step]. rewrite Ht0. reflexivity. }
  pose proof (nth_upd_eq _ _ (WClear kd (clear_first old) h) _ Ht) as T1.
  pose proof (wcas_last w1 t 0 true q false false (clear_first old) (clear_new (clear_first old)) h' m Em) as G. fold i in G.
  destruct (Z.eqb_spec (mval m) (clear_first old)) as [Heq|Hneq].
  - rewrite <- Heq in T1, S1. destruct (S2 w1 _ Em T1) as (w2 & S2').
    exists 3%nat, i. eexists. eexists. split; [lia|]. cbn [repeat exec]. rewrite S1. rewrite S2'.
    rewrite S3 by (eapply nth_upd_eq; eauto). reflexivity.
  - destruct G as (w2 & G & Eh).
    assert (S4 : wwm_step q ((w1, k1), upd ths t (WClear kd (clear_first old) h)) (WRun t (CNorm, i)) = Some (((w2, k1), upd (upd ths t (WClear kd (clear_first old) h)) t (WClear kd (mval m) h)), [])).
    { cbn [wwm_step]. rewrite T1. cbn [wm_ret]. unfold wwm_run. cbn [k1 kdead]. rewrite Hd. cbn [spurious]. rewrite G. reflexivity. }
    destruct (S2 w2 (upd (upd ths t (WClear kd (clear_first old) h)) t (WClear kd (mval m) h))) as (w3 & S2'); [rewrite Eh; exact Em|eapply nth_upd_eq; eauto|].
    exists 4%nat, i. eexists. eexists. split; [lia|]. cbn [repeat exec]. rewrite S1, S4, S2'.
    rewrite S3 by (eapply nth_upd_eq; eapply nth_upd_eq; eauto). reflexivity.
Qed.
Print Assumptions C69_progress.

(** Such a state: thread 1 has announced itself, thread 0 has unlocked and has signalled the event that it created itself; thread 1 finds the event and waits. *)
Example C69_progress_ex : exists w k ths tr old, exec (wwm_step false) (wwm_init 2)
  (let r t i := WRun t (CNorm, i) in [WCall 0 MLock; r 0 0; r 0 0; WCall 1 MLock; r 1 1; r 1 2; r 1 2; WCall 0 MUnlock; r 0 3; r 0 4; r 0 0; r 0 0; r 0 0; r 0 0; r 0 0; r 1 1])%nat
  = Some (((w, k), ths), tr) /\ ths = [WRest false; WWait KLock old 0] /\ locked (top w 0) = false /\ kdead k = false.
Proof. eexists _, _, _, _, _. split; [vm_compute; reflexivity|]. repeat split. Qed.

(** * The event *)

(** C69: although m_event may be read as null after it was set, all threads use the one handle that was stored, and it is open. *)
Theorem C69_unique_event : forall q n sched w k ths tr t p h, Z.of_nat n < 2 ^ 30 ->
  exec (wwm_step q) (wwm_init n) sched = Some (((w, k), ths), tr) ->
  nth_error ths t = Some p -> (exists kd old, p = WWait kd old h) \/ p = WSet h \/ (exists old, p = WTimer old h) ->
  top w 1 = Z.of_nat h + 1 /\ (h < length (kev k))%nat /\ ~ In h (kclosed k).
Proof.
  intros q n sched w k ths tr t p h Hn H Ht Hp. destruct (wwm_lin _ _ _ _ _ _ _ Hn H) as (_ & (_ & H5 & _ & H7 & _) & _ & (_ & m0 & Hm0 & HH)). cbn [wsh_of m_event events closed] in *.
  assert (Hm : m_event (wsh_of w k) = Some h) by (apply (H7 t p h Ht); destruct Hp as [(kd & old & ->)|[->|(old & ->)]]; reflexivity).
  cbn [wsh_of m_event] in Hm. specialize (H5 h). rewrite Hm in H5. cbn [mz] in H5. rewrite Nat.eqb_refl, map_length in H5.
  assert (0 <= sumf (inhand h) ths) by (apply sumf_nonneg; intros a; destruct a; cbn; try lia; destruct (Nat.eqb _ _); lia).
  unfold cz in H5. split; [|destruct (Nat.ltb_spec h (length (kev k))) as [Hlt|Hge]; [|lia]; split; [exact Hlt|]; intros Hin; apply (count_occ_In Nat.eq_dec) in Hin; lia].
  destruct HH as [E|(x & E & _ & Hx)].
  - rewrite (top_end w 1 [] m0 E), Hm0 in Hm. discriminate.
  - rewrite (top_end w 1 [m0] x E) in *. destruct (Z.eqb_spec (mval x) 0); [lia|]. injection Hm as <-. unfold handle. lia.
Qed.
Print Assumptions C69_unique_event.

(** What ~basic_mutex() closes (B:69-74), after everything else: the stored handle. *)
Definition wwm_dtor (w : wmem) (k : kst) : list nat := if top w 1 =? 0 then kclosed k else handle (top w 1) :: kclosed k.
Lemma wwm_dtor_eq w k : wwm_dtor w k = wm_dtor (wsh_of w k).
Proof. unfold wwm_dtor, wm_dtor. cbn. destruct (top w 1 =? 0); reflexivity. Qed.

(** When no call is in progress and the mutex is destroyed, exactly the events that were created have been closed, once each. *)
Theorem C69_no_leak : forall q n sched w k ths tr, Z.of_nat n < 2 ^ 30 ->
  exec (wwm_step q) (wwm_init n) sched = Some (((w, k), ths), tr) ->
  NoDup (wwm_dtor w k) /\
  ((forall t p, nth_error ths t = Some p -> exists m, p = WRest m) -> forall h, In h (wwm_dtor w k) <-> (h < length (kev k))%nat).
Proof.
  intros q n sched w k ths tr Hn H. destruct (wwm_lin _ _ _ _ _ _ _ Hn H) as (_ & (_ & H5 & _) & _ & _). rewrite wwm_dtor_eq. set (s := wsh_of w k) in *.
  assert (Hz : forall id, cz (wm_dtor s) id = cz (closed s) id + mz (m_event s) id).
  { intros id. unfold wm_dtor, cz, mz. destruct (m_event s) as [h|]; [|lia]. cbn [count_occ]. destruct (Nat.eq_dec h id) as [->|Hn']; [rewrite Nat.eqb_refl; lia|].
    rewrite (proj2 (Nat.eqb_neq h id) Hn'). lia. }
  assert (Hlen : length (events s) = length (kev k)) by apply map_length. split.
  - apply (NoDup_count_occ Nat.eq_dec). intros id. specialize (H5 id). specialize (Hz id).
    assert (0 <= sumf (inhand id) ths) by (apply sumf_nonneg; intros a; destruct a; cbn; try lia; destruct (Nat.eqb _ _); lia).
    unfold cz in *. destruct (id <? length (events s))%nat; lia.
  - intros Hrest id. specialize (H5 id). specialize (Hz id).
    assert (Hi : sumf (inhand id) ths = 0).
    { clear - Hrest. induction ths as [|p l IH]; [reflexivity|]. cbn [sumf]. rewrite IH by (intros t q Hq; apply (Hrest (S t) q Hq)).
      destruct (Hrest O p eq_refl) as (m & ->). reflexivity. }
    rewrite Hi, Hlen in H5. rewrite (count_occ_In Nat.eq_dec). unfold cz in *. destruct (Nat.ltb_spec id (length (kev k))); split; intros; lia.
Qed.
Print Assumptions C69_no_leak.

(** * Publication *)

(** C69 is false of the code.  Thread 1 finds the mutex held and reads m_active_count; thread 0 does work (token 3) and unlocks; thread 1's compare-exchange fails, is retried
    with the value it got and takes the mutex with relaxed order: it does not know the work. *)
Theorem C69_publish_refuted : exists sched c tr a K b K' d,
  exec (wwm_step false) (wwm_init 2) sched = Some (c, tr) /\
  tr = a ++ HEv (Call 0 MUnlock)%nat K :: b ++ HEv (Ret 1 MLock ROk)%nat K' :: d /\ In (HWork 0 3)%nat a /\ ~ In 3%nat K'.
Proof.
  exists (let r t i := WRun t (CNorm, i) in [WCall 0 MLock; r 0 0; r 0 0; WCall 1 MLock; r 1 1; r 1 2; WWork 0; WCall 0 MUnlock; r 0 2; r 0 0; r 1 3; r 1 3; r 1 0])%nat.
  eexists. eexists. eexists [_; _; _; _]. eexists. eexists [_]. eexists. eexists. split; [vm_compute; reflexivity|]. split; [reflexivity|]. split; [cbn; tauto|]. cbn. intuition discriminate.
Qed.
Print Assumptions C69_publish_refuted.

(** Through the event: thread 1 is woken by thread 0's unlock, but before it has finished thread 2 locks, works and unlocks; thread 1 takes the mutex and does not know
    thread 2's work, although it knows thread 0's. *)
Theorem C69_publish_event_refuted : exists sched c tr a K b K' d,
  exec (wwm_step false) (wwm_init 3) sched = Some (c, tr) /\
  tr = a ++ HEv (Call 2 MUnlock)%nat K :: b ++ HEv (Ret 1 MLock ROk)%nat K' :: d /\ In (HWork 2 9)%nat a /\ ~ In 9%nat K' /\ In (HWork 0 4)%nat a /\ In 4%nat K'.
Proof.
  exists (let r t i := WRun t (CNorm, i) in [WCall 0 MLock; r 0 0; r 0 0; WCall 1 MLock; r 1 1; r 1 2; r 1 2; WWork 0; r 1 0; r 1 0; r 1 0;
    WCall 0 MUnlock; r 0 3; r 0 4; r 0 1; r 0 0; r 0 0; r 1 0; WCall 2 MLock; r 2 5; r 2 0; WWork 2; WCall 2 MUnlock; r 2 6; r 2 0; WRun 1 (CSpur, 7); r 1 7; r 1 0])%nat.
  eexists. eexists. eexists [_; _; _; _; _; _; _; _; _]. eexists. eexists [_]. eexists. eexists. split; [vm_compute; reflexivity|]. split; [reflexivity|].
  split; [cbn; tauto|]. split; [cbn; intuition discriminate|]. split; cbn; tauto.
Qed.
Print Assumptions C69_publish_event_refuted.

(** What holds: a successful try_lock() knows what happened before every earlier unlock(). *)
Theorem C69_try_lock_partial : forall n sched c tr a u K b t K' d, Z.of_nat n < 2 ^ 30 ->
  exec (wwm_step false) (wwm_init n) sched = Some (c, tr) ->
  tr = a ++ HEv (Call u MUnlock) K :: b ++ HEv (Ret t MTryLock RTrue) K' :: d ->
  incl K K' /\ forall j, In (HWork u j) a -> In j K'.
Proof.
  intros n sched c tr a u K b t K' d Hn H E0.
  assert (E1 : tr = (a ++ HEv (Call u MUnlock) K :: b) ++ HEv (Ret t MTryLock RTrue) K' :: d) by (rewrite E0, <- app_assoc; reflexivity).
  assert (G : incl K K') by (apply (wwm_pub _ _ _ _ _ _ _ _ _ _ _ Hn H E1 eq_refl u K); apply in_or_app; right; left; reflexivity).
  split; [exact G|]. intros j Hj. apply G. eapply wwm_own; eauto.
Qed.
Print Assumptions C69_try_lock_partial.

(** What holds: so does lock() or a timed function whose first attempt takes the mutex. *)
Theorem C69_first_attempt_partial : forall n sched w k ths tr t kd ch w' k' ths' e u K, Z.of_nat n < 2 ^ 30 ->
  exec (wwm_step false) (wwm_init n) sched = Some (((w, k), ths), tr) ->
  nth_error ths t = Some (WFirst kd) -> locked (top w 0) = false ->
  wwm_step false ((w, k), ths) (WRun t ch) = Some (((w', k'), ths'), e) ->
  In (HEv (Call u MUnlock) K) tr -> incl K (wkn w' t).
Proof.
  intros n sched w k ths tr t kd [ch i] w' k' ths' e u K Hn H Ht Hl Hs Hin.
  destruct (wwm_lin _ _ _ _ _ _ _ Hn H) as (_ & HI & Hcap & HH). destruct (WI_excl _ _ HI Hcap) as (Hfree & _).
  destruct (WWP_exec _ _ _ _ _ Hn H) as (H1 & _). destruct (H1 u K Hin) as [G|(G & _)]; [|specialize (Hfree Hl _ _ G); discriminate].
  cbn [wwm_step] in Hs. rewrite Ht in Hs. cbn [wm_ret] in Hs. unfold wwm_run in Hs. destruct (kdead k); [discriminate|]. destruct (wrmw _ _ _ _ _ _ _) as [[v w1]|] eqn:E; [|discriminate].
  injection Hs as <- _ _ _. destruct (rmw0 _ _ _ _ _ _ _ _ HH E) as (x & _ & _ & _ & _ & _ & _ & _ & G3). eapply incl_tran; [exact G|apply G3; reflexivity].
Qed.
Print Assumptions C69_first_attempt_partial.

(** Nothing else is missing: if the two compare-exchanges had acquire order, every successful lock would know what happened before every earlier unlock(). *)
Theorem C69_with_acquire_partial : forall n sched c tr a u K b t o r K' d, Z.of_nat n < 2 ^ 30 ->
  exec (wwm_step true) (wwm_init n) sched = Some (c, tr) ->
  tr = a ++ HEv (Call u MUnlock) K :: b ++ HEv (Ret t o r) K' :: d ->
  (o = MLock /\ r = ROk) \/ (o = MTryLock /\ r = RTrue) \/ (o = MTimed /\ r = RTrue) ->
  incl K K' /\ forall j, In (HWork u j) a -> In j K'.
Proof.
  intros n sched c tr a u K b t o r K' d Hn H E0 Ho.
  assert (E1 : tr = (a ++ HEv (Call u MUnlock) K :: b) ++ HEv (Ret t o r) K' :: d) by (rewrite E0, <- app_assoc; reflexivity).
  assert (C : covered true o r = true) by (destruct Ho as [(-> & ->)|[(-> & ->)|(-> & ->)]]; reflexivity).
  assert (G : incl K K') by (apply (wwm_pub _ _ _ _ _ _ _ _ _ _ _ Hn H E1 C u K); apply in_or_app; right; left; reflexivity).
  split; [exact G|]. intros j Hj. apply G. eapply wwm_own; eauto.
Qed.
Print Assumptions C69_with_acquire_partial.

(** The schedule of C69_publish_refuted with the stronger orders: thread 1 knows work 3; and a try_lock() after an unlock, with the orders of the code. *)
Example C69_publish_ex : exists c tr K c2 tr2 K2,
  exec (wwm_step true) (wwm_init 2)
    (let r t i := WRun t (CNorm, i) in [WCall 0 MLock; r 0 0; r 0 0; WCall 1 MLock; r 1 1; r 1 2; WWork 0; WCall 0 MUnlock; r 0 2; r 0 0; r 1 3; r 1 3; r 1 0])%nat = Some (c, tr ++ [HEv (Ret 1 MLock ROk)%nat K]) /\ In 3%nat K /\
  exec (wwm_step false) (wwm_init 2)
    (let r t i := WRun t (CNorm, i) in [WCall 0 MLock; r 0 0; r 0 0; WWork 0; WCall 0 MUnlock; r 0 1; r 0 0; WCall 1 MTryLock; r 1 2; r 1 0])%nat = Some (c2, tr2 ++ [HEv (Ret 1 MTryLock RTrue)%nat K2]) /\ In 2%nat K2.
Proof.
  eexists. eexists [_; _; _; _; _; _]. eexists. eexists. eexists [_; _; _; _; _; _]. eexists.
  split; [vm_compute; reflexivity|]. split; [cbn; tauto|]. split; [vm_compute; reflexivity|]. cbn. tauto.
Qed.
