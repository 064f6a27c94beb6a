(** C73: an operation that fails with an exception leaves the object as it was. *)
From Coq Require Import List Bool Arith ZArith Lia.
From Verif Require Import ListSum Exec Lin LinCheck Thr Word MutexSpec MutexSpecFacts EventSpec EventSpecFacts FlagSpec Monitor MonitorProof EmuModel EmuThrow PropsEmu.
Import ListNotations.

(** ** Histories *)
(** Does the next return of thread [t] in [tr] report an exception? *)
Fixpoint threw {O R} (t : nat) (tr : list (event O (option R))) : bool :=
  match tr with
  | [] => false
  | Ret u _ r :: rest => if (u =? t)%nat then match r with None => true | Some _ => false end else threw t rest
  | Call _ _ :: rest => threw t rest
  end.
(** The history without the calls that threw. *)
Fixpoint calm {O R} (tr : list (event O (option R))) : list (event O R) :=
  match tr with
  | [] => []
  | Call t o :: rest => if threw t rest then calm rest else Call t o :: calm rest
  | Ret t o (Some r) :: rest => Ret t o r :: calm rest
  | Ret _ _ None :: rest => calm rest
  end.

Section Calm.
  Variable SP : spec.
  Variable can : op SP -> bool.
  Notation X := (xspec SP can).
  Lemma fate c tr c' : csteps X c tr c' -> forall t m o r, nth_error (snd c) t = Some (CDone (S := X) m o r) -> threw t tr = true -> r = None.
  Proof.
    induction 1 as [c|c e1 c1 e2 c2 H1 H2 IH]; intros t m o r Ht Hw; [discriminate|].
    inversion H1 as [s ths u m0 o0 Hu Hp|s ths u m0 o0 r0 s' Hu Hp|s ths u m0 o0 r0 Hu]; subst; cbn [snd app threw] in *.
    - apply (IH t m o r); [|exact Hw]. rewrite nth_upd_neq; [exact Ht|]. intros ->. congruence.
    - apply (IH t m o r); [|exact Hw]. rewrite nth_upd_neq; [exact Ht|]. intros ->. congruence.
    - destruct (Nat.eqb_spec u t) as [->|Hne].
      + rewrite Hu in Ht. inversion Ht; subst. destruct r; [discriminate|reflexivity].
      + apply (IH t m o r); [|exact Hw]. rewrite nth_upd_neq; [exact Ht|congruence].
  Qed.
  Definition pick (b : bool) (c : cth X) : cth SP :=
    match c with
    | CIdle m => CIdle (S := SP) m
    | CPend m o => if b then CIdle (S := SP) m else CPend (S := SP) m o
    | CDone m o (Some r) => CDone (S := SP) m o r
    | CDone m o None => if b then CIdle (S := SP) m else CPend (S := SP) m o
    end.
  Definition pk (tr : list (event (op SP) (option (res SP)))) (ths : list (cth X)) (ths' : list (cth SP)) : Prop :=
    forall t, nth_error ths' t = option_map (pick (threw t tr)) (nth_error ths t).
  Lemma pk_upd tr tr2 ths ths' t p p' q : pk tr ths ths' -> nth_error ths t = Some q -> (forall u, u <> t -> threw u tr = threw u tr2) -> p' = pick (threw t tr2) p -> pk tr2 (upd ths t p) (upd ths' t p').
  Proof.
    intros H Ht Ho E u. destruct (Nat.eq_dec u t) as [->|Hne].
    - rewrite (nth_upd_eq ths t p q Ht). pose proof (H t) as Hk. rewrite Ht in Hk. cbn [option_map] in Hk. rewrite (nth_upd_eq ths' t p' _ Hk). cbn [option_map]. congruence.
    - rewrite !nth_upd_neq by auto. rewrite <- (Ho u Hne). apply H.
  Qed.
  Lemma pk_same tr tr2 ths ths' t p q : pk tr ths ths' -> nth_error ths t = Some q -> (forall u, u <> t -> threw u tr = threw u tr2) -> pick (threw t tr) q = pick (threw t tr2) p -> pk tr2 (upd ths t p) ths'.
  Proof.
    intros H Ht Ho E u. destruct (Nat.eq_dec u t) as [->|Hne].
    - rewrite (nth_upd_eq ths t p q Ht). pose proof (H t) as Hk. rewrite Ht in Hk. cbn [option_map] in Hk |- *. congruence.
    - rewrite nth_upd_neq by auto. rewrite <- (Ho u Hne). apply H.
  Qed.
  Lemma calm_sim c tr c' : csteps X c tr c' -> forall ths', pk tr (snd c) ths' -> exists c2, csteps SP (fst c, ths') (calm tr) c2.
  Proof.
    induction 1 as [c|c e1 c1 e2 c2 H1 H2 IH]; intros ths' HP; [eexists; constructor|].
    inversion H1 as [s ths t m o Ht Hp|s ths t m o r s' Ht Hp|s ths t m o r Ht]; subst; cbn [snd fst app] in *.
    - cbn [calm]. pose proof (HP t) as Hk. rewrite Ht in Hk. cbn [option_map pick] in Hk. destruct (threw t e2) eqn:Ew0; assert (Ew := Ew0 : @threw (op SP) (res SP) t e2 = _).
      + apply IH. eapply pk_same; [exact HP|exact Ht|reflexivity|]. cbn [pick]. rewrite Ew. reflexivity.
      + destruct (IH (upd ths' t (CPend (S := SP) m o))) as (c3 & H3).
        { eapply pk_upd; [exact HP|exact Ht|reflexivity|]. cbn [pick]. rewrite Ew. reflexivity. }
        exists c3. exact (css_cons SP _ [Call t o] _ _ _ (cs_call SP s ths' t m o Hk Hp) H3).
    - pose proof (HP t) as Hk. rewrite Ht in Hk. cbn [option_map pick] in Hk. destruct r as [r|].
      + assert (Ew : @threw (op SP) (res SP) t e2 = false).
        { destruct (@threw (op SP) (res SP) t e2) eqn:Ew; [|reflexivity]. assert (D := fate _ _ _ H2 t m o (Some r) (nth_upd_eq _ _ _ _ Ht) Ew). discriminate. }
        rewrite Ew in Hk. destruct (IH (upd ths' t (CDone (S := SP) m o r))) as (c3 & H3).
        { eapply pk_upd; [exact HP|exact Ht|reflexivity|reflexivity]. }
        exists c3. exact (css_cons SP _ [] _ _ _ (cs_lin SP s ths' t m o r s' Hk Hp) H3).
      + cbn [otrans xspec] in Hp. destruct Hp as (_ & ->). apply IH. eapply pk_same; [exact HP|exact Ht|reflexivity|reflexivity].
    - pose proof (HP t) as Hk. rewrite Ht in Hk. cbn [option_map pick threw] in Hk. rewrite Nat.eqb_refl in Hk.
      assert (Ho : forall u, u <> t -> threw u (Ret t o r :: e2) = threw u e2) by (intros u Hu; cbn [threw]; destruct (Nat.eqb_spec t u); [congruence|reflexivity]).
      destruct r as [r|]; cbn [calm].
      + destruct (IH (upd ths' t (CIdle (S := SP) (next SP m o r)))) as (c3 & H3).
        { eapply pk_upd; [exact HP|exact Ht|exact Ho|reflexivity]. }
        exists c3. exact (css_cons SP _ [Ret t o r] _ _ _ (cs_ret SP s ths' t m o r Hk) H3).
      + apply IH. eapply pk_same; [exact HP|exact Ht|exact Ho|]. cbn [threw pick]. rewrite Nat.eqb_refl. reflexivity.
  Qed.
  (** Calls that threw can be left out of a linearizable history. *)
  Lemma calm_lin n tr : linearizable X n tr -> linearizable SP n (calm tr).
  Proof.
    intros (c & H). apply (calm_sim _ _ _ H). intros t. cbn [cinit snd]. assert (G : forall k b u, nth_error (repeat (CIdle (S := SP) (minit SP)) k) u = option_map (pick b) (nth_error (repeat (CIdle (S := X) (minit X)) k) u)); [|apply G]. intros k b. induction k as [|k IH]; intros [|u]; cbn [repeat nth_error option_map pick]; auto.
  Qed.
End Calm.

(** ** The critical sections *)
Section Lift.
  Variable SP : spec.
  Variable can : op SP -> bool.
  Variable body : nat -> op SP -> bool -> ost SP -> bout (ost SP) (res SP).
  Variable mi : nat -> mode SP -> ost SP -> Prop.
  Variable Gd : ost SP -> Prop.
  Hypothesis bd : forall t o b d d' r nt m, Gd d -> pre SP m o = true -> mi t m d -> body t o b d = BDone d' r nt ->
    otrans SP t o d r d' /\ mi t (next SP m o r) d' /\ (forall u m', u <> t -> mi u m' d -> mi u m' d').
  Hypothesis bf : forall t o b d r m, Gd d -> pre SP m o = true -> mi t m d -> body t o b d = BFail r ->
    otrans SP t o d r d /\ (forall d', mi t m d' -> mi t (next SP m o r) d').
  Notation X := (xspec SP can).
  Lemma lift_done t o b d d' r nt m : Gd d -> pre X m o = true -> mi t m d -> lift (body t o b d) = BDone d' r nt ->
    otrans X t o d r d' /\ mi t (next X m o r) d' /\ (forall u m', u <> t -> mi u m' d -> mi u m' d').
  Proof. intros HG Hp Hm H. destruct (body t o b d) eqn:E; inversion H; subst. exact (bd _ _ _ _ _ _ _ _ HG Hp Hm E). Qed.
  Lemma lift_fail t o b d r m : Gd d -> pre X m o = true -> mi t m d -> lift (body t o b d) = BFail r ->
    otrans X t o d r d /\ (forall d', mi t m d' -> mi t (next X m o r) d').
  Proof. intros HG Hp Hm H. destruct (body t o b d) eqn:E; inversion H; subst. exact (bf _ _ _ _ _ _ HG Hp Hm E). Qed.
  Lemma lift_thr t o d r m : thr_of (SP := SP) can o = Some r -> pre X m o = true -> mi t m d -> otrans X t o d r d /\ mi t (next X m o r) d.
  Proof. unfold thr_of. destruct (can o) eqn:E; intros H _ Hm; inversion H; subst. cbn. auto. Qed.
  Lemma lift_wait t o b d : lift (body t o b d) = BWait -> body t o b d = BWait.
  Proof. destruct (body t o b d); cbn; congruence. Qed.
  Lemma lift_bdone t o b d d' r nt : lift (body t o b d) = BDone d' r nt -> exists r', body t o b d = BDone d' r' nt.
  Proof. destruct (body t o b d); cbn; intros H; inversion H; subst; eauto. Qed.
  Lemma lift_bfail t o b d r : lift (body t o b d) = BFail r -> exists r', body t o b d = BFail r'.
  Proof. destruct (body t o b d); cbn; intros H; inversion H; subst; eauto. Qed.
End Lift.
Local Open Scope Z_scope.

(** ** Every history, without the calls that threw, is a history of the object that never fails. *)
Theorem C73_semaphore : forall i chr n sched c tr, 0 <= i ->
  along (sem_xstep i chr) (fun c => snd (fst c) < 2 ^ 32 - 1) (mon_init (semx i) n) sched ->
  exec (sem_xstep i chr) (mon_init (semx i) n) sched = Some (c, tr) -> linearizable (ev_spec i post_count) n (calm tr).
Proof.
  intros i chr n sched c tr Hi Ha H. apply (calm_lin (ev_spec i post_count) sem_can).
  exact (proj1 (mon_lin (semx i) (fun t o b d => lift (sem_body t o b d)) ev_timed chr false _ sem_mi sem_cap (fun _ => Hi) (lift_done (ev_spec i post_count) sem_can sem_body sem_mi sem_cap (sem_done i)) (lift_fail (ev_spec i post_count) sem_can sem_body sem_mi sem_cap (sem_fail i)) (lift_thr (ev_spec i post_count) sem_can sem_mi) n sched c tr Ha H)).
Qed.
Print Assumptions C73_semaphore.
Theorem C73_auto_event : forall chr n sched c tr,
  exec (are_xstep chr) (mon_init arex n) sched = Some (c, tr) -> linearizable (ev_spec 0 post_binary) n (calm tr).
Proof.
  intros chr n sched c tr H. apply (calm_lin (ev_spec 0 post_binary) sem_can).
  exact (proj1 (mon_lin arex (fun t o b d => lift (are_body t o b d)) ev_timed chr false _ are_mi any (fun _ => or_introl eq_refl) (lift_done (ev_spec 0 post_binary) sem_can are_body are_mi any are_done) (lift_fail (ev_spec 0 post_binary) sem_can are_body are_mi any are_fail) (lift_thr (ev_spec 0 post_binary) sem_can are_mi) n sched c tr (any_along _ _ _ _) H)).
Qed.
Print Assumptions C73_auto_event.
Theorem C73_manual_event : forall chr n sched c tr,
  exec (mre_xstep chr) (mon_init mrex n) sched = Some (c, tr) -> linearizable (flag_spec false) n (calm tr).
Proof.
  intros chr n sched c tr H. apply (calm_lin (flag_spec false) mre_can).
  exact (proj1 (mon_lin mrex (fun t o b d => lift (mre_body t o b d)) fl_timed chr false _ fl_mi any (fun _ => I) (lift_done (flag_spec false) mre_can mre_body fl_mi any mre_done) (lift_fail (flag_spec false) mre_can mre_body fl_mi any mre_fail) (lift_thr (flag_spec false) mre_can fl_mi) n sched c tr (any_along _ _ _ _) H)).
Qed.
Print Assumptions C73_manual_event.
Theorem C73_timed_mutex : forall n sched c tr,
  exec tm_xstep (mon_init tmx n) sched = Some (c, tr) -> linearizable (mutex_spec false) n (calm tr) /\ (length (holders (calm tr)) <= 1)%nat.
Proof.
  intros n sched c tr H. assert (L : linearizable (mutex_spec false) n (calm tr)).
  { apply (calm_lin (mutex_spec false) tm_can).
    exact (proj1 (mon_lin tmx (fun t o b d => lift (tm_body t o b d)) mu_timed false true _ tm_mi any tm_mi0 (lift_done (mutex_spec false) tm_can tm_body tm_mi any tm_done) (lift_fail (mutex_spec false) tm_can tm_body tm_mi any tm_fail) (lift_thr (mutex_spec false) tm_can tm_mi) n sched c tr (any_along _ _ _ _) H)). }
  split; [exact L|]. exact (mutex_spec_exclusion _ _ _ L).
Qed.
Print Assumptions C73_timed_mutex.

(** ** No wake-up is lost to a call that throws: if a thread sleeps although it could go on, another one that will look at the data
    has been woken or holds the internal mutex in a waiting function, or a notification is about to be issued. *)
Definition sx_wait i := fun t o b d HG H => sem_wait_z t o b d HG (lift_wait (ev_spec i post_count) sem_body t o b d H).
Theorem C73_semaphore_wakeup : forall i n sched s ths tr t p, 0 <= i ->
  along (sem_xstep i false) (fun c => snd (fst c) < 2 ^ 32 - 1) (mon_init (semx i) n) sched ->
  exec (sem_xstep i false) (mon_init (semx i) n) sched = Some ((s, ths), tr) ->
  nth_error ths t = Some p -> asleep p = true -> snd s <= sumf (aw (semx i) ev_waitop) ths.
Proof.
  intros i n sched s ths tr t p Hi Ha H Ht Hs.
  destruct (mon_enough_awake (semx i) (fun t o b d => lift (sem_body t o b d)) ev_timed false false _ sem_mi sem_cap (fun _ => Hi) (lift_done (ev_spec i post_count) sem_can sem_body sem_mi sem_cap (sem_done i)) (lift_fail (ev_spec i post_count) sem_can sem_body sem_mi sem_cap (sem_fail i)) (lift_thr (ev_spec i post_count) sem_can sem_mi)
    (fun d : Z => d) ev_waitop eq_refl (sx_wait i)) with (n := n) (sched := sched) (c := (s, ths)) (tr := tr) as (_ & H1 & _); [| | |exact Ha|exact H|].
  - intros u o b d r HG E. apply (lift_bfail (ev_spec i post_count) sem_body) in E. destruct E as (r' & E). exact (sem_fail_z _ _ _ _ _ HG E).
  - intros u o b d d' r nt m HG Hm Hp E Hw. apply (lift_bdone (ev_spec i post_count) sem_body) in E. destruct E as (r' & E). exact (sem_take_z i _ _ _ _ _ _ _ _ HG Hm Hp E Hw).
  - intros u o b d d' r nt m HG Hm Hp E Hw. apply (lift_bdone (ev_spec i post_count) sem_body) in E. destruct E as (r' & E). exact (sem_give_z i _ _ _ _ _ _ _ _ HG Hm Hp E Hw).
  - apply H1. cbn [fst snd]. pose proof (sumf_elem (slp (semx i)) _ _ _ (slp_nn _) Ht) as He. unfold slp in He at 1. rewrite Hs in He. cbn in He. lia.
Qed.
Print Assumptions C73_semaphore_wakeup.
Theorem C73_auto_event_wakeup : forall n sched s ths tr t p,
  exec (are_xstep false) (mon_init arex n) sched = Some ((s, ths), tr) ->
  0 < snd s -> nth_error ths t = Some p -> asleep p = true -> exists u q, nth_error ths u = Some q /\ aw arex ev_waitop q = 1.
Proof.
  intros n sched s ths tr t p H.
  refine (mon_no_lost arex (fun t o b d => lift (are_body t o b d)) ev_timed false false _ are_mi any (fun _ => or_introl eq_refl) (lift_done (ev_spec 0 post_binary) sem_can are_body are_mi any are_done) (lift_fail (ev_spec 0 post_binary) sem_can are_body are_mi any are_fail) (lift_thr (ev_spec 0 post_binary) sem_can are_mi)
    (fun d : Z => d) ev_waitop eq_refl _ _ _ _ n sched s ths tr t p (any_along _ _ _ _) H).
  - intros u o b d HG E. exact (are_wait_z _ _ _ _ HG (lift_wait (ev_spec 0 post_binary) are_body _ _ _ _ E)).
  - intros u o b d r HG E. apply (lift_bfail (ev_spec 0 post_binary) are_body) in E. destruct E as (r' & E). exact (are_fail_z _ _ _ _ _ HG E).
  - intros u o b d d' r nt m HG Hm Hp E Hw. apply (lift_bdone (ev_spec 0 post_binary) are_body) in E. destruct E as (r' & E). exact (are_take_z _ _ _ _ _ _ _ _ HG Hm Hp E Hw).
  - intros u o b d d' r nt m HG Hm Hp E Hw. apply (lift_bdone (ev_spec 0 post_binary) are_body) in E. destruct E as (r' & E). exact (are_give_z _ _ _ _ _ _ _ _ HG Hm Hp E Hw).
Qed.
Print Assumptions C73_auto_event_wakeup.
Theorem C73_manual_event_wakeup : forall n sched s ths tr t p,
  exec (mre_xstep false) (mon_init mrex n) sched = Some ((s, ths), tr) ->
  snd s = true -> nth_error ths t = Some p -> asleep p = true -> exists u m o r, nth_error ths u = Some (PNotify m o r NAll).
Proof.
  intros n sched s ths tr t p H Hs Ht Hp.
  destruct (mon_broadcast mrex (fun t o b d => lift (mre_body t o b d)) fl_timed false false _ fl_mi any (fun _ => I) (lift_done (flag_spec false) mre_can mre_body fl_mi any mre_done) (lift_fail (flag_spec false) mre_can mre_body fl_mi any mre_fail) (lift_thr (flag_spec false) mre_can fl_mi)
    (fun d : bool => d)) with (n := n) (sched := sched) (c := (s, ths)) (tr := tr) as (_ & H1 & _); [| |reflexivity|apply any_along|exact H|].
  - intros u o b d E. exact (mre_wait_z _ _ _ _ (lift_wait (flag_spec false) mre_body _ _ _ _ E)).
  - intros u o b d d' r nt E. apply (lift_bdone (flag_spec false) mre_body) in E. destruct E as (r' & E). exact (mre_done_z _ _ _ _ _ _ _ E).
  - cbn [fst snd] in H1. pose proof (sumf_elem (slp mrex) _ _ _ (slp_nn _) Ht) as He. unfold slp in He at 1. rewrite Hp in He. cbn in He.
    destruct (sumf_pos_ex (ball mrex) ths) as (u & q & Hu & Hq); [apply H1; [lia|exact Hs]|].
    exists u. destruct q; cbn in Hq; try lia. destruct nt; try lia. eauto.
Qed.
Print Assumptions C73_manual_event_wakeup.
Theorem C73_timed_mutex_wakeup : forall n sched s ths tr t p,
  exec tm_xstep (mon_init tmx n) sched = Some ((s, ths), tr) ->
  snd s = None -> nth_error ths t = Some p -> asleep p = true -> exists u q, nth_error ths u = Some q /\ aw tmx mu_waitop q = 1.
Proof.
  intros n sched s ths tr t p H Hs.
  refine (mon_no_lost tmx (fun t o b d => lift (tm_body t o b d)) mu_timed false true _ tm_mi any tm_mi0 (lift_done (mutex_spec false) tm_can tm_body tm_mi any tm_done) (lift_fail (mutex_spec false) tm_can tm_body tm_mi any tm_fail) (lift_thr (mutex_spec false) tm_can tm_mi)
    mu_avail mu_waitop eq_refl _ _ _ _ n sched s ths tr t p (any_along _ _ _ _) H _).
  - intros u o b d HG E. exact (tm_wait_z _ _ _ _ HG (lift_wait (mutex_spec false) tm_body _ _ _ _ E)).
  - intros u o b d r HG E. apply (lift_bfail (mutex_spec false) tm_body) in E. destruct E as (r' & E). exact (tm_fail_z _ _ _ _ _ HG E).
  - intros u o b d d' r nt m HG Hm Hp E Hw. apply (lift_bdone (mutex_spec false) tm_body) in E. destruct E as (r' & E). exact (tm_take_z _ _ _ _ _ _ _ _ HG Hm Hp E Hw).
  - intros u o b d d' r nt m HG Hm Hp E Hw. apply (lift_bdone (mutex_spec false) tm_body) in E. destruct E as (r' & E). exact (tm_give_z _ _ _ _ _ _ _ _ HG Hm Hp E Hw).
  - rewrite Hs. reflexivity.
Qed.
Print Assumptions C73_timed_mutex_wakeup.

(** ** The internal mutex is not left locked: while some thread is inside a call and not asleep, some thread can move. *)
Theorem C73_semaphore_progress : forall i chr n sched s ths tr t p, 0 <= i ->
  along (sem_xstep i chr) (fun c => snd (fst c) < 2 ^ 32 - 1) (mon_init (semx i) n) sched ->
  exec (sem_xstep i chr) (mon_init (semx i) n) sched = Some ((s, ths), tr) ->
  nth_error ths t = Some p -> (forall m, p <> PRest m) -> asleep p = false -> exists u ch c e, sem_xstep i chr (s, ths) (TRun u ch) = Some (c, e).
Proof.
  intros i chr n sched s ths tr t p Hi.
  exact (mon_progress (semx i) (fun t o b d => lift (sem_body t o b d)) ev_timed chr false _ sem_mi sem_cap (fun _ => Hi) (lift_done (ev_spec i post_count) sem_can sem_body sem_mi sem_cap (sem_done i)) (lift_fail (ev_spec i post_count) sem_can sem_body sem_mi sem_cap (sem_fail i)) (lift_thr (ev_spec i post_count) sem_can sem_mi) n sched s ths tr t p).
Qed.
Print Assumptions C73_semaphore_progress.
Theorem C73_auto_event_progress : forall chr n sched s ths tr t p,
  exec (are_xstep chr) (mon_init arex n) sched = Some ((s, ths), tr) ->
  nth_error ths t = Some p -> (forall m, p <> PRest m) -> asleep p = false -> exists u ch c e, are_xstep chr (s, ths) (TRun u ch) = Some (c, e).
Proof.
  intros chr n sched s ths tr t p H.
  exact (mon_progress arex (fun t o b d => lift (are_body t o b d)) ev_timed chr false _ are_mi any (fun _ => or_introl eq_refl) (lift_done (ev_spec 0 post_binary) sem_can are_body are_mi any are_done) (lift_fail (ev_spec 0 post_binary) sem_can are_body are_mi any are_fail) (lift_thr (ev_spec 0 post_binary) sem_can are_mi) n sched s ths tr t p (any_along _ _ _ _) H).
Qed.
Print Assumptions C73_auto_event_progress.
Theorem C73_manual_event_progress : forall chr n sched s ths tr t p,
  exec (mre_xstep chr) (mon_init mrex n) sched = Some ((s, ths), tr) ->
  nth_error ths t = Some p -> (forall m, p <> PRest m) -> asleep p = false -> exists u ch c e, mre_xstep chr (s, ths) (TRun u ch) = Some (c, e).
Proof.
  intros chr n sched s ths tr t p H.
  exact (mon_progress mrex (fun t o b d => lift (mre_body t o b d)) fl_timed chr false _ fl_mi any (fun _ => I) (lift_done (flag_spec false) mre_can mre_body fl_mi any mre_done) (lift_fail (flag_spec false) mre_can mre_body fl_mi any mre_fail) (lift_thr (flag_spec false) mre_can fl_mi) n sched s ths tr t p (any_along _ _ _ _) H).
Qed.
Print Assumptions C73_manual_event_progress.
Theorem C73_timed_mutex_progress : forall n sched s ths tr t p,
  exec tm_xstep (mon_init tmx n) sched = Some ((s, ths), tr) ->
  nth_error ths t = Some p -> (forall m, p <> PRest m) -> asleep p = false -> exists u ch c e, tm_xstep (s, ths) (TRun u ch) = Some (c, e).
Proof.
  intros n sched s ths tr t p H.
  exact (mon_progress tmx (fun t o b d => lift (tm_body t o b d)) mu_timed false true _ tm_mi any tm_mi0 (lift_done (mutex_spec false) tm_can tm_body tm_mi any tm_done) (lift_fail (mutex_spec false) tm_can tm_body tm_mi any tm_fail) (lift_thr (mutex_spec false) tm_can tm_mi) n sched s ths tr t p (any_along _ _ _ _) H).
Qed.
Print Assumptions C73_timed_mutex_progress.

(** ** Concrete executions *)
(** Thread 0 waits and its wait throws; thread 1's post fails to lock, then a second one succeeds; thread 2 takes the unit. *)
Definition sx_ex : list (tact eop mchoice) :=
  [TCall 0 EWait; TRun 0 MNorm; TRun 0 MNorm; TCall 2 EWait; TRun 0 MThrow; TRun 0 MNorm; TRun 2 MNorm; TRun 2 MNorm; TRun 2 MNorm;
   TCall 1 EPost; TRun 1 MThrow; TRun 0 MNorm; TRun 1 MNorm; TCall 1 EPost; TRun 1 MNorm; TRun 1 MNorm; TRun 1 MNorm]%nat.
Example C73_semaphore_ex : along (sem_xstep 0 false) (fun c => snd (fst c) < 2 ^ 32 - 1) (mon_init (semx 0) 3) sx_ex /\
  exists s ths tr, exec (sem_xstep 0 false) (mon_init (semx 0) 3) sx_ex = Some ((s, ths), tr) /\
    tr = [Call 0 EWait; Call 2 EWait; Call 1 EPost; Ret 0 EWait None; Ret 1 EPost None; Call 1 EPost]%nat /\
    calm tr = [Call 2 EWait; Call 1 EPost]%nat /\ snd s = 1 /\ asleep (nth 2 ths (PRest (SP := semx 0) tt)) = true.
Proof.
  split.
  - apply (alongb_ok _ (fun c => snd (fst c) <? 2 ^ 32 - 1)); [intros c H; apply Z.ltb_lt; exact H|vm_compute; reflexivity].
  - eexists. eexists. eexists. split; [vm_compute; reflexivity|]. repeat split.
Qed.
Example C73_auto_event_ex : exists s ths tr, exec (are_xstep false) (mon_init arex 3) sx_ex = Some ((s, ths), tr) /\
  calm tr = [Call 2 EWait; Call 1 EPost]%nat /\ 0 < snd s /\ asleep (nth 2 ths (PRest (SP := arex) tt)) = true.
Proof. eexists. eexists. eexists. split; [vm_compute; reflexivity|]. repeat split. Qed.
Definition mx_ex : list (tact fop mchoice) :=
  [TCall 0 FWait; TRun 0 MNorm; TRun 0 MNorm; TCall 2 FWait; TRun 0 MThrow; TRun 0 MNorm; TRun 2 MNorm; TRun 2 MNorm; TRun 2 MNorm;
   TCall 1 FReset; TRun 1 MThrow; TRun 0 MNorm; TRun 1 MNorm; TCall 1 FSet; TRun 1 MNorm; TRun 1 MNorm; TRun 1 MNorm]%nat.
Example C73_manual_event_ex : exists s ths tr, exec (mre_xstep false) (mon_init mrex 3) mx_ex = Some ((s, ths), tr) /\
  calm tr = [Call 2 FWait; Call 1 FSet]%nat /\ In (Ret 1%nat FReset None) tr /\ snd s = true /\ asleep (nth 2 ths (PRest (SP := mrex) tt)) = true.
Proof. eexists. eexists. eexists. split; [vm_compute; reflexivity|]. repeat split. cbn. tauto. Qed.
(** Thread 1's timed lock throws while thread 0 holds the mutex; thread 0 then unlocks with thread 2 asleep. *)
Definition tx_ex : list (tact mop mchoice) :=
  [TCall 0 MLock; TRun 0 MNorm; TRun 0 MNorm; TRun 0 MNorm; TRun 0 MNorm; TRun 0 MNorm;
   TCall 1 MTimed; TRun 1 MNorm; TRun 1 MNorm; TRun 1 MThrow; TRun 1 MNorm; TRun 1 MNorm;
   TCall 2 MTimed; TRun 2 MNorm; TRun 2 MNorm; TRun 2 MNorm; TCall 0 MUnlock; TRun 0 MNorm; TRun 0 MNorm; TRun 0 MNorm]%nat.
Example C73_timed_mutex_ex : exists s ths tr, exec tm_xstep (mon_init tmx 3) tx_ex = Some ((s, ths), tr) /\
  In (Ret 1%nat MTimed None) tr /\ calm tr = [Call 0 MLock; Ret 0 MLock ROk; Call 2 MTimed; Call 0 MUnlock]%nat /\ snd s = None /\ asleep (nth 2 ths (PRest (SP := tmx) false)) = true.
Proof. eexists. eexists. eexists. split; [vm_compute; reflexivity|]. split; [cbn; tauto|]. repeat split. Qed.
