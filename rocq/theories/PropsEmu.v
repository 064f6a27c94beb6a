(** Property theorems: emulated semaphore, events and timed_mutex (C15-C18). *)
From Coq Require Import List Bool Arith ZArith Lia.
From Verif Require Import ListSum Exec Lin LinCheck Thr Word MutexSpec MutexSpecFacts EventSpec EventSpecFacts FlagSpec
  Monitor MonitorProof EmuModel.
Import ListNotations.
Local Open Scope Z_scope.

(** ** Semaphore *)
Definition sem_mi (t : nat) (m : unit) (c : Z) : Prop := 0 <= c.
Definition sem_cap (c : Z) : Prop := c < 2 ^ 32 - 1.

Lemma sem_done i t o b d d' r nt m : sem_cap d -> pre (ev_spec i post_count) m o = true -> sem_mi t m d ->
  sem_body t o b d = BDone d' r nt ->
  otrans (ev_spec i post_count) t o d r d' /\ sem_mi t (next (ev_spec i post_count) m o r) d' /\
  (forall u m', u <> t -> sem_mi u m' d -> sem_mi u m' d').
Proof.
  unfold sem_cap, sem_mi. intros HG _ Hm H. cbn [otrans ev_spec]. destruct o; cbn in H.
  - injection H as <- <- <-. rewrite u32_id by (unfold two32; lia). repeat split; try lia. constructor. reflexivity.
  - destruct (Z.eqb_spec d 0); inversion H; subst. repeat split; try lia. constructor; lia.
  - destruct (Z.eqb_spec d 0); inversion H; subst; repeat split; try lia; constructor; lia.
  - destruct (Z.eqb_spec d 0); [destruct b|]; inversion H; subst. repeat split; try lia. constructor; lia.
Qed.

Lemma sem_fail i t o b d r m : sem_cap d -> pre (ev_spec i post_count) m o = true -> sem_mi t m d ->
  sem_body t o b d = BFail r ->
  otrans (ev_spec i post_count) t o d r d /\ (forall d', sem_mi t m d' -> sem_mi t (next (ev_spec i post_count) m o r) d').
Proof.
  intros _ _ _ H. destruct o; cbn in H; try discriminate; destruct (Z.eqb_spec d 0); try discriminate.
  destruct b; inversion H; subst. split; auto. constructor.
Qed.

Definition ev_waitop (o : eop) : bool := match o with EWait | ETimed => true | _ => false end.

(** C17: every history is one of an atomic counter, as long as the counter stays below UINT_MAX (the unsigned
    counter wraps: [C17_overflow_refuted]). *)
Theorem C17_atomic : forall i chr n sched c tr, 0 <= i ->
  along (sem_step i chr) (fun c => snd (fst c) < 2 ^ 32 - 1) (sem_init i n) sched ->
  exec (sem_step i chr) (sem_init i n) sched = Some (c, tr) ->
  linearizable (ev_spec i post_count) n tr.
Proof.
  intros i chr n sched c tr Hi Ha H.
  exact (proj1 (mon_lin (ev_spec i post_count) sem_body ev_timed chr false nothrow sem_mi sem_cap (fun _ => Hi)
    (sem_done i) (sem_fail i) (nothrow_ok _ _) n sched c tr Ha H)).
Qed.
Print Assumptions C17_atomic.

(** C17: completed waits never outnumber the initial count plus posts. *)
Theorem C17_conservation : forall i chr n sched c tr, 0 <= i ->
  along (sem_step i chr) (fun c => snd (fst c) < 2 ^ 32 - 1) (sem_init i n) sched ->
  exec (sem_step i chr) (sem_init i n) sched = Some (c, tr) -> takes tr <= i + posts_called tr.
Proof.
  intros i chr n sched c tr Hi Ha H. apply (conservation post_count i) with (n := n); auto.
  - unfold post_count. intros; lia.
  - exact (C17_atomic i chr n sched c tr Hi Ha H).
Qed.
Print Assumptions C17_conservation.

Lemma sem_wait_z t o b d : sem_cap d -> sem_body t o b d = BWait -> ev_waitop o = true /\ d <= 0.
Proof.
  intros _ H. destruct o; cbn in H; try discriminate; destruct (Z.eqb_spec d 0); try discriminate; cbn; auto with zarith.
Qed.
Lemma sem_fail_z t o b d r : sem_cap d -> sem_body t o b d = BFail r -> ev_waitop o = true /\ d <= 0.
Proof.
  intros _ H. destruct o; cbn in H; try discriminate; destruct (Z.eqb_spec d 0); try discriminate; cbn; auto with zarith.
Qed.
Lemma sem_take_z (i : Z) t o b d d' r nt m : sem_cap d -> sem_mi t m d -> pre (ev_spec i post_count) m o = true ->
  sem_body t o b d = BDone d' r nt -> ev_waitop o = true -> d' <= Z.max 0 (d - 1).
Proof.
  intros _ _ _ H Hw. destruct o; cbn in H, Hw; try discriminate; destruct (Z.eqb_spec d 0); try (destruct b); inversion H; subst; lia.
Qed.
Lemma sem_give_z (i : Z) t o b d d' r nt m : sem_cap d -> sem_mi t m d -> pre (ev_spec i post_count) m o = true ->
  sem_body t o b d = BDone d' r nt -> ev_waitop o = false -> d' <= Z.max 0 d + match nt with NOne => 1 | _ => 0 end.
Proof.
  unfold sem_cap, sem_mi. intros HG Hm _ H Hw. destruct o; cbn in H, Hw; try discriminate.
  - injection H as <- <- <-. rewrite u32_id by (unfold two32; lia). lia.
  - destruct (Z.eqb_spec d 0); inversion H; subst; lia.
Qed.

(** C17: if a thread sleeps, the number of units is at most the number of awake waiters and pending notifications;
    timed waits by system time or duration ([chr = false]). *)
Theorem C17_enough_awake_partial : forall i n sched s ths tr t p, 0 <= i ->
  along (sem_step i false) (fun c => snd (fst c) < 2 ^ 32 - 1) (sem_init i n) sched ->
  exec (sem_step i false) (sem_init i n) sched = Some ((s, ths), tr) ->
  nth_error ths t = Some p -> asleep p = true ->
  snd s <= sumf (aw (ev_spec i post_count) ev_waitop) ths.
Proof.
  intros i n sched s ths tr t p Hi Ha H Ht Hs.
  destruct (mon_enough_awake (ev_spec i post_count) sem_body ev_timed false false nothrow sem_mi sem_cap (fun _ => Hi)
    (sem_done i) (sem_fail i) (nothrow_ok _ _) (fun d : Z => d) ev_waitop eq_refl sem_wait_z sem_fail_z (sem_take_z i) (sem_give_z i)
    n sched _ tr Ha H) as (_ & H1 & _).
  apply H1. cbn [fst snd].
  pose proof (sumf_elem (slp (ev_spec i post_count)) _ _ _ (slp_nn _) Ht) as He.
  unfold slp in He at 1. rewrite Hs in He. cbn in He. lia.
Qed.
Print Assumptions C17_enough_awake_partial.

(** C17: no thread waits on the internal mutex for ever: some thread can always move. *)
Theorem C17_progress : forall i chr n sched s ths tr t p, 0 <= i ->
  along (sem_step i chr) (fun c => snd (fst c) < 2 ^ 32 - 1) (sem_init i n) sched ->
  exec (sem_step i chr) (sem_init i n) sched = Some ((s, ths), tr) ->
  nth_error ths t = Some p -> (forall m, p <> PRest m) -> asleep p = false ->
  exists u ch c e, sem_step i chr (s, ths) (TRun u ch) = Some (c, e).
Proof.
  intros i chr n sched s ths tr t p Hi.
  exact (mon_progress (ev_spec i post_count) sem_body ev_timed chr false nothrow sem_mi sem_cap (fun _ => Hi)
    (sem_done i) (sem_fail i) (nothrow_ok _ _) n sched s ths tr t p).
Qed.
Print Assumptions C17_progress.

(** The unsigned counter wraps silently: a semaphore at UINT_MAX that is posted reports itself empty. *)
Theorem C17_overflow_refuted : exists sched c tr,
  exec (sem_step (2 ^ 32 - 1) false) (sem_init (2 ^ 32 - 1) 1) sched = Some (c, tr) /\
  tr = [Call 0 EPost; Ret 0 EPost EOk; Call 0 ETry; Ret 0 ETry EFalse]%nat /\
  ~ linearizable (ev_spec (2 ^ 32 - 1) post_count) 1 tr.
Proof.
  exists [TCall 0 EPost; TRun 0 MNorm; TRun 0 MNorm; TRun 0 MNorm; TRun 0 MNorm; TRun 0 MNorm; TRun 0 MNorm;
          TCall 0 ETry; TRun 0 MNorm; TRun 0 MNorm; TRun 0 MNorm; TRun 0 MNorm; TRun 0 MNorm]%nat.
  eexists. eexists. split; [vm_compute; reflexivity|]. split; [reflexivity|].
  apply (not_linearizable (ev_spec (2 ^ 32 - 1) post_count)
    (fun t o c => match o with
                  | EPost => [(EOk, c + 1)]
                  | EWait => if 0 <? c then [(EOk, c - 1)] else []
                  | _ => if 0 <? c then [(ETrue, c - 1)] else if c =? 0 then [(EFalse, 0)] else []
                  end) ) with (op_eqb := eop_eqb) (res_eqb := eres_eqb).
  - intros t o s r s' H. cbn in H. inversion H; subst; cbn.
    1: match goal with H : post_count _ _ |- _ => unfold post_count in H; subst; auto end.
    1,2,4: destruct (Z.ltb_spec 0 s); [left; reflexivity|lia].
    all: left; reflexivity.
  - intros []; reflexivity.
  - intros []; reflexivity.
  - vm_compute. reflexivity.
Qed.
Print Assumptions C17_overflow_refuted.

(** With a chrono deadline the condition variable waits again after a timeout without looking at the counter; if that
    timeout consumed a notification (POSIX permits it), the unit stays unused while an untimed waiter sleeps. *)
Theorem C17_chrono_refuted : exists sched s ths tr,
  exec (sem_step 0 true) (sem_init 0 3) sched = Some ((s, ths), tr) /\
  snd s = 1 /\ nth_error ths 0 = Some (PSleep (SP := ev_spec 0 post_count) tt EWait []) /\
  forall u q, nth_error ths u = Some q -> asleep q = true \/ exists m, q = PRest m.
Proof.
  exists [TCall 0 EWait; TRun 0 MNorm; TRun 0 MNorm; TRun 0 MNorm;
          TCall 1 ETimed; TRun 1 MNorm; TRun 1 MNorm; TRun 1 MNorm;
          TCall 2 EPost; TRun 2 MNorm; TRun 2 MNorm; TRun 2 MNorm; TRun 2 (MWake 1); TRun 2 MNorm; TRun 2 MNorm;
          TRun 1 MTimeout; TRun 1 MAgain; TRun 1 MNorm]%nat.
  eexists. eexists. eexists. split; [vm_compute; reflexivity|]. repeat split.
  intros [|[|[|[|u]]]] q H; cbn in H; inversion H; subst; cbn; eauto.
Qed.
Print Assumptions C17_chrono_refuted.

Definition sem_ex : list (tact eop mchoice) :=
  [TCall 0 EWait; TRun 0 MNorm; TRun 0 MNorm; TRun 0 MNorm; TCall 1 EPost; TRun 1 MNorm; TRun 1 MNorm; TRun 1 MNorm]%nat.
Example C17_example : along (sem_step 0 false) (fun c => snd (fst c) < 2 ^ 32 - 1) (sem_init 0 2) sem_ex /\
  exists s ths tr, exec (sem_step 0 false) (sem_init 0 2) sem_ex = Some ((s, ths), tr) /\
    snd s = 1 /\ nth_error ths 0 = Some (PSleep (SP := ev_spec 0 post_count) tt EWait []).
Proof.
  split.
  - apply (alongb_ok _ (fun c => snd (fst c) <? 2 ^ 32 - 1)); [intros c H; apply Z.ltb_lt; exact H|vm_compute; reflexivity].
  - eexists. eexists. eexists. split; [vm_compute; reflexivity|]. split; reflexivity.
Qed.

(** ** auto_reset_event *)
Notation ASP := (ev_spec 0 post_binary).
Definition are_mi (t : nat) (m : unit) (c : Z) : Prop := c = 0 \/ c = 1.
Definition any {D : Type} (d : D) : Prop := True.

Lemma are_done t o b d d' r nt m : any d -> pre ASP m o = true -> are_mi t m d -> are_body t o b d = BDone d' r nt ->
  otrans ASP t o d r d' /\ are_mi t (next ASP m o r) d' /\ (forall u m', u <> t -> are_mi u m' d -> are_mi u m' d').
Proof.
  unfold are_mi. intros _ _ Hm H. cbn [otrans ev_spec].
  destruct Hm as [-> | ->], o; cbn in H; try (destruct b); inversion H; subst; repeat split; auto; try lia;
    constructor; unfold post_binary; lia.
Qed.

Lemma are_fail t o b d r m : any d -> pre ASP m o = true -> are_mi t m d -> are_body t o b d = BFail r ->
  otrans ASP t o d r d /\ (forall d', are_mi t m d' -> are_mi t (next ASP m o r) d').
Proof.
  intros _ _ _ H. destruct o; cbn in H; try discriminate; destruct (Z.eqb_spec d 0); try discriminate.
  destruct b; inversion H; subst. split; auto. constructor.
Qed.

Lemma any_along {C A E D} (step : C -> A -> option (C * list E)) (f : C -> D) c sched : along step (fun c => any (f c)) c sched.
Proof. intros s1 s2 c' tr _ _. exact I. Qed.

(** C15: an atomic binary event, all schedules, all overloads. *)
Theorem C15_atomic : forall chr n sched c tr,
  exec (are_step chr) (are_init n) sched = Some (c, tr) -> linearizable (ev_spec 0 post_binary) n tr.
Proof.
  intros chr n sched c tr H.
  exact (proj1 (mon_lin ASP are_body ev_timed chr false nothrow are_mi any (fun _ => or_introl eq_refl)
    are_done are_fail (nothrow_ok _ _) n sched c tr (any_along _ _ _ _) H)).
Qed.
Print Assumptions C15_atomic.

Lemma are_wait_z t o b d : any d -> are_body t o b d = BWait -> ev_waitop o = true /\ d <= 0.
Proof.
  intros _ H. destruct o; cbn in H; destruct (Z.eqb_spec d 0); try discriminate; cbn; auto with zarith.
Qed.
Lemma are_fail_z t o b d r : any d -> are_body t o b d = BFail r -> ev_waitop o = true /\ d <= 0.
Proof.
  intros _ H. destruct o; cbn in H; destruct (Z.eqb_spec d 0); try discriminate; cbn; auto with zarith.
Qed.
Lemma are_take_z t o b d d' r nt m : any d -> are_mi t m d -> pre ASP m o = true ->
  are_body t o b d = BDone d' r nt -> ev_waitop o = true -> d' <= Z.max 0 (d - 1).
Proof.
  intros _ _ _ H Hw. destruct o; cbn in H, Hw; try discriminate; destruct (Z.eqb_spec d 0); try (destruct b); inversion H; subst; lia.
Qed.
Lemma are_give_z t o b d d' r nt m : any d -> are_mi t m d -> pre ASP m o = true ->
  are_body t o b d = BDone d' r nt -> ev_waitop o = false -> d' <= Z.max 0 d + match nt with NOne => 1 | _ => 0 end.
Proof.
  unfold are_mi. intros _ Hm _ H Hw. destruct o; cbn in H, Hw; try discriminate; destruct (Z.eqb_spec d 0); inversion H; subst; lia.
Qed.

(** C15: signalled and a sleeper: some waiter is awake or a notification is about to be issued ([aw q = 1]). *)
Theorem C15_no_lost_wakeup_partial : forall n sched s ths tr t p,
  exec (are_step false) (are_init n) sched = Some ((s, ths), tr) ->
  0 < snd s -> nth_error ths t = Some p -> asleep p = true ->
  exists u q, nth_error ths u = Some q /\ aw ASP ev_waitop q = 1.
Proof.
  intros n sched s ths tr t p H.
  exact (mon_no_lost ASP are_body ev_timed false false nothrow are_mi any (fun _ => or_introl eq_refl)
    are_done are_fail (nothrow_ok _ _) (fun d : Z => d) ev_waitop eq_refl are_wait_z are_fail_z are_take_z are_give_z
    n sched s ths tr t p (any_along _ _ _ _) H).
Qed.
Print Assumptions C15_no_lost_wakeup_partial.

Theorem C15_progress : forall chr n sched s ths tr t p,
  exec (are_step chr) (are_init n) sched = Some ((s, ths), tr) ->
  nth_error ths t = Some p -> (forall m, p <> PRest m) -> asleep p = false ->
  exists u ch c e, are_step chr (s, ths) (TRun u ch) = Some (c, e).
Proof.
  intros chr n sched s ths tr t p H.
  exact (mon_progress ASP are_body ev_timed chr false nothrow are_mi any (fun _ => or_introl eq_refl)
    are_done are_fail (nothrow_ok _ _) n sched s ths tr t p (any_along _ _ _ _) H).
Qed.
Print Assumptions C15_progress.

(** The same weakness as [C17_chrono_refuted]. *)
Definition are_bad : list (tact eop mchoice) :=
  [TCall 0 EWait; TRun 0 MNorm; TRun 0 MNorm; TRun 0 MNorm;
   TCall 1 ETimed; TRun 1 MNorm; TRun 1 MNorm; TRun 1 MNorm;
   TCall 2 EPost; TRun 2 MNorm; TRun 2 MNorm; TRun 2 MNorm; TRun 2 (MWake 1); TRun 2 MNorm; TRun 2 MNorm;
   TRun 1 MTimeout; TRun 1 MAgain; TRun 1 MNorm]%nat.
Theorem C15_chrono_refuted : exists sched s ths tr,
  exec (are_step true) (are_init 3) sched = Some ((s, ths), tr) /\
  snd s = 1 /\ nth_error ths 0 = Some (PSleep (SP := ev_spec 0 post_binary) tt EWait []) /\
  forall u q, nth_error ths u = Some q -> asleep q = true \/ exists m, q = PRest m.
Proof.
  exists are_bad. eexists. eexists. eexists. split; [vm_compute; reflexivity|]. repeat split.
  intros [|[|[|[|u]]]] q H; cbn in H; inversion H; subst; cbn; eauto.
Qed.
Print Assumptions C15_chrono_refuted.

Example C15_example : exists s ths tr, exec (are_step false) (are_init 3) (firstn 13 are_bad) = Some ((s, ths), tr) /\
  0 < snd s /\ nth_error ths 0 = Some (PSleep (SP := ev_spec 0 post_binary) tt EWait []) /\ nth_error ths 1 = Some (PWoken (SP := ev_spec 0 post_binary) tt ETimed [] false).
Proof. eexists. eexists. eexists. split; [vm_compute; reflexivity|]. repeat split. Qed.

(** ** manual_reset_event *)
Notation FLSP := (flag_spec false).
Definition fl_mi (t : nat) (m : unit) (d : bool) : Prop := True.

Lemma mre_done t o b d d' r nt m : any d -> pre FLSP m o = true -> fl_mi t m d -> mre_body t o b d = BDone d' r nt ->
  otrans FLSP t o d r d' /\ fl_mi t (next FLSP m o r) d' /\ (forall u m', u <> t -> fl_mi u m' d -> fl_mi u m' d').
Proof.
  intros _ _ _ H. cbn [otrans flag_spec]. split; [|split; [exact I|intros; exact I]].
  destruct o, d; cbn in H; try (destruct b); inversion H; subst; constructor.
Qed.
Lemma mre_fail t o b d r m : any d -> pre FLSP m o = true -> fl_mi t m d -> mre_body t o b d = BFail r ->
  otrans FLSP t o d r d /\ (forall d', fl_mi t m d' -> fl_mi t (next FLSP m o r) d').
Proof.
  intros _ _ _ H. split; [|intros; exact I].
  destruct o, d; cbn in H; try (destruct b); inversion H; subst; constructor.
Qed.

(** C16: an atomic boolean, all schedules, all overloads. *)
Theorem C16_atomic : forall chr n sched c tr,
  exec (mre_step chr) (mre_init n) sched = Some (c, tr) -> linearizable (flag_spec false) n tr.
Proof.
  intros chr n sched c tr H.
  exact (proj1 (mon_lin FLSP mre_body fl_timed chr false nothrow fl_mi any (fun _ => I)
    mre_done mre_fail (nothrow_ok _ _) n sched c tr (any_along _ _ _ _) H)).
Qed.
Print Assumptions C16_atomic.

Lemma mre_wait_z t o b d : mre_body t o b d = BWait -> d = false.
Proof. destruct o, d; cbn; try (destruct b); congruence. Qed.
Lemma mre_fail_z t o b d r : mre_body t o b d = BFail r -> d = false.
Proof. destruct o, d; cbn; try (destruct b); congruence. Qed.
Lemma mre_done_z t o b d d' r nt : mre_body t o b d = BDone d' r nt -> d' = true -> d = true \/ nt = NAll.
Proof. destruct o, d; cbn; try (destruct b); intros H; inversion H; subst; auto; discriminate. Qed.

(** C16: signalled and a sleeper: set() is about to issue notify_all; which wakes everybody. *)
Theorem C16_no_lost_wakeup_partial : forall n sched s ths tr t p,
  exec (mre_step false) (mre_init n) sched = Some ((s, ths), tr) ->
  snd s = true -> nth_error ths t = Some p -> asleep p = true ->
  exists u m o r, nth_error ths u = Some (PNotify m o r NAll).
Proof.
  intros n sched s ths tr t p H Hs Ht Hp.
  destruct (mon_broadcast FLSP mre_body fl_timed false false nothrow fl_mi any (fun _ => I)
    mre_done mre_fail (nothrow_ok _ _) (fun d : bool => d) mre_wait_z mre_done_z eq_refl
    n sched _ tr (any_along _ _ _ _) H) as (_ & H1 & _). cbn [fst snd] in H1.
  pose proof (sumf_elem (slp FLSP) _ _ _ (slp_nn _) Ht) as He.
  unfold slp in He at 1. rewrite Hp in He. cbn in He.
  destruct (sumf_pos_ex (ball FLSP) ths) as (u & q & Hu & Hq).
  { apply H1; [lia|exact Hs]. }
  exists u. destruct q; cbn in Hq; try lia. destruct nt; try lia. eauto.
Qed.
Print Assumptions C16_no_lost_wakeup_partial.

Theorem C16_notify_all : forall chr s ths t m o r ch c e,
  nth_error ths t = Some (PNotify m o r NAll) -> mre_step chr (s, ths) (TRun t ch) = Some (c, e) ->
  fst c = s /\ forall u q, nth_error (snd c) u = Some q -> asleep q = false.
Proof.
  intros chr [held d] ths t m o r ch c e Ht H. unfold mre_step, mon_step, tstep in H. rewrite Ht in H.
  cbn [mon_ret mon_run] in H. inversion H; subst; clear H. split; [reflexivity|]. cbn [snd]. intros u q Hu.
  destruct (nth_upd_inv _ _ _ _ _ Hu) as [(_ & -> & _)|(_ & Hu')]; [reflexivity|].
  apply nth_map_inv in Hu'. destruct Hu' as (q0 & _ & <-). destruct q0; reflexivity.
Qed.
Print Assumptions C16_notify_all.

Theorem C16_progress : forall chr n sched s ths tr t p,
  exec (mre_step chr) (mre_init n) sched = Some ((s, ths), tr) ->
  nth_error ths t = Some p -> (forall m, p <> PRest m) -> asleep p = false ->
  exists u ch c e, mre_step chr (s, ths) (TRun u ch) = Some (c, e).
Proof.
  intros chr n sched s ths tr t p H.
  exact (mon_progress FLSP mre_body fl_timed chr false nothrow fl_mi any (fun _ => I)
    mre_done mre_fail (nothrow_ok _ _) n sched s ths tr t p (any_along _ _ _ _) H).
Qed.
Print Assumptions C16_progress.

(** With a chrono deadline a notified waiter whose wait reported a timeout sleeps again although the event is signalled. *)
Theorem C16_chrono_refuted : exists sched s ths tr,
  exec (mre_step true) (mre_init 2) sched = Some ((s, ths), tr) /\
  snd s = true /\ nth_error ths 0 = Some (PSleep (SP := flag_spec false) tt FTimed []) /\ nth_error ths 1 = Some (PRest (SP := flag_spec false) tt).
Proof.
  exists [TCall 0 FTimed; TRun 0 MNorm; TRun 0 MNorm; TRun 0 MNorm;
          TCall 1 FSet; TRun 1 MNorm; TRun 1 MNorm; TRun 1 MNorm; TRun 1 MNorm; TRun 1 MNorm; TRun 1 MNorm;
          TRun 0 MTimeout; TRun 0 MAgain; TRun 0 MNorm]%nat.
  eexists. eexists. eexists. split; [vm_compute; reflexivity|]. repeat split.
Qed.
Print Assumptions C16_chrono_refuted.

Example C16_example : exists s ths tr, exec (mre_step false) (mre_init 2)
  [TCall 0 FWait; TRun 0 MNorm; TRun 0 MNorm; TRun 0 MNorm; TCall 1 FSet; TRun 1 MNorm; TRun 1 MNorm; TRun 1 MNorm]%nat = Some ((s, ths), tr) /\
  snd s = true /\ nth_error ths 0 = Some (PSleep (SP := flag_spec false) tt FWait []) /\ nth_error ths 1 = Some (PNotify (SP := flag_spec false) tt FSet FOk NAll).
Proof. eexists. eexists. eexists. split; [vm_compute; reflexivity|]. repeat split. Qed.

(** ** timed_mutex *)
Notation MSP := (mutex_spec false).
Definition tm_mi (t : nat) (m : bool) (d : option nat) : Prop := m = true <-> d = Some t.

Lemma tm_done t o b d d' r nt m : any d -> pre MSP m o = true -> tm_mi t m d -> tm_body t o b d = BDone d' r nt ->
  otrans MSP t o d r d' /\ tm_mi t (next MSP m o r) d' /\ (forall u m', u <> t -> tm_mi u m' d -> tm_mi u m' d').
Proof.
  unfold tm_mi. intros _ Hp Hm H. cbn [otrans mutex_spec next pre] in *.
  destruct o, d as [v|]; cbn in H, Hp; try (destruct b); inversion H; subst; cbn [mnext].
  all: match goal with
       | |- mtrans _ _ MUnlock _ _ _ /\ _ =>
           assert (HS := proj1 Hm eq_refl); inversion HS; try (subst;
           split; [constructor|]; split; [split; discriminate|];
           intros u m' Hu Hx; split; [intros K; apply (proj1 Hx) in K; congruence|discriminate])
       | |- mtrans _ _ _ (Some _) RFalse _ /\ _ => split; [constructor|]; split; [exact Hm|auto]
       | _ => split; [constructor|]; split; [tauto|];
           intros u m' Hu Hx; split; [intros K; apply (proj1 Hx) in K; discriminate|intros E; congruence]
       end.
Qed.
Lemma tm_fail t o b d r m : any d -> pre MSP m o = true -> tm_mi t m d -> tm_body t o b d = BFail r ->
  otrans MSP t o d r d /\ (forall d', tm_mi t m d' -> tm_mi t (next MSP m o r) d').
Proof.
  intros _ _ _ H. destruct o, d as [v|]; cbn in H; try (destruct b); inversion H; subst. split; [constructor|auto].
Qed.
Lemma tm_mi0 t : tm_mi t (minit MSP) (oinit MSP).
Proof. split; discriminate. Qed.

(** C18: an atomic mutex, all schedules, all overloads (chrono loop included). *)
Theorem C18_atomic : forall n sched c tr,
  exec tm_step (tm_init n) sched = Some (c, tr) -> linearizable (mutex_spec false) n tr.
Proof.
  intros n sched c tr H.
  exact (proj1 (mon_lin MSP tm_body mu_timed false true nothrow tm_mi any tm_mi0 tm_done tm_fail (nothrow_ok _ _) n sched c tr (any_along _ _ _ _) H)).
Qed.
Print Assumptions C18_atomic.

Theorem C18_exclusion : forall n sched c tr,
  exec tm_step (tm_init n) sched = Some (c, tr) -> (length (holders tr) <= 1)%nat.
Proof. intros n sched c tr H. exact (mutex_spec_exclusion _ _ _ (C18_atomic _ _ _ _ H)). Qed.
Print Assumptions C18_exclusion.

Definition mu_waitop (o : mop) : bool := match o with MLock | MTimed => true | _ => false end.
Definition mu_avail (d : option nat) : Z := match d with None => 1 | Some _ => 0 end.
Lemma tm_wait_z t o b d : any d -> tm_body t o b d = BWait -> mu_waitop o = true /\ mu_avail d <= 0.
Proof. intros _. destruct o, d; cbn; try (destruct b); intros H; inversion H; auto with zarith. Qed.
Lemma tm_fail_z t o b d r : any d -> tm_body t o b d = BFail r -> mu_waitop o = true /\ mu_avail d <= 0.
Proof. intros _. destruct o, d; cbn; try (destruct b); intros H; inversion H; auto with zarith. Qed.
Lemma tm_take_z t o b d d' r nt m : any d -> tm_mi t m d -> pre MSP m o = true ->
  tm_body t o b d = BDone d' r nt -> mu_waitop o = true -> mu_avail d' <= Z.max 0 (mu_avail d - 1).
Proof. intros _ _ _. destruct o, d; cbn; try (destruct b); intros H Hw; inversion H; subst; cbn; lia || discriminate. Qed.
Lemma tm_give_z t o b d d' r nt m : any d -> tm_mi t m d -> pre MSP m o = true ->
  tm_body t o b d = BDone d' r nt -> mu_waitop o = false -> mu_avail d' <= Z.max 0 (mu_avail d) + match nt with NOne => 1 | _ => 0 end.
Proof. intros _ _ _. destruct o, d; cbn; try (destruct b); intros H Hw; inversion H; subst; cbn; lia || discriminate. Qed.

(** C18: free and a sleeper: some locker is awake or unlock() is about to signal. *)
Theorem C18_no_lost_wakeup : forall n sched s ths tr t p,
  exec tm_step (tm_init n) sched = Some ((s, ths), tr) ->
  snd s = None -> nth_error ths t = Some p -> asleep p = true ->
  exists u q, nth_error ths u = Some q /\ aw MSP mu_waitop q = 1.
Proof.
  intros n sched s ths tr t p H Hs.
  apply (mon_no_lost MSP tm_body mu_timed false true nothrow tm_mi any tm_mi0 tm_done tm_fail (nothrow_ok _ _) mu_avail mu_waitop eq_refl
    tm_wait_z tm_fail_z tm_take_z tm_give_z n sched s ths tr t p (any_along _ _ _ _) H).
  rewrite Hs. reflexivity.
Qed.
Print Assumptions C18_no_lost_wakeup.

Theorem C18_progress : forall n sched s ths tr t p,
  exec tm_step (tm_init n) sched = Some ((s, ths), tr) ->
  nth_error ths t = Some p -> (forall m, p <> PRest m) -> asleep p = false ->
  exists u ch c e, tm_step (s, ths) (TRun u ch) = Some (c, e).
Proof.
  intros n sched s ths tr t p H.
  exact (mon_progress MSP tm_body mu_timed false true nothrow tm_mi any tm_mi0 tm_done tm_fail (nothrow_ok _ _) n sched s ths tr t p (any_along _ _ _ _) H).
Qed.
Print Assumptions C18_progress.

Definition tm_ex : list (tact mop mchoice) :=
  [TCall 0 MLock; TRun 0 MNorm; TRun 0 MNorm; TRun 0 MNorm; TRun 0 MNorm; TRun 0 MNorm;
   TCall 1 MTimed; TRun 1 MNorm; TRun 1 MNorm; TRun 1 MTimeout; TRun 1 MNorm; TRun 1 MNorm; TRun 1 MAgain;
   TRun 1 MNorm; TRun 1 MNorm; TRun 1 MNorm; TCall 2 MTryLock; TRun 2 MNorm; TRun 2 MNorm; TRun 2 MNorm; TRun 2 MNorm; TRun 2 MNorm;
   TCall 0 MUnlock; TRun 0 MNorm; TRun 0 MNorm; TRun 0 MNorm]%nat.
Example C18_example : exists s ths tr, exec tm_step (tm_init 3) tm_ex = Some ((s, ths), tr) /\
  snd s = None /\ nth_error ths 1 = Some (PSleep (SP := mutex_spec false) false MTimed [RFalse]) /\ In (Ret 2%nat MTryLock RFalse) tr.
Proof. eexists. eexists. eexists. split; [vm_compute; reflexivity|]. split; [reflexivity|]. split; [reflexivity|cbn; tauto]. Qed.
