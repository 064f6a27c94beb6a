(** Property theorems: the emulated objects under fair scheduling (C83). *)
From Coq Require Import List Bool Arith ZArith Lia.
From Verif Require Import ListSum Exec Lin LinCheck Thr Word MutexSpec EventSpec FlagSpec Monitor MonitorProof EmuModel PropsEmu Fair FairMon.
Import ListNotations.
Local Open Scope Z_scope.

(** The thread is inside a call of the function [o]: semaphore_emulation.hpp 44-105, auto_reset_event_emulation.hpp 44-109, manual_reset_event_emulation.hpp 44-109, timed_mutex_posix.hpp 148-263. *)
Definition calling {SP : spec} (c : (bool * ost SP) * list (mpc SP)) (t : nat) (o : op SP) : Prop :=
  exists p, nth_error (snd c) t = Some p /\ pcop SP p = Some o.
(** The thread is at rest, outside the functions above. *)
Definition resting {SP : spec} (c : (bool * ost SP) * list (mpc SP)) (t : nat) : Prop := exists m, nth_error (snd c) t = Some (PRest m).
(** The thread called the waiting function [o] and has neither succeeded nor given up: it is still going to look at the data, or asleep. semaphore_emulation.hpp 51-58, 70-87, auto_reset_event_emulation.hpp 55-63, 74-91, timed_mutex_posix.hpp 148-156, 224-241. *)
Definition waiting {SP : spec} (c : (bool * ost SP) * list (mpc SP)) (t : nat) (o : op SP) : Prop :=
  exists p, nth_error (snd c) t = Some p /\
    match p with PLock _ o' _ | PRead _ o' _ _ | PComp _ o' _ _ _ | PSleep _ o' _ | PWoken _ o' _ _ => o' = o | _ => False end.
(** The step from [c] to [c'] is the one in which the function [o] of [u] succeeds: it has changed the data and is about to unlock the internal mutex and return [r]. semaphore_emulation.hpp 57, 65, 85, auto_reset_event_emulation.hpp 62, 69-70, 89-90, timed_mutex_posix.hpp 155, 170, 240. *)
Definition succeeds {SP : spec} (c c' : (bool * ost SP) * list (mpc SP)) (u : nat) (o : op SP) (r : res SP) : Prop :=
  exists m, (exists ob b d, nth_error (snd c) u = Some (PComp m o ob b d)) /\ nth_error (snd c') u = Some (PUnlock m o r).

Notation mfair SP body timed inner outer := (strongly_fair (mon_acts SP) (mon_enabled SP body timed inner outer nothrow)).

(** ** Generic parts *)
Section Gen.
  Variable SP : spec.
  Variable body : nat -> op SP -> bool -> ost SP -> bout (ost SP) (res SP).
  Variable timed : op SP -> bool.
  Variables inner outer : bool.
  Notation step := (mon_step SP body timed inner outer nothrow).
  Variable mi : nat -> mode SP -> ost SP -> Prop.
  Variable Gd : ost SP -> Prop.
  Hypothesis mi_init : forall t, mi t (minit SP) (oinit SP).
  Hypothesis body_done : forall t o b d d' r nt m, Gd d -> pre SP m o = true -> mi t m d -> body t o b d = BDone d' r nt ->
    otrans SP t o d r d' /\ mi t (next SP m o r) d' /\ (forall u m', u <> t -> mi u m' d -> mi u m' d').
  Hypothesis body_fail : forall t o b d r m, Gd d -> pre SP m o = true -> mi t m d -> body t o b d = BFail r ->
    otrans SP t o d r d /\ (forall d', mi t m d' -> mi t (next SP m o r) d').
  Hypothesis Hbt : forall t o d, timed o = true -> body t o true d <> BWait.
  Variables (n : nat) (cf : nat -> (bool * ost SP) * list (mpc SP)) (ac : nat -> option (tact (op SP) mchoice)).
  Hypothesis Hinf : infinite step (mon_init SP n) cf ac.
  Hypothesis HG : forall k, Gd (snd (fst (cf k))).

  Lemma gen_minv k : MInv SP mi (cf k).
  Proof.
    destruct (inf_along _ _ _ _ (Gc SP Gd) Hinf HG k) as (sched & tr & H & Ha).
    exact (proj2 (mon_lin SP body timed inner outer nothrow mi Gd mi_init body_done body_fail (nothrow_ok _ _) n sched _ tr Ha H)).
  Qed.
  Lemma gen_return t o k : strongly_fair (mon_acts SP) (mon_enabled SP body timed inner outer nothrow) cf ac ->
    (forall b d, body t o b d <> BWait) -> (forall b d r, body t o b d <> BFail r) -> calling (cf k) t o -> exists j, (k <= j)%nat /\ resting (cf j) t.
  Proof.
    intros HF Hw Hf (p & Hp & Ho). destruct (inf_reach _ _ _ _ Hinf k) as (sched & tr & H).
    apply (simple_returns SP body timed inner outer nothrow Hbt cf ac (proj2 Hinf) HF (fun i => proj1 (gen_minv i)) (S (mrank SP p)) k t p o); auto.
    apply (simple_inv SP body timed inner outer nothrow Hbt n sched _ tr t o H Hw Hf p Hp Ho).
  Qed.
End Gen.

(** ** Semaphore *)
Lemma sem_bt t o (d : Z) : ev_timed o = true -> sem_body t o true d <> BWait.
Proof. destruct o; cbn; try discriminate. destruct (d =? 0); discriminate. Qed.

(** C83: post() and try_wait() return. *)
Theorem C83_semaphore_calls_return : forall i chr n cf ac, 0 <= i ->
  infinite (sem_step i chr) (sem_init i n) cf ac -> mfair (ev_spec i post_count) sem_body ev_timed chr false cf ac ->
  (forall k, snd (fst (cf k)) < 2 ^ 32 - 1) ->
  forall k t o, o = EPost \/ o = ETry -> calling (cf k) t o -> exists j, (k <= j)%nat /\ resting (cf j) t.
Proof.
  intros i chr n cf ac Hi Hinf HF HG k t o Ho.
  apply (gen_return (ev_spec i post_count) sem_body ev_timed chr false sem_mi sem_cap (fun _ => Hi) (sem_done i) (sem_fail i) sem_bt n cf ac Hinf HG t o k HF);
    destruct Ho as [->| ->]; intros; cbn; try discriminate; destruct (_ =? 0); discriminate.
Qed.
Print Assumptions C83_semaphore_calls_return.

(** C83: while the counter is positive and a thread is in wait() or timed_wait(), some thread takes a unit; the deadline is no chrono time point (refuted below). *)
Theorem C83_semaphore_unit_taken_partial : forall i n cf ac, 0 <= i ->
  infinite (sem_step i false) (sem_init i n) cf ac -> mfair (ev_spec i post_count) sem_body ev_timed false false cf ac ->
  (forall k, snd (fst (cf k)) < 2 ^ 32 - 1) ->
  forall k t o, o = EWait \/ o = ETimed -> waiting (SP := ev_spec i post_count) (cf k) t o -> 0 < snd (fst (cf k)) ->
  exists j u o' r, (k <= j)%nat /\ snd (fst (cf (S j))) = snd (fst (cf j)) - 1 /\ succeeds (SP := ev_spec i post_count) (cf j) (cf (S j)) u o' r /\
    (o' = EWait /\ r = EOk \/ (o' = ETry \/ o' = ETimed) /\ r = ETrue).
Proof.
  intros i n cf ac Hi Hinf HF HG k t o Ho (p & Hp & Hw) Hpos.
  assert (HM : forall k, MInv (ev_spec i post_count) sem_mi (cf k)) by (apply (gen_minv (ev_spec i post_count) sem_body ev_timed false false sem_mi sem_cap (fun _ => Hi) (sem_done i) (sem_fail i) n cf ac Hinf HG)).
  assert (HW : forall k, WInv (ev_spec i post_count) (fun d : Z => d) ev_waitop (cf k)).
  { intros k'. destruct (inf_along _ _ _ _ (Gc (ev_spec i post_count) sem_cap) Hinf HG k') as (sched & tr & H & Ha).
    exact (proj2 (mon_enough_awake (ev_spec i post_count) sem_body ev_timed false false nothrow sem_mi sem_cap (fun _ => Hi)
      (sem_done i) (sem_fail i) (nothrow_ok _ _) (fun d : Z => d) ev_waitop eq_refl sem_wait_z sem_fail_z (sem_take_z i) (sem_give_z i) n sched _ tr Ha H)). }
  destruct (unit_taken (ev_spec i post_count) sem_body ev_timed false false nothrow sem_bt cf ac (proj2 Hinf) HF (fun k => proj1 (HM k)) (fun d : Z => d) ev_waitop sem_mi
    (fun _ => eq_refl) eq_refl HM HW) with (i := k) (t := t) (p := p) as (j & Hj & Htk).
  - intros k' u o' b H. exact (proj2 (sem_wait_z u o' b _ (HG k') H)).
  - intros k' u o' b r H. exact (proj2 (sem_fail_z u o' b _ r (HG k') H)).
  - intros k' u o' b d' r nt m Hm Hpre H Hwo. exact (sem_take_z i u o' b _ d' r nt m (HG k') Hm Hpre H Hwo).
  - exact Hp.
  - destruct p; try contradiction; subst; cbn; destruct Ho as [->| ->]; auto.
  - exact Hpos.
  - unfold taken, units in Htk. pose proof (proj2 Hinf j) as Hst. unfold happens in Hst. destruct (ac j) as [a|]; [|rewrite Hst in Htk; lia].
    destruct Hst as (e & He). destruct (changer _ _ _ _ _ _ _ _ _ _ He) as (u & m & o' & ob & b & d0 & d' & r & nt & _ & Hu & Hb & Hd & Hu'); [lia|].
    pose proof (proj2 (HM j) _ _ Hu) as Hl. cbn in Hl. destruct Hl as (Hm & _ & ->). unfold sem_mi in Hm.
    pose proof (HG j) as Hg. unfold sem_cap in Hg. rewrite Hd in Htk. exists j, u, o', r. split; [exact Hj|]. rewrite Hd. cbn [ost ev_spec] in *. revert Hm Hg Htk Hb. generalize (snd (fst (cf j))). intros d Hm Hg Htk Hb. 
    assert (E : d' = d - 1 /\ nt = NNone /\ (o' = EWait /\ r = EOk \/ (o' = ETry \/ o' = ETimed) /\ r = ETrue)).
    { clear Hd Hu'. destruct o'; cbn in Hb.
      - injection Hb as E _ _. change (@eq Z (u32 (d + 1)) d') in E. rewrite u32_id in E by (unfold two32; lia). lia.
      - destruct (Z.eqb_spec d 0); inversion Hb; subst; auto 8.
      - destruct (Z.eqb_spec d 0); inversion Hb; subst; [lia|auto 8].
      - destruct (Z.eqb_spec d 0); [destruct b; discriminate|]. inversion Hb; subst; auto 8. }
    destruct E as (E1 & -> & E3). split; [exact E1|]. split; [exists m; split; [eauto|exact Hu']|exact E3].
Qed.
Print Assumptions C83_semaphore_unit_taken_partial.

(** A fair run with a thread asleep in wait(), post(), and the unit taken. *)
Example C83_semaphore_example : exists cf ac,
  infinite (sem_step 0 false) (sem_init 0 2) cf ac /\ mfair (ev_spec 0 post_count) sem_body ev_timed false false cf ac /\
  (forall k, snd (fst (cf k)) < 2 ^ 32 - 1) /\
  (exists k, waiting (SP := ev_spec 0 post_count) (cf k) 0%nat EWait /\ calling (SP := ev_spec 0 post_count) (cf k) 1%nat EPost /\ 0 < snd (fst (cf k))).
Proof.
  set (sched := sem_ex ++ [TRun 1 (MWake 0); TRun 1 MNorm; TRun 1 MNorm; TRun 0 MNorm; TRun 0 MNorm; TRun 0 MNorm; TRun 0 MNorm; TRun 0 MNorm]%nat).
  destruct (exec (sem_step 0 false) (sem_init 0 2) sched) as [[c tr]|] eqn:E; [|vm_compute in E; discriminate].
  destruct (finite_strong (sem_step 0 false) (mon_acts (ev_spec 0 post_count)) (mon_enabled (ev_spec 0 post_count) sem_body ev_timed false false nothrow) _ _ _ _ E) as (cf & ac & H1 & H2 & H3 & H4).
  { assert (Ec : c = ((false, 0), [PRest (SP := ev_spec 0 post_count) tt; PRest (SP := ev_spec 0 post_count) tt])) by (vm_compute in E; inversion E; reflexivity).
    intros t (ch & c' & e & _ & H). rewrite Ec in H. destruct t as [|[|[|t]]]; cbn in H; discriminate. }
  exists cf, ac. split; [exact H1|]. split; [exact H2|]. split.
  - intros k. destruct (H4 k) as (e & He).
    assert (Ha : along (sem_step 0 false) (fun c => snd (fst c) < 2 ^ 32 - 1) (sem_init 0 2) sched).
    { apply (alongb_ok _ (fun c => snd (fst c) <? 2 ^ 32 - 1)); [intros c0 H; apply Z.ltb_lt; exact H|vm_compute; reflexivity]. }
    apply (Ha (firstn k sched) (skipn k sched) _ e); [symmetry; apply firstn_skipn|exact He].
  - exists 8%nat. destruct (H4 8%nat) as (e & He). assert (Ek : exec (sem_step 0 false) (sem_init 0 2) sem_ex = Some (cf 8%nat, e)) by exact He. clear - Ek.
    vm_compute in Ek. inversion Ek as [[E1 E2]]. split; [|split].
    + eexists. split; [reflexivity|reflexivity].
    + eexists. split; [reflexivity|reflexivity].
    + reflexivity.
Qed.

(** With a chrono deadline the unit may stay unused for ever, a thread asleep in wait(), no matter how fair the scheduler is. *)
Theorem C83_semaphore_chrono_refuted : exists cf ac k0,
  infinite (sem_step 0 true) (sem_init 0 3) cf ac /\ mfair (ev_spec 0 post_count) sem_body ev_timed true false cf ac /\
  forall k, (k0 <= k)%nat -> snd (fst (cf k)) = 1 /\ waiting (SP := ev_spec 0 post_count) (cf k) 0%nat EWait.
Proof.
  destruct C17_chrono_refuted as (sched & s & ths & tr & H & Hs & H0 & Hq).
  destruct (finite_strong (sem_step 0 true) (mon_acts (ev_spec 0 post_count)) (mon_enabled (ev_spec 0 post_count) sem_body ev_timed true false nothrow) _ _ _ _ H) as (cf & ac & H1 & H2 & H3 & H4).
  { intros t (ch & c' & e & Hch & Hst). destruct s. unfold mon_step, tstep in Hst. destruct (nth_error ths t) as [q|] eqn:Et; [|discriminate].
    destruct (Hq _ _ Et) as [Hsl|(m & ->)]; [|discriminate].
    destruct q; try discriminate. cbn in Hst. destruct Hch as [->|(u & ->)]; destruct (ev_timed o0); discriminate. }
  exists cf, ac, (length sched). split; [exact H1|]. split; [exact H2|]. intros k Hk. rewrite (H3 k Hk). cbn [fst snd]. split; [exact Hs|].
  eexists. split; [exact H0|reflexivity].
Qed.
Print Assumptions C83_semaphore_chrono_refuted.

(** ** auto_reset_event *)
Lemma are_bt t o (d : Z) : ev_timed o = true -> are_body t o true d <> BWait.
Proof. destruct o; cbn; try discriminate. destruct (d =? 0); discriminate. Qed.

(** C83: post() and try_wait() return. *)
Theorem C83_auto_event_calls_return : forall chr n cf ac,
  infinite (are_step chr) (are_init n) cf ac -> mfair ASP are_body ev_timed chr false cf ac ->
  forall k t o, o = EPost \/ o = ETry -> calling (SP := ASP) (cf k) t o -> exists j, (k <= j)%nat /\ resting (SP := ASP) (cf j) t.
Proof.
  intros chr n cf ac Hinf HF k t o Ho.
  apply (gen_return ASP are_body ev_timed chr false are_mi any (fun _ => or_introl eq_refl) are_done are_fail are_bt n cf ac Hinf (fun _ => I) t o k HF);
    destruct Ho as [->| ->]; intros; cbn; try discriminate; destruct (_ =? 0); discriminate.
Qed.
Print Assumptions C83_auto_event_calls_return.

(** C83: while the event is signalled and a thread is in wait() or timed_wait(), some thread takes the signal. *)
Theorem C83_auto_event_signal_taken_partial : forall n cf ac,
  infinite (are_step false) (are_init n) cf ac -> mfair ASP are_body ev_timed false false cf ac ->
  forall k t o, o = EWait \/ o = ETimed -> waiting (SP := ASP) (cf k) t o -> snd (fst (cf k)) <> 0 ->
  exists j u o' r, (k <= j)%nat /\ snd (fst (cf j)) = 1 /\ snd (fst (cf (S j))) = 0 /\ succeeds (SP := ASP) (cf j) (cf (S j)) u o' r /\
    (o' = EWait /\ r = EOk \/ (o' = ETry \/ o' = ETimed) /\ r = ETrue).
Proof.
  intros n cf ac Hinf HF k t o Ho (p & Hp & Hw) Hpos.
  assert (HG : forall k, any (snd (fst (cf k)))) by (intros; exact I).
  assert (HM : forall k, MInv ASP are_mi (cf k)) by (apply (gen_minv ASP are_body ev_timed false false are_mi any (fun _ => or_introl eq_refl) are_done are_fail n cf ac Hinf HG)).
  assert (HW : forall k, WInv ASP (fun d : Z => d) ev_waitop (cf k)).
  { intros k'. destruct (inf_along _ _ _ _ (Gc ASP any) Hinf HG k') as (sched & tr & H & Ha).
    exact (proj2 (mon_enough_awake ASP are_body ev_timed false false nothrow are_mi any (fun _ => or_introl eq_refl)
      are_done are_fail (nothrow_ok _ _) (fun d : Z => d) ev_waitop eq_refl are_wait_z are_fail_z are_take_z are_give_z n sched _ tr Ha H)). }
  destruct (unit_taken ASP are_body ev_timed false false nothrow are_bt cf ac (proj2 Hinf) HF (fun k => proj1 (HM k)) (fun d : Z => d) ev_waitop are_mi
    (fun _ => eq_refl) eq_refl HM HW) with (i := k) (t := t) (p := p) as (j & Hj & Htk).
  - intros k' u o' b H. exact (proj2 (are_wait_z u o' b _ I H)).
  - intros k' u o' b r H. exact (proj2 (are_fail_z u o' b _ r I H)).
  - intros k' u o' b d' r nt m Hm Hpre H Hwo. exact (are_take_z u o' b _ d' r nt m I Hm Hpre H Hwo).
  - exact Hp.
  - destruct p; try contradiction; subst; cbn; destruct Ho as [->| ->]; auto.
  - assert (Hx : are_mi t tt (snd (fst (cf k)))).
    { pose proof (proj2 (HM k) _ _ Hp) as Hl. destruct p; try contradiction; cbn in Hl; tauto. }
    unfold units. unfold are_mi in Hx. lia.
  - unfold taken, units in Htk. pose proof (proj2 Hinf j) as Hst. unfold happens in Hst. destruct (ac j) as [a|]; [|rewrite Hst in Htk; lia].
    destruct Hst as (e & He). destruct (changer _ _ _ _ _ _ _ _ _ _ He) as (u & m & o' & ob & b & d0 & d' & r & nt & _ & Hu & Hb & Hd & Hu'); [lia|].
    pose proof (proj2 (HM j) _ _ Hu) as Hl. cbn in Hl. destruct Hl as (Hm & _ & ->). unfold are_mi in Hm.
    rewrite Hd in Htk. exists j, u, o', r. split; [exact Hj|]. rewrite Hd. cbn [ost ev_spec mutex_spec] in *. revert Hm Htk Hb. generalize (snd (fst (cf j))). intros d Hm Htk Hb.
    assert (E : (d = 1 /\ d' = 0) /\ nt = NNone /\ (o' = EWait /\ r = EOk \/ (o' = ETry \/ o' = ETimed) /\ r = ETrue)).
    { clear Hd Hu'. destruct o'; cbn in Hb; destruct (Z.eqb_spec d 0) as [Ez|Ez]; try (destruct b); inversion Hb; subst; try lia; (split; [split; [lia|reflexivity]|auto 6]). }
    destruct E as ((E1 & E1') & -> & E3). split; [exact E1|]. split; [exact E1'|]. split; [exists m; split; [eauto|exact Hu']|exact E3].
Qed.
Print Assumptions C83_auto_event_signal_taken_partial.

Example C83_auto_event_example : exists cf ac,
  infinite (are_step false) (are_init 2) cf ac /\ mfair ASP are_body ev_timed false false cf ac /\
  (exists k, waiting (SP := ASP) (cf k) 0%nat EWait /\ calling (SP := ASP) (cf k) 1%nat EPost /\ snd (fst (cf k)) <> 0).
Proof.
  set (sched := sem_ex ++ [TRun 1 (MWake 0); TRun 1 MNorm; TRun 1 MNorm; TRun 0 MNorm; TRun 0 MNorm; TRun 0 MNorm; TRun 0 MNorm; TRun 0 MNorm]%nat).
  destruct (exec (are_step false) (are_init 2) sched) as [[c tr]|] eqn:E; [|vm_compute in E; discriminate].
  destruct (finite_strong (are_step false) (mon_acts ASP) (mon_enabled ASP are_body ev_timed false false nothrow) _ _ _ _ E) as (cf & ac & H1 & H2 & H3 & H4).
  { assert (Ec : c = ((false, 0), [PRest (SP := ASP) tt; PRest (SP := ASP) tt])) by (vm_compute in E; inversion E; reflexivity).
    intros t (ch & c' & e & _ & H). rewrite Ec in H. destruct t as [|[|[|t]]]; cbn in H; discriminate. }
  exists cf, ac. split; [exact H1|]. split; [exact H2|].
  exists 8%nat. destruct (H4 8%nat) as (e & He). assert (Ek : exec (are_step false) (are_init 2) sem_ex = Some (cf 8%nat, e)) by exact He. clear - Ek.
  vm_compute in Ek. inversion Ek as [[E1 E2]]. split; [|split].
  + eexists. split; [reflexivity|reflexivity].
  + eexists. split; [reflexivity|reflexivity].
  + discriminate.
Qed.

(** ** manual_reset_event *)
Lemma mre_bt t o d : fl_timed o = true -> mre_body t o true d <> BWait.
Proof. destruct o; cbn; try discriminate. destruct d; discriminate. Qed.

(** C83: set(), reset() and try_wait() return. *)
Theorem C83_manual_event_calls_return : forall chr n cf ac,
  infinite (mre_step chr) (mre_init n) cf ac -> mfair FLSP mre_body fl_timed chr false cf ac ->
  forall k t o, o = FSet \/ o = FReset \/ o = FTry -> calling (SP := FLSP) (cf k) t o -> exists j, (k <= j)%nat /\ resting (SP := FLSP) (cf j) t.
Proof.
  intros chr n cf ac Hinf HF k t o Ho.
  apply (gen_return FLSP mre_body fl_timed chr false fl_mi any (fun _ => I) mre_done mre_fail mre_bt n cf ac Hinf (fun _ => I) t o k HF);
    destruct Ho as [->|[->| ->]]; intros; cbn; try destruct d; discriminate.
Qed.
Print Assumptions C83_manual_event_calls_return.

(** C83: if the event stays signalled, every call returns, also of the threads that were asleep. *)
Theorem C83_manual_event_all_return_partial : forall n cf ac k0,
  infinite (mre_step false) (mre_init n) cf ac -> mfair FLSP mre_body fl_timed false false cf ac ->
  (forall k, (k0 <= k)%nat -> snd (fst (cf k)) = true) ->
  forall k t, (k0 <= k)%nat -> (t < n)%nat -> exists j, (k <= j)%nat /\ resting (SP := FLSP) (cf j) t.
Proof.
  intros n cf ac k0 Hinf HF Hset k t Hk Ht.
  assert (HG : forall k, any (snd (fst (cf k)))) by (intros; exact I).
  assert (HM : forall k, MInv FLSP fl_mi (cf k)) by (apply (gen_minv FLSP mre_body fl_timed false false fl_mi any (fun _ => I) mre_done mre_fail n cf ac Hinf HG)).
  assert (HB : forall k, BInv FLSP (fun d : bool => d) (cf k)).
  { intros k'. destruct (inf_along _ _ _ _ (Gc FLSP any) Hinf HG k') as (sched & tr & H & Ha).
    exact (proj2 (mon_broadcast FLSP mre_body fl_timed false false nothrow fl_mi any (fun _ => I)
      mre_done mre_fail (nothrow_ok _ _) (fun d : bool => d) mre_wait_z mre_done_z eq_refl n sched _ tr Ha H)). }
  apply (ready_returns FLSP mre_body fl_timed false false nothrow mre_bt cf ac (proj2 Hinf) HF (fun k => proj1 (HM k)) (fun d : bool => d) k0 mre_wait_z Hset HB); auto.
  - intros k' u m o ob b d Hu. pose proof (proj2 (HM k') _ _ Hu) as Hl. cbn in Hl. tauto.
  - assert (L : length (snd (cf k)) = n); [|rewrite L; exact Ht]. destruct (inf_reach _ _ _ _ Hinf k) as (sched & tr & H). revert H.
    apply (exec_inv_state (mre_step false) (fun c => length (snd c) = n)).
    + cbn. apply repeat_length.
    + intros c a c' e IH Hs. rewrite <- IH. eapply step_length; eauto.
Qed.
Print Assumptions C83_manual_event_all_return_partial.

(** With a chrono deadline a timed wait may last for ever although the event stays signalled. *)
Theorem C83_manual_event_chrono_refuted : exists cf ac k0,
  infinite (mre_step true) (mre_init 2) cf ac /\ mfair FLSP mre_body fl_timed true false cf ac /\
  forall k, (k0 <= k)%nat -> snd (fst (cf k)) = true /\ waiting (SP := FLSP) (cf k) 0%nat FTimed.
Proof.
  destruct C16_chrono_refuted as (sched & s & ths & tr & H & Hs & H0 & Hq).
  assert (L : length ths = 2%nat).
  { change ths with (snd (s, ths)). revert H. apply (exec_inv_state (mre_step true) (fun c => length (snd c) = 2%nat)); [reflexivity|].
    intros c a c' e IH Hst. rewrite <- IH. eapply step_length; eauto. }
  destruct (finite_strong (mre_step true) (mon_acts FLSP) (mon_enabled FLSP mre_body fl_timed true false nothrow) _ _ _ _ H) as (cf & ac & H1 & H2 & H3 & H4).
  { intros t (ch & c' & e & Hch & Hst). destruct s. unfold mon_step, tstep in Hst. destruct t as [|[|t]].
    - rewrite H0 in Hst. destruct Hch as [->|(u & ->)]; discriminate.
    - rewrite Hq in Hst. discriminate.
    - rewrite (proj2 (nth_error_None ths (S (S t)))) in Hst by lia. discriminate. }
  exists cf, ac, (length sched). split; [exact H1|]. split; [exact H2|]. intros k Hk. rewrite (H3 k Hk). cbn [fst snd]. split; [exact Hs|].
  eexists. split; [exact H0|reflexivity].
Qed.
Print Assumptions C83_manual_event_chrono_refuted.

Example C83_manual_event_example : exists cf ac,
  infinite (mre_step false) (mre_init 2) cf ac /\ mfair FLSP mre_body fl_timed false false cf ac /\
  (forall k, (8 <= k)%nat -> snd (fst (cf k)) = true) /\ waiting (SP := FLSP) (cf 8%nat) 0%nat FWait.
Proof.
  set (sched := [TCall 0 FWait; TRun 0 MNorm; TRun 0 MNorm; TRun 0 MNorm; TCall 1 FSet; TRun 1 MNorm; TRun 1 MNorm; TRun 1 MNorm;
                 TRun 1 MNorm; TRun 1 MNorm; TRun 1 MNorm; TRun 0 MNorm; TRun 0 MNorm; TRun 0 MNorm; TRun 0 MNorm; TRun 0 MNorm]%nat).
  destruct (exec (mre_step false) (mre_init 2) sched) as [[c tr]|] eqn:E; [|vm_compute in E; discriminate].
  assert (Ec : c = ((false, true), [PRest (SP := FLSP) tt; PRest (SP := FLSP) tt])) by (vm_compute in E; inversion E; reflexivity).
  destruct (finite_strong (mre_step false) (mon_acts FLSP) (mon_enabled FLSP mre_body fl_timed false false nothrow) _ _ _ _ E) as (cf & ac & H1 & H2 & H3 & H4).
  { intros t (ch & c' & e & _ & H). rewrite Ec in H. destruct t as [|[|[|t]]]; cbn in H; discriminate. }
  exists cf, ac. split; [exact H1|]. split; [exact H2|]. split.
  - intros k Hk. destruct (le_lt_dec 16 k) as [Hl|Hl]; [rewrite H3 by exact Hl; rewrite Ec; reflexivity|].
    destruct (H4 k) as (e & He). clear - He Hk Hl.
    do 16 (destruct k as [|k]; [try (exfalso; lia); vm_compute in He; inversion He as [[E1 E2]]; reflexivity|]). lia.
  - destruct (H4 8%nat) as (e & He). clear - He. vm_compute in He. inversion He as [[E1 E2]]. eexists. split; [reflexivity|reflexivity].
Qed.

(** ** timed_mutex *)
Lemma tm_bt t o d : mu_timed o = true -> tm_body t o true d <> BWait.
Proof. destruct o; cbn; try discriminate. destruct d; discriminate. Qed.

(** C83: unlock() and try_lock() return. *)
Theorem C83_timed_mutex_calls_return : forall n cf ac,
  infinite tm_step (tm_init n) cf ac -> mfair MSP tm_body mu_timed false true cf ac ->
  forall k t o, o = MUnlock \/ o = MTryLock -> calling (SP := MSP) (cf k) t o -> exists j, (k <= j)%nat /\ resting (SP := MSP) (cf j) t.
Proof.
  intros n cf ac Hinf HF k t o Ho.
  apply (gen_return MSP tm_body mu_timed false true tm_mi any tm_mi0 tm_done tm_fail tm_bt n cf ac Hinf (fun _ => I) t o k HF);
    destruct Ho as [->| ->]; intros; cbn; try destruct d; discriminate.
Qed.
Print Assumptions C83_timed_mutex_calls_return.

(** C83: while the mutex is free and a thread is in lock() or timed_lock(), some thread acquires it. *)
Theorem C83_timed_mutex_acquired : forall n cf ac,
  infinite tm_step (tm_init n) cf ac -> mfair MSP tm_body mu_timed false true cf ac ->
  forall k t o, o = MLock \/ o = MTimed -> waiting (SP := MSP) (cf k) t o -> snd (fst (cf k)) = None ->
  exists j u o' r, (k <= j)%nat /\ snd (fst (cf j)) = None /\ snd (fst (cf (S j))) = Some u /\ succeeds (SP := MSP) (cf j) (cf (S j)) u o' r /\
    (o' = MLock /\ r = ROk \/ (o' = MTryLock \/ o' = MTimed) /\ r = RTrue).
Proof.
  intros n cf ac Hinf HF k t o Ho (p & Hp & Hw) Hpos.
  assert (HG : forall k, any (snd (fst (cf k)))) by (intros; exact I).
  assert (HM : forall k, MInv MSP tm_mi (cf k)) by (apply (gen_minv MSP tm_body mu_timed false true tm_mi any tm_mi0 tm_done tm_fail n cf ac Hinf HG)).
  assert (HW : forall k, WInv MSP mu_avail mu_waitop (cf k)).
  { intros k'. destruct (inf_along _ _ _ _ (Gc MSP any) Hinf HG k') as (sched & tr & H & Ha).
    exact (proj2 (mon_enough_awake MSP tm_body mu_timed false true nothrow tm_mi any tm_mi0
      tm_done tm_fail (nothrow_ok _ _) mu_avail mu_waitop eq_refl tm_wait_z tm_fail_z tm_take_z tm_give_z n sched _ tr Ha H)). }
  destruct (unit_taken MSP tm_body mu_timed false true nothrow tm_bt cf ac (proj2 Hinf) HF (fun k => proj1 (HM k)) mu_avail mu_waitop tm_mi
    (fun _ => eq_refl) eq_refl HM HW) with (i := k) (t := t) (p := p) as (j & Hj & Htk).
  - intros k' u o' b H. exact (proj2 (tm_wait_z u o' b _ I H)).
  - intros k' u o' b r H. exact (proj2 (tm_fail_z u o' b _ r I H)).
  - intros k' u o' b d' r nt m Hm Hpre H Hwo. exact (tm_take_z u o' b _ d' r nt m I Hm Hpre H Hwo).
  - exact Hp.
  - destruct p; try contradiction; subst; cbn; destruct Ho as [->| ->]; auto.
  - unfold units. rewrite Hpos. reflexivity.
  - unfold taken, units in Htk. pose proof (proj2 Hinf j) as Hst. unfold happens in Hst. destruct (ac j) as [a|]; [|rewrite Hst in Htk; lia].
    destruct Hst as (e & He). destruct (changer _ _ _ _ _ _ _ _ _ _ He) as (u & m & o' & ob & b & d0 & d' & r & nt & _ & Hu & Hb & Hd & Hu'); [intros E; rewrite E in Htk; lia|].
    pose proof (proj2 (HM j) _ _ Hu) as Hl. cbn in Hl. destruct Hl as (Hm & _ & ->).
    rewrite Hd in Htk. exists j, u, o', r. split; [exact Hj|]. rewrite Hd. cbn [ost ev_spec mutex_spec] in *. revert Hm Htk Hb. generalize (snd (fst (cf j))). intros d Hm Htk Hb.
    assert (E : (d = None /\ d' = Some u) /\ nt = NNone /\ (o' = MLock /\ r = ROk \/ (o' = MTryLock \/ o' = MTimed) /\ r = RTrue)).
    { clear Hd Hu'. destruct o'; cbn in Hb; destruct d as [v|]; try (destruct b); inversion Hb; subst; cbn in Htk; try lia; (split; [split; reflexivity|auto 6]). }
    destruct E as ((E1 & E1') & -> & E3). split; [exact E1|]. split; [exact E1'|]. split; [exists m; split; [eauto|exact Hu']|exact E3].
Qed.
Print Assumptions C83_timed_mutex_acquired.

Example C83_timed_mutex_example : exists cf ac,
  infinite tm_step (tm_init 2) cf ac /\ mfair MSP tm_body mu_timed false true cf ac /\
  (exists k, waiting (SP := MSP) (cf k) 1%nat MLock /\ calling (SP := MSP) (cf k) 0%nat MUnlock /\ snd (fst (cf k)) = None).
Proof.
  set (sched := [TCall 0 MLock; TRun 0 MNorm; TRun 0 MNorm; TRun 0 MNorm; TRun 0 MNorm; TRun 0 MNorm;
                 TCall 1 MLock; TRun 1 MNorm; TRun 1 MNorm; TRun 1 MNorm;
                 TCall 0 MUnlock; TRun 0 MNorm; TRun 0 MNorm; TRun 0 MNorm; TRun 0 (MWake 1); TRun 0 MNorm; TRun 0 MNorm;
                 TRun 1 MNorm; TRun 1 MNorm; TRun 1 MNorm; TRun 1 MNorm; TRun 1 MNorm]%nat).
  destruct (exec tm_step (tm_init 2) sched) as [[c tr]|] eqn:E; [|vm_compute in E; discriminate].
  destruct (finite_strong tm_step (mon_acts MSP) (mon_enabled MSP tm_body mu_timed false true nothrow) _ _ _ _ E) as (cf & ac & H1 & H2 & H3 & H4).
  { assert (Ec : c = ((false, Some 1%nat), [PRest (SP := MSP) false; PRest (SP := MSP) true])) by (vm_compute in E; inversion E; reflexivity).
    intros t (ch & c' & e & _ & H). rewrite Ec in H. destruct t as [|[|[|t]]]; cbn in H; discriminate. }
  exists cf, ac. split; [exact H1|]. split; [exact H2|].
  exists 14%nat. destruct (H4 14%nat) as (e & He). clear - He.
  vm_compute in He. inversion He as [[E1 E2]]. split; [|split].
  + eexists. split; [reflexivity|reflexivity].
  + eexists. split; [reflexivity|reflexivity].
  + reflexivity.
Qed.
