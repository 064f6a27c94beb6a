(** Property theorems: shared_spin_mutex (C04, C05, C06, C02 for the shared mutex). *)
From Coq Require Import List Bool Arith ZArith.
From Verif Require Import ListSum Exec Lin Word RwSpec RwSpecFacts SharedSpinModel SharedSpinProof.
Import ListNotations.
Local Open Scope Z_scope.

(** C04: every history is a history of an atomic readers-writer mutex (whose
    try_lock_shared may fail spuriously, see C05; try_lock may not). Any number of threads. *)
Theorem C04_atomic : forall n sched c tr,
  exec rw_step (rw_init n) sched = Some (c, tr) -> linearizable (rw_spec true) n tr.
Proof. intros n sched c tr H. exact (proj1 (rw_lin n sched c tr H)). Qed.
Print Assumptions C04_atomic.

(** C04 / C06: while one thread holds exclusively, no other holds in any mode; any number of threads. *)
Theorem C04_exclusion : forall n sched c tr t u,
  exec rw_step (rw_init n) sched = Some (c, tr) -> t <> u ->
  rw_hold t tr = HExcl -> rw_hold u tr = HNone.
Proof. exact rw_excl. Qed.
Print Assumptions C04_exclusion.

Example C04_example : exists c tr,
  exec rw_step (rw_init 3)
    [RCall 0 SLock; RRun 0 false; RRun 0 false; RCall 1 XLock; RRun 1 false; RRun 0 true; RRun 0 false; RRun 0 false;
     RRun 0 false; RRun 0 false; RCall 2 XTry; RRun 2 false; RRun 2 false; RCall 0 SUnlock; RRun 0 false; RRun 0 false;
     RRun 1 false; RRun 1 false]%nat = Some (c, tr) /\
  rw_hold 1 tr = HExcl /\ In (Ret 2%nat XTry QFalse) tr /\ In (Ret 0%nat SLock QOk) tr.
Proof. eexists. eexists. split; [vm_compute; reflexivity|]. repeat split; cbn; tauto. Qed.

(** No lost release: whenever nobody possesses the mutex, a thread inside lock() running alone returns. *)
Theorem C02_shared_lock_progress : forall n sched s ths tr t p,
  exec rw_step (rw_init n) sched = Some ((s, ths), tr) ->
  nth_error ths t = Some p -> p = XLoad \/ p = XCas ->
  (forall u q, nth_error ths u = Some q -> rhold q = HNone) ->
  exists k c', (k <= 3)%nat /\ exec rw_step (s, ths) (repeat (RRun t false) k) = Some (c', [Ret t XLock QOk]).
Proof. exact rw_xlock_solo. Qed.
Print Assumptions C02_shared_lock_progress.

Theorem C02_shared_lock_shared_progress : forall n sched s ths tr t p,
  exec rw_step (rw_init n) sched = Some ((s, ths), tr) ->
  nth_error ths t = Some p -> (p = SLoad1 \/ p = SLoad2 \/ exists cur, p = SCas cur) ->
  (forall u q, nth_error ths u = Some q -> rhold q <> HExcl) ->
  Z.of_nat n <= 2 ^ 31 ->
  exists k c', (k <= 5)%nat /\ exec rw_step (s, ths) (repeat (RRun t false) k) = Some (c', [Ret t SLock QOk]).
Proof. exact rw_slock_solo. Qed.
Print Assumptions C02_shared_lock_shared_progress.

(** C05 is false of the code: two concurrent readers, no writer anywhere in the
    history, and try_lock_shared returns false. *)
Theorem C05_refuted : exists n sched c tr t,
  exec rw_step (rw_init n) sched = Some (c, tr) /\ existsb excl_call tr = false /\
  In (Ret t STry QFalse) tr /\ ~ linearizable (rw_spec false) n tr.
Proof.
  destruct stry_interfered as (c & tr & H & He & Hin).
  exists 2%nat. eexists. exists c, tr, 0%nat. split; [exact H|]. split; [exact He|]. split; [exact Hin|].
  intros Hl. exact (strict_no_spurious _ _ Hl He _ Hin).
Qed.
Print Assumptions C05_refuted.

(** C05, what does hold: a try_lock_shared that runs without interference returns true exactly when no
    thread possesses the mutex exclusively (missing: calls that overlap other readers). *)
Theorem C05_solo_partial : forall n sched s ths tr t,
  exec rw_step (rw_init n) sched = Some ((s, ths), tr) ->
  nth_error ths t = Some STryLoad ->
  Z.of_nat n <= 2 ^ 31 ->
  exists c' r, exec rw_step (s, ths) (repeat (RRun t false) 3) = Some (c', [Ret t STry r]) /\
    (r = QTrue <-> forall u q, nth_error ths u = Some q -> rhold q <> HExcl) /\ (r = QTrue \/ r = QFalse).
Proof. exact rw_stry_solo. Qed.
Print Assumptions C05_solo_partial.

Example C05_example : exists s ths tr,
  exec rw_step (rw_init 2)
    [RCall 0 SLock; RRun 0 false; RRun 0 false; RRun 0 false; RRun 0 false; RCall 1 STry]%nat = Some ((s, ths), tr) /\
  nth_error ths 1 = Some STryLoad /\ s = 1.
Proof. eexists. eexists. eexists. split; [vm_compute; reflexivity|]. split; reflexivity. Qed.

(** C06: no number of readers breaks exclusion or loses a reader ([C04_exclusion] and [C04_atomic] have no bound
    on n), but 2^31 simultaneous readers make the state look exclusively locked: with no writer anywhere in the
    history a further lock_shared() spins for ever and try_lock_shared() fails even without interference. *)
Theorem C06_full_reader_field_blocks_refuted : exists n sched c tr t,
  exec rw_step (rw_init n) sched = Some (c, tr) /\ existsb excl_call tr = false /\
  nth_error (snd c) t = Some SLoad1 /\
  forall j, exec rw_step c (repeat (RRun t false) j) = Some (c, []).
Proof. exact full_blocks. Qed.
Print Assumptions C06_full_reader_field_blocks_refuted.

Theorem C06_full_reader_field_try_refuted : exists n sched c tr t,
  exec rw_step (rw_init n) sched = Some (c, tr) /\ existsb excl_call tr = false /\
  exec rw_step c [RCall t STry; RRun t false; RRun t false; RRun t false]
    = Some (c, [Call t STry; Ret t STry QFalse]).
Proof. exact full_try_fails. Qed.
Print Assumptions C06_full_reader_field_try_refuted.

Theorem C06_exclusion_partial : forall n sched c tr t u,
  exec rw_step (rw_init n) sched = Some (c, tr) -> t <> u ->
  rw_hold t tr = HExcl -> rw_hold u tr = HNone.
Proof. exact rw_excl. Qed.
Print Assumptions C06_exclusion_partial.

(** A writer among a waiting reader and a failed try. *)
Example C06_example : exists c tr, exec rw_step (rw_init 3)
  [RCall 0 XLock; RRun 0 false; RRun 0 false; RRun 0 false; RCall 1 SLock; RRun 1 false; RCall 2 STry; RRun 2 false; RRun 2 false; RRun 2 false]%nat = Some (c, tr) /\
  rw_hold 0 tr = HExcl /\ rw_hold 1 tr = HNone /\ nth_error (snd c) 1 = Some SLoad1 /\ In (Ret 2%nat STry QFalse) tr.
Proof. eexists. eexists. split; [vm_compute; reflexivity|]. repeat split. cbn; tauto. Qed.
