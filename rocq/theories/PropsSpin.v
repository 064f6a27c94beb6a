(** Property theorems: spin_mutex (C01, C02). *)
From Coq Require Import List Bool Arith.
From Verif Require Import ListSum Exec Lin MutexSpec MutexSpecFacts SpinModel SpinProof.
Import ListNotations.

(** C01: every history of every number of threads under every schedule is a
    history of an atomic mutex. *)
Theorem C01_ttas_atomic : forall n sched c tr,
  exec ttas_step (spin_init n) sched = Some (c, tr) -> linearizable (mutex_spec false) n tr.
Proof. intros n sched c tr H. exact (proj1 (spin_lin _ _ ttas_entry_ok ttas_ok n sched c tr H)). Qed.
Print Assumptions C01_ttas_atomic.

Theorem C01_tas_atomic : forall n sched c tr,
  exec tas_step (spin_init n) sched = Some (c, tr) -> linearizable (mutex_spec false) n tr.
Proof. intros n sched c tr H. exact (proj1 (spin_lin _ _ tas_entry_ok tas_ok n sched c tr H)). Qed.
Print Assumptions C01_tas_atomic.

(** C01: at most one thread holds the mutex, read off the history alone. *)
Theorem C01_ttas_exclusion : forall n sched c tr,
  exec ttas_step (spin_init n) sched = Some (c, tr) -> length (holders tr) <= 1.
Proof. intros n sched c tr H. exact (mutex_spec_exclusion _ _ _ (C01_ttas_atomic _ _ _ _ H)). Qed.
Print Assumptions C01_ttas_exclusion.

Theorem C01_tas_exclusion : forall n sched c tr,
  exec tas_step (spin_init n) sched = Some (c, tr) -> length (holders tr) <= 1.
Proof. intros n sched c tr H. exact (mutex_spec_exclusion _ _ _ (C01_tas_atomic _ _ _ _ H)). Qed.
Print Assumptions C01_tas_exclusion.

(** Non-vacuity: three threads contend; thread 1 spins while thread 0 is inside,
    thread 2's try_lock fails, thread 1 gets the lock after the unlock. *)
Definition spin_ex_sched : list sact :=
  [SCall 0 MLock; SRun 0; SCall 1 MLock; SRun 1; SRun 0; SRun 1; SRun 0; SCall 2 MTryLock; SRun 2;
   SRun 2; SRun 1; SCall 0 MUnlock; SRun 0; SRun 1; SRun 1; SRun 0; SRun 1].
Example C01_ttas_example : exists c,
  exec ttas_step (spin_init 3) spin_ex_sched =
    Some (c, [Call 0 MLock; Call 1 MLock; Ret 0 MLock ROk; Call 2 MTryLock; Ret 2 MTryLock RFalse;
              Call 0 MUnlock; Ret 0 MUnlock ROk; Ret 1 MLock ROk]) /\
  holders [Call 0 MLock; Call 1 MLock; Ret 0 MLock ROk; Call 2 MTryLock; Ret 2 MTryLock RFalse;
              Call 0 MUnlock; Ret 0 MUnlock ROk; Ret 1 MLock ROk] = [1].
Proof. eexists. split; vm_compute; reflexivity. Qed.
Example C01_tas_example : exists c tr,
  exec tas_step (spin_init 2)
    [SCall 0 MLock; SRun 0; SCall 1 MLock; SRun 1; SRun 0; SRun 1; SCall 0 MUnlock; SRun 0; SRun 1; SRun 1] = Some (c, tr)
  /\ holders tr = [1].
Proof. eexists. eexists. split; vm_compute; reflexivity. Qed.

(** C02: in every reachable configuration in which no thread possesses the mutex
    ([sholds]: client between lock and unlock, call that has already taken it, or unlock
    that has not yet stored), any thread inside lock() returns within three of its own steps. *)
Theorem C02_ttas_progress : forall n sched s ths tr t p,
  exec ttas_step (spin_init n) sched = Some ((s, ths), tr) ->
  nth_error ths t = Some p -> p = SLoad \/ p = SXchg ->
  (forall u q, nth_error ths u = Some q -> sholds q = false) ->
  exists k c', (k <= 3)%nat /\ exec ttas_step (s, ths) (repeat (SRun t) k) = Some (c', [Ret t MLock ROk]).
Proof. exact ttas_solo. Qed.
Print Assumptions C02_ttas_progress.

Theorem C02_tas_progress : forall n sched s ths tr t,
  exec tas_step (spin_init n) sched = Some ((s, ths), tr) ->
  nth_error ths t = Some SXchg ->
  (forall u q, nth_error ths u = Some q -> sholds q = false) ->
  exists k c', (k <= 2)%nat /\ exec tas_step (s, ths) (repeat (SRun t) k) = Some (c', [Ret t MLock ROk]).
Proof. exact tas_solo. Qed.
Print Assumptions C02_tas_progress.

(** The assertion in unlock() (line 76) never fails. *)
Theorem C02_ttas_unlock_assertion : forall n sched s ths tr t,
  exec ttas_step (spin_init n) sched = Some ((s, ths), tr) ->
  nth_error ths t = Some SStore -> s = locked_state.
Proof. exact (spin_assert _ _ ttas_entry_ok ttas_ok). Qed.
Print Assumptions C02_ttas_unlock_assertion.

(** Non-vacuity: after an unlock raced with a spinning locker, the locker is inside lock() and nobody possesses it. *)
Example C02_example : exists ths tr,
  exec ttas_step (spin_init 2)
    [SCall 0 MLock; SRun 0; SRun 0; SRun 0; SCall 1 MLock; SRun 1; SCall 0 MUnlock; SRun 0; SRun 0]
    = Some ((unlocked_state, ths), tr) /\ nth_error ths 1 = Some SLoad /\ sholds (nth 0 ths SStore) = false.
Proof. eexists. eexists. repeat split; vm_compute; reflexivity. Qed.
