(** The primitives emulated with a mutex and a condition variable, as instances of Monitor.v.
    Each [body] is what the critical section does with the value it read (see Monitor.v for the step semantics). *)
From Coq Require Import List Bool Arith ZArith.
From Verif Require Import ListSum Exec Lin Thr Word MutexSpec EventSpec FlagSpec Monitor.
Import ListNotations.
Local Open Scope Z_scope.

(** Which functions use m_cond.timed_wait: semaphore_emulation.hpp 76, auto_reset_event_emulation.hpp 80. *)
Definition ev_timed (o : eop) : bool := match o with ETimed => true | _ => false end.

(** semaphore_emulation.hpp: post 44-49 (++m_count wraps: unsigned int), wait 51-58, try_wait 60-68, timed_wait 70-87. *)
Definition sem_body (t : nat) (o : eop) (b : bool) (c : Z) : bout Z eres :=
  match o with
  | EPost => BDone (u32 (c + 1)) EOk NOne
  | EWait => if c =? 0 then BWait else BDone (c - 1) EOk NNone
  | ETry => if c =? 0 then BDone c EFalse NNone else BDone (c - 1) ETrue NNone
  | ETimed => if c =? 0 then (if b then BFail EFalse else BWait) else BDone (c - 1) ETrue NNone
  end.
(** [i]: constructor argument, line 40. [chr]: timed waits may use a chrono clock. semaphore_emulation.hpp 34-105. *)
Definition sem_step (i : Z) (chr : bool) := mon_step (ev_spec i post_count) sem_body ev_timed chr false nothrow.
(** semaphore_emulation.hpp 40-42. *)
Definition sem_init (i : Z) := mon_init (ev_spec i post_count).

(** auto_reset_event_emulation.hpp: post 44-53, wait 55-63, try_wait 65-72, timed_wait 74-91.  m_is_set is 0 or 1. *)
Definition are_body (t : nat) (o : eop) (b : bool) (f : Z) : bout Z eres :=
  match o with
  | EPost => if f =? 0 then BDone 1 EOk NOne else BDone f EOk NNone
  | EWait => if f =? 0 then BWait else BDone 0 EOk NNone
  | ETry => if f =? 0 then BDone f EFalse NNone else BDone 0 ETrue NNone
  | ETimed => if f =? 0 then (if b then BFail EFalse else BWait) else BDone 0 ETrue NNone
  end.
(** auto_reset_event_emulation.hpp 34-109. *)
Definition are_step (chr : bool) := mon_step (ev_spec 0 post_binary) are_body ev_timed chr false nothrow.
(** auto_reset_event_emulation.hpp 40-42. *)
Definition are_init := mon_init (ev_spec 0 post_binary).

(** manual_reset_event_emulation.hpp: set 44-53, reset 55-59, wait 61-67, try_wait 69-73, timed_wait 75-91. The function using m_cond.timed_wait is at line 81. *)
Definition fl_timed (o : fop) : bool := match o with FTimed => true | _ => false end.
(** manual_reset_event_emulation.hpp 44-91. *)
Definition mre_body (t : nat) (o : fop) (b : bool) (f : bool) : bout bool fres :=
  match o with
  | FSet => if f then BDone true FOk NNone else BDone true FOk NAll
  | FReset => BDone false FOk NNone
  | FWait => if f then BDone f FOk NNone else BWait
  | FTry => BDone f (if f then FTrue else FFalse) NNone
  | FTimed => if f then BDone f FTrue NNone else (if b then BFail FFalse else BWait)
  end.
(** manual_reset_event_emulation.hpp 34-109. *)
Definition mre_step (chr : bool) := mon_step (flag_spec false) mre_body fl_timed chr false nothrow.
(** manual_reset_event_emulation.hpp 40-42. *)
Definition mre_init := mon_init (flag_spec false).

(** timed_mutex_posix.hpp without pthread_mutex_timedlock: lock 148-156, unlock 158-163, try_lock 165-172,
    priv_timed_lock 205-208, 224-241, chrono loop 246-263.  m_is_locked is "the data is not None"; which thread
    locked it is recorded for the specification only and never read. *)
Definition mu_timed (o : mop) : bool := match o with MTimed => true | _ => false end.
(** timed_mutex_posix.hpp 148-172, 205-208, 224-241. *)
Definition tm_body (t : nat) (o : mop) (b : bool) (d : option nat) : bout (option nat) mres :=
  let is_locked := match d with Some _ => true | None => false end in
  match o with
  | MLock => if is_locked then BWait else BDone (Some t) ROk NNone
  | MTryLock => if is_locked then BDone d RFalse NNone else BDone (Some t) RTrue NNone
  | MTimed => if is_locked then (if b then BFail RFalse else BWait) else BDone (Some t) RTrue NNone
  | MUnlock => BDone None ROk NOne
  end.
(** timed_mutex_posix.hpp 50-264 without BOOST_SYNC_DETAIL_PTHREAD_HAS_TIMEDLOCK. *)
Definition tm_step := mon_step (mutex_spec false) tm_body mu_timed false true nothrow.
(** timed_mutex_posix.hpp 76-110: m_is_locked = false. *)
Definition tm_init := mon_init (mutex_spec false).
