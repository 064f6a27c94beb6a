(** Relative timed waits of events, semaphores and timed mutexes: when does a call made at [t0] with duration [rel] return?  Property C56.

    Time is an integer in the unit of the durations.  The environment supplies, for each kernel wait, how long the code before it takes, when the
    kernel wait returns and why, and whether the object turns out to be available then.  (Predicate waits of condition variables are C30,
    lengths of the Windows slices are C37.) *)
From Coq Require Import List Bool ZArith.
From Verif Require Import TimedLoops.
Import ListNotations.
Local Open Scope Z_scope.

(** How the timeout of each kernel wait is computed.
    [Once]: the deadline is now() + duration, computed before the loop: semaphore/semaphore_posix.hpp 139-167,
      mutexes/timed_mutex_posix.hpp 205-241 (both branches).
    [Full]: every kernel wait is given the full duration again: events/auto_reset_event_futex.hpp 220-274 (time_left is set once, line 226, and
      never reduced), events/manual_reset_event_futex.hpp 146-185, and the emulations, which call condition_variable::timed_wait with the
      duration in each turn: events/auto_reset_event_emulation.hpp 74-91, events/manual_reset_event_emulation.hpp 75-91,
      semaphore/semaphore_emulation.hpp 70-87.
    [Slices]: the rest of the duration in slices, reduced by each slice that timed out: events/basic_event_windows.hpp 108-138,
      semaphore/semaphore_windows.hpp 115-145 (a signalled wait always succeeds).
    [SlicesStale]: the same, but a wake-up may find the object taken, and then the slice is not subtracted: mutexes/timed_mutex_windows.hpp
      171-196, condition_variables/basic_condition_variable_windows.hpp 359-398. *)
Inductive strategy := Once | Full | Slices | SlicesStale.

(** Results of futex_timedwait (futex.hpp 71-87), pthread_cond_timedwait, WaitForSingleObject as distinguished by the loops listed above. *)
Inductive kres := KWoken | KTimeout.
(** The environment of one turn of the loops listed above. Operating system; no counterpart in /repo. *)
Record kturn := KT { k_pre : Z; k_end : Z; k_res : kres; k_avail : bool }.
(** One kernel wait: start, time at which it is asked to time out, end, result. Observed kernel calls; no counterpart in /repo. *)
Record kwait := KW { kw_start : Z; kw_deadline : Z; kw_end : Z; kw_res : kres }.

(** [left]: the variable time_left of the Windows loops.  A woken thread that finds the object available returns true; after a timeout of the last
    kernel wait the object is looked at once more where the code does so ([k_avail] of that turn), otherwise false is returned. The loops listed at [strategy]. Files and lines of /repo at [strategy]. *)
Fixpoint rel_loop (st : strategy) (t0 rel left now : Z) (env : list kturn) : list kwait * option (bool * Z) :=
  match env with
  | [] => ([], None)
  | k :: env' =>
      let s := now + k_pre k in
      let d := match st with Once => t0 + rel | Full => s + rel | Slices | SlicesStale => s + slice left end in
      let w := KW s d (k_end k) (k_res k) in
      match k_res k with
      | KWoken =>
          if match st with Slices => true | _ => k_avail k end then ([w], Some (true, k_end k))
          else let (ws, r) := rel_loop st t0 rel left (k_end k) env' in (w :: ws, r)
      | KTimeout =>
          match st with
          | Once | Full => ([w], Some (k_avail k, k_end k))
          | Slices | SlicesStale =>
              if 0 <? left - slice left
              then let (ws, r) := rel_loop st t0 rel (left - slice left) (k_end k) env' in (w :: ws, r)
              else ([w], Some (k_avail k, k_end k))
          end
      end
  end.
(** The call: made at [t0] with a positive duration (others do not wait, C57). *)
Definition rel_wait (st : strategy) (t0 rel : Z) (env : list kturn) := rel_loop st t0 rel rel t0 env.

(** wait_until with a time point of a clock other than the system clock: repeated relative waits until the clock has reached [t]; C38 has the loops.
    One environment per inner call. *)
Fixpoint clock_wait (st : strategy) (t now : Z) (envs : list (list kturn)) : list kwait * option (bool * Z) :=
  match envs with
  | [] => ([], None)
  | env :: envs' =>
      match rel_wait st now (t - now) env with
      | (ws, None) => (ws, None)
      | (ws, Some (true, e)) => (ws, Some (true, e))
      | (ws, Some (false, e)) => if e <? t then let (ws', r) := clock_wait st t e envs' in (ws ++ ws', r) else (ws, Some (false, e))
      end
  end.

(** A prompt environment: code between kernel waits takes at most [p], a kernel wait returns at most [l] after its deadline, and reports the timeout if its
    deadline had passed when it started. An assumption on the environment; no counterpart in /repo. *)
Definition prompt_pre (p : Z) (k : kturn) : Prop := 0 <= k_pre k <= p.
(** An assumption on the environment; no counterpart in /repo. *)
Definition prompt_kernel (l : Z) (w : kwait) : Prop :=
  kw_start w <= kw_end w <= Z.max (kw_start w) (kw_deadline w) + l /\ (kw_deadline w < kw_start w -> kw_res w = KTimeout).
