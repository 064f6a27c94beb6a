(** Deadlines of timed_wait(lock, duration, pred) and wait_for(lock, duration, pred), property C30.
    POSIX:   condition_variable_posix.hpp:136-150, 181-195
    Windows: condition_variable_windows.hpp:103-116, 147-161; condition_variable_any_windows.hpp:94-107, 134-148
    generic: condition_variable_any_generic.hpp:116-126, 160-170

    Time is an integer (any unit).  The environment supplies, for each turn of the loop, how long the predicate takes, what it
    returns, and when and how the inner wait (if any) returns. *)
From Coq Require Import List Bool ZArith.
Import ListNotations.
Local Open Scope Z_scope.

(** condition_variable_posix.hpp; condition_variable_windows.hpp and condition_variable_any_windows.hpp; condition_variable_any_generic.hpp. *)
Inductive impl := Posix | Windows | Generic.
(** /repo/include/boost/sync/condition_variables/cv_status.hpp 30-35. *)
Inductive status := NoTimeout | Timeout.
(** One turn of the loop of condition_variable_posix.hpp 144-148 (and the siblings listed above). *)
Record turn := Turn { pred_dur : Z; pred_val : bool; wait_end : Z; wait_res : status }.
(** One inner wait: when it started, the absolute time point at which it is asked to time out, when it returned and how. A call of priv_timed_wait (condition_variable_posix.hpp 146) / wait_until / wait_for. *)
Record inner := Inner { w_start : Z; w_deadline : Z; w_end : Z; w_res : status }.

(** The deadline of an inner wait started at [now], for a call made at [t0] with duration [rel].
    POSIX P141 P186, Windows W107 W152 A97 A139: abs_timeout = now() + rel is computed once, before the loop.
    Generic G121 G165: every turn calls the non-predicate timed_wait / wait_for with the full duration, which computes its own
    deadline from the time at which it is called (P213-217, B357-410). *)
Definition deadline (i : impl) (t0 rel now : Z) : Z :=
  match i with Posix | Windows => t0 + rel | Generic => now + rel end.

(** The loop: while (!pred()) { if (wait != no_timeout) return pred(); } return true.
    Result: the inner waits made, and the value returned with the time of return, if it has returned. condition_variable_posix.hpp 144-149 and the siblings listed above. *)
Fixpoint loop (i : impl) (t0 rel now : Z) (env : list turn) : list inner * option (bool * Z) :=
  match env with
  | [] => ([], None)
  | tn :: env' =>
      let s := now + pred_dur tn in
      if pred_val tn then ([], Some (true, s))
      else
        let w := Inner s (deadline i t0 rel s) (wait_end tn) (wait_res tn) in
        match wait_res tn with
        | Timeout => match env' with
                     | [] => ([w], None)
                     | tn' :: _ => ([w], Some (pred_val tn', wait_end tn + pred_dur tn'))
                     end
        | NoTimeout => let (ws, r) := loop i t0 rel (wait_end tn) env' in (w :: ws, r)
        end
  end.
(** condition_variable_posix.hpp 138-150, 183-195 and the siblings listed above. *)
Definition wait_for_pred (i : impl) (t0 rel : Z) (env : list turn) := loop i t0 rel t0 env.

(** A prompt environment: the predicate takes between 0 and [p]; an inner wait returns after it started and at most [l] late (this
    includes re-acquiring the lock); an inner wait whose deadline had passed when it started reports the timeout. An assumption on the environment; no counterpart in /repo. *)
Definition prompt_turn (p : Z) (tn : turn) : Prop := 0 <= pred_dur tn <= p.
(** An assumption on the environment; no counterpart in /repo. *)
Definition prompt_wait (l : Z) (w : inner) : Prop :=
  w_start w <= w_end w <= Z.max (w_start w) (w_deadline w) + l /\ (w_deadline w < w_start w -> w_res w = Timeout).
