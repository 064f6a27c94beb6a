(** Waits until a time point of any clock that counts in floating point (/repo/include/boost/sync/detail/): std::chrono::time_point<Clock, duration<double, Period>> and the same with float and of boost::chrono.
    The loops are those of TimedLoops.v; here [time_point now = clock::now()] converts the reading to the time point's floating-point type, and the comparison is one of floating-point numbers.
    IEEE 754 as in FloatDur.v; a reading is a whole number of ticks of the clock (int64_t). *)
From Coq Require Import List ZArith Bool.
From Coq Require Import Floats.SpecFloat.
From Verif Require Import TimedLoops FloatDur.
Import ListNotations.
Local Open Scope Z_scope.

(** [time_point now = clock::now()] (timed_mutex_posix.hpp 255): the converting constructor of time_point, a duration_cast of the reading [n] with ratio num/den in lowest terms; the
    common type is double. *)
Definition read_double (num den n : Z) : double :=
  let x := dbl_of n in
  if num =? 1 then (if den =? 1 then x else SFdiv 53 1024 x (dbl_of den))
  else if den =? 1 then SFmul 53 1024 x (dbl_of num)
  else SFdiv 53 1024 (SFmul 53 1024 x (dbl_of num)) (dbl_of den).
(** The same for float (timed_mutex_posix.hpp 255). *)
Definition read_single (num den n : Z) : single :=
  let x := sgl_of n in
  if num =? 1 then (if den =? 1 then x else SFdiv 24 128 x (sgl_of den))
  else if den =? 1 then SFmul 24 128 x (sgl_of num)
  else SFdiv 24 128 (SFmul 24 128 x (sgl_of num)) (sgl_of den).

(** while (now < t) { ... } with floating-point time points: timed_mutex_posix.hpp 246-263, timed_mutex_windows.hpp 210-224, condition_variable_posix.hpp 230-244,
    basic_condition_variable_windows.hpp 239-253, basic_semaphore_mach.hpp 134-148.  [read] converts a reading; [env]: result of each inner relative wait and the reading after it.
    Second component: the readings at which an inner wait was started. *)
Fixpoint float_while (read : Z -> spec_float) (t : spec_float) (now : Z) (env : list (bool * Z)) : cout * list Z :=
  if SFltb (read now) t then
    match env with
    | [] => (CBlocked, [now])
    | (true, _) :: _ => (CTrue, [now])
    | (false, now') :: env' => let '(o, l) := float_while read t now' env' in (o, now :: l)
    end
  else (CFalse, []).
(** do { ... } while (now < t): basic_event_windows.hpp 171-187, auto_reset_event_futex.hpp 276-292, manual_reset_event_futex.hpp 187-203, semaphore_posix.hpp 169-183,
    semaphore_dispatch.hpp 127-140, semaphore_windows.hpp 179-195. *)
Fixpoint float_do (read : Z -> spec_float) (t : spec_float) (now : Z) (env : list (bool * Z)) : cout * list Z :=
  match env with
  | [] => (CBlocked, [now])
  | (true, _) :: _ => (CTrue, [now])
  | (false, now') :: env' =>
      if SFltb (read now') t then let '(o, l) := float_do read t now' env' in (o, now :: l) else (CFalse, [now])
  end.
