(** The POSIX system_time_point (detail/time_units.hpp 153-232) with a time_t of 64 or 32 bits, and the deadlines handed to the POSIX waits.
    [TimeModel] has the 64-bit case; [wide = false] is a time_t and a long of 32 bits (32-bit Linux, older BSD). *)
From Coq Require Import ZArith Bool.
From Verif Require Import Word TimeModel.
Local Open Scope Z_scope.

(** Conversion of a 64-bit value to time_t, time_units.hpp 175 (static_cast) and 206 (the compound assignment). *)
Definition to_sec (wide : bool) (x : Z) : Z := if wide then i64 x else i32 x.
(** Conversion to long (tv_nsec), time_units.hpp 176, 205. *)
Definition to_long (wide : bool) (x : Z) : Z := if wide then i64 x else i32 x.

(** Constructor from time_t and an unsigned subsecond, time_units.hpp 166-170. *)
Definition w_make (wide : bool) (t sub : Z) : timespec := (t, to_long wide sub).
(** Constructor from a duration since 1970, time_units.hpp 173-177. *)
Definition w_of_dur (wide : bool) (d : Z) : timespec := (to_sec wide (cdiv (u64 d) NS), to_long wide (crem (u64 d) NS)).
(** operator+=, time_units.hpp 196-209: [tv_sec += x] with x of type uint64_t adds in uint64_t and converts back. *)
Definition w_add (wide : bool) (tp : timespec) (d : Z) : option timespec :=
  let '(sec, ns) := tp in
  match sig (ns + d) with
  | None => None
  | Some nsec =>
      let tv_nsec := i64 (crem (u64 nsec) NS) in
      let '(tv_nsec, sec) := if tv_nsec <? 0 then (i64 (u64 tv_nsec + NS), sec - 1) else (tv_nsec, sec) in
      Some (to_sec wide (u64 sec + cdiv (u64 nsec) NS), to_long wide tv_nsec)
  end.
(** operator- of two time points, time_units.hpp 226-231: both fields are widened to int64_t first. *)
Definition w_diff (l r : timespec) : option Z := px_diff l r.

(** A wait with a relative timeout: timed_mutex_posix.hpp 207, condition_variable_posix.hpp 216 (and 143, 188), semaphore_posix.hpp 141: the deadline
    now() + dur.  [c] is a later reading of the clock; the system call reports ETIMEDOUT exactly when the deadline is not after it.  [None]: undefined
    behaviour (signed overflow). *)
Definition rel_timed_out (wide : bool) (now : timespec) (dur : Z) (c : Z) : option bool :=
  match w_add wide now dur with None => None | Some dl => Some (ts_ns dl <=? c) end.
(** A wait until a time point made from a duration since 1970 (boost_chrono.hpp 72-77, std_chrono.hpp 70-80, boost_date_time.hpp 66-74 with
    time_units.hpp 173-177). *)
Definition abs_timed_out (wide : bool) (since_epoch : Z) (c : Z) : bool := ts_ns (w_of_dur wide since_epoch) <=? c.
