(** Time arithmetic: /repo/include/boost/sync/detail/time_units.hpp and the conversions in
    /repo/include/boost/sync/support/*.hpp.

    C++ integers are [Z]; conversions to a 64-bit type are [u64] / [i64] (two's complement); signed arithmetic that leaves
    the 64-bit range is undefined behaviour and modelled as [None].  time_t and long are 64-bit (LP64 / Win64 time_t). *)
From Coq Require Import ZArith Bool.
From Verif Require Import Word.
Local Open Scope Z_scope.

(** Signed 64-bit arithmetic: undefined on overflow. *)
Definition sig (x : Z) : option Z := if in_i64 x then Some x else None.

(** Exact (truncating) C++ division and remainder of non-negative and signed integers. C++ operator / as used at time_units.hpp 175-176, 207, 147. *)
Definition cdiv := Z.quot.
(** C++ operator % as used at time_units.hpp 176, 200. *)
Definition crem := Z.rem.

(** system_duration::subsecond_fraction, uint64_t: time_units.hpp 44-50. *)
Definition NS : Z := 1000000000.
(** Windows: time_units.hpp 44-50. *)
Definition MS : Z := 1000.

(** ** POSIX system_time_point: struct timespec, time_units.hpp 153-232. *)
Definition timespec : Type := Z * Z.   (* tv_sec, tv_nsec *)

(** Constructor from time_t and unsigned subsecond, lines 166-170. *)
Definition px_make (t sub : Z) : timespec := (t, sub).

(** Constructor from a duration since 1970, lines 173-177: the divisor is uint64_t, so the dividend is converted to it. *)
Definition px_of_dur (d : Z) : timespec := (i64 (cdiv (u64 d) NS), i64 (crem (u64 d) NS)).

(** operator+=, lines 196-209. *)
Definition px_add (tp : timespec) (d : Z) : option timespec :=
  let '(sec, ns) := tp in
  match sig (ns + d) with
  | None => None
  | Some nsec =>
      let tv_nsec := i64 (crem (u64 nsec) NS) in
      let '(tv_nsec, sec) := if tv_nsec <? 0 then (i64 (u64 tv_nsec + NS), sec - 1) else (tv_nsec, sec) in
      Some (i64 (u64 sec + cdiv (u64 nsec) NS), tv_nsec)
  end.

(** operator-=, lines 210-213; unary minus of system_duration, lines 71-74. *)
Definition px_sub (tp : timespec) (d : Z) : option timespec :=
  match sig (- d) with None => None | Some d' => px_add tp d' end.

(** Difference, lines 226-231: [seconds * subsecond_fraction + nseconds] is computed in uint64_t. *)
Definition px_diff (l r : timespec) : option Z :=
  match sig (fst l - fst r), sig (snd l - snd r) with
  | Some s, Some n => Some (i64 (u64 (u64 (u64 s * NS) + u64 n)))
  | _, _ => None
  end.

(** now() from gettimeofday, lines 187-190 ([tv_usec * 1000] narrowed to unsigned int). *)
Definition px_of_timeval (sec usec : Z) : timespec := px_make sec ((usec * (NS / 1000000)) mod 2 ^ 32).

(** now() where neither clock_gettime nor Mach is available, lines 191-192: the result of ::time(0), whole seconds. *)
Definition px_of_time (t : Z) : timespec := px_make t 0.

(** Value of a timespec in nanoseconds. Meaning of time_units.hpp 153-232's value; specification vocabulary. *)
Definition ts_ns (tp : timespec) : Z := fst tp * NS + snd tp.
(** A valid struct timespec (time_units.hpp 153-232); specification vocabulary. *)
Definition ts_ok (tp : timespec) : Prop := 0 <= snd tp < NS /\ - two63 <= fst tp < two63.

(** ** Windows system_time_point: uint64_t in 100 ns units since 1601, time_units.hpp 90-149. time_units.hpp 92-99. *)
Definition FT : Z := 10000000.
(** time_units.hpp 92-99: 1970-01-01 in FILETIME units. *)
Definition EPOCH : Z := 116444736000000000.

Definition win_make (t sub : Z) : Z := u64 (u64 (u64 t * FT) + sub + EPOCH).        (* lines 103-106 *)
Definition win_of_dur (d : Z) : option Z :=                                         (* lines 109-112 *)
  match sig (d * 10000) with None => None | Some x => Some (u64 (u64 x + EPOCH)) end.
Definition win_add (tp d : Z) : option Z :=                                         (* lines 123-127 *)
  match sig (d * 10000) with None => None | Some x => Some (u64 (tp + u64 x)) end.
Definition win_sub (tp d : Z) : option Z :=                                         (* lines 128-132 *)
  match sig (d * 10000) with None => None | Some x => Some (u64 (tp - u64 x)) end.
Definition win_diff (l r : Z) : Z := cdiv (i64 (u64 (l - r))) 10000.                (* lines 145-148 *)

(** ** Conversions of user time units. *)

(** duration_cast to a 64-bit count of 1/sub seconds from ticks of [pn]/[pd] seconds (boost_chrono.hpp 43-47,
    std_chrono.hpp 41-45); [Rep] a signed 64-bit integer.  The standard's definition with CF = the reduced ratio of the two periods:
    multiply unless CF::num == 1, divide unless CF::den == 1, in the common 64-bit type. *)
Definition chrono_cast (sub pn pd c : Z) : option Z :=
  let g := Z.gcd (pn * sub) pd in
  let n := (pn * sub) / g in
  let d := pd / g in
  match sig (c * n) with None => None | Some x => Some (cdiv x d) end.

(** Boost.DateTime durations with [tps] ticks per second, boost_date_time.hpp 42-55 (enum promotes to int: signed division). *)
Definition dt_cast (sub tps ticks : Z) : option Z :=
  if sub <=? tps then Some (cdiv ticks (cdiv tps sub)) else sig (ticks * cdiv sub tps).

(** timespec to system_time_point, posix_time.hpp 41-51, on POSIX and on Windows. *)
Definition posix_to_px (tp : timespec) : timespec := px_make (fst tp) ((snd tp * cdiv NS NS) mod 2 ^ 32).
(** posix_time.hpp 41-51. *)
Definition posix_to_win (tp : timespec) : Z := win_make (fst tp) ((cdiv (snd tp) (cdiv NS FT)) mod 2 ^ 32).

(** system_clock time points: boost_chrono.hpp 72-77, std_chrono.hpp 70-80; date_time points: boost_date_time.hpp 66-74.
    [c]: ticks since 1970-01-01. POSIX: time_units.hpp 173-177. *)
Definition chrono_point_px (pn pd c : Z) : option timespec := option_map px_of_dur (chrono_cast NS pn pd c).
(** Windows: boost_chrono.hpp 72-77, std_chrono.hpp 70-80, time_units.hpp 109-112. *)
Definition chrono_point_win (pn pd c : Z) : option Z :=
  match chrono_cast MS pn pd c with None => None | Some d => win_of_dur d end.
(** POSIX: boost_date_time.hpp 66-74, time_units.hpp 173-177. *)
Definition dt_point_px (tps ticks : Z) : option timespec := option_map px_of_dur (dt_cast NS tps ticks).
(** Windows: boost_date_time.hpp 66-74, time_units.hpp 109-112. *)
Definition dt_point_win (tps ticks : Z) : option Z :=
  match dt_cast MS tps ticks with None => None | Some d => win_of_dur d end.
