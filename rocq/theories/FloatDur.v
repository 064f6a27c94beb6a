(** Timeouts given as floating-point durations: std::chrono::duration<double, Period> and boost::chrono::duration<double, Period>, and the same with float, converted to the library's
    integral units by duration_cast (support/std_chrono.hpp 41-45, support/boost_chrono.hpp 43-47).

    double is IEEE 754 binary64 with rounding to nearest (Coq's SpecFloat), float is binary32; static_cast<int64_t> of either cuts the fraction off and is undefined if the
    result does not fit (C++ [conv.fpint]).  Not modelled: x87 excess precision, contraction into fused operations, long double. *)
From Coq Require Import ZArith Bool.
From Coq Require Import Floats.SpecFloat.
From Verif Require Import TimeModel.
Local Open Scope Z_scope.

(** double; C++ type, no counterpart in /repo. *)
Definition double := spec_float.
(** A double that a C++ program can have; no counterpart in /repo. *)
Definition is_double (x : double) : Prop := valid_binary 53 1024 x = true.
(** static_cast<double>(n) of an intmax_t constant of the ratio; no counterpart in /repo. *)
Definition dbl_of (n : Z) : double := binary_normalize 53 1024 n 0 false.
(** The value of a finite double without its fraction; C++ rule, no counterpart in /repo. *)
Definition cut (m e : Z) : Z := if 0 <=? e then m * 2 ^ e else m / 2 ^ (- e).
(** static_cast<int64_t>(x); C++ rule, no counterpart in /repo.  [None]: undefined behaviour. *)
Definition to_int64 (x : double) : option Z :=
  match x with
  | S754_zero _ => Some 0
  | S754_finite s m e =>
      let z := if s then - cut (Zpos m) e else cut (Zpos m) e in
      if (- 2 ^ 63 <=? z) && (z <? 2 ^ 63) then Some z else None
  | S754_infinity _ | S754_nan => None
  end.

(** duration_cast of a double count with ratio num/den in lowest terms (std_chrono.hpp 44, boost_chrono.hpp 46; the standard's four cases: the common type is double). *)
Definition float_cast (num den : Z) (x : double) : option Z :=
  to_int64 (if num =? 1 then (if den =? 1 then x else SFdiv 53 1024 x (dbl_of den))
            else if den =? 1 then SFmul 53 1024 x (dbl_of num)
            else SFdiv 53 1024 (SFmul 53 1024 x (dbl_of num)) (dbl_of den)).
(** to_sync_unit for a tick of [pn]/[pd] seconds and units of 1/[sub] second: std_chrono.hpp 41-45, boost_chrono.hpp 43-47; [sub] is 1000000000 on POSIX and 1000
    on Windows (time_units.hpp 49, 46). *)
Definition float_units (sub pn pd : Z) (x : double) : option Z :=
  let g := Z.gcd (pn * sub) pd in float_cast (pn * sub / g) (pd / g) x.

(** float, IEEE 754 binary32; C++ type, no counterpart in /repo. *)
Definition single := spec_float.
(** A float that a C++ program can have; no counterpart in /repo. *)
Definition is_single (x : single) : Prop := valid_binary 24 128 x = true.
(** static_cast<float>(n) of an intmax_t constant of the ratio; no counterpart in /repo. *)
Definition sgl_of (n : Z) : single := binary_normalize 24 128 n 0 false.
(** duration_cast of a float count with ratio num/den in lowest terms (std_chrono.hpp 44, boost_chrono.hpp 46; the common type of float and intmax_t is float). *)
Definition single_cast (num den : Z) (x : single) : option Z :=
  to_int64 (if num =? 1 then (if den =? 1 then x else SFdiv 24 128 x (sgl_of den))
            else if den =? 1 then SFmul 24 128 x (sgl_of num)
            else SFdiv 24 128 (SFmul 24 128 x (sgl_of num)) (sgl_of den)).
(** to_sync_unit for a float count, as [float_units]: std_chrono.hpp 41-45, boost_chrono.hpp 43-47. *)
Definition single_units (sub pn pd : Z) (x : single) : option Z :=
  let g := Z.gcd (pn * sub) pd in single_cast (pn * sub / g) (pd / g) x.

(** Time points of system_clock whose duration is a double count, POSIX: std_chrono.hpp 70-80, boost_chrono.hpp 72-77 (both clocks count from 1970), then time_units.hpp 173-177. *)
Definition float_point_px (pn pd : Z) (x : double) : option timespec := option_map px_of_dur (float_units 1000000000 pn pd x).
(** Windows: std_chrono.hpp 70-80, boost_chrono.hpp 72-77, then time_units.hpp 109-112. *)
Definition float_point_win (pn pd : Z) (x : double) : option Z := match float_units 1000 pn pd x with None => None | Some d => win_of_dur d end.
(** The same of a float count: std_chrono.hpp 70-80, boost_chrono.hpp 72-77, time_units.hpp 173-177. *)
Definition single_point_px (pn pd : Z) (x : single) : option timespec := option_map px_of_dur (single_units 1000000000 pn pd x).
(** The same of a float count: std_chrono.hpp 70-80, boost_chrono.hpp 72-77, time_units.hpp 109-112. *)
Definition single_point_win (pn pd : Z) (x : single) : option Z := match single_units 1000 pn pd x with None => None | Some d => win_of_dur d end.
