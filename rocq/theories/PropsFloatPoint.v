(** C93, continued: absolute deadlines, time points of system_clock with floating-point durations (FloatDur.v). *)
From Coq Require Import ZArith Bool Lia List.
From Coq Require Import Floats.SpecFloat.
From Verif Require Import Word TimeModel PropsTime FloatDur PropsFloatDur PropsFloatSingle.
Local Open Scope Z_scope.

(** POSIX: a deadline from 1970 on and less than 2^61 nanoseconds later (the year 2043) becomes a valid timespec at most 256 nanoseconds and one unit away from it. *)
Theorem C93_point_posix : forall pn pd x, plain_tick 1000000000 pn pd -> is_double x -> number x -> 0 <= ask 1000000000 pn x <= 2 ^ 61 * one pd ->
  exists sec ns, float_point_px pn pd x = Some (sec, ns) /\ 0 <= ns < 1000000000 /\ Z.abs ((sec * 1000000000 + ns) * one pd - ask 1000000000 pn x) < 257 * one pd.
Proof.
  intros pn pd x HT HX NX HA. assert (0 < one pd) as O by (unfold one; apply Z.mul_pos_pos; [apply HT|apply Z.pow_pos_nonneg; lia]).
  destruct (C93_defined _ _ _ _ HT HX) as (DF & _). destruct (DF NX) as (r & HR & B); [rewrite Z.abs_eq by lia; set (D := one pd) in *; clearbody D; lia|].
  destruct (C93_accuracy _ _ _ _ _ HT HX NX HR) as (_ & _ & S & _ & AC). specialize (S ltac:(lia)). specialize (AC ltac:(rewrite Z.abs_eq; lia)).
  destruct (C36_point_posix_partial r ltac:(unfold two63; lia)) as (K & E). unfold float_point_px. rewrite HR. cbn [option_map]. destruct (px_of_dur r) as (sec, ns). unfold ts_ok, ts_ns, NS in *. cbn [fst snd] in *.
  exists sec, ns. split; [reflexivity|]. split; [lia|]. rewrite E. exact AC.
Qed.
Print Assumptions C93_point_posix.

(** Windows: any deadline between 1601 (the zero of the Windows clock) and 2^49 milliseconds after 1970 is met to the millisecond; FILETIME counts 10000 per millisecond. *)
Theorem C93_point_windows : forall pn pd x, plain_tick 1000 pn pd -> is_double x -> number x -> - 11644473600000 * one pd <= ask 1000 pn x <= 2 ^ 49 * one pd ->
  exists r, float_point_win pn pd x = Some (116444736000000000 + 10000 * r) /\ Z.abs (r * one pd - ask 1000 pn x) < one pd.
Proof.
  intros pn pd x HT HX NX HA. assert (0 < one pd) as O by (unfold one; apply Z.mul_pos_pos; [apply HT|apply Z.pow_pos_nonneg; lia]).
  destruct (C93_within_unit _ _ _ _ HT HX NX) as (r & HR & D1); [set (D := one pd) in *; clearbody D; lia|]. exists r. split; [|exact D1].
  pose proof (C93_whole _ _ _ _ _ HT HX NX HR 11644473600000 0 ltac:(lia) ltac:(lia)) as W. cbv zeta in W. replace (11644473600000 * 2 ^ 0) with 11644473600000 in W by reflexivity. destruct W as (_ & _ & W & _). specialize (W ltac:(lia)).
  pose proof (C93_whole _ _ _ _ _ HT HX NX HR (2 ^ 49) 0 ltac:(lia) ltac:(lia)) as V. cbv zeta in V. replace (2 ^ 49 * 2 ^ 0) with (2 ^ 49) in V by reflexivity. destruct V as (_ & V & _). specialize (V ltac:(lia)).
  unfold float_point_win. rewrite HR. rewrite C35_of_dur_exact by (unfold ft_ok, two63, two64, EPOCH; lia). f_equal. unfold EPOCH. lia.
Qed.
Print Assumptions C93_point_windows.

(** Outside the representable range the conversion of a point has no defined result, as that of a timeout. *)
Theorem C93_point_undefined : forall pn pd x, is_double x ->
  (plain_tick 1000000000 pn pd -> ~ number x \/ 2 ^ 63 * one pd <= ask 1000000000 pn x -> float_point_px pn pd x = None) /\
  (plain_tick 1000 pn pd -> ~ number x \/ 2 ^ 63 * one pd <= ask 1000 pn x -> float_point_win pn pd x = None).
Proof.
  intros pn pd x HX. split; intros HT HN; destruct (C93_defined _ _ _ _ HT HX) as (_ & D1 & D2); unfold float_point_px, float_point_win.
  - assert (float_units 1000000000 pn pd x = None) as ->; [|reflexivity]. destruct HN as [HN|HN]; [auto|]. destruct x; cbn [number] in *; auto.
  - assert (float_units 1000 pn pd x = None) as ->; [|reflexivity]. destruct HN as [HN|HN]; [auto|]. destruct x; cbn [number] in *; auto.
Qed.
Print Assumptions C93_point_undefined.

(** POSIX, before 1970 by one nanosecond or more: the deadline is moved 2^64 ns into the future, beyond the year 2500 (as C36_point_before_1970_wrong for integral counts). *)
Theorem C93_point_past_wrong : forall pn pd x, plain_tick 1000000000 pn pd -> is_double x -> number x -> - 2 ^ 61 * one pd <= ask 1000000000 pn x <= - one pd ->
  exists sec ns, float_point_px pn pd x = Some (sec, ns) /\ 2 ^ 63 < sec * 1000000000 + ns.
Proof.
  intros pn pd x HT HX NX HA. assert (0 < one pd) as O by (unfold one; apply Z.mul_pos_pos; [apply HT|apply Z.pow_pos_nonneg; lia]).
  destruct (C93_defined _ _ _ _ HT HX) as (DF & _). destruct (DF NX) as (r & HR & B); [set (D := one pd) in *; clearbody D; lia|].
  pose proof (C93_whole _ _ _ _ _ HT HX NX HR 1 0 ltac:(lia) ltac:(lia)) as W. cbv zeta in W. change (1 * 2 ^ 0) with 1 in W. destruct W as (_ & _ & _ & W). specialize (W ltac:(lia)).
  pose proof (C36_point_before_1970_wrong r ltac:(unfold two63; lia)) as E. unfold float_point_px. rewrite HR. cbn [option_map]. destruct (px_of_dur r) as (sec, ns). unfold ts_ns, NS, two64 in E. cbn [fst snd] in E.
  exists sec, ns. split; [reflexivity|]. lia.
Qed.
Print Assumptions C93_point_past_wrong.
Theorem C93_point_past_refuted : exists x, is_double x /\ ask 1000000000 1 x = - 500000000 * one 1 /\ float_point_px 1 1 x = Some (18446744073, 209551616).
Proof. exists (S754_finite true 4503599627370496 (-53)). split; [reflexivity|]. split; reflexivity. Qed.
Print Assumptions C93_point_past_refuted.

(** Time points held in float: the POSIX result differs from the float by less than 2^37 + 1 nanoseconds, the Windows result by one part in 2^24 and a millisecond. *)
Theorem C93_single_point_posix : forall pn pd x, single_tick 1000000000 pn pd -> is_single x -> number x -> 0 <= sask 1000000000 pn x <= 2 ^ 61 * sone pd ->
  exists sec ns, single_point_px pn pd x = Some (sec, ns) /\ 0 <= ns < 1000000000 /\ Z.abs ((sec * 1000000000 + ns) * sone pd - sask 1000000000 pn x) < (2 ^ 37 + 1) * sone pd.
Proof.
  intros pn pd x HT HX NX HA. assert (0 < sone pd) as O by (unfold sone; apply Z.mul_pos_pos; [apply HT|apply Z.pow_pos_nonneg; lia]).
  destruct (C93_single_defined _ _ _ _ HT HX) as (DF & _). destruct (DF NX) as (r & HR & B); [rewrite Z.abs_eq by lia; set (D := sone pd) in *; clearbody D; lia|].
  destruct (C93_single_accuracy _ _ _ _ _ HT HX NX HR) as (_ & _ & S & _ & AC). specialize (S ltac:(lia)). specialize (AC ltac:(rewrite Z.abs_eq; lia)).
  destruct (C36_point_posix_partial r ltac:(unfold two63; lia)) as (K & E). unfold single_point_px. rewrite HR. cbn [option_map]. destruct (px_of_dur r) as (sec, ns). unfold ts_ok, ts_ns, NS in *. cbn [fst snd] in *.
  exists sec, ns. split; [reflexivity|]. split; [lia|]. rewrite E. exact AC.
Qed.
Print Assumptions C93_single_point_posix.
Theorem C93_single_point_windows : forall pn pd x, single_tick 1000 pn pd -> is_single x -> number x -> 0 <= sask 1000 pn x <= 2 ^ 49 * sone pd ->
  exists r, single_point_win pn pd x = Some (116444736000000000 + 10000 * r) /\
    2 ^ 24 * (r * sone pd) <= (2 ^ 24 + 1) * sask 1000 pn x /\ (2 ^ 24 - 1) * sask 1000 pn x < 2 ^ 24 * ((r + 1) * sone pd).
Proof.
  intros pn pd x HT HX NX HA. assert (0 < sone pd) as O by (unfold sone; apply Z.mul_pos_pos; [apply HT|apply Z.pow_pos_nonneg; lia]).
  destruct (C93_single_defined _ _ _ _ HT HX) as (DF & _). destruct (DF NX) as (r & HR & B); [rewrite Z.abs_eq by lia; set (D := sone pd) in *; clearbody D; lia|]. exists r.
  destruct (C93_single_accuracy _ _ _ _ _ HT HX NX HR) as (A1 & A2 & S & _ & _). specialize (S ltac:(lia)). rewrite (Z.abs_eq r), (Z.abs_eq (sask _ _ _)) in A1, A2 by lia. split; [|split; assumption].
  pose proof (C93_single_whole _ _ _ _ _ HT HX NX HR 1 49 ltac:(lia) ltac:(lia)) as V. cbv zeta in V. replace (1 * 2 ^ 49) with (2 ^ 49) in V by reflexivity. destruct V as (_ & V & _). specialize (V ltac:(lia)).
  unfold single_point_win. rewrite HR. rewrite C35_of_dur_exact by (unfold ft_ok, two63, two64, EPOCH; lia). f_equal. unfold EPOCH. lia.
Qed.
Print Assumptions C93_single_point_windows.

(** The exact float 1700000000 seconds after 1970: the library waits 7.7 seconds longer on POSIX and 38.9 seconds longer on Windows, because the conversion multiplies in float. *)
Theorem C93_single_point_refuted : exists x, is_single x /\ sask 1000000000 1 x = 1700000000000000000 * sone 1 /\ sask 1000 1 x = 1700000000000 * sone 1 /\
  single_point_px 1 1 x = Some (1700000007, 681212416) /\ single_point_win 1 1 x = Some (116444736000000000 + 10000 * 1700000038912).
Proof. exists (S754_finite false 13281250 7). split; [reflexivity|]. split; [reflexivity|]. split; [reflexivity|]. split; reflexivity. Qed.
Print Assumptions C93_single_point_refuted.

(** 1700000000.25 seconds after 1970 as double; 1 day after 1970 as float. *)
Example C93_point_example :
  (let x := S754_finite false 7130316801048576 (-22) in is_double x /\ number x /\ plain_tick 1000000000 1 1 /\ plain_tick 1000 1 1 /\ ask 1000000000 1 x = 1700000000250000000 * one 1 /\
    float_point_px 1 1 x = Some (1700000000, 249999872) /\ float_point_win 1 1 x = Some 133444736002500000) /\
  (let x := S754_finite false 11059200 (-7) in is_single x /\ number x /\ single_tick 1000000000 1 1 /\ single_tick 1000 1 1 /\ sask 1000 1 x = 86400000 * sone 1 /\
    single_point_win 1 1 x = Some (116444736000000000 + 10000 * 86400000)).
Proof.
  assert (plain_tick 1000000000 1 1 /\ plain_tick 1000 1 1) as (P1 & P2) by (unfold plain_tick; repeat split; try reflexivity; left; [exists 1000000000|exists 1000]; reflexivity).
  assert (single_tick 1000000000 1 1 /\ single_tick 1000 1 1) as (S1 & S2).
  { unfold single_tick; repeat split; try reflexivity; left; [exists 1000000000|exists 1000]; (split; [|reflexivity]); (split; [lia|]); [exists 1953125, 9; lia|exists 1000, 0; lia]. }
  cbv zeta. split; (split; [reflexivity|]; split; [exact I|]; split; [assumption|]; split; [assumption|]); [split; [reflexivity|split; reflexivity]|split; reflexivity].
Qed.
