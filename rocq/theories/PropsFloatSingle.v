(** C93, continued: timeouts given as durations of float (FloatDur.v).  As PropsFloatDur.v, for 24 bits instead of 53. *)
From Coq Require Import ZArith Bool Lia List.
From Coq Require Import Floats.SpecFloat.
From Verif Require Import FloatDur PropsFloatDur.
Local Open Scope Z_scope.

Lemma sto_int_finite s m e : 0 < m -> e <= 104 \/ 2 ^ 63 < cut m e ->
  to_int64 (match m with Z0 => S754_zero s | Zpos p => if Zle_bool e (128 - 24) then S754_finite s p e else S754_infinity s | Zneg _ => S754_nan end) = fits s (cut m e).
Proof.
  intros H G. destruct m as [|p|p]; try lia. change (128 - 24) with 104. destruct (Z.leb_spec e 104) as [L|L]; [reflexivity|]. cbn [to_int64]. destruct G as [G|G]; [lia|]. symmetry. apply fits_big, G.
Qed.
Lemma sfexp_val x : fexp 24 128 x = Z.max (x - 24) (-149). Proof. reflexivity. Qed.
(** The outcome of rounding [N]/[D] * 2^[ex] (of which [m] and [l] are the integral part and the place of the rest) and cutting. *)
Lemma saux_spec s N D m l ex : 0 < D -> 0 < N -> rep N D (shr_record_of_loc m l) -> l = loc_Exact \/ ex <= fexp 24 128 (Zdigits2 m + ex) -> exists q K, 0 <= K /\ 0 <= q /\ -149 <= ex + K /\
  to_int64 (binary_round_aux 24 128 s m ex l) = fits s (cut q (ex + K)) /\
  2 * Z.abs (q * (D * 2 ^ K) - N) <= D * 2 ^ K /\ (forall a, a * (D * 2 ^ K) <= N -> a <= q) /\ (forall a, N <= a * (D * 2 ^ K) -> q <= a) /\
  (q * (D * 2 ^ K) = N \/ (ex + K = -149 /\ q <= 2 ^ 24) \/ 2 ^ 23 * (D * 2 ^ K) <= N).
Proof.
  intros HD HN HR HL. set (k := fexp 24 128 (Zdigits2 m + ex) - ex). set (K := Z.max 0 k). set (x0 := shr_record_of_loc m l).
  assert (shr_m x0 = m) as M0 by (unfold x0; destruct l as [|[| |]]; reflexivity). assert (0 <= m) as Hm by (destruct HR as (A & _); fold x0 in A; lia).
  set (x1 := match k with Zpos p => iter_pos shr_1 p x0 | _ => x0 end). assert (rep N (D * 2 ^ K) x1) as R1 by (apply shr_rep; assumption).
  set (q := rne x1). destruct (rne_spec _ _ _ R1) as (Q0 & QA & QL & QH). fold q in Q0, QA, QL, QH.
  assert (0 < 2 ^ K) as PK by (apply Z.pow_pos_nonneg; lia).
  assert (N < (m + 1) * D) as NM by (destruct HR as (_ & A & _); fold x0 in A; rewrite M0 in A; lia). assert (m * D <= N) as MN by (destruct HR as (_ & A & _); fold x0 in A; rewrite M0 in A; lia).
  (* the integer kept has at most 24 bits, or is 2^24 *)
  assert ((k <= 0 /\ l = loc_Exact /\ q = m /\ N = m * D) \/ (0 <= k /\ q <= 2 ^ 24 /\ K = k /\ ex + K = Z.max (Zdigits2 m + ex - 24) (-149))) as CASES.
  { destruct (Z_le_gt_dec 0 k) as [P|P]; [right|left].
    - assert (K = k) as EK by (unfold K; lia). split; [exact P|]. split; [|split; [exact EK|]]. 2: { rewrite EK. unfold k. rewrite sfexp_val. lia. }
      apply QH. apply Z.lt_le_incl. eapply Z.lt_le_trans; [exact NM|]. rewrite (Z.mul_comm D), Z.mul_assoc, <- Z.pow_add_r by lia. apply Z.mul_le_mono_nonneg_r; [lia|].
      destruct (Z.eq_dec m 0) as [->|NZ]; [assert (0 < 2 ^ (24 + K)) by (apply Z.pow_pos_nonneg; lia); lia|].
      pose proof (digits_spec m ltac:(lia)) as (_ & DG). assert (2 ^ Zdigits2 m <= 2 ^ (24 + K)) as PW; [|lia]. apply Z.pow_le_mono_r; [lia|]. rewrite EK. unfold k. rewrite sfexp_val. lia.
    - destruct HL as [-> |HL]; [|unfold k in P; lia]. split; [lia|]. split; [reflexivity|].
      assert (x1 = x0) as X1 by (unfold x1; destruct k; [reflexivity|lia|reflexivity]). split; [unfold q; rewrite X1; unfold x0; reflexivity|]. destruct HR as (_ & _ & A). unfold x0 in *. cbn in A. lia. }
  assert (to_int64 (binary_round_aux 24 128 s m ex l) = fits s (cut q (ex + K))) as VAL.
  { unfold binary_round_aux, shr_fexp. fold x0. rewrite shr_case. fold k. fold K. fold x1. change (round_nearest_even (shr_m x1) (loc_of_shr_record x1)) with q. rewrite shr_case.
    set (k2 := fexp 24 128 (Zdigits2 q + (ex + K)) - (ex + K)). cbn [shr_record_of_loc].
    destruct (Z.eq_dec q 0) as [QZ|QZ].
    { assert (forall p, iter_pos shr_1 p {| shr_m := 0; shr_r := false; shr_s := false |} = {| shr_m := 0; shr_r := false; shr_s := false |}) as IT.
      { induction p as [p IH|p IH|]; cbn [iter_pos]; [change (shr_1 {| shr_m := 0; shr_r := false; shr_s := false |}) with {| shr_m := 0; shr_r := false; shr_s := false |}|..]; rewrite ?IH; reflexivity. }
      rewrite QZ. assert (cut 0 (ex + K) = 0) as -> by (unfold cut; destruct (Z.leb_spec 0 (ex + K)); [ring|apply Z.div_0_l, Z.pow_nonzero; lia]). destruct k2; rewrite ?IT; destruct s; reflexivity. }
    assert (0 < q) as QP by lia.
    destruct (Z_le_gt_dec k2 0) as [P2|P2].
    - assert ((match k2 with Zpos p => iter_pos shr_1 p {| shr_m := q; shr_r := false; shr_s := false |} | _ => {| shr_m := q; shr_r := false; shr_s := false |} end) = {| shr_m := q; shr_r := false; shr_s := false |}) as ->
        by (destruct k2; [reflexivity|lia|reflexivity]). cbn [shr_m]. replace (ex + K + Z.max 0 k2) with (ex + K) by lia. apply sto_int_finite; [exact QP|].
      destruct (Z_le_gt_dec (ex + K) 104); [left; lia|right; apply cut_bigger; lia].
    - assert (q = 2 ^ 24 /\ k2 = 1) as (E53 & E1).
      { destruct CASES as [(C1 & C2 & C3 & C4)|(C1 & C2 & C3 & C4)].
        - exfalso. unfold k2 in P2. rewrite C3 in P2. unfold K in P2. unfold k in P2, C1. rewrite sfexp_val in *. lia.
        - pose proof (digits_spec q QP) as (DL & DH). unfold k2 in *. rewrite sfexp_val in *.
          assert (Zdigits2 q <= 25) as D54. { destruct (Z_le_gt_dec (Zdigits2 q) 25) as [|B]; [assumption|]. exfalso. assert (2 ^ 25 <= 2 ^ (Zdigits2 q - 1)) by (apply Z.pow_le_mono_r; lia). lia. }
          assert (Zdigits2 q = 25) as DD by lia. rewrite DD in DL. split; lia. }
      rewrite E1. cbn [iter_pos]. rewrite E53. change (shr_1 {| shr_m := 2 ^ 24; shr_r := false; shr_s := false |}) with {| shr_m := 2 ^ 23; shr_r := false; shr_s := false |}. cbn [shr_m].
      replace (Z.max 0 1) with 1 by lia. change (2 ^ 24) with (2 * 2 ^ 23). rewrite cut_double. apply sto_int_finite; [lia|].
      destruct (Z_le_gt_dec (ex + K + 1) 104); [left; lia|right; apply cut_bigger; lia]. }
  exists q, K. split; [lia|]. split; [exact Q0|]. split; [destruct CASES as [(C1 & _)|(_ & _ & _ & C4)]; [unfold k in C1; rewrite sfexp_val in C1; lia|lia]|]. split; [exact VAL|]. split; [exact QA|]. split; [exact QL|]. split; [exact QH|].
  destruct CASES as [(C1 & C2 & C3 & C4)|(C1 & C2 & C3 & C4)]; [left; replace K with 0 by lia; rewrite C3, C4; change (2 ^ 0) with 1; ring|right].
  destruct (Z_le_gt_dec (Zdigits2 m + ex - 24) (-149)) as [B|B]; [left; split; lia|right].
  assert (0 < m) as MP. { destruct (Z.eq_dec m 0) as [->|]; [|lia]. exfalso. cbn [Zdigits2] in *. unfold K, k in C4. rewrite sfexp_val in C4. cbn [Zdigits2] in C4. unfold k in C1. rewrite sfexp_val in C1. cbn [Zdigits2] in C1. lia. }
  pose proof (digits_spec m MP) as (DL & _). rewrite (Z.mul_comm D), Z.mul_assoc, <- Z.pow_add_r by lia. replace (23 + K) with (Zdigits2 m - 1) by lia. nia.
Qed.

(** ** The conversion, in integers *)

Lemma scut_spec q E : 0 <= q -> -149 <= E -> cut q E * 2 ^ 149 <= q * 2 ^ (E + 149) < (cut q E + 1) * 2 ^ 149.
Proof.
  intros Q0 HE. assert (0 < 2 ^ 149) as U by (apply Z.pow_pos_nonneg; lia). unfold cut. destruct (Z.leb_spec 0 E) as [H|H].
  - rewrite Z.pow_add_r by lia. rewrite Z.mul_assoc. rewrite Z.mul_add_distr_r. lia.
  - set (j := - E). assert (2 ^ 149 = 2 ^ j * 2 ^ (E + 149)) as -> by (rewrite <- Z.pow_add_r by (unfold j; lia); f_equal; unfold j; lia).
    assert (0 < 2 ^ j) as PJ by (apply Z.pow_pos_nonneg; unfold j; lia). assert (0 < 2 ^ (E + 149)) as PE by (apply Z.pow_pos_nonneg; lia).
    pose proof (Z.div_mod q (2 ^ j) ltac:(lia)). pose proof (Z.mod_pos_bound q (2 ^ j) PJ). rewrite !Z.mul_assoc. split; [apply Z.mul_le_mono_nonneg_r; lia|apply Z.mul_lt_mono_pos_r; lia].
Qed.

(** [c] is [P]/([Q] * 2^149) rounded to a float and cut.  Proof device; no counterpart in /repo. *)
Definition snear (P Q c : Z) : Prop := exists q N DD E, 0 < DD /\ 0 <= N /\ 0 <= q /\ -149 <= E /\ P * DD = N * 2 ^ (E + 149) * Q /\ c = cut q E /\ 2 * Z.abs (q * DD - N) <= DD /\
  (forall a, a * DD <= N -> a <= q) /\ (forall a, N <= a * DD -> q <= a) /\ (q * DD = N \/ (E = -149 /\ q <= 2 ^ 24) \/ 2 ^ 23 * DD <= N).
(** A whole number that a float holds exactly.  Specification; no counterpart in /repo. *)
Definition exact24 (n : Z) : Prop := n < 2 ^ 63 /\ exists k j, 0 < k < 2 ^ 24 /\ 0 <= j /\ n = k * 2 ^ j.
Lemma exact24_pos n : exact24 n -> 0 < n.
Proof. intros (_ & k & j & K & J & ->). apply Z.mul_pos_pos; [lia|apply Z.pow_pos_nonneg; lia]. Qed.
Lemma digits_unique m d : 0 < m -> 1 <= d -> 2 ^ (d - 1) <= m < 2 ^ d -> Zdigits2 m = d.
Proof.
  intros P D (A & B). pose proof (digits_spec m P) as (X & Y). pose proof (digits_pos m P). destruct (Z.lt_trichotomy (Zdigits2 m) d) as [C|[C|C]]; [|exact C|]; exfalso.
  - assert (2 ^ Zdigits2 m <= 2 ^ (d - 1)) by (apply Z.pow_le_mono_r; lia). lia.
  - assert (2 ^ d <= 2 ^ (Zdigits2 m - 1)) by (apply Z.pow_le_mono_r; lia). lia.
Qed.
Lemma aux_exact s m e : 0 < m -> Zdigits2 m = 24 -> -149 <= e <= 104 -> exists p, Zpos p = m /\ binary_round_aux 24 128 s m e loc_Exact = S754_finite s p e.
Proof.
  intros H D E. destruct m as [|p|p]; try lia. exists p. split; [reflexivity|]. unfold binary_round_aux, shr_fexp. rewrite D, sfexp_val. replace (Z.max (24 + e - 24) (-149) - e) with 0 by lia.
  cbn [shr shr_record_of_loc shr_m loc_of_shr_record round_nearest_even]. rewrite D, sfexp_val. replace (Z.max (24 + e - 24) (-149) - e) with 0 by lia. cbn [shr shr_record_of_loc shr_m].
  destruct (Z.leb_spec e (128 - 24)); [reflexivity|lia].
Qed.
Lemma sgl_of_spec n : exact24 n -> exists my ey a b, sgl_of n = S754_finite false my ey /\ 0 <= a /\ 0 <= b /\ ey = a - b /\ Zpos my * 2 ^ a = n * 2 ^ b /\ Zdigits2 (Zpos my) = 24.
Proof.
  intros HE. pose proof (exact24_pos n HE) as HP. destruct HE as (H63 & k & j & K & J & EN). destruct n as [|p|p]; try lia.
  pose proof (digits_spec (Zpos p) ltac:(lia)) as (DL & DH). cbn [Zdigits2] in *. set (d := Zpos (digits2_pos p)) in *. assert (1 <= d) as D1 by (unfold d; lia).
  assert (d <= 63) as D63. { destruct (Z_le_gt_dec d 63); [assumption|]. exfalso. assert (2 ^ 63 <= 2 ^ (d - 1)) by (apply Z.pow_le_mono_r; lia). lia. }
  unfold sgl_of, binary_normalize, binary_round. fold d. destruct (Z_le_gt_dec d 24) as [D24|D24].
  - assert (exists mz, Zpos mz = Zpos p * 2 ^ (24 - d) /\ shl_align p 0 (fexp 24 128 (d + 0)) = (mz, d - 24)) as (mz & MZ & SA).
    { rewrite sfexp_val. unfold shl_align. replace (Z.max (d + 0 - 24) (-149) - 0) with (d - 24) by lia. replace (Z.max (d + 0 - 24) (-149)) with (d - 24) by lia.
      destruct (d - 24) as [|z|z] eqn:Z0; [|lia|].
      - exists p. replace (24 - d) with 0 by lia. split; [cbn; lia|reflexivity].
      - exists (shift_pos z p). split; [|reflexivity]. rewrite shift_pos_correct. replace (24 - d) with (Zpos z) by lia. rewrite Zpower_pos_nat, Zpower_nat_Z. rewrite positive_nat_Z. ring. }
    rewrite SA. assert (0 < 2 ^ (24 - d)) as PD by (apply Z.pow_pos_nonneg; lia).
    assert (Zdigits2 (Zpos mz) = 24) as DM.
    { apply digits_unique; [lia|lia|]. rewrite MZ. split; [replace (24 - 1) with (d - 1 + (24 - d)) by lia; rewrite Z.pow_add_r by lia; apply Z.mul_le_mono_nonneg_r; lia|].
      replace (2 ^ 24) with (2 ^ d * 2 ^ (24 - d)) by (rewrite <- Z.pow_add_r by lia; f_equal; lia). apply Z.mul_lt_mono_pos_r; lia. }
    destruct (aux_exact false (Zpos mz) (d - 24)) as (my & MY & ->); [lia|exact DM|lia|].
    exists my, (d - 24), 0, (24 - d). split; [reflexivity|]. split; [lia|]. split; [lia|]. split; [lia|]. split; [rewrite MY, MZ; change (2 ^ 0) with 1; ring|]. change (Zdigits2 (Zpos my) = 24). rewrite MY. exact DM.
  - assert (shl_align p 0 (fexp 24 128 (d + 0)) = (p, 0)) as ->. { rewrite sfexp_val. unfold shl_align. replace (Z.max (d + 0 - 24) (-149) - 0) with (d - 24) by lia. destruct (d - 24) eqn:Z0; [lia|reflexivity|lia]. }
    set (q := d - 24). assert (q <= j) as QJ.
    { destruct (Z_le_gt_dec q j); [assumption|]. exfalso. assert (k * 2 ^ j < 2 ^ 24 * 2 ^ j) as X by (apply Z.mul_lt_mono_pos_r; [apply Z.pow_pos_nonneg|]; lia). rewrite <- Z.pow_add_r in X by lia.
      assert (2 ^ (24 + j) <= 2 ^ (d - 1)) by (apply Z.pow_le_mono_r; lia). lia. }
    assert (0 < 2 ^ q) as PQ by (apply Z.pow_pos_nonneg; lia).
    assert (Zpos p = k * 2 ^ (j - q) * 2 ^ q) as EP. { rewrite EN, <- Z.mul_assoc, <- Z.pow_add_r by lia. f_equal. f_equal. lia. }
    set (w := k * 2 ^ (j - q)) in *. assert (0 < w) as W0 by (unfold w; apply Z.mul_pos_pos; [lia|apply Z.pow_pos_nonneg; lia]). clearbody w.
    assert (Zdigits2 w = 24) as DW.
    { apply digits_unique; [exact W0|lia|]. split; [apply (canc _ _ (2 ^ q) PQ)|apply (Z.mul_lt_mono_pos_r (2 ^ q) _ _ PQ)]; rewrite <- EP, <- Z.pow_add_r by lia; unfold q; [replace (24 - 1 + (d - 24)) with (d - 1) by lia|replace (24 + (d - 24)) with d by lia]; lia. }
    assert (binary_round_aux 24 128 false (Zpos p) 0 loc_Exact = binary_round_aux 24 128 false w q loc_Exact) as ->.
    { assert (shr_fexp 24 128 (Zpos p) 0 loc_Exact = shr_fexp 24 128 w q loc_Exact) as SF; [|unfold binary_round_aux; rewrite SF; reflexivity].
      unfold shr_fexp. rewrite !sfexp_val, !shr_case, DW. change (Zdigits2 (Z.pos p)) with d. replace (Z.max (d + 0 - 24) (-149) - 0) with q by (unfold q; lia). replace (0 + Z.max 0 q) with q by (unfold q; lia).
      replace (Z.max (24 + q - 24) (-149) - q) with 0 by (unfold q; lia). replace (q + Z.max 0 0) with q by lia. f_equal.
      assert (rep (Zpos p) (1 * 2 ^ Z.max 0 q) (match q with Zpos z => iter_pos shr_1 z (shr_record_of_loc (Zpos p) loc_Exact) | _ => shr_record_of_loc (Zpos p) loc_Exact end)) as R by (apply shr_rep; [lia|unfold rep; cbn [shr_record_of_loc shr_m shr_r shr_s]; lia]).
      replace (Z.max 0 q) with q in R by (unfold q; lia). rewrite Z.mul_1_l in R. set (x := match q with Zpos _ => _ | _ => _ end) in *. clearbody x. destruct x as [m r t]. destruct R as (M & B & C). cbn [shr_m shr_r shr_s shr_record_of_loc] in *. rewrite EP in B, C.
      assert (m = w) as -> by nia. assert (r = false /\ t = false) as (-> & ->) by (destruct r, t; split; (reflexivity || lia)). reflexivity. }
    destruct (aux_exact false w q W0 DW ltac:(unfold q; lia)) as (my & MY & ->). exists my, q, q, 0. split; [reflexivity|]. split; [lia|]. split; [lia|]. split; [lia|]. split; [rewrite MY, <- EP; change (2 ^ 0) with 1; ring|]. change (Zdigits2 (Zpos my) = 24). rewrite MY. exact DW.
Qed.
Lemma smul_near s m e num : exact24 num -> -149 <= e -> exists c, snear (Zpos m * num * 2 ^ (e + 149)) 1 c /\ to_int64 (SFmul 24 128 (S754_finite s m e) (sgl_of num)) = fits s c.
Proof.
  intros H He. destruct (sgl_of_spec num H) as (my & ey & a0 & b0 & -> & A0 & B0 & EY & MY & _). unfold SFmul. replace (xorb s false) with s by (destruct s; reflexivity).
  destruct (saux_spec s (Zpos (m * my)) 1 (Zpos (m * my)) loc_Exact (e + ey)) as (q & K & K0 & Q0 & HE & V & A & L & R & C); [lia|lia|unfold rep; cbn [shr_record_of_loc shr_m shr_r shr_s]; lia|left; reflexivity|].
  exists (cut q (e + ey + K)). split; [|exact V]. exists q, (Zpos (m * my)), (1 * 2 ^ K), (e + ey + K). assert (0 < 2 ^ K) by (apply Z.pow_pos_nonneg; lia). repeat (split; [first [assumption|lia]|]). split; [|split; [reflexivity|split; [exact A|split; [exact L|split; [exact R|exact C]]]]].
  rewrite Pos2Z.inj_mul, Z.mul_1_l, Z.mul_1_r. apply (Z.mul_cancel_r _ _ (2 ^ b0)); [apply Z.pow_nonzero; lia|].
  enough (2 ^ (e + ey + K + 149) * 2 ^ b0 = 2 ^ a0 * (2 ^ (e + 149) * 2 ^ K)) as X.
  { transitivity (Zpos m * (num * 2 ^ b0) * (2 ^ (e + 149) * 2 ^ K)); [ring|]. rewrite <- MY. transitivity (Zpos m * Zpos my * (2 ^ (e + ey + K + 149) * 2 ^ b0)); [rewrite X; ring|ring]. }
  rewrite <- !Z.pow_add_r by lia. f_equal. lia.
Qed.
Lemma sdiv_near s m e den : exact24 den -> -149 <= e -> exists c, snear (Zpos m * 2 ^ (e + 149)) den c /\ to_int64 (SFdiv 24 128 (S754_finite s m e) (sgl_of den)) = fits s c.
Proof.
  intros H He. destruct (sgl_of_spec den H) as (my & ey & a0 & b0 & -> & A0 & B0 & EY & MY & _); pose proof (exact24_pos den H) as PDEN. unfold SFdiv, SFdiv_core_binary. replace (xorb s false) with s by (destruct s; reflexivity).
  set (d1 := Zdigits2 (Zpos m)). set (d2 := Zdigits2 (Zpos my)). set (e' := Z.min (fexp 24 128 (d1 + e - (d2 + ey))) (e - ey)). set (k := e - ey - e').
  assert (0 <= k) as K0 by (unfold k, e'; lia).
  assert ((match k with Z0 => Zpos m | Zpos _ => Z.shiftl (Zpos m) k | Zneg _ => 0 end) = Zpos m * 2 ^ k) as ->. { destruct k; [change (2 ^ 0) with 1; lia|apply Z.shiftl_mul_pow2; lia|lia]. }
  set (N := Zpos m * 2 ^ k). assert (0 < 2 ^ k) as PK by (apply Z.pow_pos_nonneg; lia). assert (0 < N) as PN by (unfold N; lia).
  assert (Z.div_eucl N (Zpos my) = (N / Zpos my, N mod Zpos my)) as -> by (unfold Z.div, Z.modulo; destruct (Z.div_eucl N (Zpos my)); reflexivity).
  destruct (saux_spec s N (Zpos my) (N / Zpos my) (new_location (Zpos my) (N mod Zpos my)) e') as (q & K & K1 & Q0 & HE & V & A & L & R & C); [lia|exact PN|apply new_loc_rep; lia| |].
  { right. assert (e' <= fexp 24 128 (d1 + e - (d2 + ey))) as E1 by (unfold e'; lia). rewrite sfexp_val in *. enough (d1 + k - d2 <= Zdigits2 (N / Zpos my)) by (unfold k in *; lia).
    pose proof (digits_spec (Zpos m) ltac:(lia)) as (M1 & _). fold d1 in M1. pose proof (digits_spec (Zpos my) ltac:(lia)) as (_ & M2). fold d2 in M2. assert (0 < d1) by (apply digits_pos; lia). assert (0 < d2) by (apply digits_pos; lia).
    destruct (Z_le_gt_dec (d1 + k - d2) 0) as [G|G]. { assert (forall z, 0 <= Zdigits2 z) as DN by (intros [|z|z]; cbn; lia). specialize (DN (N / Zpos my)). lia. }
    assert (2 ^ (d1 + k - d2 - 1) <= N / Zpos my) as LB.
    { apply Z.div_le_lower_bound; [lia|]. unfold N. apply Z.le_trans with (2 ^ d2 * 2 ^ (d1 + k - d2 - 1)); [apply Z.mul_le_mono_nonneg_r; [apply Z.pow_nonneg|]; lia|].
      rewrite <- Z.pow_add_r by lia. replace (d2 + (d1 + k - d2 - 1)) with (d1 - 1 + k) by lia. rewrite Z.pow_add_r by lia. apply Z.mul_le_mono_nonneg_r; lia. }
    assert (0 < 2 ^ (d1 + k - d2 - 1)) by (apply Z.pow_pos_nonneg; lia). pose proof (digits_spec (N / Zpos my) ltac:(lia)) as (_ & UB).
    destruct (Z_le_gt_dec (d1 + k - d2) (Zdigits2 (N / Zpos my))) as [|X]; [assumption|]. exfalso. assert (2 ^ Zdigits2 (N / Zpos my) <= 2 ^ (d1 + k - d2 - 1)) by (apply Z.pow_le_mono_r; lia). lia. }
  exists (cut q (e' + K)). split; [|exact V]. exists q, N, (Zpos my * 2 ^ K), (e' + K). assert (0 < 2 ^ K) by (apply Z.pow_pos_nonneg; lia). repeat (split; [first [assumption|lia]|]). split; [|split; [reflexivity|split; [exact A|split; [exact L|split; [exact R|exact C]]]]].
  unfold N. apply (Z.mul_cancel_r _ _ (2 ^ a0)); [apply Z.pow_nonzero; lia|].
  enough (2 ^ (e + 149) * 2 ^ b0 * 2 ^ K = 2 ^ k * 2 ^ (e' + K + 149) * 2 ^ a0) as X.
  { transitivity (Zpos m * (Zpos my * 2 ^ a0) * (2 ^ (e + 149) * 2 ^ K)); [ring|]. rewrite MY. transitivity (Zpos m * den * (2 ^ (e + 149) * 2 ^ b0 * 2 ^ K)); [ring|]. rewrite X. ring. }
  rewrite <- !Z.pow_add_r by lia. f_equal. unfold k. lia.
Qed.
Lemma sid_near s m e : -149 <= e -> exists c, snear (Zpos m * 2 ^ (e + 149)) 1 c /\ to_int64 (S754_finite s m e) = fits s c.
Proof.
  intros He. exists (cut (Zpos m) e). split; [|reflexivity]. exists (Zpos m), (Zpos m), 1, e. repeat (split; [first [lia|reflexivity]|]). left. lia.
Qed.
Lemma single_low s m e : is_single (S754_finite s m e) -> -149 <= e.
Proof. unfold is_single. cbn [valid_binary]. unfold bounded, canonical_mantissa. intros H. apply andb_prop in H as (H & _). apply Zeq_bool_eq in H. rewrite sfexp_val in H. lia. Qed.
Lemma scast_near num den s m e : exact24 num -> exact24 den -> num = 1 \/ den = 1 -> is_single (S754_finite s m e) ->
  exists c, snear (Zpos m * num * 2 ^ (e + 149)) den c /\ single_cast num den (S754_finite s m e) = fits s c.
Proof.
  intros HN HD H1 HX. apply single_low in HX. unfold single_cast. destruct (Z.eqb_spec num 1) as [-> |NN].
  - rewrite Z.mul_1_r. destruct (Z.eqb_spec den 1) as [-> |ND]; [apply sid_near, HX|apply sdiv_near; assumption].
  - destruct H1 as [H1|H1]; [contradiction|]. subst den. cbn [Z.eqb Pos.eqb]. apply smul_near; assumption.
Qed.

Lemma snear_lower P Q c w j : snear P Q c -> 0 < Q -> 0 <= w <= 2 ^ 24 -> 0 <= j -> w * 2 ^ j * 2 ^ 149 * Q <= P -> w * 2 ^ j <= c.
Proof.
  intros (q & N & DD & E & HD & HN & Hq & HE & EQ & Hc & A & L & R & C) HQ Hw Hj H. pose proof (scut_spec q E Hq HE) as (CL & CU). rewrite <- Hc in *. clear Hc A R.
  assert (0 < 2 ^ j) as PJ by (apply Z.pow_pos_nonneg; lia). assert (0 < 2 ^ (E + 149)) as PT by (apply Z.pow_pos_nonneg; lia).
  enough (w * 2 ^ j * 2 ^ 149 <= q * 2 ^ (E + 149)) as X. { assert (w * 2 ^ j < c + 1) as Y; [|lia]. apply (Z.mul_lt_mono_pos_r (2 ^ 149)); [apply Z.pow_pos_nonneg; lia|]. eapply Z.le_lt_trans; eassumption. }
  destruct (Z_le_gt_dec E j) as [G|G].
  - assert (w * 2 ^ j * 2 ^ 149 = w * 2 ^ (j - E) * 2 ^ (E + 149)) as EA. { rewrite <- !Z.mul_assoc, <- !Z.pow_add_r by lia. f_equal. f_equal. lia. }
    rewrite EA in *. apply grow; [lia|]. apply L. apply (canc _ _ (2 ^ (E + 149) * Q)); [apply Z.mul_pos_pos; assumption|].
    rewrite (Z.mul_assoc N), <- EQ. apply (grow _ _ DD) in H; [|lia]. eapply Z.le_trans; [|exact H]. apply Z.eq_le_incl. ring.
  - destruct C as [C|[(C & _)|C]]; [|lia|].
    + apply (canc _ _ Q HQ). eapply Z.le_trans; [exact H|]. apply (canc _ _ DD HD). rewrite EQ, <- C. apply Z.eq_le_incl. ring.
    + apply L in C. apply Z.le_trans with (2 ^ 23 * 2 ^ (E + 149)); [|apply grow; [lia|exact C]].
      rewrite (Z.pow_add_r 2 E) by lia. rewrite Z.mul_assoc. apply grow; [apply Z.pow_nonneg; lia|].
      apply Z.le_trans with (2 ^ 24 * 2 ^ j); [apply grow; lia|]. rewrite <- !Z.pow_add_r by lia. apply Z.pow_le_mono_r; lia.
Qed.
Lemma snear_upper P Q c w j : snear P Q c -> 0 < Q -> 0 <= w <= 2 ^ 24 -> 0 <= j -> P <= w * 2 ^ j * 2 ^ 149 * Q -> c <= w * 2 ^ j.
Proof.
  intros (q & N & DD & E & HD & HN & Hq & HE & EQ & Hc & A & L & R & C) HQ Hw Hj H. pose proof (scut_spec q E Hq HE) as (CL & CU). rewrite <- Hc in *. clear Hc A CU.
  assert (0 < 2 ^ j) as PJ by (apply Z.pow_pos_nonneg; lia). assert (0 < 2 ^ (E + 149)) as PT by (apply Z.pow_pos_nonneg; lia).
  enough (q * 2 ^ (E + 149) <= w * 2 ^ j * 2 ^ 149) as X. { apply (canc _ _ (2 ^ 149)); [apply Z.pow_pos_nonneg; lia|]. eapply Z.le_trans; eassumption. }
  destruct (Z_le_gt_dec E j) as [G|G].
  - assert (w * 2 ^ j * 2 ^ 149 = w * 2 ^ (j - E) * 2 ^ (E + 149)) as EA. { rewrite <- !Z.mul_assoc, <- !Z.pow_add_r by lia. f_equal. f_equal. lia. }
    rewrite EA in *. apply grow; [lia|]. apply R. apply (canc _ _ (2 ^ (E + 149) * Q)); [apply Z.mul_pos_pos; assumption|].
    rewrite (Z.mul_assoc N), <- EQ. apply (grow _ _ DD) in H; [|lia]. eapply Z.le_trans; [exact H|]. apply Z.eq_le_incl. ring.
  - destruct C as [C|[(C & _)|C]]; [|lia|].
    + apply (canc _ _ Q HQ). eapply Z.le_trans; [|exact H]. apply (canc _ _ DD HD). rewrite EQ, <- C. apply Z.eq_le_incl. ring.
    + assert (w * 2 ^ j * 2 ^ 149 <= 2 ^ 23 * 2 ^ (E + 149)) as S.
      { rewrite (Z.pow_add_r 2 E) by lia. rewrite (Z.mul_assoc (2 ^ 23)). apply grow; [apply Z.pow_nonneg; lia|]. apply Z.le_trans with (2 ^ 24 * 2 ^ j); [apply grow; lia|]. rewrite <- !Z.pow_add_r by lia. apply Z.pow_le_mono_r; lia. }
      assert (P <= 2 ^ 23 * 2 ^ (E + 149) * Q) as S1. { eapply Z.le_trans; [exact H|]. apply grow; [lia|exact S]. }
      assert (q <= 2 ^ 23) as Q52. { apply R. apply (canc _ _ (2 ^ (E + 149) * Q)); [apply Z.mul_pos_pos; assumption|]. rewrite (Z.mul_assoc N), <- EQ. apply (grow _ _ DD) in S1; [|lia]. eapply Z.le_trans; [exact S1|]. apply Z.eq_le_incl. ring. }
      apply Z.le_trans with (2 ^ 23 * 2 ^ (E + 149)); [apply grow; [lia|exact Q52]|]. apply (canc _ _ Q HQ). eapply Z.le_trans; [|exact H]. apply (canc _ _ DD HD). rewrite EQ.
      apply (grow _ _ (2 ^ (E + 149) * Q)) in C; [|apply Z.lt_le_incl, Z.mul_pos_pos; assumption]. eapply Z.le_trans; [|eapply Z.le_trans; [exact C|]]; apply Z.eq_le_incl; ring.
Qed.
(** The rounding is off by at most one part in 2^24; then the fraction is cut off. *)
Lemma snear_rel P Q c : snear P Q c -> 0 < Q -> 0 <= P -> 2 ^ 24 * (c * (Q * 2 ^ 149)) <= (2 ^ 24 + 1) * P /\ (2 ^ 24 - 1) * P < 2 ^ 24 * ((c + 1) * (Q * 2 ^ 149)).
Proof.
  intros (q & N & DD & E & HD & HN & Hq & HE & EQ & Hc & A & L & R & C) HQ HP. pose proof (scut_spec q E Hq HE) as (CL & CU). rewrite <- Hc in *. assert (0 < 2 ^ (E + 149)) as PT by (apply Z.pow_pos_nonneg; lia).
  assert (0 < 2 ^ 149) as PU by (apply Z.pow_pos_nonneg; lia). assert (2 ^ 26 <= 2 ^ 149) as BU by (apply Z.pow_le_mono_r; lia).
  assert (0 <= c) as C0. { destruct (Z_le_gt_dec 0 c); [assumption|]. exfalso. assert ((c + 1) * 2 ^ 149 <= 0) by nia. assert (0 <= q * 2 ^ (E + 149)) by nia. lia. }
  destruct C as [C|[(C & B)|C]].
  - assert (P = q * 2 ^ (E + 149) * Q) as EP. { apply (Z.mul_cancel_r _ _ DD); [lia|]. rewrite EQ, <- C. ring. }
    set (V := q * 2 ^ (E + 149)) in *. set (U := 2 ^ 149) in *. clearbody V U. subst P. apply (grow _ _ Q) in CL; [|lia]. assert (V * Q < (c + 1) * U * Q) as CV by (apply Z.mul_lt_mono_pos_r; assumption). split; lia.
  - subst E. change (-149 + 149) with 0 in *. change (2 ^ 0) with 1 in *. set (U := 2 ^ 149) in *. clearbody U. assert (c = 0) as -> by nia.
    assert (P <= (2 ^ 24 + 1) * Q) as PB. { apply (canc _ _ DD HD). rewrite EQ. assert (N <= (2 ^ 24 + 1) * DD) as NB by nia. apply (grow _ _ Q) in NB; lia. }
    split; [lia|]. assert (Q * 2 ^ 26 <= Q * U) by (apply Z.mul_le_mono_nonneg_l; lia). lia.
  - set (U := 2 ^ 149) in *. set (T := 2 ^ (E + 149)) in *. clearbody U T.
    assert (2 ^ 24 * (q * DD) <= (2 ^ 24 + 1) * N) as X1 by lia. assert ((2 ^ 24 - 1) * N <= 2 ^ 24 * (q * DD)) as X2 by lia.
    assert (0 < T * Q) as TQ by (apply Z.mul_pos_pos; assumption). apply (grow _ _ (T * Q)) in X1; [|lia]. apply (grow _ _ (T * Q)) in X2; [|lia].
    apply (grow _ _ (Q * DD)) in CL; [|nia]. assert (q * T * (Q * DD) < (c + 1) * U * (Q * DD)) as CV by (apply Z.mul_lt_mono_pos_r; [apply Z.mul_pos_pos; assumption|assumption]).
    split; [apply (canc _ _ DD HD)|apply (Z.mul_lt_mono_pos_r DD _ _ HD)].
    + replace ((2 ^ 24 + 1) * P * DD) with ((2 ^ 24 + 1) * (P * DD)) by ring. rewrite EQ. lia.
    + replace ((2 ^ 24 - 1) * P * DD) with ((2 ^ 24 - 1) * (P * DD)) by ring. rewrite EQ. lia.
Qed.

(** ** C93 *)

(** The value of a float that is a number, in multiples of the smallest positive float (2^-149).  Specification; no counterpart in /repo. *)
Definition sval (x : single) : Z := match x with S754_finite s m e => if s then - (Zpos m * 2 ^ (e + 149)) else Zpos m * 2 ^ (e + 149) | _ => 0 end.
(** The tick of [pn]/[pd] seconds is a whole multiple or a whole fraction of the unit of 1/[sub] second and the ratio is
    exact in a float.  That holds for seconds, milliseconds, microseconds and nanoseconds; on Windows also for minutes and hours.  Specification; no counterpart in /repo. *)
Definition single_tick (sub pn pd : Z) : Prop := 0 < sub /\ 0 < pn /\ 0 < pd /\ ((exists k, exact24 k /\ pn * sub = k * pd) \/ (exists k, exact24 k /\ pd = k * (pn * sub))).
(** What the user asks for is [sask]/[sone] units.  Specification; no counterpart in /repo. *)
Definition sask (sub pn : Z) (x : single) : Z := sval x * pn * sub.
(** One unit, on the scale of [sask].  Specification; no counterpart in /repo. *)
Definition sone (pd : Z) : Z := pd * 2 ^ 149.

Lemma sratio_plain sub pn pd : single_tick sub pn pd -> let g := Z.gcd (pn * sub) pd in let num := pn * sub / g in let den := pd / g in
  exact24 num /\ exact24 den /\ (num = 1 \/ den = 1) /\ pn * sub = num * g /\ pd = den * g /\ 0 < g.
Proof.
  intros (S0 & N0 & D0 & DV). assert (exact24 1) as E1 by (split; [lia|]; exists 1, 0; lia). cbv zeta. assert (0 < pn * sub) as NS by (apply Z.mul_pos_pos; assumption). set (a := pn * sub) in *. clearbody a.
  destruct DV as [(k & KE & DV)|(k & KE & DV)]; pose proof (exact24_pos k KE) as K0.
  - assert (Z.gcd a pd = pd) as ->. { rewrite DV, Z.gcd_comm, (Z.mul_comm k). rewrite Z.gcd_mul_diag_l; lia. }
    rewrite Z.div_same by lia. rewrite DV, Z.div_mul by lia. repeat (split; [first [exact KE|exact E1|lia]|]). lia.
  - assert (Z.gcd a pd = a) as ->. { rewrite DV, (Z.mul_comm k). rewrite Z.gcd_mul_diag_l; lia. }
    rewrite Z.div_same by lia. rewrite DV, Z.div_mul by lia. repeat (split; [first [exact KE|exact E1|lia]|]). lia.
Qed.
Lemma szero_units sub pn pd b : single_tick sub pn pd -> single_units sub pn pd (S754_zero b) = Some 0.
Proof.
  intros H. destruct (sratio_plain _ _ _ H) as (A & B & C & _). cbv zeta in *. unfold single_units, single_cast. set (n := pn * sub / _) in *. set (d := pd / _) in *. clearbody n d.
  destruct (Z.eqb_spec n 1) as [-> |N1].
  - destruct (Z.eqb_spec d 1); [reflexivity|]. destruct (sgl_of_spec d B) as (my & ey & a0 & b0 & -> & _). reflexivity.
  - destruct C as [C|C]; [contradiction|]. rewrite C, Z.eqb_refl. destruct (sgl_of_spec n A) as (my & ey & a0 & b0 & -> & _). reflexivity.
Qed.
(** The whole conversion of a number: [c] is the size of the result. *)
Lemma sunits_near sub pn pd x : single_tick sub pn pd -> is_single x -> number x ->
  exists s c P Q g, single_units sub pn pd x = fits s c /\ snear P Q c /\ 0 < Q /\ 0 <= P /\ 0 < g /\ sask sub pn x = (if s then - P else P) * g /\ sone pd = Q * 2 ^ 149 * g.
Proof.
  intros H HX NX. destruct (sratio_plain _ _ _ H) as (A & B & C & EN & ED & G). cbv zeta in *. unfold sask, sone. pose proof (exact24_pos _ A) as PA. pose proof (exact24_pos _ B) as PB. destruct x as [b|b| |s m e]; try contradiction.
  - exists false, 0, 0, (pd / Z.gcd (pn * sub) pd), (Z.gcd (pn * sub) pd). rewrite (szero_units sub pn pd b H). split; [reflexivity|]. split.
    { exists 0, 0, 1, 0. split; [lia|]. split; [lia|]. split; [lia|]. split; [lia|]. split; [ring|]. split; [reflexivity|]. split; [lia|]. split; [lia|]. split; [lia|left; lia]. }
    split; [lia|]. split; [lia|]. split; [exact G|]. split; [cbn [sval]; ring|]. rewrite ED at 1. ring.
  - destruct (scast_near _ _ s m e A B C HX) as (c & NC & V). unfold single_units. exists s, c, (Zpos m * (pn * sub / Z.gcd (pn * sub) pd) * 2 ^ (e + 149)), (pd / Z.gcd (pn * sub) pd), (Z.gcd (pn * sub) pd).
    split; [exact V|]. split; [exact NC|]. split; [lia|]. split; [apply Z.mul_nonneg_nonneg; [lia|apply Z.pow_nonneg; lia]|]. split; [exact G|]. split; [|rewrite ED at 1; ring].
    cbn [sval]. rewrite <- Z.mul_assoc. rewrite EN at 1. destruct s; ring.
Qed.
Lemma snear_nonneg P Q c : snear P Q c -> 0 <= c.
Proof. intros (q & N & DD & E & HD & HN & Hq & HE & EQ & Hc & _). rewrite Hc. unfold cut. destruct (Z.leb_spec 0 E); [apply Z.mul_nonneg_nonneg; [assumption|apply Z.pow_nonneg; lia]|apply Z.div_pos; [assumption|apply Z.pow_pos_nonneg; lia]]. Qed.

(** Never on the wrong side of a whole number of units that a float can hold: whoever asks for at least [z] units gets at least [z], whoever asks for at most [z] gets
    at most [z]; likewise for negative durations. *)
Theorem C93_single_whole : forall sub pn pd x r, single_tick sub pn pd -> is_single x -> number x -> single_units sub pn pd x = Some r ->
  forall w j, 0 <= w <= 2 ^ 24 -> 0 <= j -> let z := w * 2 ^ j in
  (z * sone pd <= sask sub pn x -> z <= r) /\ (sask sub pn x <= z * sone pd -> r <= z) /\ (- z * sone pd <= sask sub pn x -> - z <= r) /\ (sask sub pn x <= - z * sone pd -> r <= - z).
Proof.
  intros sub pn pd x r HT HX NX HR w j Hw Hj. cbv zeta. destruct (sunits_near _ _ _ _ HT HX NX) as (s & c & P & Q & g & V & NC & HQ & HP & Hg & EA & EO). rewrite HR in V. symmetry in V. apply fits_some in V.
  rewrite EA, EO. pose proof (snear_nonneg _ _ _ NC) as C0. pose proof (snear_lower P Q c w j NC HQ Hw Hj) as LO. pose proof (snear_upper P Q c w j NC HQ Hw Hj) as UP.
  assert (0 <= w * 2 ^ j) as Z0 by (apply Z.mul_nonneg_nonneg; [lia|apply Z.pow_nonneg; lia]). assert (0 < 2 ^ 149) as U0 by (apply Z.pow_pos_nonneg; lia). set (z := w * 2 ^ j) in *. clearbody z.
  assert (P <= 0 -> c <= 0) as CZ. { intros PZ. assert (P = 0) by lia. pose proof (snear_upper P Q c 0 0 NC HQ ltac:(lia) ltac:(lia)) as X. change (0 * 2 ^ 0) with 0 in X. apply X. lia. }
  set (U := 2 ^ 149) in *. clearbody U.
  assert (0 < Q * U) as QU by (apply Z.mul_pos_pos; assumption).
  assert (forall a, a * (Q * U * g) = a * U * Q * g) as ER by (intros; ring). rewrite !ER.
  assert (0 <= z * U * Q) as ZU by (apply Z.mul_nonneg_nonneg; [apply Z.mul_nonneg_nonneg|]; lia).
  assert (0 < z -> 0 < z * U * Q) as ZP by (intros; apply Z.mul_pos_pos; [apply Z.mul_pos_pos|]; lia).
  assert (- z * U * Q = - (z * U * Q)) as ZN by ring. rewrite ZN.
  subst r. destruct s; (split; [|split; [|split]]); intros H; apply (canc _ _ g Hg) in H; lia.
Qed.
Print Assumptions C93_single_whole.
(** The conversion is defined up to 2^63 - 2^39 units (292 years of nanoseconds) either way, and undefined from 2^63 units, for infinity and for NaN. *)
Theorem C93_single_defined : forall sub pn pd x, single_tick sub pn pd -> is_single x ->
  (number x -> Z.abs (sask sub pn x) <= (2 ^ 63 - 2 ^ 39) * sone pd -> exists r, single_units sub pn pd x = Some r /\ - 2 ^ 63 < r < 2 ^ 63) /\
  (number x -> 2 ^ 63 * sone pd <= sask sub pn x -> single_units sub pn pd x = None) /\
  (~ number x -> single_units sub pn pd x = None).
Proof.
  intros sub pn pd x HT HX. split; [|split].
  - intros NX HA. destruct (sunits_near _ _ _ _ HT HX NX) as (s & c & P & Q & g & V & NC & HQ & HP & Hg & EA & EO). rewrite V. pose proof (snear_nonneg _ _ _ NC) as C0.
    assert (c <= (2 ^ 24 - 1) * 2 ^ 39) as UP. { apply (snear_upper P Q c (2 ^ 24 - 1) 39 NC HQ ltac:(lia) ltac:(lia)). apply (canc _ _ g Hg). replace (Z.abs (sask sub pn x)) with (P * g) in HA by (rewrite EA; destruct s; nia). rewrite EO in HA. eapply Z.le_trans; [exact HA|]. apply Z.eq_le_incl. ring. }
    unfold fits. destruct s; cbv zeta.
    + exists (- c). destruct (Z.leb_spec (- 2 ^ 63) (- c)); [|lia]. destruct (Z.ltb_spec (- c) (2 ^ 63)); [|lia]. split; [reflexivity|lia].
    + exists c. destruct (Z.leb_spec (- 2 ^ 63) c); [|lia]. destruct (Z.ltb_spec c (2 ^ 63)); [|lia]. split; [reflexivity|lia].
  - intros NX HA. destruct (sunits_near _ _ _ _ HT HX NX) as (s & c & P & Q & g & V & NC & HQ & HP & Hg & EA & EO). rewrite V. rewrite EA, EO in HA. assert (0 < 2 ^ 149) as U0 by (apply Z.pow_pos_nonneg; lia).
    assert (0 < 2 ^ 63 * (Q * 2 ^ 149 * g)) as PP by (apply Z.mul_pos_pos; [lia|apply Z.mul_pos_pos; [apply Z.mul_pos_pos; assumption|assumption]]). destruct s; [assert (0 <= P * g) by (apply Z.mul_nonneg_nonneg; lia); rewrite Z.mul_opp_l in HA; lia|].
    assert (1 * 2 ^ 63 <= c) as LO. { apply (snear_lower P Q c 1 63 NC HQ ltac:(lia) ltac:(lia)). apply (canc _ _ g Hg). eapply Z.le_trans; [|exact HA]. apply Z.eq_le_incl. ring. }
    unfold fits. destruct (Z.ltb_spec c (2 ^ 63)); [lia|]. rewrite andb_false_r. reflexivity.
  - intros NX. destruct (sratio_plain _ _ _ HT) as (A & B & C & _). cbv zeta in *. unfold single_units, single_cast. set (n := pn * sub / _) in *. set (d := pd / _) in *. clearbody n d.
    destruct x as [b|b| |s m e]; cbn [number] in NX; try (exfalso; apply NX; exact I); (destruct (Z.eqb_spec n 1) as [-> |N1];
      [destruct (Z.eqb_spec d 1); [reflexivity|]; destruct (sgl_of_spec d B) as (my & ey & a0 & b0 & -> & _); reflexivity
      |destruct C as [C|C]; [contradiction|]; rewrite C, Z.eqb_refl; destruct (sgl_of_spec n A) as (my & ey & a0 & b0 & -> & _); reflexivity]).
Qed.
Print Assumptions C93_single_defined.
(** Whole numbers of units up to 2^24 (16 milliseconds of nanoseconds, 4 hours of milliseconds) are converted exactly. *)
Theorem C93_single_exact : forall sub pn pd x z, single_tick sub pn pd -> is_single x -> number x -> Z.abs z <= 2 ^ 24 -> sask sub pn x = z * sone pd -> single_units sub pn pd x = Some z.
Proof.
  intros sub pn pd x z HT HX NX HZ HA. assert (0 < sone pd) as O by (unfold sone; apply Z.mul_pos_pos; [apply HT|apply Z.pow_pos_nonneg; lia]).
  destruct (C93_single_defined _ _ _ _ HT HX) as (DF & _). destruct (DF NX) as (r & HR & _). { rewrite HA, Z.abs_mul, (Z.abs_eq (sone pd)) by lia. apply grow; lia. }
  pose proof (C93_single_whole _ _ _ _ _ HT HX NX HR (Z.abs z) 0 ltac:(lia) ltac:(lia)) as W. cbv zeta in W. replace (Z.abs z * 2 ^ 0) with (Z.abs z) in W by (change (2 ^ 0) with 1; ring). rewrite HR. f_equal. rewrite HA in W.
  destruct (Z.abs_spec z) as [(S & E)|(S & E)]; rewrite E in W; destruct W as (W1 & W2 & W3 & W4); [specialize (W1 ltac:(lia)); specialize (W2 ltac:(lia)); lia|]. rewrite Z.opp_involutive in W3, W4. specialize (W3 ltac:(lia)). specialize (W4 ltac:(lia)). lia.
Qed.
Print Assumptions C93_single_exact.
(** Up to 2^24 units (16 milliseconds of nanoseconds, 4 hours of milliseconds) the result is less than one unit off. *)
Theorem C93_single_within_unit : forall sub pn pd x, single_tick sub pn pd -> is_single x -> number x -> Z.abs (sask sub pn x) <= 2 ^ 24 * sone pd ->
  exists r, single_units sub pn pd x = Some r /\ Z.abs (r * sone pd - sask sub pn x) < sone pd.
Proof.
  intros sub pn pd x HT HX NX HA. assert (0 < sone pd) as O by (unfold sone; apply Z.mul_pos_pos; [apply HT|apply Z.pow_pos_nonneg; lia]).
  destruct (C93_single_defined _ _ _ _ HT HX) as (DF & _). destruct (DF NX) as (r & HR & _). { eapply Z.le_trans; [exact HA|]. apply grow; lia. }
  exists r. split; [exact HR|]. pose proof (C93_single_whole _ _ _ _ _ HT HX NX HR) as W. set (A := sask sub pn x) in *. set (D := sone pd) in *. clearbody A D.
  assert (forall v, 0 <= v <= 2 ^ 24 -> (v * D <= A -> v <= r) /\ (A <= v * D -> r <= v) /\ (- v * D <= A -> - v <= r) /\ (A <= - v * D -> r <= - v)) as W0.
  { intros v HV. pose proof (W v 0 HV ltac:(lia)) as X. cbv zeta in X. replace (v * 2 ^ 0) with v in X by (change (2 ^ 0) with 1; ring). exact X. }
  pose proof (Z.div_mod (Z.abs A) D ltac:(lia)) as E. pose proof (Z.mod_pos_bound (Z.abs A) D O) as B. set (z := Z.abs A / D) in *. set (f := Z.abs A mod D) in *. assert (0 <= z) as Z0 by (apply Z.div_pos; lia). clearbody z f.
  assert (z <= 2 ^ 24) as Z1. { destruct (Z_le_gt_dec z (2 ^ 24)); [assumption|]. exfalso. assert ((2 ^ 24 + 1) * D <= z * D) by (apply grow; lia). lia. }
  destruct (Z.eq_dec f 0) as [F|F].
  - destruct (W0 z ltac:(lia)) as (W1 & W2 & W3 & W4). destruct (Z.abs_spec A) as [(S & EA)|(S & EA)]; rewrite EA in E.
    + specialize (W1 ltac:(lia)). specialize (W2 ltac:(lia)). assert (r = z) as -> by lia. lia.
    + specialize (W3 ltac:(lia)). specialize (W4 ltac:(lia)). assert (r = - z) as -> by lia. lia.
  - assert (z + 1 <= 2 ^ 24) as Z2. { destruct (Z_le_gt_dec (z + 1) (2 ^ 24)); [assumption|]. exfalso. assert (z = 2 ^ 24) as Y by lia. rewrite Y in *. lia. }
    destruct (W0 z ltac:(lia)) as (W1 & W2 & W3 & W4). destruct (W0 (z + 1) ltac:(lia)) as (V1 & V2 & V3 & V4). destruct (Z.abs_spec A) as [(S & EA)|(S & EA)]; rewrite EA in E.
    + specialize (W1 ltac:(lia)). specialize (V2 ltac:(lia)). assert (r = z \/ r = z + 1) as [-> | ->] by lia; lia.
    + specialize (W4 ltac:(lia)). specialize (V3 ltac:(lia)). assert (r = - z \/ r = - (z + 1)) as [-> | ->] by lia; lia.
Qed.
Print Assumptions C93_single_within_unit.
(** Beyond that it is off by one part in 2^24 and one unit; 2^61 units (73 years of nanoseconds) by less than 2^37 + 1 units (137 s).  It never
    changes sign. *)
Theorem C93_single_accuracy : forall sub pn pd x r, single_tick sub pn pd -> is_single x -> number x -> single_units sub pn pd x = Some r ->
  2 ^ 24 * (Z.abs r * sone pd) <= (2 ^ 24 + 1) * Z.abs (sask sub pn x) /\ (2 ^ 24 - 1) * Z.abs (sask sub pn x) < 2 ^ 24 * ((Z.abs r + 1) * sone pd) /\
  (0 <= sask sub pn x -> 0 <= r) /\ (sask sub pn x <= 0 -> r <= 0) /\
  (Z.abs (sask sub pn x) <= 2 ^ 61 * sone pd -> Z.abs (r * sone pd - sask sub pn x) < (2 ^ 37 + 1) * sone pd).
Proof.
  intros sub pn pd x r HT HX NX HR. assert (0 < sone pd) as O by (unfold sone; apply Z.mul_pos_pos; [apply HT|apply Z.pow_pos_nonneg; lia]).
  pose proof (C93_single_whole _ _ _ _ _ HT HX NX HR 0 0 ltac:(lia) ltac:(lia)) as (S1 & S2 & _). change (0 * 2 ^ 0) with 0 in *. rewrite !Z.mul_0_l in *.
  assert (2 ^ 24 * (Z.abs r * sone pd) <= (2 ^ 24 + 1) * Z.abs (sask sub pn x) /\ (2 ^ 24 - 1) * Z.abs (sask sub pn x) < 2 ^ 24 * ((Z.abs r + 1) * sone pd)) as (X1 & X2).
  { destruct (sunits_near _ _ _ _ HT HX NX) as (s & c & P & Q & g & V & NC & HQ & HP & Hg & EA & EO). rewrite HR in V. symmetry in V. apply fits_some in V. pose proof (snear_nonneg _ _ _ NC) as C0.
    destruct (snear_rel _ _ _ NC HQ HP) as (R1 & R2). replace (Z.abs (sask sub pn x)) with (P * g) by (rewrite EA; destruct s; nia). replace (Z.abs r) with c by (subst r; destruct s; lia). rewrite EO. set (U := 2 ^ 149) in *. clearbody U.
    split; [apply (grow _ _ g) in R1; [|lia]; eapply Z.le_trans; [|eapply Z.le_trans; [exact R1|]]; apply Z.eq_le_incl; ring|].
    apply (Z.mul_lt_mono_pos_r g _ _ Hg) in R2. eapply Z.le_lt_trans; [|eapply Z.lt_le_trans; [exact R2|]]; apply Z.eq_le_incl; ring. }
  split; [exact X1|]. split; [exact X2|]. split; [exact S1|]. split; [exact S2|]. intros HA. set (A := sask sub pn x) in *. set (D := sone pd) in *. clearbody A D.
  destruct (Z.abs_spec A) as [(S & EA)|(S & EA)]; rewrite EA in *.
  - specialize (S1 S). rewrite (Z.abs_eq r) in * by lia. lia.
  - specialize (S2 ltac:(lia)). rewrite (Z.abs_neq r) in * by lia. lia.
Qed.
Print Assumptions C93_single_accuracy.
(** Refuted: duration<float>::max() as a timeout is undefined behaviour, not a wait without end (nor is infinity, see C93_single_defined). *)
Theorem C93_single_forever_refuted : exists x, is_single x /\ number x /\ (forall y, is_single y -> sval y <= sval x) /\ single_units 1000000000 1 1 x = None /\ single_units 1000 1 1 x = None.
Proof.
  exists (S754_finite false 16777215 104). split; [reflexivity|]. split; [exact I|]. split; [|split; reflexivity].
  assert (0 <= 2 ^ (104 + 149)) as P0 by (apply Z.pow_nonneg; lia). intros [b|b| |s m e] HY; cbn [sval]; try (apply Z.mul_nonneg_nonneg; lia).
  assert (0 <= Zpos m * 2 ^ (e + 149)) as PM by (apply Z.mul_nonneg_nonneg; [|apply Z.pow_nonneg]; lia).
  assert (Zpos m * 2 ^ (e + 149) <= 16777215 * 2 ^ (104 + 149)); [|destruct s; lia].
  unfold is_single in HY. cbn [valid_binary] in HY. unfold bounded, canonical_mantissa in HY. apply andb_prop in HY as (H1 & H2). apply Zeq_bool_eq in H1. apply Zle_bool_imp_le in H2. change (128 - 24) with 104 in H2. rewrite sfexp_val in H1.
  pose proof (digits_spec (Zpos m) ltac:(lia)) as (_ & DH). cbn [Zdigits2] in DH. assert (2 ^ Z.pos (digits2_pos m) <= 2 ^ 24) as PW by (apply Z.pow_le_mono_r; lia).
  apply Z.le_trans with (Zpos m * 2 ^ (104 + 149)); [apply Z.mul_le_mono_nonneg_l; [lia|]; apply Z.pow_le_mono_r; lia|]. apply grow; [exact P0|lia].
Qed.
Print Assumptions C93_single_forever_refuted.
(** Refuted: a whole number of units asked for is what is waited.  4.5f seconds are 4499999744 ns on POSIX, 256 ns too short; 30 seconds are 1024 ns too long; and 0.1f seconds,
    which is 100000001.49 ns, are 100000000 ns.  On Windows the same requests are exact. *)
Theorem C93_single_short_refuted :
  (exists x, is_single x /\ sask 1000000000 1 x = 4500000000 * sone 1 /\ single_units 1000000000 1 1 x = Some 4499999744 /\ single_units 1000 1 1 x = Some 4500) /\
  (exists x, is_single x /\ sask 1000000000 1 x = 30000000000 * sone 1 /\ single_units 1000000000 1 1 x = Some 30000001024 /\ single_units 1000 1 1 x = Some 30000) /\
  (exists x, is_single x /\ 100000001 * sone 1 < sask 1000000000 1 x /\ single_units 1000000000 1 1 x = Some 100000000 /\ single_units 1000 1 1 x = Some 100).
Proof.
  split; [exists (S754_finite false 9437184 (-21))|split; [exists (S754_finite false 15728640 (-19))|exists (S754_finite false 13421773 (-27))]]; split; try reflexivity; split; try reflexivity; split; reflexivity.
Qed.
Print Assumptions C93_single_short_refuted.
(** Refuted: the bounds of C93_single_accuracy hold for minutes too.  60000000000 is not exact in a float; five minutes on POSIX are 18432 ns too long,
    which is more than one part in 2^24. *)
Theorem C93_single_minutes_refuted : exists x, is_single x /\ sask 1000000000 60 x = 300000000000 * sone 1 /\ single_units 1000000000 60 1 x = Some 300000018432 /\
  (2 ^ 24 + 1) * sask 1000000000 60 x < 2 ^ 24 * (300000018432 * sone 1).
Proof. exists (S754_finite false 10485760 (-21)). split; [reflexivity|]. split; [reflexivity|]. split; reflexivity. Qed.
Print Assumptions C93_single_minutes_refuted.

(** Minutes and hours of float on POSIX: off by one part in 2^22 and one unit; never of the other sign; defined up to 2^62 units. *)
Lemma single_long pn q x : (pn = 60 /\ q = 60000002048) \/ (pn = 3600 /\ q = 3599999959040) -> single_units 1000000000 pn 1 x = single_units 1 q 1 x.
Proof. intros [(-> & ->)|(-> & ->)]; reflexivity. Qed.
Theorem C93_single_long : forall pn x, pn = 60 \/ pn = 3600 -> is_single x -> number x ->
  (forall r, single_units 1000000000 pn 1 x = Some r ->
    2 ^ 22 * (Z.abs r * sone 1) <= (2 ^ 22 + 1) * Z.abs (sask 1000000000 pn x) /\ (2 ^ 22 - 1) * Z.abs (sask 1000000000 pn x) < 2 ^ 22 * ((Z.abs r + 1) * sone 1) /\
    (0 <= sask 1000000000 pn x -> 0 <= r) /\ (sask 1000000000 pn x <= 0 -> r <= 0)) /\
  (Z.abs (sask 1000000000 pn x) <= 2 ^ 62 * sone 1 -> exists r, single_units 1000000000 pn 1 x = Some r).
Proof.
  intros pn x HP HX NX. assert (exists q, ((pn = 60 /\ q = 60000002048) \/ (pn = 3600 /\ q = 3599999959040)) /\ single_tick 1 q 1) as (q & HQ & HT).
  { destruct HP as [-> | ->]; [exists 60000002048; split; [left; split; reflexivity|]|exists 3599999959040; split; [right; split; reflexivity|]]; (split; [lia|]; split; [lia|]; split; [lia|]; left).
    - exists 60000002048. split; [|reflexivity]. split; [lia|]. exists 14648438, 12. lia.
    - exists 3599999959040. split; [|reflexivity]. split; [lia|]. exists (3599999959040 / 2 ^ 18), 18. split; [split; reflexivity|split; [lia|reflexivity]]. }
  rewrite (single_long pn q x HQ). assert (0 < sone 1) as O by (unfold sone; apply Z.mul_pos_pos; [lia|apply Z.pow_pos_nonneg; lia]). unfold sask in *. set (v := sval x) in *. split.
  - intros r HR. destruct (C93_single_accuracy _ _ _ _ _ HT HX NX HR) as (A1 & A2 & A3 & A4 & _). unfold sask in *. fold v in A1, A2, A3, A4. set (D := sone 1) in *. clearbody D v. destruct HQ as [(-> & ->)|(-> & ->)]; lia.
  - intros HA. destruct (C93_single_defined _ _ _ _ HT HX) as (DF & _). destruct (DF NX) as (r & HR & _); [|exists r; exact HR]. unfold sask. fold v. set (D := sone 1) in *. clearbody D v. destruct HQ as [(-> & ->)|(-> & ->)]; lia.
Qed.
Print Assumptions C93_single_long.
(** Two and a half seconds as duration<float>; the hypotheses hold for seconds, milliseconds, microseconds and nanoseconds on both platforms, for minutes and hours on Windows. *)
Example C93_single_example : let x := S754_finite false 10485760 (-22) in
  is_single x /\ number x /\ sask 1000000000 1 x = 2500000000 * sone 1 /\ single_units 1000000000 1 1 x = Some 2500000000 /\ single_units 1000 1 1 x = Some 2500 /\
  single_units 1000 1 1000 (S754_finite true 10485760 (-22)) = Some (-2) /\
  Forall (fun p => single_tick 1000000000 (fst p) (snd p)) ((1, 1) :: (1, 1000) :: (1, 1000000) :: (1, 1000000000) :: nil) /\
  Forall (fun p => single_tick 1000 (fst p) (snd p)) ((3600, 1) :: (60, 1) :: (1, 1) :: (1, 1000) :: (1, 1000000) :: (1, 1000000000) :: nil).
Proof.
  assert (forall k, 0 < k < 2 ^ 24 -> exact24 k) as E0 by (intros k K; split; [lia|]; exists k, 0; lia).
  assert (exact24 1000000000) as E9 by (split; [lia|]; exists 1953125, 9; lia).
  cbv zeta. split; [reflexivity|]. split; [exact I|]. split; [reflexivity|]. split; [reflexivity|]. split; [reflexivity|]. split; [reflexivity|].
  split; repeat (apply Forall_cons; [cbn [fst snd]; unfold single_tick; split; [lia|]; split; [lia|]; split; [lia|]|]); try apply Forall_nil.
  all: first [left; match goal with |- exists k, exact24 k /\ ?a = k * ?b => exists (a / b) end; split; [first [exact E9|apply E0; split; reflexivity]|reflexivity]
             |right; match goal with |- exists k, exact24 k /\ ?a = k * ?b => exists (a / b) end; split; [first [exact E9|apply E0; split; reflexivity]|reflexivity]].
Qed.
