(** C93: timeouts given as floating-point durations (FloatDur.v). *)
From Coq Require Import ZArith Bool Lia List.
From Coq Require Import Floats.SpecFloat.
From Verif Require Import FloatDur.
Local Open Scope Z_scope.

(** ** What rounding does, in integers *)

(** The record stands for [N]/[D]: the integral part and where the rest lies.  Proof device; no counterpart in /repo. *)
Definition rep (N D : Z) (x : shr_record) : Prop :=
  0 <= shr_m x /\ 0 <= N - shr_m x * D < D /\
  match shr_r x, shr_s x with
  | false, false => N - shr_m x * D = 0
  | false, true => 0 < 2 * (N - shr_m x * D) < D
  | true, false => 2 * (N - shr_m x * D) = D
  | true, true => D < 2 * (N - shr_m x * D)
  end.
Lemma rep_shr N D x : rep N D x -> rep N (2 * D) (shr_1 x).
Proof.
  destruct x as [m r s]. unfold rep. cbn [shr_m shr_r shr_s]. intros (M & R & C).
  destruct m as [|[p|p|]|p]; try lia; cbn [shr_1 shr_m shr_r shr_s].
  - destruct r, s; cbn [orb] in *; lia.
  - rewrite Pos2Z.inj_xI in *.  destruct r, s; cbn [orb] in *; lia.
  - rewrite (Pos2Z.inj_xO p) in *.  destruct r, s; cbn [orb] in *; lia.
  - destruct r, s; cbn [orb] in *; lia.
Qed.
Lemma iter_shr p : forall N D x, rep N D x -> rep N (D * 2 ^ Zpos p) (iter_pos shr_1 p x).
Proof.
  induction p as [p IH|p IH|]; intros N D x H; cbn [iter_pos].
  - rewrite Pos2Z.inj_xI. replace (D * 2 ^ (2 * Z.pos p + 1)) with (2 * D * 2 ^ Zpos p * 2 ^ Zpos p); [apply IH, IH, rep_shr, H|]. rewrite Z.pow_add_r, Z.pow_twice_r by lia. ring.
  - rewrite (Pos2Z.inj_xO p). replace (D * 2 ^ (2 * Z.pos p)) with (D * 2 ^ Zpos p * 2 ^ Zpos p); [apply IH, IH, H|]. rewrite Z.pow_twice_r. ring.
  - replace (D * 2 ^ 1) with (2 * D) by ring. apply rep_shr, H.
Qed.
Lemma digits_log m : Zpos (digits2_pos m) = Z.log2 (Zpos m) + 1.
Proof. induction m as [m IH|m IH|]; cbn [digits2_pos]; rewrite ?Pos2Z.inj_succ, ?IH; [rewrite (Pos2Z.inj_xI m), Z.log2_succ_double by lia|rewrite (Pos2Z.inj_xO m), Z.log2_double by lia|]; cbn; lia. Qed.
Lemma digits_spec m : 0 < m -> 2 ^ (Zdigits2 m - 1) <= m < 2 ^ Zdigits2 m.
Proof. intros H. destruct m as [|p|p]; try lia. cbn [Zdigits2]. rewrite digits_log. pose proof (Z.log2_spec (Zpos p) ltac:(lia)). replace (Z.log2 (Zpos p) + 1 - 1) with (Z.log2 (Zpos p)) by lia. unfold Z.succ in *. lia. Qed.
Lemma digits_pos m : 0 < m -> 0 < Zdigits2 m. Proof. destruct m; try lia. cbn. lia. Qed.

(** Rounding to nearest of [N]/[D].  Proof device; no counterpart in /repo. *)
Definition rne (x : shr_record) : Z := round_nearest_even (shr_m x) (loc_of_shr_record x).
Lemma rne_spec N D x : rep N D x -> 0 <= rne x /\ 2 * Z.abs (rne x * D - N) <= D /\ (forall a, a * D <= N -> a <= rne x) /\ (forall a, N <= a * D -> rne x <= a).
Proof.
  destruct x as [m r s]. unfold rep, rne. cbn [shr_m shr_r shr_s]. intros (M & R & C).
  assert (forall a, a * D <= N -> a <= m) as LO by (intros a A; nia). assert (forall a, N <= a * D -> 0 < N - m * D -> m + 1 <= a) as HI by (intros a A B; nia).
  destruct r, s; cbn [loc_of_shr_record round_nearest_even].
  - split; [lia|]. split; [lia|]. split; [intros a A; specialize (LO a A); lia|intros a A; apply HI; lia].
  - destruct (Z.even m); (split; [lia|]; split; [lia|]; split; [intros a A; specialize (LO a A); lia|intros a A; specialize (HI a A); nia]).
  - split; [lia|]. split; [lia|]. split; [exact LO|intros a A; specialize (HI a A); lia].
  - split; [lia|]. split; [lia|]. split; [exact LO|intros a A; nia].
Qed.

Lemma cut_double a e : cut (2 * a) e = cut a (e + 1).
Proof.
  unfold cut. destruct (Z.leb_spec 0 e) as [H|H], (Z.leb_spec 0 (e + 1)) as [G|G]; try lia.
  - rewrite Z.pow_add_r by lia. ring.
  - assert (e = -1) as -> by lia. change (2 * a / 2 = a * 1). rewrite (Z.mul_comm 2), Z.div_mul by lia. ring.
  - replace (- e) with (1 + - (e + 1)) by lia. rewrite Z.pow_add_r by lia. change (2 ^ 1) with 2. apply Z.div_mul_cancel_l; [apply Z.pow_nonzero; lia|lia].
Qed.
Lemma cut_big q e : 0 < q -> 63 <= e -> 2 ^ 63 <= cut q e.
Proof.
  intros H G. unfold cut. destruct (Z.leb_spec 0 e); [|lia]. assert (2 ^ 63 <= 2 ^ e) as P by (apply Z.pow_le_mono_r; lia). nia.
Qed.
(** The range check of [to_int64].  Proof device; no counterpart in /repo. *)
Definition fits (s : bool) (z : Z) : option Z := let z := if s then - z else z in if (- 2 ^ 63 <=? z) && (z <? 2 ^ 63) then Some z else None.
Lemma fits_big s z : 2 ^ 63 < z -> fits s z = None.
Proof. intros H. unfold fits. destruct s; [destruct (Z.leb_spec (- 2 ^ 63) (- z)); [lia|reflexivity]|destruct (Z.ltb_spec z (2 ^ 63)); [lia|rewrite andb_false_r; reflexivity]]. Qed.
Lemma to_int_finite s m e : 0 < m -> e <= 971 \/ 2 ^ 63 < cut m e ->
  to_int64 (match m with Z0 => S754_zero s | Zpos p => if Zle_bool e (1024 - 53) then S754_finite s p e else S754_infinity s | Zneg _ => S754_nan end) = fits s (cut m e).
Proof.
  intros H G. destruct m as [|p|p]; try lia. change (1024 - 53) with 971. destruct (Z.leb_spec e 971) as [L|L]; [reflexivity|]. cbn [to_int64]. destruct G as [G|G]; [lia|]. symmetry. apply fits_big, G.
Qed.
Lemma cut_bigger q e : 0 < q -> 64 <= e -> 2 ^ 63 < cut q e.
Proof. intros H G. rewrite <- (Z.sub_add 1 e), <- cut_double. pose proof (cut_big q (e - 1) H ltac:(lia)). rewrite cut_double. replace (e - 1 + 1) with (e - 1 + 1) by lia. rewrite <- cut_double.
  assert (cut (2 * q) (e - 1) = 2 * cut q (e - 1)) as ->; [|lia]. unfold cut. destruct (Z.leb_spec 0 (e - 1)); [ring|lia]. Qed.

Lemma fexp_val x : fexp 53 1024 x = Z.max (x - 53) (-1074). Proof. reflexivity. Qed.
Lemma shr_case x e n : shr x e n = (match n with Zpos p => iter_pos shr_1 p x | _ => x end, e + Z.max 0 n).
Proof. destruct n as [|p|p]; cbn [shr]; f_equal; lia. Qed.
Lemma shr_rep N D x n : 0 < D -> rep N D x -> rep N (D * 2 ^ Z.max 0 n) (match n with Zpos p => iter_pos shr_1 p x | _ => x end).
Proof. intros HD H. destruct n as [|p|p]; [replace (D * 2 ^ Z.max 0 0) with D by (cbn; ring); exact H|apply iter_shr, H|]. replace (Z.max 0 (Z.neg p)) with 0 by lia. replace (D * 2 ^ 0) with D by (cbn; ring). exact H. Qed.

(** The outcome of rounding [N]/[D] * 2^[ex] (of which [m] and [l] are the integral part and the place of the rest) and cutting. *)
Lemma aux_spec s N D m l ex : 0 < D -> 0 < N -> rep N D (shr_record_of_loc m l) -> l = loc_Exact \/ ex <= fexp 53 1024 (Zdigits2 m + ex) -> exists q K, 0 <= K /\ 0 <= q /\ -1074 <= ex + K /\
  to_int64 (binary_round_aux 53 1024 s m ex l) = fits s (cut q (ex + K)) /\
  2 * Z.abs (q * (D * 2 ^ K) - N) <= D * 2 ^ K /\ (forall a, a * (D * 2 ^ K) <= N -> a <= q) /\ (forall a, N <= a * (D * 2 ^ K) -> q <= a) /\
  (q * (D * 2 ^ K) = N \/ (ex + K = -1074 /\ q <= 2 ^ 53) \/ 2 ^ 52 * (D * 2 ^ K) <= N).
Proof.
  intros HD HN HR HL. set (k := fexp 53 1024 (Zdigits2 m + ex) - ex). set (K := Z.max 0 k). set (x0 := shr_record_of_loc m l).
  assert (shr_m x0 = m) as M0 by (unfold x0; destruct l as [|[| |]]; reflexivity). assert (0 <= m) as Hm by (destruct HR as (A & _); fold x0 in A; lia).
  set (x1 := match k with Zpos p => iter_pos shr_1 p x0 | _ => x0 end). assert (rep N (D * 2 ^ K) x1) as R1 by (apply shr_rep; assumption).
  set (q := rne x1). destruct (rne_spec _ _ _ R1) as (Q0 & QA & QL & QH). fold q in Q0, QA, QL, QH.
  assert (0 < 2 ^ K) as PK by (apply Z.pow_pos_nonneg; lia).
  assert (N < (m + 1) * D) as NM by (destruct HR as (_ & A & _); fold x0 in A; rewrite M0 in A; lia). assert (m * D <= N) as MN by (destruct HR as (_ & A & _); fold x0 in A; rewrite M0 in A; lia).
  (* the integer kept has at most 53 bits, or is 2^53 *)
  assert ((k <= 0 /\ l = loc_Exact /\ q = m /\ N = m * D) \/ (0 <= k /\ q <= 2 ^ 53 /\ K = k /\ ex + K = Z.max (Zdigits2 m + ex - 53) (-1074))) as CASES.
  { destruct (Z_le_gt_dec 0 k) as [P|P]; [right|left].
    - assert (K = k) as EK by (unfold K; lia). split; [exact P|]. split; [|split; [exact EK|]]. 2: { rewrite EK. unfold k. rewrite fexp_val. lia. }
      apply QH. apply Z.lt_le_incl. eapply Z.lt_le_trans; [exact NM|]. rewrite (Z.mul_comm D), Z.mul_assoc, <- Z.pow_add_r by lia. apply Z.mul_le_mono_nonneg_r; [lia|].
      destruct (Z.eq_dec m 0) as [->|NZ]; [assert (0 < 2 ^ (53 + K)) by (apply Z.pow_pos_nonneg; lia); lia|].
      pose proof (digits_spec m ltac:(lia)) as (_ & DG). assert (2 ^ Zdigits2 m <= 2 ^ (53 + K)) as PW; [|lia]. apply Z.pow_le_mono_r; [lia|]. rewrite EK. unfold k. rewrite fexp_val. lia.
    - destruct HL as [-> |HL]; [|unfold k in P; lia]. split; [lia|]. split; [reflexivity|].
      assert (x1 = x0) as X1 by (unfold x1; destruct k; [reflexivity|lia|reflexivity]). split; [unfold q; rewrite X1; unfold x0; reflexivity|]. destruct HR as (_ & _ & A). unfold x0 in *. cbn in A. lia. }
  assert (to_int64 (binary_round_aux 53 1024 s m ex l) = fits s (cut q (ex + K))) as VAL.
  { unfold binary_round_aux, shr_fexp. fold x0. rewrite shr_case. fold k. fold K. fold x1. change (round_nearest_even (shr_m x1) (loc_of_shr_record x1)) with q. rewrite shr_case.
    set (k2 := fexp 53 1024 (Zdigits2 q + (ex + K)) - (ex + K)). cbn [shr_record_of_loc].
    destruct (Z.eq_dec q 0) as [QZ|QZ].
    { assert (forall p, iter_pos shr_1 p {| shr_m := 0; shr_r := false; shr_s := false |} = {| shr_m := 0; shr_r := false; shr_s := false |}) as IT.
      { induction p as [p IH|p IH|]; cbn [iter_pos]; [change (shr_1 {| shr_m := 0; shr_r := false; shr_s := false |}) with {| shr_m := 0; shr_r := false; shr_s := false |}|..]; rewrite ?IH; reflexivity. }
      rewrite QZ. assert (cut 0 (ex + K) = 0) as -> by (unfold cut; destruct (Z.leb_spec 0 (ex + K)); [ring|apply Z.div_0_l, Z.pow_nonzero; lia]). destruct k2; rewrite ?IT; destruct s; reflexivity. }
    assert (0 < q) as QP by lia.
    destruct (Z_le_gt_dec k2 0) as [P2|P2].
    - assert ((match k2 with Zpos p => iter_pos shr_1 p {| shr_m := q; shr_r := false; shr_s := false |} | _ => {| shr_m := q; shr_r := false; shr_s := false |} end) = {| shr_m := q; shr_r := false; shr_s := false |}) as ->
        by (destruct k2; [reflexivity|lia|reflexivity]). cbn [shr_m]. replace (ex + K + Z.max 0 k2) with (ex + K) by lia. apply to_int_finite; [exact QP|].
      destruct (Z_le_gt_dec (ex + K) 971); [left; lia|right; apply cut_bigger; lia].
    - assert (q = 2 ^ 53 /\ k2 = 1) as (E53 & E1).
      { destruct CASES as [(C1 & C2 & C3 & C4)|(C1 & C2 & C3 & C4)].
        - exfalso. unfold k2 in P2. rewrite C3 in P2. unfold K in P2. unfold k in P2, C1. rewrite fexp_val in *. lia.
        - pose proof (digits_spec q QP) as (DL & DH). unfold k2 in *. rewrite fexp_val in *.
          assert (Zdigits2 q <= 54) as D54. { destruct (Z_le_gt_dec (Zdigits2 q) 54) as [|B]; [assumption|]. exfalso. assert (2 ^ 54 <= 2 ^ (Zdigits2 q - 1)) by (apply Z.pow_le_mono_r; lia). lia. }
          assert (Zdigits2 q = 54) as DD by lia. rewrite DD in DL. split; lia. }
      rewrite E1. cbn [iter_pos]. rewrite E53. change (shr_1 {| shr_m := 2 ^ 53; shr_r := false; shr_s := false |}) with {| shr_m := 2 ^ 52; shr_r := false; shr_s := false |}. cbn [shr_m].
      replace (Z.max 0 1) with 1 by lia. change (2 ^ 53) with (2 * 2 ^ 52). rewrite cut_double. apply to_int_finite; [lia|].
      destruct (Z_le_gt_dec (ex + K + 1) 971); [left; lia|right; apply cut_bigger; lia]. }
  exists q, K. split; [lia|]. split; [exact Q0|]. split; [destruct CASES as [(C1 & _)|(_ & _ & _ & C4)]; [unfold k in C1; rewrite fexp_val in C1; lia|lia]|]. split; [exact VAL|]. split; [exact QA|]. split; [exact QL|]. split; [exact QH|].
  destruct CASES as [(C1 & C2 & C3 & C4)|(C1 & C2 & C3 & C4)]; [left; replace K with 0 by lia; rewrite C3, C4; change (2 ^ 0) with 1; ring|right].
  destruct (Z_le_gt_dec (Zdigits2 m + ex - 53) (-1074)) as [B|B]; [left; split; lia|right].
  assert (0 < m) as MP. { destruct (Z.eq_dec m 0) as [->|]; [|lia]. exfalso. cbn [Zdigits2] in *. unfold K, k in C4. rewrite fexp_val in C4. cbn [Zdigits2] in C4. unfold k in C1. rewrite fexp_val in C1. cbn [Zdigits2] in C1. lia. }
  pose proof (digits_spec m MP) as (DL & _). rewrite (Z.mul_comm D), Z.mul_assoc, <- Z.pow_add_r by lia. replace (52 + K) with (Zdigits2 m - 1) by lia. nia.
Qed.

(** ** The conversion, in integers *)

Lemma cut_spec q E : 0 <= q -> -1074 <= E -> cut q E * 2 ^ 1074 <= q * 2 ^ (E + 1074) < (cut q E + 1) * 2 ^ 1074.
Proof.
  intros Q0 HE. assert (0 < 2 ^ 1074) as U by (apply Z.pow_pos_nonneg; lia). unfold cut. destruct (Z.leb_spec 0 E) as [H|H].
  - rewrite Z.pow_add_r by lia. rewrite Z.mul_assoc. rewrite Z.mul_add_distr_r. lia.
  - set (j := - E). assert (2 ^ 1074 = 2 ^ j * 2 ^ (E + 1074)) as -> by (rewrite <- Z.pow_add_r by (unfold j; lia); f_equal; unfold j; lia).
    assert (0 < 2 ^ j) as PJ by (apply Z.pow_pos_nonneg; unfold j; lia). assert (0 < 2 ^ (E + 1074)) as PE by (apply Z.pow_pos_nonneg; lia).
    pose proof (Z.div_mod q (2 ^ j) ltac:(lia)). pose proof (Z.mod_pos_bound q (2 ^ j) PJ). rewrite !Z.mul_assoc. split; [apply Z.mul_le_mono_nonneg_r; lia|apply Z.mul_lt_mono_pos_r; lia].
Qed.

(** [c] is [P]/([Q] * 2^1074) rounded to a double and cut.  Proof device; no counterpart in /repo. *)
Definition near (P Q c : Z) : Prop := exists q N DD E, 0 < DD /\ 0 <= N /\ 0 <= q /\ -1074 <= E /\ P * DD = N * 2 ^ (E + 1074) * Q /\ c = cut q E /\ 2 * Z.abs (q * DD - N) <= DD /\
  (forall a, a * DD <= N -> a <= q) /\ (forall a, N <= a * DD -> q <= a) /\ (q * DD = N \/ (E = -1074 /\ q <= 2 ^ 53) \/ 2 ^ 52 * DD <= N).
Lemma dbl_of_spec n : 0 < n < 2 ^ 53 -> exists my ey, dbl_of n = S754_finite false my ey /\ ey <= 0 /\ Zpos my = n * 2 ^ (- ey) /\ Zdigits2 (Zpos my) = 53.
Proof.
  intros H. destruct n as [|p|p]; try lia. pose proof (digits_spec (Zpos p) ltac:(lia)) as (DL & DH). cbn [Zdigits2] in *. set (d := Zpos (digits2_pos p)) in *.
  assert (d <= 53) as D53. { destruct (Z_le_gt_dec d 53); [assumption|]. exfalso. assert (2 ^ 53 <= 2 ^ (d - 1)) by (apply Z.pow_le_mono_r; lia). lia. }
  assert (1 <= d) as D1 by (unfold d; lia).
  assert (exists mz, Zpos mz = Zpos p * 2 ^ (53 - d) /\ shl_align p 0 (fexp 53 1024 (d + 0)) = (mz, d - 53)) as (mz & MZ & SA).
  { rewrite fexp_val. unfold shl_align. replace (Z.max (d + 0 - 53) (-1074) - 0) with (d - 53) by lia. replace (Z.max (d + 0 - 53) (-1074)) with (d - 53) by lia.
    destruct (d - 53) as [|z|z] eqn:Z0; [|lia|].
    - exists p. replace (53 - d) with 0 by lia. split; [cbn; lia|reflexivity].
    - exists (shift_pos z p). split; [|reflexivity]. rewrite shift_pos_correct. replace (53 - d) with (Zpos z) by lia. rewrite Zpower_pos_nat, Zpower_nat_Z. rewrite positive_nat_Z. ring. }
  assert (Zdigits2 (Zpos mz) = 53) as DM.
  { pose proof (digits_spec (Zpos mz) ltac:(lia)) as (A & B). assert (0 < Zdigits2 (Zpos mz)) as D0 by (apply digits_pos; lia). set (dm := Zdigits2 (Z.pos mz)) in *. clearbody dm. rewrite MZ in A, B.
    assert (0 < 2 ^ (53 - d)) by (apply Z.pow_pos_nonneg; lia).
    assert (2 ^ 52 <= Zpos p * 2 ^ (53 - d)) as L. { replace 52 with (d - 1 + (53 - d)) by lia. rewrite Z.pow_add_r by lia. apply Z.mul_le_mono_nonneg_r; lia. }
    assert (Zpos p * 2 ^ (53 - d) < 2 ^ 53) as R. { replace (2 ^ 53) with (2 ^ d * 2 ^ (53 - d)) by (rewrite <- Z.pow_add_r by lia; f_equal; lia). apply Z.mul_lt_mono_pos_r; lia. }
    destruct (Z.lt_trichotomy dm 53) as [C|[C|C]]; [|exact C|]; exfalso.
    - assert (2 ^ dm <= 2 ^ 52) by (apply Z.pow_le_mono_r; lia). lia.
    - assert (2 ^ 53 <= 2 ^ (dm - 1)) by (apply Z.pow_le_mono_r; lia). lia. }
  exists mz, (d - 53). split; [|split; [lia|split; [replace (- (d - 53)) with (53 - d) by lia; exact MZ|exact DM]]].
  unfold dbl_of, binary_normalize, binary_round. fold d. rewrite SA. unfold binary_round_aux, shr_fexp. rewrite DM, fexp_val. replace (Z.max (53 + (d - 53) - 53) (-1074) - (d - 53)) with 0 by lia.
  cbn [shr shr_record_of_loc shr_m loc_of_shr_record round_nearest_even]. rewrite DM, fexp_val. replace (Z.max (53 + (d - 53) - 53) (-1074) - (d - 53)) with 0 by lia. cbn [shr shr_record_of_loc shr_m].
  destruct (Z.leb_spec (d - 53) (1024 - 53)); [reflexivity|lia].
Qed.
Lemma mul_near s m e num : 0 < num < 2 ^ 53 -> -1074 <= e -> exists c, near (Zpos m * num * 2 ^ (e + 1074)) 1 c /\ to_int64 (SFmul 53 1024 (S754_finite s m e) (dbl_of num)) = fits s c.
Proof.
  intros H He. destruct (dbl_of_spec num H) as (my & ey & -> & EY & MY & _). unfold SFmul. replace (xorb s false) with s by (destruct s; reflexivity).
  destruct (aux_spec s (Zpos (m * my)) 1 (Zpos (m * my)) loc_Exact (e + ey)) as (q & K & K0 & Q0 & HE & V & A & L & R & C); [lia|lia|unfold rep; cbn [shr_record_of_loc shr_m shr_r shr_s]; lia|left; reflexivity|].
  exists (cut q (e + ey + K)). split; [|exact V]. exists q, (Zpos (m * my)), (1 * 2 ^ K), (e + ey + K). assert (0 < 2 ^ K) by (apply Z.pow_pos_nonneg; lia). repeat (split; [first [assumption|lia]|]). split; [|split; [reflexivity|split; [exact A|split; [exact L|split; [exact R|exact C]]]]].
  rewrite Pos2Z.inj_mul, MY, Z.mul_1_l, Z.mul_1_r.
  enough (2 ^ (e + 1074) * 2 ^ K = 2 ^ (- ey) * 2 ^ (e + ey + K + 1074)) as X. { rewrite <- !Z.mul_assoc, X. ring. } rewrite <- !Z.pow_add_r by lia. f_equal. lia.
Qed.
Lemma new_loc_rep N D : 0 < D -> 0 <= N -> rep N D (shr_record_of_loc (N / D) (new_location D (N mod D))).
Proof.
  intros HD HN. pose proof (Z.div_mod N D ltac:(lia)) as E. pose proof (Z.mod_pos_bound N D HD) as B. pose proof (Z.div_pos N D HN HD) as P. set (a := N / D) in *. set (r := N mod D) in *. clearbody a r.
  unfold new_location, new_location_even, new_location_odd. destruct (Z.even D) eqn:EV.
  - destruct (Zeq_bool r 0) eqn:Z0; [apply Zeq_bool_eq in Z0; unfold rep; cbn; lia|apply Zeq_bool_neq in Z0]. destruct (Z.compare_spec (2 * r) D) as [C|C|C]; unfold rep; cbn [shr_record_of_loc shr_m shr_r shr_s]; lia.
  - assert (2 * r <> D) as NE. { intros X. rewrite <- X, Z.even_mul in EV. discriminate EV. }
    destruct (Zeq_bool r 0) eqn:Z0; [apply Zeq_bool_eq in Z0; unfold rep; cbn; lia|apply Zeq_bool_neq in Z0]. destruct (Z.compare_spec (2 * r + 1) D) as [C|C|C]; unfold rep; cbn [shr_record_of_loc shr_m shr_r shr_s]; lia.
Qed.
Lemma div_near s m e den : 0 < den < 2 ^ 53 -> -1074 <= e -> exists c, near (Zpos m * 2 ^ (e + 1074)) den c /\ to_int64 (SFdiv 53 1024 (S754_finite s m e) (dbl_of den)) = fits s c.
Proof.
  intros H He. destruct (dbl_of_spec den H) as (my & ey & -> & EY & MY & _). unfold SFdiv, SFdiv_core_binary. replace (xorb s false) with s by (destruct s; reflexivity).
  set (d1 := Zdigits2 (Zpos m)). set (d2 := Zdigits2 (Zpos my)). set (e' := Z.min (fexp 53 1024 (d1 + e - (d2 + ey))) (e - ey)). set (k := e - ey - e').
  assert (0 <= k) as K0 by (unfold k, e'; lia).
  assert ((match k with Z0 => Zpos m | Zpos _ => Z.shiftl (Zpos m) k | Zneg _ => 0 end) = Zpos m * 2 ^ k) as ->. { destruct k; [change (2 ^ 0) with 1; lia|apply Z.shiftl_mul_pow2; lia|lia]. }
  set (N := Zpos m * 2 ^ k). assert (0 < 2 ^ k) as PK by (apply Z.pow_pos_nonneg; lia). assert (0 < N) as PN by (unfold N; lia).
  assert (Z.div_eucl N (Zpos my) = (N / Zpos my, N mod Zpos my)) as -> by (unfold Z.div, Z.modulo; destruct (Z.div_eucl N (Zpos my)); reflexivity).
  destruct (aux_spec s N (Zpos my) (N / Zpos my) (new_location (Zpos my) (N mod Zpos my)) e') as (q & K & K1 & Q0 & HE & V & A & L & R & C); [lia|exact PN|apply new_loc_rep; lia| |].
  { right. assert (e' <= fexp 53 1024 (d1 + e - (d2 + ey))) as E1 by (unfold e'; lia). rewrite fexp_val in *. enough (d1 + k - d2 <= Zdigits2 (N / Zpos my)) by (unfold k in *; lia).
    pose proof (digits_spec (Zpos m) ltac:(lia)) as (M1 & _). fold d1 in M1. pose proof (digits_spec (Zpos my) ltac:(lia)) as (_ & M2). fold d2 in M2. assert (0 < d1) by (apply digits_pos; lia). assert (0 < d2) by (apply digits_pos; lia).
    destruct (Z_le_gt_dec (d1 + k - d2) 0) as [G|G]. { assert (forall z, 0 <= Zdigits2 z) as DN by (intros [|z|z]; cbn; lia). specialize (DN (N / Zpos my)). lia. }
    assert (2 ^ (d1 + k - d2 - 1) <= N / Zpos my) as LB.
    { apply Z.div_le_lower_bound; [lia|]. unfold N. apply Z.le_trans with (2 ^ d2 * 2 ^ (d1 + k - d2 - 1)); [apply Z.mul_le_mono_nonneg_r; [apply Z.pow_nonneg|]; lia|].
      rewrite <- Z.pow_add_r by lia. replace (d2 + (d1 + k - d2 - 1)) with (d1 - 1 + k) by lia. rewrite Z.pow_add_r by lia. apply Z.mul_le_mono_nonneg_r; lia. }
    assert (0 < 2 ^ (d1 + k - d2 - 1)) by (apply Z.pow_pos_nonneg; lia). pose proof (digits_spec (N / Zpos my) ltac:(lia)) as (_ & UB).
    destruct (Z_le_gt_dec (d1 + k - d2) (Zdigits2 (N / Zpos my))) as [|X]; [assumption|]. exfalso. assert (2 ^ Zdigits2 (N / Zpos my) <= 2 ^ (d1 + k - d2 - 1)) by (apply Z.pow_le_mono_r; lia). lia. }
  exists (cut q (e' + K)). split; [|exact V]. exists q, N, (Zpos my * 2 ^ K), (e' + K). assert (0 < 2 ^ K) by (apply Z.pow_pos_nonneg; lia). repeat (split; [first [assumption|lia]|]). split; [|split; [reflexivity|split; [exact A|split; [exact L|split; [exact R|exact C]]]]].
  rewrite MY. unfold N.
  enough (2 ^ (e + 1074) * 2 ^ (- ey) * 2 ^ K = 2 ^ k * 2 ^ (e' + K + 1074)) as X. { transitivity (Zpos m * den * (2 ^ (e + 1074) * 2 ^ (- ey) * 2 ^ K)); [ring|]. rewrite X. ring. } rewrite <- !Z.pow_add_r by lia. f_equal. unfold k. lia.
Qed.
Lemma id_near s m e : -1074 <= e -> exists c, near (Zpos m * 2 ^ (e + 1074)) 1 c /\ to_int64 (S754_finite s m e) = fits s c.
Proof.
  intros He. exists (cut (Zpos m) e). split; [|reflexivity]. exists (Zpos m), (Zpos m), 1, e. repeat (split; [first [lia|reflexivity]|]). left. lia.
Qed.
Lemma double_low s m e : is_double (S754_finite s m e) -> -1074 <= e.
Proof. unfold is_double. cbn [valid_binary]. unfold bounded, canonical_mantissa. intros H. apply andb_prop in H as (H & _). apply Zeq_bool_eq in H. rewrite fexp_val in H. lia. Qed.
Lemma cast_near num den s m e : 0 < num < 2 ^ 53 -> 0 < den < 2 ^ 53 -> num = 1 \/ den = 1 -> is_double (S754_finite s m e) ->
  exists c, near (Zpos m * num * 2 ^ (e + 1074)) den c /\ float_cast num den (S754_finite s m e) = fits s c.
Proof.
  intros HN HD H1 HX. apply double_low in HX. unfold float_cast. destruct (Z.eqb_spec num 1) as [-> |NN].
  - rewrite Z.mul_1_r. destruct (Z.eqb_spec den 1) as [-> |ND]; [apply id_near, HX|apply div_near; assumption].
  - destruct H1 as [H1|H1]; [contradiction|]. subst den. cbn [Z.eqb Pos.eqb]. apply mul_near; assumption.
Qed.

Lemma canc a b c : 0 < c -> a * c <= b * c -> a <= b. Proof. intros H G. apply (Z.mul_le_mono_pos_r a b c H), G. Qed.
Lemma grow a b c : 0 <= c -> a <= b -> a * c <= b * c. Proof. intros H G. apply Z.mul_le_mono_nonneg_r; assumption. Qed.
Lemma near_lower P Q c w j : near P Q c -> 0 < Q -> 0 <= w <= 2 ^ 53 -> 0 <= j -> w * 2 ^ j * 2 ^ 1074 * Q <= P -> w * 2 ^ j <= c.
Proof.
  intros (q & N & DD & E & HD & HN & Hq & HE & EQ & Hc & A & L & R & C) HQ Hw Hj H. pose proof (cut_spec q E Hq HE) as (CL & CU). rewrite <- Hc in *. clear Hc A R.
  assert (0 < 2 ^ j) as PJ by (apply Z.pow_pos_nonneg; lia). assert (0 < 2 ^ (E + 1074)) as PT by (apply Z.pow_pos_nonneg; lia).
  enough (w * 2 ^ j * 2 ^ 1074 <= q * 2 ^ (E + 1074)) as X. { assert (w * 2 ^ j < c + 1) as Y; [|lia]. apply (Z.mul_lt_mono_pos_r (2 ^ 1074)); [apply Z.pow_pos_nonneg; lia|]. eapply Z.le_lt_trans; eassumption. }
  destruct (Z_le_gt_dec E j) as [G|G].
  - assert (w * 2 ^ j * 2 ^ 1074 = w * 2 ^ (j - E) * 2 ^ (E + 1074)) as EA. { rewrite <- !Z.mul_assoc, <- !Z.pow_add_r by lia. f_equal. f_equal. lia. }
    rewrite EA in *. apply grow; [lia|]. apply L. apply (canc _ _ (2 ^ (E + 1074) * Q)); [apply Z.mul_pos_pos; assumption|].
    rewrite (Z.mul_assoc N), <- EQ. apply (grow _ _ DD) in H; [|lia]. eapply Z.le_trans; [|exact H]. apply Z.eq_le_incl. ring.
  - destruct C as [C|[(C & _)|C]]; [|lia|].
    + apply (canc _ _ Q HQ). eapply Z.le_trans; [exact H|]. apply (canc _ _ DD HD). rewrite EQ, <- C. apply Z.eq_le_incl. ring.
    + apply L in C. apply Z.le_trans with (2 ^ 52 * 2 ^ (E + 1074)); [|apply grow; [lia|exact C]].
      rewrite (Z.pow_add_r 2 E) by lia. rewrite Z.mul_assoc. apply grow; [apply Z.pow_nonneg; lia|].
      apply Z.le_trans with (2 ^ 53 * 2 ^ j); [apply grow; lia|]. rewrite <- !Z.pow_add_r by lia. apply Z.pow_le_mono_r; lia.
Qed.
Lemma near_upper P Q c w j : near P Q c -> 0 < Q -> 0 <= w <= 2 ^ 53 -> 0 <= j -> P <= w * 2 ^ j * 2 ^ 1074 * Q -> c <= w * 2 ^ j.
Proof.
  intros (q & N & DD & E & HD & HN & Hq & HE & EQ & Hc & A & L & R & C) HQ Hw Hj H. pose proof (cut_spec q E Hq HE) as (CL & CU). rewrite <- Hc in *. clear Hc A CU.
  assert (0 < 2 ^ j) as PJ by (apply Z.pow_pos_nonneg; lia). assert (0 < 2 ^ (E + 1074)) as PT by (apply Z.pow_pos_nonneg; lia).
  enough (q * 2 ^ (E + 1074) <= w * 2 ^ j * 2 ^ 1074) as X. { apply (canc _ _ (2 ^ 1074)); [apply Z.pow_pos_nonneg; lia|]. eapply Z.le_trans; eassumption. }
  destruct (Z_le_gt_dec E j) as [G|G].
  - assert (w * 2 ^ j * 2 ^ 1074 = w * 2 ^ (j - E) * 2 ^ (E + 1074)) as EA. { rewrite <- !Z.mul_assoc, <- !Z.pow_add_r by lia. f_equal. f_equal. lia. }
    rewrite EA in *. apply grow; [lia|]. apply R. apply (canc _ _ (2 ^ (E + 1074) * Q)); [apply Z.mul_pos_pos; assumption|].
    rewrite (Z.mul_assoc N), <- EQ. apply (grow _ _ DD) in H; [|lia]. eapply Z.le_trans; [exact H|]. apply Z.eq_le_incl. ring.
  - destruct C as [C|[(C & _)|C]]; [|lia|].
    + apply (canc _ _ Q HQ). eapply Z.le_trans; [|exact H]. apply (canc _ _ DD HD). rewrite EQ, <- C. apply Z.eq_le_incl. ring.
    + assert (w * 2 ^ j * 2 ^ 1074 <= 2 ^ 52 * 2 ^ (E + 1074)) as S.
      { rewrite (Z.pow_add_r 2 E) by lia. rewrite (Z.mul_assoc (2 ^ 52)). apply grow; [apply Z.pow_nonneg; lia|]. apply Z.le_trans with (2 ^ 53 * 2 ^ j); [apply grow; lia|]. rewrite <- !Z.pow_add_r by lia. apply Z.pow_le_mono_r; lia. }
      assert (P <= 2 ^ 52 * 2 ^ (E + 1074) * Q) as S1. { eapply Z.le_trans; [exact H|]. apply grow; [lia|exact S]. }
      assert (q <= 2 ^ 52) as Q52. { apply R. apply (canc _ _ (2 ^ (E + 1074) * Q)); [apply Z.mul_pos_pos; assumption|]. rewrite (Z.mul_assoc N), <- EQ. apply (grow _ _ DD) in S1; [|lia]. eapply Z.le_trans; [exact S1|]. apply Z.eq_le_incl. ring. }
      apply Z.le_trans with (2 ^ 52 * 2 ^ (E + 1074)); [apply grow; [lia|exact Q52]|]. apply (canc _ _ Q HQ). eapply Z.le_trans; [|exact H]. apply (canc _ _ DD HD). rewrite EQ.
      apply (grow _ _ (2 ^ (E + 1074) * Q)) in C; [|apply Z.lt_le_incl, Z.mul_pos_pos; assumption]. eapply Z.le_trans; [|eapply Z.le_trans; [exact C|]]; apply Z.eq_le_incl; ring.
Qed.
(** The rounding is off by at most one part in 2^53; then the fraction is cut off. *)
Lemma near_rel P Q c : near P Q c -> 0 < Q -> 0 <= P -> 2 ^ 53 * (c * (Q * 2 ^ 1074)) <= (2 ^ 53 + 1) * P /\ (2 ^ 53 - 1) * P < 2 ^ 53 * ((c + 1) * (Q * 2 ^ 1074)).
Proof.
  intros (q & N & DD & E & HD & HN & Hq & HE & EQ & Hc & A & L & R & C) HQ HP. pose proof (cut_spec q E Hq HE) as (CL & CU). rewrite <- Hc in *. assert (0 < 2 ^ (E + 1074)) as PT by (apply Z.pow_pos_nonneg; lia).
  assert (0 < 2 ^ 1074) as PU by (apply Z.pow_pos_nonneg; lia). assert (2 ^ 55 <= 2 ^ 1074) as BU by (apply Z.pow_le_mono_r; lia).
  assert (0 <= c) as C0. { destruct (Z_le_gt_dec 0 c); [assumption|]. exfalso. assert ((c + 1) * 2 ^ 1074 <= 0) by nia. assert (0 <= q * 2 ^ (E + 1074)) by nia. lia. }
  destruct C as [C|[(C & B)|C]].
  - assert (P = q * 2 ^ (E + 1074) * Q) as EP. { apply (Z.mul_cancel_r _ _ DD); [lia|]. rewrite EQ, <- C. ring. }
    set (V := q * 2 ^ (E + 1074)) in *. set (U := 2 ^ 1074) in *. clearbody V U. subst P. apply (grow _ _ Q) in CL; [|lia]. assert (V * Q < (c + 1) * U * Q) as CV by (apply Z.mul_lt_mono_pos_r; assumption). split; lia.
  - subst E. change (-1074 + 1074) with 0 in *. change (2 ^ 0) with 1 in *. set (U := 2 ^ 1074) in *. clearbody U. assert (c = 0) as -> by nia.
    assert (P <= (2 ^ 53 + 1) * Q) as PB. { apply (canc _ _ DD HD). rewrite EQ. assert (N <= (2 ^ 53 + 1) * DD) as NB by nia. apply (grow _ _ Q) in NB; lia. }
    split; [lia|]. assert (Q * 2 ^ 55 <= Q * U) by (apply Z.mul_le_mono_nonneg_l; lia). lia.
  - set (U := 2 ^ 1074) in *. set (T := 2 ^ (E + 1074)) in *. clearbody U T.
    assert (2 ^ 53 * (q * DD) <= (2 ^ 53 + 1) * N) as X1 by lia. assert ((2 ^ 53 - 1) * N <= 2 ^ 53 * (q * DD)) as X2 by lia.
    assert (0 < T * Q) as TQ by (apply Z.mul_pos_pos; assumption). apply (grow _ _ (T * Q)) in X1; [|lia]. apply (grow _ _ (T * Q)) in X2; [|lia].
    apply (grow _ _ (Q * DD)) in CL; [|nia]. assert (q * T * (Q * DD) < (c + 1) * U * (Q * DD)) as CV by (apply Z.mul_lt_mono_pos_r; [apply Z.mul_pos_pos; assumption|assumption]).
    split; [apply (canc _ _ DD HD)|apply (Z.mul_lt_mono_pos_r DD _ _ HD)].
    + replace ((2 ^ 53 + 1) * P * DD) with ((2 ^ 53 + 1) * (P * DD)) by ring. rewrite EQ. lia.
    + replace ((2 ^ 53 - 1) * P * DD) with ((2 ^ 53 - 1) * (P * DD)) by ring. rewrite EQ. lia.
Qed.

(** ** C93 *)

(** The value of a double that is a number, in multiples of the smallest positive double (2^-1074).  Specification; no counterpart in /repo. *)
Definition val (x : double) : Z := match x with S754_finite s m e => if s then - (Zpos m * 2 ^ (e + 1074)) else Zpos m * 2 ^ (e + 1074) | _ => 0 end.
(** A number: neither infinity nor NaN.  Specification; no counterpart in /repo. *)
Definition number (x : double) : Prop := match x with S754_infinity _ | S754_nan => False | _ => True end.
(** The tick of [pn]/[pd] seconds is a whole multiple or a whole fraction of the unit of 1/[sub] second (every period named in <chrono> is); the ratios are
    exact in a double.  Specification; no counterpart in /repo. *)
Definition plain_tick (sub pn pd : Z) : Prop := 0 < sub /\ 0 < pn /\ 0 < pd /\ pn * sub < 2 ^ 53 /\ pd < 2 ^ 53 /\ (Z.divide pd (pn * sub) \/ Z.divide (pn * sub) pd).
(** What the user asks for is [ask]/[one] units.  Specification; no counterpart in /repo. *)
Definition ask (sub pn : Z) (x : double) : Z := val x * pn * sub.
(** One unit, on the scale of [ask].  Specification; no counterpart in /repo. *)
Definition one (pd : Z) : Z := pd * 2 ^ 1074.

Lemma ratio_plain sub pn pd : plain_tick sub pn pd -> let g := Z.gcd (pn * sub) pd in let num := pn * sub / g in let den := pd / g in
  0 < num < 2 ^ 53 /\ 0 < den < 2 ^ 53 /\ (num = 1 \/ den = 1) /\ pn * sub = num * g /\ pd = den * g /\ 0 < g.
Proof.
  intros (S0 & N0 & D0 & N1 & D1 & DV). cbv zeta. assert (0 < pn * sub) as NS by (apply Z.mul_pos_pos; assumption). set (a := pn * sub) in *. clearbody a.
  destruct DV as [(k & DV)|(k & DV)].
  - assert (0 < k) as K0 by nia. assert (Z.gcd a pd = pd) as ->. { rewrite DV, Z.gcd_comm, (Z.mul_comm k). rewrite Z.gcd_mul_diag_l; lia. }
    rewrite Z.div_same by lia. rewrite DV, Z.div_mul by lia. nia.
  - assert (0 < k) as K0 by nia. assert (Z.gcd a pd = a) as ->. { rewrite DV, (Z.mul_comm k). rewrite Z.gcd_mul_diag_l; lia. }
    rewrite Z.div_same by lia. rewrite DV, Z.div_mul by lia. nia.
Qed.
Lemma zero_units sub pn pd b : plain_tick sub pn pd -> float_units sub pn pd (S754_zero b) = Some 0.
Proof.
  intros H. destruct (ratio_plain _ _ _ H) as (A & B & C & _). cbv zeta in *. unfold float_units, float_cast. set (n := pn * sub / _) in *. set (d := pd / _) in *. clearbody n d.
  destruct (Z.eqb_spec n 1) as [-> |N1].
  - destruct (Z.eqb_spec d 1); [reflexivity|]. destruct (dbl_of_spec d B) as (my & ey & -> & _). reflexivity.
  - destruct C as [C|C]; [contradiction|]. rewrite C, Z.eqb_refl. destruct (dbl_of_spec n A) as (my & ey & -> & _). reflexivity.
Qed.
(** The whole conversion of a number: [c] is the size of the result. *)
Lemma units_near sub pn pd x : plain_tick sub pn pd -> is_double x -> number x ->
  exists s c P Q g, float_units sub pn pd x = fits s c /\ near P Q c /\ 0 < Q /\ 0 <= P /\ 0 < g /\ ask sub pn x = (if s then - P else P) * g /\ one pd = Q * 2 ^ 1074 * g.
Proof.
  intros H HX NX. destruct (ratio_plain _ _ _ H) as (A & B & C & EN & ED & G). cbv zeta in *. unfold ask, one. destruct x as [b|b| |s m e]; try contradiction.
  - exists false, 0, 0, (pd / Z.gcd (pn * sub) pd), (Z.gcd (pn * sub) pd). rewrite (zero_units sub pn pd b H). split; [reflexivity|]. split.
    { exists 0, 0, 1, 0. split; [lia|]. split; [lia|]. split; [lia|]. split; [lia|]. split; [ring|]. split; [reflexivity|]. split; [lia|]. split; [lia|]. split; [lia|left; lia]. }
    split; [lia|]. split; [lia|]. split; [exact G|]. split; [cbn [val]; ring|]. rewrite ED at 1. ring.
  - destruct (cast_near _ _ s m e A B C HX) as (c & NC & V). unfold float_units. exists s, c, (Zpos m * (pn * sub / Z.gcd (pn * sub) pd) * 2 ^ (e + 1074)), (pd / Z.gcd (pn * sub) pd), (Z.gcd (pn * sub) pd).
    split; [exact V|]. split; [exact NC|]. split; [lia|]. split; [apply Z.mul_nonneg_nonneg; [lia|apply Z.pow_nonneg; lia]|]. split; [exact G|]. split; [|rewrite ED at 1; ring].
    cbn [val]. rewrite <- Z.mul_assoc. rewrite EN at 1. destruct s; ring.
Qed.
Lemma fits_some s c r : fits s c = Some r -> r = (if s then - c else c).
Proof. unfold fits. destruct (_ && _); [intros [= <-]; reflexivity|discriminate]. Qed.
Lemma near_nonneg P Q c : near P Q c -> 0 <= c.
Proof. intros (q & N & DD & E & HD & HN & Hq & HE & EQ & Hc & _). rewrite Hc. unfold cut. destruct (Z.leb_spec 0 E); [apply Z.mul_nonneg_nonneg; [assumption|apply Z.pow_nonneg; lia]|apply Z.div_pos; [assumption|apply Z.pow_pos_nonneg; lia]]. Qed.

(** Never on the wrong side of a whole number of units that a double can hold: whoever asks for at least [z] units gets at least [z], whoever asks for at most [z] gets
    at most [z]; likewise for negative durations. *)
Theorem C93_whole : forall sub pn pd x r, plain_tick sub pn pd -> is_double x -> number x -> float_units sub pn pd x = Some r ->
  forall w j, 0 <= w <= 2 ^ 53 -> 0 <= j -> let z := w * 2 ^ j in
  (z * one pd <= ask sub pn x -> z <= r) /\ (ask sub pn x <= z * one pd -> r <= z) /\ (- z * one pd <= ask sub pn x -> - z <= r) /\ (ask sub pn x <= - z * one pd -> r <= - z).
Proof.
  intros sub pn pd x r HT HX NX HR w j Hw Hj. cbv zeta. destruct (units_near _ _ _ _ HT HX NX) as (s & c & P & Q & g & V & NC & HQ & HP & Hg & EA & EO). rewrite HR in V. symmetry in V. apply fits_some in V.
  rewrite EA, EO. pose proof (near_nonneg _ _ _ NC) as C0. pose proof (near_lower P Q c w j NC HQ Hw Hj) as LO. pose proof (near_upper P Q c w j NC HQ Hw Hj) as UP.
  assert (0 <= w * 2 ^ j) as Z0 by (apply Z.mul_nonneg_nonneg; [lia|apply Z.pow_nonneg; lia]). assert (0 < 2 ^ 1074) as U0 by (apply Z.pow_pos_nonneg; lia). set (z := w * 2 ^ j) in *. clearbody z.
  assert (P <= 0 -> c <= 0) as CZ. { intros PZ. assert (P = 0) by lia. pose proof (near_upper P Q c 0 0 NC HQ ltac:(lia) ltac:(lia)) as X. change (0 * 2 ^ 0) with 0 in X. apply X. lia. }
  set (U := 2 ^ 1074) in *. clearbody U.
  assert (0 < Q * U) as QU by (apply Z.mul_pos_pos; assumption).
  assert (forall a, a * (Q * U * g) = a * U * Q * g) as ER by (intros; ring). rewrite !ER.
  assert (0 <= z * U * Q) as ZU by (apply Z.mul_nonneg_nonneg; [apply Z.mul_nonneg_nonneg|]; lia).
  assert (0 < z -> 0 < z * U * Q) as ZP by (intros; apply Z.mul_pos_pos; [apply Z.mul_pos_pos|]; lia).
  assert (- z * U * Q = - (z * U * Q)) as ZN by ring. rewrite ZN.
  subst r. destruct s; (split; [|split; [|split]]); intros H; apply (canc _ _ g Hg) in H; lia.
Qed.
Print Assumptions C93_whole.
(** The conversion is defined up to 2^63 - 2^10 units (292 years of nanoseconds) either way, and undefined from 2^63 units, for infinity and for NaN. *)
Theorem C93_defined : forall sub pn pd x, plain_tick sub pn pd -> is_double x ->
  (number x -> Z.abs (ask sub pn x) <= (2 ^ 63 - 2 ^ 10) * one pd -> exists r, float_units sub pn pd x = Some r /\ - 2 ^ 63 < r < 2 ^ 63) /\
  (number x -> 2 ^ 63 * one pd <= ask sub pn x -> float_units sub pn pd x = None) /\
  (~ number x -> float_units sub pn pd x = None).
Proof.
  intros sub pn pd x HT HX. split; [|split].
  - intros NX HA. destruct (units_near _ _ _ _ HT HX NX) as (s & c & P & Q & g & V & NC & HQ & HP & Hg & EA & EO). rewrite V. pose proof (near_nonneg _ _ _ NC) as C0.
    assert (c <= (2 ^ 53 - 1) * 2 ^ 10) as UP. { apply (near_upper P Q c (2 ^ 53 - 1) 10 NC HQ ltac:(lia) ltac:(lia)). apply (canc _ _ g Hg). replace (Z.abs (ask sub pn x)) with (P * g) in HA by (rewrite EA; destruct s; nia). rewrite EO in HA. eapply Z.le_trans; [exact HA|]. apply Z.eq_le_incl. ring. }
    unfold fits. destruct s; cbv zeta.
    + exists (- c). destruct (Z.leb_spec (- 2 ^ 63) (- c)); [|lia]. destruct (Z.ltb_spec (- c) (2 ^ 63)); [|lia]. split; [reflexivity|lia].
    + exists c. destruct (Z.leb_spec (- 2 ^ 63) c); [|lia]. destruct (Z.ltb_spec c (2 ^ 63)); [|lia]. split; [reflexivity|lia].
  - intros NX HA. destruct (units_near _ _ _ _ HT HX NX) as (s & c & P & Q & g & V & NC & HQ & HP & Hg & EA & EO). rewrite V. rewrite EA, EO in HA. assert (0 < 2 ^ 1074) as U0 by (apply Z.pow_pos_nonneg; lia).
    assert (0 < 2 ^ 63 * (Q * 2 ^ 1074 * g)) as PP by (apply Z.mul_pos_pos; [lia|apply Z.mul_pos_pos; [apply Z.mul_pos_pos; assumption|assumption]]). destruct s; [assert (0 <= P * g) by (apply Z.mul_nonneg_nonneg; lia); rewrite Z.mul_opp_l in HA; lia|].
    assert (1 * 2 ^ 63 <= c) as LO. { apply (near_lower P Q c 1 63 NC HQ ltac:(lia) ltac:(lia)). apply (canc _ _ g Hg). eapply Z.le_trans; [|exact HA]. apply Z.eq_le_incl. ring. }
    unfold fits. destruct (Z.ltb_spec c (2 ^ 63)); [lia|]. rewrite andb_false_r. reflexivity.
  - intros NX. destruct (ratio_plain _ _ _ HT) as (A & B & C & _). cbv zeta in *. unfold float_units, float_cast. set (n := pn * sub / _) in *. set (d := pd / _) in *. clearbody n d.
    destruct x as [b|b| |s m e]; cbn [number] in NX; try (exfalso; apply NX; exact I); (destruct (Z.eqb_spec n 1) as [-> |N1];
      [destruct (Z.eqb_spec d 1); [reflexivity|]; destruct (dbl_of_spec d B) as (my & ey & -> & _); reflexivity
      |destruct C as [C|C]; [contradiction|]; rewrite C, Z.eqb_refl; destruct (dbl_of_spec n A) as (my & ey & -> & _); reflexivity]).
Qed.
Print Assumptions C93_defined.
(** Whole numbers of units up to 2^53 (104 days of nanoseconds) are converted exactly. *)
Theorem C93_exact : forall sub pn pd x z, plain_tick sub pn pd -> is_double x -> number x -> Z.abs z <= 2 ^ 53 -> ask sub pn x = z * one pd -> float_units sub pn pd x = Some z.
Proof.
  intros sub pn pd x z HT HX NX HZ HA. assert (0 < one pd) as O by (unfold one; apply Z.mul_pos_pos; [apply HT|apply Z.pow_pos_nonneg; lia]).
  destruct (C93_defined _ _ _ _ HT HX) as (DF & _). destruct (DF NX) as (r & HR & _). { rewrite HA, Z.abs_mul, (Z.abs_eq (one pd)) by lia. apply grow; lia. }
  pose proof (C93_whole _ _ _ _ _ HT HX NX HR (Z.abs z) 0 ltac:(lia) ltac:(lia)) as W. cbv zeta in W. replace (Z.abs z * 2 ^ 0) with (Z.abs z) in W by (change (2 ^ 0) with 1; ring). rewrite HR. f_equal. rewrite HA in W.
  destruct (Z.abs_spec z) as [(S & E)|(S & E)]; rewrite E in W; destruct W as (W1 & W2 & W3 & W4); [specialize (W1 ltac:(lia)); specialize (W2 ltac:(lia)); lia|]. rewrite Z.opp_involutive in W3, W4. specialize (W3 ltac:(lia)). specialize (W4 ltac:(lia)). lia.
Qed.
Print Assumptions C93_exact.
(** Up to 2^53 units (104 days of nanoseconds) the result is less than one unit off. *)
Theorem C93_within_unit : forall sub pn pd x, plain_tick sub pn pd -> is_double x -> number x -> Z.abs (ask sub pn x) <= 2 ^ 53 * one pd ->
  exists r, float_units sub pn pd x = Some r /\ Z.abs (r * one pd - ask sub pn x) < one pd.
Proof.
  intros sub pn pd x HT HX NX HA. assert (0 < one pd) as O by (unfold one; apply Z.mul_pos_pos; [apply HT|apply Z.pow_pos_nonneg; lia]).
  destruct (C93_defined _ _ _ _ HT HX) as (DF & _). destruct (DF NX) as (r & HR & _). { eapply Z.le_trans; [exact HA|]. apply grow; lia. }
  exists r. split; [exact HR|]. pose proof (C93_whole _ _ _ _ _ HT HX NX HR) as W. set (A := ask sub pn x) in *. set (D := one pd) in *. clearbody A D.
  assert (forall v, 0 <= v <= 2 ^ 53 -> (v * D <= A -> v <= r) /\ (A <= v * D -> r <= v) /\ (- v * D <= A -> - v <= r) /\ (A <= - v * D -> r <= - v)) as W0.
  { intros v HV. pose proof (W v 0 HV ltac:(lia)) as X. cbv zeta in X. replace (v * 2 ^ 0) with v in X by (change (2 ^ 0) with 1; ring). exact X. }
  pose proof (Z.div_mod (Z.abs A) D ltac:(lia)) as E. pose proof (Z.mod_pos_bound (Z.abs A) D O) as B. set (z := Z.abs A / D) in *. set (f := Z.abs A mod D) in *. assert (0 <= z) as Z0 by (apply Z.div_pos; lia). clearbody z f.
  assert (z <= 2 ^ 53) as Z1. { destruct (Z_le_gt_dec z (2 ^ 53)); [assumption|]. exfalso. assert ((2 ^ 53 + 1) * D <= z * D) by (apply grow; lia). lia. }
  destruct (Z.eq_dec f 0) as [F|F].
  - destruct (W0 z ltac:(lia)) as (W1 & W2 & W3 & W4). destruct (Z.abs_spec A) as [(S & EA)|(S & EA)]; rewrite EA in E.
    + specialize (W1 ltac:(lia)). specialize (W2 ltac:(lia)). assert (r = z) as -> by lia. lia.
    + specialize (W3 ltac:(lia)). specialize (W4 ltac:(lia)). assert (r = - z) as -> by lia. lia.
  - assert (z + 1 <= 2 ^ 53) as Z2. { destruct (Z_le_gt_dec (z + 1) (2 ^ 53)); [assumption|]. exfalso. assert (z = 2 ^ 53) as Y by lia. rewrite Y in *. lia. }
    destruct (W0 z ltac:(lia)) as (W1 & W2 & W3 & W4). destruct (W0 (z + 1) ltac:(lia)) as (V1 & V2 & V3 & V4). destruct (Z.abs_spec A) as [(S & EA)|(S & EA)]; rewrite EA in E.
    + specialize (W1 ltac:(lia)). specialize (V2 ltac:(lia)). assert (r = z \/ r = z + 1) as [-> | ->] by lia; lia.
    + specialize (W4 ltac:(lia)). specialize (V3 ltac:(lia)). assert (r = - z \/ r = - (z + 1)) as [-> | ->] by lia; lia.
Qed.
Print Assumptions C93_within_unit.
(** Beyond that it is off by one part in 2^53 and one unit; readings of a clock up to 2^61 units (73 years of nanoseconds) by less than 257 units.  It never
    changes sign. *)
Theorem C93_accuracy : forall sub pn pd x r, plain_tick sub pn pd -> is_double x -> number x -> float_units sub pn pd x = Some r ->
  2 ^ 53 * (Z.abs r * one pd) <= (2 ^ 53 + 1) * Z.abs (ask sub pn x) /\ (2 ^ 53 - 1) * Z.abs (ask sub pn x) < 2 ^ 53 * ((Z.abs r + 1) * one pd) /\
  (0 <= ask sub pn x -> 0 <= r) /\ (ask sub pn x <= 0 -> r <= 0) /\
  (Z.abs (ask sub pn x) <= 2 ^ 61 * one pd -> Z.abs (r * one pd - ask sub pn x) < 257 * one pd).
Proof.
  intros sub pn pd x r HT HX NX HR. assert (0 < one pd) as O by (unfold one; apply Z.mul_pos_pos; [apply HT|apply Z.pow_pos_nonneg; lia]).
  pose proof (C93_whole _ _ _ _ _ HT HX NX HR 0 0 ltac:(lia) ltac:(lia)) as (S1 & S2 & _). change (0 * 2 ^ 0) with 0 in *. rewrite !Z.mul_0_l in *.
  assert (2 ^ 53 * (Z.abs r * one pd) <= (2 ^ 53 + 1) * Z.abs (ask sub pn x) /\ (2 ^ 53 - 1) * Z.abs (ask sub pn x) < 2 ^ 53 * ((Z.abs r + 1) * one pd)) as (X1 & X2).
  { destruct (units_near _ _ _ _ HT HX NX) as (s & c & P & Q & g & V & NC & HQ & HP & Hg & EA & EO). rewrite HR in V. symmetry in V. apply fits_some in V. pose proof (near_nonneg _ _ _ NC) as C0.
    destruct (near_rel _ _ _ NC HQ HP) as (R1 & R2). replace (Z.abs (ask sub pn x)) with (P * g) by (rewrite EA; destruct s; nia). replace (Z.abs r) with c by (subst r; destruct s; lia). rewrite EO. set (U := 2 ^ 1074) in *. clearbody U.
    split; [apply (grow _ _ g) in R1; [|lia]; eapply Z.le_trans; [|eapply Z.le_trans; [exact R1|]]; apply Z.eq_le_incl; ring|].
    apply (Z.mul_lt_mono_pos_r g _ _ Hg) in R2. eapply Z.le_lt_trans; [|eapply Z.lt_le_trans; [exact R2|]]; apply Z.eq_le_incl; ring. }
  split; [exact X1|]. split; [exact X2|]. split; [exact S1|]. split; [exact S2|]. intros HA. set (A := ask sub pn x) in *. set (D := one pd) in *. clearbody A D.
  destruct (Z.abs_spec A) as [(S & EA)|(S & EA)]; rewrite EA in *.
  - specialize (S1 S). rewrite (Z.abs_eq r) in * by lia. lia.
  - specialize (S2 ltac:(lia)). rewrite (Z.abs_neq r) in * by lia. lia.
Qed.
Print Assumptions C93_accuracy.
(** Refuted: duration<double>::max() as a timeout is undefined behaviour, not a wait without end (nor is infinity, see C93_defined). *)
Theorem C93_forever_refuted : exists x, is_double x /\ number x /\ (forall y, is_double y -> val y <= val x) /\ float_units 1000000000 1 1 x = None /\ float_units 1000 1 1 x = None.
Proof.
  exists (S754_finite false 9007199254740991 971). split; [reflexivity|]. split; [exact I|]. split; [|split; reflexivity].
  assert (0 <= 2 ^ (971 + 1074)) as P0 by (apply Z.pow_nonneg; lia). intros [b|b| |s m e] HY; cbn [val]; try (apply Z.mul_nonneg_nonneg; lia).
  assert (0 <= Zpos m * 2 ^ (e + 1074)) as PM by (apply Z.mul_nonneg_nonneg; [|apply Z.pow_nonneg]; lia).
  assert (Zpos m * 2 ^ (e + 1074) <= 9007199254740991 * 2 ^ (971 + 1074)); [|destruct s; lia].
  unfold is_double in HY. cbn [valid_binary] in HY. unfold bounded, canonical_mantissa in HY. apply andb_prop in HY as (H1 & H2). apply Zeq_bool_eq in H1. apply Zle_bool_imp_le in H2. change (1024 - 53) with 971 in H2. rewrite fexp_val in H1.
  pose proof (digits_spec (Zpos m) ltac:(lia)) as (_ & DH). cbn [Zdigits2] in DH. assert (2 ^ Z.pos (digits2_pos m) <= 2 ^ 53) as PW by (apply Z.pow_le_mono_r; lia).
  apply Z.le_trans with (Zpos m * 2 ^ (971 + 1074)); [apply Z.mul_le_mono_nonneg_l; [lia|]; apply Z.pow_le_mono_r; lia|]. apply grow; [exact P0|lia].
Qed.
Print Assumptions C93_forever_refuted.
(** Refuted: the result is the nearest number of units, or never more than was asked.  1.001 seconds on Windows is 1000 ms, although it is within a picosecond of 1001 ms;
    0.3 seconds on POSIX is 300000000 ns, although the double 0.3 is less. *)
Theorem C93_nearest_refuted :
  (exists x, is_double x /\ float_units 1000 1 1 x = Some 1000 /\ 1000000000 * (1001 * one 1 - ask 1000 1 x) < one 1) /\
  (exists x, is_double x /\ float_units 1000000000 1 1 x = Some 300000000 /\ ask 1000000000 1 x < 300000000 * one 1).
Proof.
  split; [exists (S754_finite false 4508103226997866 (-52))|exists (S754_finite false 5404319552844595 (-54))]; split; try reflexivity; split; reflexivity.
Qed.
Print Assumptions C93_nearest_refuted.

(** Two and a half minutes as duration<double, ratio<60>>: 150 s; the hypotheses hold for hours, minutes, seconds, milliseconds, microseconds and nanoseconds on both platforms. *)
Example C93_example : let x := S754_finite false 5629499534213120 (-51) in
  is_double x /\ number x /\ ask 1000000000 60 x = 150000000000 * one 1 /\ float_units 1000000000 60 1 x = Some 150000000000 /\ float_units 1000 60 1 x = Some 150000 /\
  float_units 1000 1 1000 (S754_finite true 5629499534213120 (-51)) = Some (-2) /\
  Forall (fun p => plain_tick 1000000000 (fst p) (snd p) /\ plain_tick 1000 (fst p) (snd p)) ((3600, 1) :: (60, 1) :: (1, 1) :: (1, 1000) :: (1, 1000000) :: (1, 1000000000) :: nil).
Proof.
  cbv zeta. split; [reflexivity|]. split; [exact I|]. split; [reflexivity|]. split; [reflexivity|]. split; [reflexivity|]. split; [reflexivity|].
  repeat (apply Forall_cons; [cbn [fst snd]; unfold plain_tick; split; (split; [lia|]; split; [lia|]; split; [lia|]; split; [lia|]; split; [lia|])|]); try apply Forall_nil.
  all: match goal with |- Z.divide ?a ?b \/ Z.divide ?c ?d => first [left; exists (b / a); reflexivity|right; exists (d / c); reflexivity] end.
Qed.
