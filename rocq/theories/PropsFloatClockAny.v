(** C95, continued: any period, any reading, double and float (FloatClock.v). *)
From Coq Require Import List ZArith Bool Lia.
From Coq Require Import Floats.SpecFloat.
From Verif Require Import TimedLoops FloatDur FloatClock PropsFloatDur PropsFloatSingle PropsFloatClock.
Import ListNotations.
Local Open Scope Z_scope.

(** A binary format: precision and exponent limit; double is (53, 1024), float (24, 128).  Proof device; no counterpart in /repo. *)
Definition fmt (prec emax : Z) : Prop := 24 <= prec <= 53 /\ 128 <= emax.
(** The value of a finite number on the scale 2^-(emax + prec - 3).  Proof device; no counterpart in /repo. *)
Definition gval (prec emax : Z) (x : spec_float) : Z := match x with S754_finite s m e => if s then - (Zpos m * 2 ^ (e + (emax + prec - 3))) else Zpos m * 2 ^ (e + (emax + prec - 3)) | _ => 0 end.
Lemma gfexp_val prec emax x : fexp prec emax x = Z.max (x - prec) (3 - emax - prec). Proof. reflexivity. Qed.

Lemma gcanon prec emax s m e : valid_binary prec emax (S754_finite s m e) = true -> e = Z.max (Zdigits2 (Zpos m) + e - prec) (3 - emax - prec).
Proof. cbn [valid_binary]. unfold bounded, canonical_mantissa. intros H. apply andb_true_iff in H. destruct H as (H & _). apply Zeq_bool_eq in H. rewrite gfexp_val in H. cbn [Zdigits2]. lia. Qed.
Lemma gmag_lt prec emax s m e s' m' e' : fmt prec emax -> valid_binary prec emax (S754_finite s m e) = true -> valid_binary prec emax (S754_finite s' m' e') = true -> e < e' ->
  Zpos m * 2 ^ (e + (emax + prec - 3)) < Zpos m' * 2 ^ (e' + (emax + prec - 3)).
Proof.
  intros (F1 & F2) H H' L. apply gcanon in H. apply gcanon in H'. pose proof (digits_spec (Zpos m) ltac:(lia)) as (_ & M). pose proof (digits_spec (Zpos m') ltac:(lia)) as (M' & _).
  set (d := Zdigits2 (Zpos m)) in *. set (d' := Zdigits2 (Zpos m')) in *. assert (0 < d) by (apply digits_pos; lia). clearbody d d'. assert (d' = prec) by lia. subst d'. assert (d <= prec) by lia.
  assert (2 ^ d <= 2 ^ (1 + (prec - 1))) as PM by (apply Z.pow_le_mono_r; lia). rewrite Z.pow_add_r in PM by lia. change (2 ^ 1) with 2 in PM. set (off := emax + prec - 3) in *. assert (0 <= e + off) as EO by (unfold off; lia).
  replace (e' + off) with (1 + (e' - e - 1) + (e + off)) by lia. rewrite (Z.pow_add_r 2 (1 + (e' - e - 1)) (e + off)), (Z.pow_add_r 2 1) by lia.
  assert (0 < 2 ^ (e + off)) as T0 by (apply Z.pow_pos_nonneg; lia). assert (0 < 2 ^ (e' - e - 1)) as U0 by (apply Z.pow_pos_nonneg; lia). set (T := 2 ^ (e + off)) in *. set (U := 2 ^ (e' - e - 1)) in *. set (B := 2 ^ (prec - 1)) in *. clearbody T U B.
  rewrite Z.mul_assoc. apply Z.mul_lt_mono_pos_r; [exact T0|]. change (2 ^ 1) with 2. nia.
Qed.
Lemma gltb_val prec emax x y : fmt prec emax -> valid_binary prec emax x = true -> number x -> valid_binary prec emax y = true -> number y -> SFltb x y = (gval prec emax x <? gval prec emax y).
Proof.
  intros HF HX NX HY NY. unfold SFltb, Z.ltb.
  assert (forall m e b, valid_binary prec emax (S754_finite b m e) = true -> 0 < Zpos m * 2 ^ (e + (emax + prec - 3))) as POS by (intros m e b H; destruct HF as (F1 & F2); apply gcanon in H; apply Z.mul_pos_pos; [lia|apply Z.pow_pos_nonneg; lia]).
  destruct x as [b|b| |s m e]; try contradiction; destruct y as [b'|b'| |s' m' e']; try contradiction; cbn [SFcompare gval].
  - reflexivity.
  - pose proof (POS _ _ _ HY) as P. destruct s'; [rewrite (proj2 (Z.compare_gt_iff _ _))|rewrite (proj2 (Z.compare_lt_iff _ _))]; try reflexivity; lia.
  - pose proof (POS _ _ _ HX) as P. destruct s; [rewrite (proj2 (Z.compare_lt_iff _ _))|rewrite (proj2 (Z.compare_gt_iff _ _))]; try reflexivity; lia.
  - pose proof (POS _ _ _ HX) as P. pose proof (POS _ _ _ HY) as P'.
    assert ((Zpos m * 2 ^ (e + (emax + prec - 3)) ?= Zpos m' * 2 ^ (e' + (emax + prec - 3))) = match e ?= e' with Eq => Pcompare m m' Eq | c => c end) as M.
    { destruct (Z.compare_spec e e') as [C|C|C].
      - subst e'. assert (0 < 2 ^ (e + (emax + prec - 3))) as T0 by (destruct HF as (F1 & F2); apply gcanon in HX; apply Z.pow_pos_nonneg; lia). rewrite <- Zmult_compare_compat_r by lia. reflexivity.
      - apply Z.compare_lt_iff. apply (gmag_lt _ _ _ _ _ _ _ _ HF HX HY C).
      - apply Z.compare_gt_iff. apply (gmag_lt _ _ _ _ _ _ _ _ HF HY HX C). }
    destruct s, s'.
    + rewrite Z.compare_opp, (Z.compare_antisym (Zpos m * 2 ^ (e + (emax + prec - 3)))), M. destruct (e ?= e'); cbn [CompOpp]; reflexivity.
    + rewrite (proj2 (Z.compare_lt_iff _ _)) by lia. reflexivity.
    + rewrite (proj2 (Z.compare_gt_iff _ _)) by lia. reflexivity.
    + rewrite M. destruct (e ?= e'); reflexivity.
Qed.

(** A positive normal number with binary exponent between [lo] and [hi].  Proof device; no counterpart in /repo. *)
Definition norm (prec emax lo hi : Z) (x : spec_float) : Prop := exists m e, x = S754_finite false m e /\ valid_binary prec emax x = true /\ Zdigits2 (Zpos m) = prec /\ lo <= e + prec <= hi.
Lemma gaux prec emax N D m l ex : fmt prec emax -> 0 < D -> 0 < m -> rep N D (shr_record_of_loc m l) -> prec <= Zdigits2 m -> -100 <= ex + Zdigits2 m <= 127 -> -130 <= ex ->
  let r := binary_round_aux prec emax false m ex l in let S := 2 ^ (ex + (emax + prec - 3)) in
  norm prec emax (ex + Zdigits2 m) (ex + Zdigits2 m + 1) r /\ 2 ^ prec * Z.abs (gval prec emax r * D - N * S) <= N * S.
Proof.
  intros (F1 & F2) HD Hm R0 HG HX HX2. set (x0 := shr_record_of_loc m l) in *. assert (shr_m x0 = m) as M0 by (unfold x0; destruct l as [|[| |]]; reflexivity). set (off := emax + prec - 3). assert (0 <= ex + off) as EO by (unfold off; lia).
  set (k := fexp prec emax (Zdigits2 m + ex) - ex). assert (k = Zdigits2 m - prec) as EK by (unfold k; rewrite gfexp_val; lia). assert (Z.max 0 k = k) as MK by lia.
  set (x1 := match k with Zpos p => iter_pos shr_1 p x0 | _ => x0 end). assert (rep N (D * 2 ^ Z.max 0 k) x1) as R1 by (apply shr_rep; [lia|exact R0]). rewrite MK in R1.
  destruct R0 as (_ & R0 & _). rewrite M0 in R0. assert (0 < 2 ^ k) as PK by (apply Z.pow_pos_nonneg; lia).
  set (q := rne x1). destruct (rne_spec _ _ _ R1) as (Q0 & QA & QL & QH). fold q in Q0, QA, QL, QH. pose proof (digits_spec m Hm) as (DL & DH).
  assert (0 < 2 ^ (prec - 1)) as B0 by (apply Z.pow_pos_nonneg; lia). assert (2 ^ prec = 2 * 2 ^ (prec - 1)) as BP by (replace prec with (1 + (prec - 1)) at 1 by lia; rewrite Z.pow_add_r by lia; reflexivity).
  assert (2 ^ (prec - 1) * (D * 2 ^ k) <= N) as LN.
  { replace (2 ^ (prec - 1) * (D * 2 ^ k)) with (2 ^ (Zdigits2 m - 1) * D); [nia|]. replace (Zdigits2 m - 1) with (prec - 1 + k) by lia. rewrite Z.pow_add_r by lia. ring. }
  assert (N <= 2 ^ prec * (D * 2 ^ k)) as UN.
  { replace (2 ^ prec * (D * 2 ^ k)) with (2 ^ Zdigits2 m * D); [nia|]. replace (Zdigits2 m) with (prec + k) by lia. rewrite Z.pow_add_r by lia. ring. }
  apply QL in LN as Q52. apply QH in UN as Q53. cbv zeta. set (E := ex + k).
  assert (2 ^ prec * Z.abs (q * 2 ^ (E + off) * D - N * 2 ^ (ex + off)) <= N * 2 ^ (ex + off)) as REL.
  { unfold E. replace (ex + k + off) with (k + (ex + off)) by lia. rewrite (Z.pow_add_r 2 k) by lia. assert (0 < 2 ^ (ex + off)) as T0 by (apply Z.pow_pos_nonneg; lia). set (T := 2 ^ (ex + off)) in *. clearbody T.
    replace (q * (2 ^ k * T) * D - N * T) with ((q * (D * 2 ^ k) - N) * T) by ring. rewrite Z.abs_mul, (Z.abs_eq T) by lia. rewrite Z.mul_assoc. apply grow; [lia|]. rewrite BP. set (B := 2 ^ (prec - 1)) in *. clearbody B. nia. }
  unfold binary_round_aux, shr_fexp. fold x0. rewrite shr_case. fold k. rewrite MK. fold x1. change (round_nearest_even (shr_m x1) (loc_of_shr_record x1)) with q. rewrite shr_case. fold E. clearbody q. clear R1 QA QL QH x1.
  set (k2 := fexp prec emax (Zdigits2 q + E) - E). cbn [shr_record_of_loc]. pose proof (digits_spec q ltac:(lia)) as (GL & GH). assert (0 < Zdigits2 q) as G0 by (apply digits_pos; lia).
  assert (prec <= Zdigits2 q) as G1. { destruct (Z_le_gt_dec prec (Zdigits2 q)) as [|B]; [assumption|]. exfalso. assert (2 ^ Zdigits2 q <= 2 ^ (prec - 1)) by (apply Z.pow_le_mono_r; lia). lia. }
  assert (Zdigits2 q <= prec + 1) as G2. { destruct (Z_le_gt_dec (Zdigits2 q) (prec + 1)) as [|B]; [assumption|]. exfalso. assert (2 ^ (1 + prec) <= 2 ^ (Zdigits2 q - 1)) as X by (apply Z.pow_le_mono_r; lia). rewrite Z.pow_add_r in X by lia. change (2 ^ 1) with 2 in X. lia. }
  assert (forall f p, f <= emax - prec -> fexp prec emax (Zdigits2 (Zpos p) + f) = f -> valid_binary prec emax (S754_finite false p f) = true) as CAN.
  { intros f p H1 H2. cbn [valid_binary]. unfold bounded, canonical_mantissa. cbn [Zdigits2] in H2. rewrite H2. replace (Zeq_bool f f) with true by (symmetry; apply Zeq_is_eq_bool; reflexivity). destruct (Z.leb_spec f (emax - prec)); [reflexivity|lia]. }
  assert (k2 = Zdigits2 q - prec) as K2 by (unfold k2; rewrite gfexp_val; unfold E; lia). destruct (Z.eq_dec (Zdigits2 q) prec) as [G|G].
  - replace k2 with 0 by lia. cbn [shr_m]. replace (E + Z.max 0 0) with E by lia. destruct q as [|p|p]; try lia. destruct (Z.leb_spec E (emax - prec)) as [_|X]; [|unfold E in X; lia]. split; [|exact REL].
    exists p, E. split; [reflexivity|]. split; [|split; [exact G|unfold E; lia]]. apply CAN; [unfold E; lia|]. rewrite gfexp_val. unfold E. lia.
  - assert (Zdigits2 q = prec + 1) as DD by lia. rewrite DD in GL. replace (prec + 1 - 1) with prec in GL by lia. assert (q = 2 ^ prec) as E53 by lia. replace k2 with 1 by lia. cbn [iter_pos].
    assert (0 < q) as QP by lia. destruct q as [|p|p]; try lia. destruct p as [p|p|]; [exfalso; rewrite (Pos2Z.inj_xI p) in E53; lia| |exfalso; lia]. rewrite (Pos2Z.inj_xO p) in E53. cbn [shr_1 shr_m]. assert (Zpos p = 2 ^ (prec - 1)) as EP by lia.
    replace (E + Z.max 0 1) with (E + 1) by lia. destruct (Z.leb_spec (E + 1) (emax - prec)) as [_|X]; [|unfold E in X; lia]. assert (Zdigits2 (Zpos p) = prec) as DP by (apply digits_unique; lia).
    split.
    + exists p, (E + 1). split; [reflexivity|]. split; [|split; [exact DP|unfold E; lia]]. apply CAN; [unfold E; lia|]. rewrite DP, gfexp_val. unfold E. lia.
    + cbn [gval]. fold off. replace (Zpos p * 2 ^ (E + 1 + off)) with (Zpos p~0 * 2 ^ (E + off)); [exact REL|]. rewrite (Pos2Z.inj_xO p). replace (E + 1 + off) with (1 + (E + off)) by lia. rewrite (Z.pow_add_r 2 1) by (unfold E; lia). change (2 ^ 1) with 2. ring.
Qed.

Lemma gnorm prec emax n : fmt prec emax -> 0 < n < 2 ^ 63 -> forall h, n < 2 ^ h -> 0 < h -> let x := binary_normalize prec emax n 0 false in let S := 2 ^ (emax + prec - 3) in
  norm prec emax 1 (h + 1) x /\ 2 ^ prec * Z.abs (gval prec emax x - n * S) <= n * S.
Proof.
  intros HF Hn h Hh Hh0. destruct n as [|p|p]; try lia. cbv zeta. pose proof (digits_spec (Zpos p) ltac:(lia)) as (DL & DH). assert (0 < Zdigits2 (Zpos p)) as D0 by (apply digits_pos; lia). cbn [Zdigits2] in *. set (d := Zpos (digits2_pos p)) in *.
  assert (d <= 63) as D63. { destruct (Z_le_gt_dec d 63); [assumption|]. exfalso. assert (2 ^ 63 <= 2 ^ (d - 1)) by (apply Z.pow_le_mono_r; lia). lia. }
  assert (d <= h) as Dh. { destruct (Z_le_gt_dec d h); [assumption|]. exfalso. assert (2 ^ h <= 2 ^ (d - 1)) by (apply Z.pow_le_mono_r; lia). lia. }
  pose proof HF as (F1 & F2). set (j := Z.max 0 (prec - d)).
  assert (exists mz, Zpos mz = Zpos p * 2 ^ j /\ shl_align p 0 (fexp prec emax (d + 0)) = (mz, - j)) as (mz & MZ & SA).
  { rewrite gfexp_val. unfold shl_align. replace (Z.max (d + 0 - prec) (3 - emax - prec) - 0) with (d - prec) by lia. replace (Z.max (d + 0 - prec) (3 - emax - prec)) with (d - prec) by lia. unfold j.
    destruct (d - prec) as [|z|z] eqn:Z0.
    - exists p. replace (Z.max 0 (prec - d)) with 0 by lia. split; [change (2 ^ 0) with 1; lia|reflexivity].
    - exists p. replace (Z.max 0 (prec - d)) with 0 by lia. split; [change (2 ^ 0) with 1; lia|reflexivity].
    - exists (shift_pos z p). replace (Z.max 0 (prec - d)) with (Zpos z) by lia. split; [|reflexivity]. rewrite shift_pos_correct. rewrite Zpower_pos_nat, Zpower_nat_Z. rewrite positive_nat_Z. ring. }
  assert (Zdigits2 (Zpos mz) = d + j) as DM.
  { assert (0 < 2 ^ j) as PJ by (apply Z.pow_pos_nonneg; unfold j; lia). apply digits_unique; [lia|unfold j; lia|]. rewrite MZ. replace (d + j - 1) with (d - 1 + j) by lia. rewrite !Z.pow_add_r by (unfold j; lia). split; [apply grow; lia|apply Z.mul_lt_mono_pos_r; lia]. }
  unfold binary_normalize, binary_round. fold d. rewrite SA.
  destruct (gaux prec emax (Zpos mz) 1 (Zpos mz) loc_Exact (- j) HF) as (A & B); [lia|lia|unfold rep; cbn [shr_record_of_loc shr_m shr_r shr_s]; lia|rewrite DM; unfold j; lia|rewrite DM; unfold j; lia|unfold j; lia|]. cbv zeta in A, B.
  rewrite Z.mul_1_r in B. set (x := binary_round_aux prec emax false (Z.pos mz) (- j) loc_Exact) in *. clearbody x. split.
  - destruct A as (m & e & E1 & E2 & E3 & E4). exists m, e. split; [exact E1|]. split; [exact E2|]. split; [exact E3|]. rewrite DM in E4. lia.
  - rewrite MZ in B. replace (Zpos p * 2 ^ j * 2 ^ (- j + (emax + prec - 3))) with (Zpos p * 2 ^ (emax + prec - 3)) in B; [exact B|]. rewrite <- Z.mul_assoc, <- Z.pow_add_r by (unfold j; lia). f_equal. f_equal. lia.
Qed.
Lemma gmul prec emax x y : fmt prec emax -> norm prec emax 1 64 x -> norm prec emax 1 61 y -> let r := SFmul prec emax x y in let S := 2 ^ (emax + prec - 3) in
  norm prec emax 1 126 r /\ 2 ^ prec * Z.abs (gval prec emax r * S - gval prec emax x * gval prec emax y) <= gval prec emax x * gval prec emax y.
Proof.
  intros HF (m & e & -> & _ & D & HE) (m' & e' & -> & _ & D' & HE'). cbv zeta. pose proof HF as (F1 & F2). unfold SFmul. cbn [xorb].
  pose proof (digits_spec (Zpos m) ltac:(lia)) as (M1 & M2). pose proof (digits_spec (Zpos m') ltac:(lia)) as (M1' & M2'). rewrite D in M1, M2. rewrite D' in M1', M2'.
  assert (2 * prec - 1 <= Zdigits2 (Zpos (m * m')) <= 2 * prec) as DP.
  { rewrite Pos2Z.inj_mul. pose proof (digits_spec (Zpos m * Zpos m') ltac:(lia)) as (P1 & P2). set (d := Zdigits2 (Zpos m * Zpos m')) in *. assert (0 < d) by (apply digits_pos; lia). clearbody d. split.
    - destruct (Z_le_gt_dec (2 * prec - 1) d); [assumption|]. exfalso. assert (2 ^ d <= 2 ^ (prec - 1 + (prec - 1))) as X by (apply Z.pow_le_mono_r; lia). rewrite Z.pow_add_r in X by lia. assert (0 < 2 ^ (prec - 1)) by (apply Z.pow_pos_nonneg; lia). nia.
    - destruct (Z_le_gt_dec d (2 * prec)); [assumption|]. exfalso. assert (2 ^ (prec + prec) <= 2 ^ (d - 1)) as X by (apply Z.pow_le_mono_r; lia). rewrite Z.pow_add_r in X by lia. nia. }
  destruct (gaux prec emax (Zpos (m * m')) 1 (Zpos (m * m')) loc_Exact (e + e') HF) as (A & B); [lia|lia|unfold rep; cbn [shr_record_of_loc shr_m shr_r shr_s]; lia|lia|lia|lia|]. cbv zeta in A, B. rewrite Z.mul_1_r in B.
  set (r := binary_round_aux prec emax false (Z.pos (m * m')) (e + e') loc_Exact) in *. clearbody r. split.
  - destruct A as (m1 & e1 & E1 & E2 & E3 & E4). exists m1, e1. split; [exact E1|]. split; [exact E2|]. split; [exact E3|]. lia.
  - cbn [gval]. set (off := emax + prec - 3) in *. assert (0 <= e + e' + off) by (unfold off; lia). assert (0 < 2 ^ off) as S0 by (apply Z.pow_pos_nonneg; unfold off; lia).
    assert (Zpos m * 2 ^ (e + off) * (Zpos m' * 2 ^ (e' + off)) = Zpos (m * m') * 2 ^ (e + e' + off) * 2 ^ off) as ->.
    { rewrite Pos2Z.inj_mul. transitivity (Zpos m * Zpos m' * (2 ^ (e + off) * 2 ^ (e' + off))); [ring|]. rewrite <- (Z.pow_add_r 2 (e + off)) by (unfold off; lia). replace (e + off + (e' + off)) with (e + e' + off + off) by lia. rewrite (Z.pow_add_r 2 (e + e' + off)) by (unfold off; lia). ring. }
    set (W := Zpos (m * m') * 2 ^ (e + e' + off)) in *. clearbody W. set (T := 2 ^ off) in *. clearbody T. rewrite <- Z.mul_sub_distr_r, Z.abs_mul, (Z.abs_eq T) by lia. rewrite Z.mul_assoc. apply grow; [lia|exact B].
Qed.
Lemma gdiv prec emax x y : fmt prec emax -> norm prec emax 1 126 x -> norm prec emax 1 61 y -> let r := SFdiv prec emax x y in let S := 2 ^ (emax + prec - 3) in
  valid_binary prec emax r = true /\ number r /\ 2 ^ prec * Z.abs (gval prec emax r * gval prec emax y - gval prec emax x * S) <= gval prec emax x * S.
Proof.
  intros HF (m & e & -> & _ & D & HE) (my & ey & -> & _ & D' & HE'). cbv zeta. pose proof HF as (F1 & F2).
  pose proof (digits_spec (Zpos m) ltac:(lia)) as (M1 & M2). pose proof (digits_spec (Zpos my) ltac:(lia)) as (M1' & M2'). rewrite D in M1, M2. rewrite D' in M1', M2'.
  unfold SFdiv, SFdiv_core_binary. rewrite D, D'. cbn [xorb].
  replace (Z.min (fexp prec emax (prec + e - (prec + ey))) (e - ey)) with (e - ey - prec) by (rewrite gfexp_val; lia). replace (e - ey - (e - ey - prec)) with prec by lia.
  assert ((match prec with Z0 => Zpos m | Zpos _ => Z.shiftl (Zpos m) prec | Zneg _ => 0 end) = Zpos m * 2 ^ prec) as -> by (destruct prec; [lia|apply Z.shiftl_mul_pow2; lia|lia]).
  set (N := Zpos m * 2 ^ prec). assert (Z.div_eucl N (Zpos my) = (N / Zpos my, N mod Zpos my)) as -> by (unfold Z.div, Z.modulo; destruct (Z.div_eucl N (Zpos my)); reflexivity).
  assert (0 < 2 ^ (prec - 1)) as B0 by (apply Z.pow_pos_nonneg; lia). assert (2 ^ prec = 2 * 2 ^ (prec - 1)) as BP by (replace prec with (1 + (prec - 1)) at 1 by lia; rewrite Z.pow_add_r by lia; reflexivity).
  assert (2 ^ (prec - 1) <= N / Zpos my) as LB by (apply Z.div_le_lower_bound; [lia|]; unfold N; nia).
  assert (N / Zpos my < 2 ^ (prec + 1)) as UB. { apply Z.div_lt_upper_bound; [lia|]. unfold N. rewrite (Z.pow_add_r 2 prec 1) by lia. change (2 ^ 1) with 2. nia. }
  assert (prec <= Zdigits2 (N / Zpos my) <= prec + 1) as DQ.
  { pose proof (digits_spec (N / Zpos my) ltac:(lia)) as (P1 & P2). split.
    - destruct (Z_le_gt_dec prec (Zdigits2 (N / Zpos my))) as [|G]; [assumption|]. exfalso. assert (2 ^ Zdigits2 (N / Zpos my) <= 2 ^ (prec - 1)) by (apply Z.pow_le_mono_r; lia). lia.
    - destruct (Z_le_gt_dec (Zdigits2 (N / Zpos my)) (prec + 1)) as [|G]; [assumption|]. exfalso. assert (2 ^ (prec + 1) <= 2 ^ (Zdigits2 (N / Zpos my) - 1)) by (apply Z.pow_le_mono_r; lia). lia. }
  destruct (gaux prec emax N (Zpos my) (N / Zpos my) (new_location (Zpos my) (N mod Zpos my)) (e - ey - prec) HF) as (A & B); [lia|lia|apply new_loc_rep; unfold N; nia|lia|lia|lia|]. cbv zeta in A, B.
  set (r := binary_round_aux prec emax false (N / Zpos my) (e - ey - prec) (new_location (Zpos my) (N mod Zpos my))) in *. clearbody r.
  destruct A as (m1 & e1 & E1 & E2 & E3 & E4). split; [exact E2|]. split; [rewrite E1; exact I|]. set (V := gval prec emax r) in *. clearbody V. cbn [gval]. set (off := emax + prec - 3) in *. assert (0 <= ey + off) by (unfold off; lia). assert (0 <= e - ey - prec + off) by (unfold off; lia).
  assert (0 < 2 ^ (ey + off)) as T0 by (apply Z.pow_pos_nonneg; lia).
  assert (Zpos m * 2 ^ (e + off) * 2 ^ off = N * 2 ^ (e - ey - prec + off) * 2 ^ (ey + off)) as ->. { unfold N. rewrite <- !Z.mul_assoc. f_equal. rewrite <- (Z.pow_add_r 2 (e + off)), <- (Z.pow_add_r 2 (e - ey - prec + off)), <- Z.pow_add_r by (unfold off; lia). f_equal. lia. }
  set (W := N * 2 ^ (e - ey - prec + off)) in *. clearbody W. set (T := 2 ^ (ey + off)) in *. clearbody T. replace (V * (Zpos my * T) - W * T) with ((V * Zpos my - W) * T) by ring. rewrite Z.abs_mul, (Z.abs_eq T) by lia. rewrite Z.mul_assoc. apply grow; [lia|exact B].
Qed.

(** [read_double] and [read_single] (FloatClock.v) at once.  Proof device; no counterpart in /repo. *)
Definition gread (prec emax num den n : Z) : spec_float :=
  let x := binary_normalize prec emax n 0 false in
  if num =? 1 then (if den =? 1 then x else SFdiv prec emax x (binary_normalize prec emax den 0 false))
  else if den =? 1 then SFmul prec emax x (binary_normalize prec emax num 0 false)
  else SFdiv prec emax (SFmul prec emax x (binary_normalize prec emax num 0 false)) (binary_normalize prec emax den 0 false).

Lemma rel_bounds u a b : 0 < u -> u * Z.abs (a - b) <= b -> u * a <= (u + 1) * b /\ (u - 1) * b <= u * a.
Proof. intros U H. assert (u * (a - b) <= u * Z.abs (a - b)) as L1 by (apply Z.mul_le_mono_nonneg_l; lia). assert (u * (b - a) <= u * Z.abs (a - b)) as L2 by (apply Z.mul_le_mono_nonneg_l; lia). rewrite !Z.mul_sub_distr_l in *. rewrite Z.mul_add_distr_r, Z.mul_sub_distr_r. lia. Qed.
(** Errors of the five roundings together, [u] = 2^prec. *)
Lemma five u S A B X Y R n num den : 1000 <= u -> 0 < S -> 0 < n -> 0 < num -> 0 < den -> 0 <= A -> 0 <= B -> 0 <= X -> 0 < Y -> 0 <= R ->
  u * Z.abs (A - n * S) <= n * S -> u * Z.abs (B - num * S) <= num * S -> u * Z.abs (X * S - A * B) <= A * B -> u * Z.abs (Y - den * S) <= den * S -> u * Z.abs (R * Y - X * S) <= X * S ->
  u * (R * den) <= (u + 8) * (n * num * S) /\ (u - 8) * (n * num * S) <= u * (R * den).
Proof.
  intros Hu HS Hn Hm Hd HA HB HX HY HR EA EB EX EY ER.
  destruct (rel_bounds u A (n * S) ltac:(lia) EA) as (A1 & A2). destruct (rel_bounds u B (num * S) ltac:(lia) EB) as (B1 & B2). destruct (rel_bounds u (X * S) (A * B) ltac:(lia) EX) as (X1 & X2).
  destruct (rel_bounds u Y (den * S) ltac:(lia) EY) as (Y1 & Y2). destruct (rel_bounds u (R * Y) (X * S) ltac:(lia) ER) as (R1 & R2). clear EA EB EX EY ER.
  set (P := n * num * S). assert (0 < P) as P0 by (unfold P; apply Z.mul_pos_pos; [apply Z.mul_pos_pos|]; assumption).
  assert ((u * A) * (u * B) <= ((u + 1) * (n * S)) * ((u + 1) * (num * S))) as AB1 by (apply Z.mul_le_mono_nonneg; lia || (apply Z.mul_nonneg_nonneg; lia)).
  assert (((u - 1) * (n * S)) * ((u - 1) * (num * S)) <= (u * A) * (u * B)) as AB2 by (apply Z.mul_le_mono_nonneg; try assumption; apply Z.mul_nonneg_nonneg; try lia; apply Z.mul_nonneg_nonneg; lia).
  assert (u * u * u * X <= (u + 1) * (u + 1) * (u + 1) * P) as XP1.
  { apply (canc _ _ S HS). apply Z.le_trans with ((u + 1) * ((u * A) * (u * B))).
    - replace (u * u * u * X * S) with (u * (X * S) * (u * u)) by ring. replace ((u + 1) * (u * A * (u * B))) with ((u + 1) * (A * B) * (u * u)) by ring. apply grow; [apply Z.mul_nonneg_nonneg; lia|exact X1].
    - replace ((u + 1) * (u + 1) * (u + 1) * P * S) with ((u + 1) * ((u + 1) * (n * S) * ((u + 1) * (num * S)))) by (unfold P; ring). apply Z.mul_le_mono_nonneg_l; [lia|exact AB1]. }
  assert ((u - 1) * (u - 1) * (u - 1) * P <= u * u * u * X) as XP2.
  { apply (canc _ _ S HS). apply Z.le_trans with ((u - 1) * ((u * A) * (u * B))).
    - replace ((u - 1) * (u - 1) * (u - 1) * P * S) with ((u - 1) * ((u - 1) * (n * S) * ((u - 1) * (num * S)))) by (unfold P; ring). apply Z.mul_le_mono_nonneg_l; [lia|exact AB2].
    - replace (u * u * u * X * S) with (u * (X * S) * (u * u)) by ring. replace ((u - 1) * (u * A * (u * B))) with ((u - 1) * (A * B) * (u * u)) by ring. apply grow; [apply Z.mul_nonneg_nonneg; lia|exact X2]. }
  assert ((u - 1) * (R * den) <= (u + 1) * X) as RX1.
  { apply (canc _ _ S HS). apply Z.le_trans with (u * (R * Y)); [|lia]. replace ((u - 1) * (R * den) * S) with ((u - 1) * (den * S) * R) by ring. replace (u * (R * Y)) with (u * Y * R) by ring. apply grow; assumption. }
  assert ((u - 1) * X <= (u + 1) * (R * den)) as RX2.
  { apply (canc _ _ S HS). apply Z.le_trans with (u * (R * Y)); [lia|]. replace ((u + 1) * (R * den) * S) with ((u + 1) * (den * S) * R) by ring. replace (u * (R * Y)) with (u * Y * R) by ring. apply grow; assumption. }
  clearbody P. set (Q := R * den) in *. assert (0 <= Q) as Q0 by (unfold Q; apply Z.mul_nonneg_nonneg; lia). clearbody Q. clear - Hu HX P0 Q0 XP1 XP2 RX1 RX2. set (u3 := u * u * u) in *. assert (0 < u3) as U3 by (unfold u3; apply Z.mul_pos_pos; [apply Z.mul_pos_pos|]; lia).
  assert (0 < u * u * (u - 1)) as W1 by (apply Z.mul_pos_pos; [apply Z.mul_pos_pos|]; lia). assert (0 < u * u * (u + 1)) as W2 by (apply Z.mul_pos_pos; [apply Z.mul_pos_pos|]; lia). split.
  - apply (canc _ _ (u * u * (u - 1)) W1). apply Z.le_trans with ((u + 1) * ((u + 1) * (u + 1) * (u + 1) * P)).
    + apply Z.le_trans with ((u + 1) * (u3 * X)); [|apply Z.mul_le_mono_nonneg_l; [lia|exact XP1]]. replace (u * Q * (u * u * (u - 1))) with ((u - 1) * Q * u3) by (unfold u3; ring). replace ((u + 1) * (u3 * X)) with ((u + 1) * X * u3) by ring. apply grow; [lia|exact RX1].
    + replace ((u + 1) * ((u + 1) * (u + 1) * (u + 1) * P)) with ((u + 1) * (u + 1) * (u + 1) * (u + 1) * P) by ring. replace ((u + 8) * P * (u * u * (u - 1))) with ((u + 8) * (u * u * (u - 1)) * P) by ring. apply grow; [lia|]. nia.
  - apply (canc _ _ (u * u * (u + 1)) W2). apply Z.le_trans with ((u - 1) * ((u - 1) * (u - 1) * (u - 1) * P)).
    + replace ((u - 1) * ((u - 1) * (u - 1) * (u - 1) * P)) with ((u - 1) * (u - 1) * (u - 1) * (u - 1) * P) by ring. replace ((u - 8) * P * (u * u * (u + 1))) with ((u - 8) * (u * u * (u + 1)) * P) by ring. apply grow; [lia|]. nia.
    + apply Z.le_trans with ((u - 1) * (u3 * X)); [apply Z.mul_le_mono_nonneg_l; [lia|exact XP2]|]. replace (u * Q * (u * u * (u + 1))) with ((u + 1) * Q * u3) by (unfold u3; ring). replace ((u - 1) * (u3 * X)) with ((u - 1) * X * u3) by ring. apply grow; [lia|exact RX2].
Qed.
Lemma norm_pos prec emax lo hi x : fmt prec emax -> norm prec emax lo hi x -> -100 <= lo -> 0 < gval prec emax x.
Proof. intros (F1 & F2) (m & e & -> & _ & _ & HE) L. cbn [gval]. apply Z.mul_pos_pos; [lia|]. apply Z.pow_pos_nonneg; lia. Qed.
Lemma norm_more prec emax lo hi hi' x : norm prec emax lo hi x -> hi <= hi' -> norm prec emax lo hi' x.
Proof. intros (m & e & A & B & C & D) L. exists m, e. split; [exact A|]. split; [exact B|]. split; [exact C|]. lia. Qed.
Lemma gread_val prec emax num den n : fmt prec emax -> 0 < num < 2 ^ 60 -> 0 < den < 2 ^ 60 -> 0 <= n < 2 ^ 63 -> let r := gread prec emax num den n in let u := 2 ^ prec in let P := n * num * 2 ^ (emax + prec - 3) in
  valid_binary prec emax r = true /\ number r /\ u * (gval prec emax r * den) <= (u + 8) * P /\ (u - 8) * P <= u * (gval prec emax r * den).
Proof.
  intros HF Hm Hd Hn. cbv zeta. pose proof HF as (F1 & F2). set (S := 2 ^ (emax + prec - 3)). assert (0 < S) as S0 by (apply Z.pow_pos_nonneg; lia). assert (2 ^ 24 <= 2 ^ prec) as U0 by (apply Z.pow_le_mono_r; lia). change (2 ^ 24) with 16777216 in U0. set (u := 2 ^ prec) in *.
  destruct (gnorm prec emax num HF ltac:(lia) 60 ltac:(lia) ltac:(lia)) as (NZ & EZ). destruct (gnorm prec emax den HF ltac:(lia) 60 ltac:(lia) ltac:(lia)) as (NY & EY). cbv zeta in NZ, EZ, NY, EY. fold S u in EZ, EY. change (60 + 1) with 61 in *.
  unfold gread. set (z := binary_normalize prec emax num 0 false) in *. set (y := binary_normalize prec emax den 0 false) in *. pose proof (norm_pos _ _ _ _ _ HF NZ ltac:(lia)) as PZ. pose proof (norm_pos _ _ _ _ _ HF NY ltac:(lia)) as PY.
  destruct (Z.eq_dec n 0) as [->|N0].
  { change (binary_normalize prec emax 0 0 false) with (S754_zero false). assert (SFmul prec emax (S754_zero false) z = S754_zero false) as -> by (destruct NZ as (m & e & -> & _); reflexivity). assert (SFdiv prec emax (S754_zero false) y = S754_zero false) as -> by (destruct NY as (m & e & -> & _); reflexivity).
    destruct (num =? 1), (den =? 1); (split; [reflexivity|]; split; [exact I|]; cbn [gval]; lia). }
  destruct (gnorm prec emax n HF ltac:(lia) 63 ltac:(lia) ltac:(lia)) as (NX & EX). cbv zeta in NX, EX. fold S u in EX. change (63 + 1) with 64 in *. set (x := binary_normalize prec emax n 0 false) in *. pose proof (norm_pos _ _ _ _ _ HF NX ltac:(lia)) as PX. clearbody x y z.
  assert (exists p B, (if num =? 1 then x else SFmul prec emax x z) = p /\ norm prec emax 1 126 p /\ 0 <= B /\ u * Z.abs (B - num * S) <= num * S /\ u * Z.abs (gval prec emax p * S - gval prec emax x * B) <= gval prec emax x * B) as (p & B & EP & NP & B0 & EB & EM).
  { destruct (Z.eqb_spec num 1) as [->|_].
    - exists x, S. split; [reflexivity|]. split; [apply (norm_more _ _ _ _ _ _ NX); lia|]. split; [lia|]. rewrite Z.mul_1_l, !Z.sub_diag. change (Z.abs 0) with 0. rewrite Z.mul_0_r. split; [lia|apply Z.mul_nonneg_nonneg; lia].
    - destruct (gmul prec emax x z HF NX NZ) as (A1 & A2). cbv zeta in A1, A2. exists (SFmul prec emax x z), (gval prec emax z). split; [reflexivity|]. split; [exact A1|]. split; [lia|]. split; [exact EZ|exact A2]. }
  pose proof (norm_pos _ _ _ _ _ HF NP ltac:(lia)) as PP.
  assert (exists r Y, (if den =? 1 then p else SFdiv prec emax p y) = r /\ valid_binary prec emax r = true /\ number r /\ 0 < Y /\ u * Z.abs (Y - den * S) <= den * S /\ u * Z.abs (gval prec emax r * Y - gval prec emax p * S) <= gval prec emax p * S) as (r & Y & ER & VR & NR & Y0 & EYY & EQ).
  { destruct (Z.eqb_spec den 1) as [->|_].
    - exists p, S. destruct NP as (m & e & E1 & E2 & _). split; [reflexivity|]. split; [exact E2|]. split; [rewrite E1; exact I|]. split; [exact S0|]. rewrite Z.mul_1_l, !Z.sub_diag. change (Z.abs 0) with 0. rewrite Z.mul_0_r. split; [lia|apply Z.mul_nonneg_nonneg; lia].
    - destruct (gdiv prec emax p y HF NP NY) as (A1 & A2 & A3). cbv zeta in A1, A2, A3. exists (SFdiv prec emax p y), (gval prec emax y). split; [reflexivity|]. split; [exact A1|]. split; [exact A2|]. split; [exact PY|]. split; [exact EY|exact A3]. }
  assert ((if num =? 1 then (if den =? 1 then x else SFdiv prec emax x y) else if den =? 1 then SFmul prec emax x z else SFdiv prec emax (SFmul prec emax x z) y) = r) as -> by (rewrite <- ER, <- EP; destruct (num =? 1), (den =? 1); reflexivity).
  split; [exact VR|]. split; [exact NR|]. clearbody u S. apply (five u S (gval prec emax x) B (gval prec emax p) Y (gval prec emax r) n num den); try lia; try assumption.
  destruct (rel_bounds u (gval prec emax r * Y) (gval prec emax p * S) ltac:(lia) EQ) as (_ & L). destruct (Z_lt_le_dec (gval prec emax r) 0) as [NG|]; [|assumption]. exfalso. assert (0 < gval prec emax p * S) by (apply Z.mul_pos_pos; lia). assert (0 < (u - 1) * (gval prec emax p * S)) by (apply Z.mul_pos_pos; lia).
  assert (gval prec emax r * Y < 0) by (apply Z.mul_neg_pos; lia). assert (u * (gval prec emax r * Y) < 0) by (apply Z.mul_pos_neg; lia). lia.
Qed.

(** A negative reading is converted to the opposite of the positive one. *)
Lemma raux_opp prec emax m e l : binary_round_aux prec emax true m e l = SFopp (binary_round_aux prec emax false m e l).
Proof. unfold binary_round_aux. destruct (shr_fexp prec emax m e l) as (a & b). destruct (shr_fexp prec emax (round_nearest_even (shr_m a) (loc_of_shr_record a)) b loc_Exact) as (c & d). destruct (shr_m c) as [|p|p]; try reflexivity. destruct (Zle_bool d (emax - prec)); reflexivity. Qed.
Lemma normalize_opp prec emax n : n <> 0 -> binary_normalize prec emax (- n) 0 false = SFopp (binary_normalize prec emax n 0 false).
Proof.
  intros H. destruct n as [|p|p]; [contradiction| |]; cbn [binary_normalize Z.opp]; unfold binary_round; destruct (shl_align p 0 (fexp prec emax (Zpos (digits2_pos p) + 0))) as (mz & ez); rewrite raux_opp; [reflexivity|].
  destruct (binary_round_aux prec emax false (Z.pos mz) ez loc_Exact) as [b|b| |b m e]; cbn [SFopp]; rewrite ?negb_involutive; reflexivity.
Qed.
Lemma mul_opp prec emax x m e : SFmul prec emax (SFopp x) (S754_finite false m e) = SFopp (SFmul prec emax x (S754_finite false m e)).
Proof.
  destruct x as [b|b| |b m' e']; cbn [SFopp SFmul]; rewrite ?xorb_false_r; try reflexivity. destruct b; cbn [negb]; [|apply raux_opp]. rewrite (raux_opp prec emax (Z.pos (m' * m))).
  destruct (binary_round_aux prec emax false (Z.pos (m' * m)) (e' + e) loc_Exact) as [b|b| |b ? ?]; cbn [SFopp]; rewrite ?negb_involutive; reflexivity.
Qed.
Lemma div_opp prec emax x m e : SFdiv prec emax (SFopp x) (S754_finite false m e) = SFopp (SFdiv prec emax x (S754_finite false m e)).
Proof.
  destruct x as [b|b| |b m' e']; cbn [SFopp SFdiv]; rewrite ?xorb_false_r; try reflexivity. destruct (SFdiv_core_binary prec emax (Z.pos m') e' (Z.pos m) e) as ((mz & ez) & lz). destruct b; cbn [negb]; [|apply raux_opp]. rewrite (raux_opp prec emax mz).
  destruct (binary_round_aux prec emax false mz ez lz) as [b|b| |b ? ?]; cbn [SFopp]; rewrite ?negb_involutive; reflexivity.
Qed.
Lemma gval_opp prec emax x : gval prec emax (SFopp x) = - gval prec emax x.
Proof. destruct x as [b|b| |b m e]; cbn [SFopp gval]; try reflexivity. destruct b; cbn [negb]; lia. Qed.
Lemma gread_opp prec emax num den n : fmt prec emax -> 0 < num < 2 ^ 60 -> 0 < den < 2 ^ 60 -> n <> 0 -> gread prec emax num den (- n) = SFopp (gread prec emax num den n).
Proof.
  intros HF Hm Hd N0. destruct (gnorm prec emax num HF ltac:(lia) 60 ltac:(lia) ltac:(lia)) as ((m & e & EZ & _) & _). destruct (gnorm prec emax den HF ltac:(lia) 60 ltac:(lia) ltac:(lia)) as ((m' & e' & EY & _) & _).
  unfold gread. rewrite EZ, EY, (normalize_opp _ _ _ N0). destruct (num =? 1), (den =? 1); [reflexivity|apply div_opp|apply mul_opp|rewrite mul_opp; apply div_opp].
Qed.
Lemma gread_all prec emax num den n : fmt prec emax -> 0 < num < 2 ^ 60 -> 0 < den < 2 ^ 60 -> - 2 ^ 63 < n < 2 ^ 63 -> let r := gread prec emax num den n in let u := 2 ^ prec in let P := n * num * 2 ^ (emax + prec - 3) in
  valid_binary prec emax r = true /\ number r /\ u * (gval prec emax r * den) <= u * P + 8 * Z.abs P /\ u * P - 8 * Z.abs P <= u * (gval prec emax r * den).
Proof.
  intros HF Hm Hd Hn. cbv zeta. pose proof HF as (F1 & F2). set (S := 2 ^ (emax + prec - 3)). assert (0 < S) as S0 by (apply Z.pow_pos_nonneg; lia). destruct (Z_le_gt_dec 0 n) as [C|C].
  - destruct (gread_val prec emax num den n HF Hm Hd ltac:(lia)) as (V & N & U & L). cbv zeta in U, L. fold S in U, L. split; [exact V|]. split; [exact N|]. assert (0 <= n * num * S) by (apply Z.mul_nonneg_nonneg; [apply Z.mul_nonneg_nonneg|]; lia). rewrite Z.abs_eq by lia. lia.
  - destruct (gread_val prec emax num den (- n) HF Hm Hd ltac:(lia)) as (V & N & U & L). cbv zeta in U, L. fold S in U, L. replace n with (- - n) by lia. rewrite (gread_opp _ _ _ _ _ HF Hm Hd) by lia. set (x := gread prec emax num den (- n)) in *. clearbody x. split; [destruct x; exact V|]. split; [destruct x; exact N|]. rewrite gval_opp.
    assert (0 <= - n * num * S) by (apply Z.mul_nonneg_nonneg; [apply Z.mul_nonneg_nonneg|]; lia). replace (- - n * num * S) with (- (- n * num * S)) by ring. rewrite Z.abs_opp, Z.abs_eq by lia. rewrite !Z.mul_opp_l, !Z.mul_opp_r. lia.
Qed.

(** Time points that count in periods of [den]/[num] ticks of the clock, any of them, all readings of an int64_t clock (except -2^63): the wait gives up at a reading that has reached the deadline up to one part in 2^50
    (double) or 2^21 (float), starts inner waits only at readings before the deadline with that accuracy, and reports success only if an inner wait did.
    [v]: the deadline in units of 1/[s] periods; [w]: the accuracy.  Specification; no counterpart in /repo. *)
Definition reached (w s num den v n : Z) : Prop := w * (v * den) <= w * (n * num * s) + Z.abs (n * num * s).
(** See [reached].  Specification; no counterpart in /repo. *)
Definition pending (w s num den v n : Z) : Prop := w * (n * num * s) - Z.abs (n * num * s) < w * (v * den).
(** What the two loops do right, given what a reading at which they give up or wait on satisfies.  Specification; no counterpart in /repo. *)
Definition honest (read : Z -> spec_float) (t : spec_float) (up on : Z -> Prop) : Prop := forall now env o l, Forall (fun n => - 2 ^ 63 < n < 2 ^ 63) (now :: map snd env) ->
  (float_while read t now env = (o, l) -> (o = CFalse -> exists n, In n (now :: map snd env) /\ up n) /\ Forall on l /\ (o = CTrue -> exists n, In (true, n) env)) /\
  (float_do read t now env = (o, l) -> (o = CFalse -> exists n, In n (map snd env) /\ up n) /\ Forall (fun n => n = now \/ on n) l /\ (o = CTrue -> exists n, In (true, n) env)).
Lemma honest_by read t (up on : Z -> Prop) : (forall n, - 2 ^ 63 < n < 2 ^ 63 -> if SFltb (read n) t then on n else up n) -> honest read t up on.
Proof.
  intros R now env o l HF. rewrite Forall_forall in HF. split; intros H.
  - destruct (while_shape _ _ _ _ _ _ H) as (A & B & C). split; [|split; [|exact C]].
    + intros X. destruct (A X) as (n & I1 & I2). exists n. split; [exact I1|]. pose proof (R n (HF _ I1)) as Q. rewrite I2 in Q. exact Q.
    + apply Forall_forall. intros n X. destruct (B n X) as (I1 & I2). pose proof (R n (HF _ I1)) as Q. rewrite I2 in Q. exact Q.
  - destruct (do_shape _ _ _ _ _ _ H) as (A & B & C). split; [|split; [|exact C]].
    + intros X. destruct (A X) as (n & I1 & I2). exists n. split; [exact I1|]. pose proof (R n (HF _ (or_intror I1))) as Q. rewrite I2 in Q. exact Q.
    + apply Forall_forall. intros n X. destruct (B n X) as [->|(I1 & I2)]; [left; reflexivity|right]. pose proof (R n (HF _ (or_intror I1))) as Q. rewrite I2 in Q. exact Q.
Qed.
Lemma cmp_double num den t : 0 < num < 2 ^ 60 -> 0 < den < 2 ^ 60 -> is_double t -> number t -> forall n, - 2 ^ 63 < n < 2 ^ 63 ->
  if SFltb (read_double num den n) t then pending (2 ^ 50) (2 ^ 1074) num den (val t) n else reached (2 ^ 50) (2 ^ 1074) num den (val t) n.
Proof.
  intros Hm Hd HT NT n Hn. assert (fmt 53 1024) as F by (unfold fmt; lia). destruct (gread_all 53 1024 num den n F Hm Hd Hn) as (V & N & U & L). change (gread 53 1024 num den n) with (read_double num den n) in *.
  rewrite (gltb_val 53 1024 _ _ F V N HT NT). change (gval 53 1024 t) with (val t). change (1024 + 53 - 3) with 1074 in *. set (r := gval 53 1024 (read_double num den n)) in *. clearbody r. unfold reached, pending. set (v := val t) in *. clearbody v. set (P := n * num * 2 ^ 1074) in *. clearbody P.
  destruct (Z.ltb_spec r v) as [C|C]; [assert (r * den < v * den) by (apply Z.mul_lt_mono_pos_r; lia)|assert (v * den <= r * den) by (apply grow; lia)]; lia.
Qed.
Theorem C95_any_double : forall num den t, 0 < num < 2 ^ 60 -> 0 < den < 2 ^ 60 -> is_double t -> number t ->
  honest (read_double num den) t (reached (2 ^ 50) (2 ^ 1074) num den (val t)) (pending (2 ^ 50) (2 ^ 1074) num den (val t)).
Proof. intros num den t Hm Hd HT NT. apply honest_by. exact (cmp_double num den t Hm Hd HT NT). Qed.
Print Assumptions C95_any_double.
Lemma cmp_single num den t : 0 < num < 2 ^ 60 -> 0 < den < 2 ^ 60 -> is_single t -> number t -> forall n, - 2 ^ 63 < n < 2 ^ 63 ->
  if SFltb (read_single num den n) t then pending (2 ^ 21) (2 ^ 149) num den (sval t) n else reached (2 ^ 21) (2 ^ 149) num den (sval t) n.
Proof.
  intros Hm Hd HT NT n Hn. assert (fmt 24 128) as F by (unfold fmt; lia). destruct (gread_all 24 128 num den n F Hm Hd Hn) as (V & N & U & L). change (gread 24 128 num den n) with (read_single num den n) in *.
  rewrite (gltb_val 24 128 _ _ F V N HT NT). change (gval 24 128 t) with (sval t). change (128 + 24 - 3) with 149 in *. set (r := gval 24 128 (read_single num den n)) in *. clearbody r. unfold reached, pending. set (v := sval t) in *. clearbody v. set (P := n * num * 2 ^ 149) in *. clearbody P.
  destruct (Z.ltb_spec r v) as [C|C]; [assert (r * den < v * den) by (apply Z.mul_lt_mono_pos_r; lia)|assert (v * den <= r * den) by (apply grow; lia)]; lia.
Qed.
Theorem C95_any_single : forall num den t, 0 < num < 2 ^ 60 -> 0 < den < 2 ^ 60 -> is_single t -> number t ->
  honest (read_single num den) t (reached (2 ^ 21) (2 ^ 149) num den (sval t)) (pending (2 ^ 21) (2 ^ 149) num den (sval t)).
Proof. intros num den t Hm Hd HT NT. apply honest_by. exact (cmp_single num den t Hm Hd HT NT). Qed.
Print Assumptions C95_any_single.

(** Once the clock is past the deadline by that margin, the wait ends. *)
Lemma ends_by read t now env : SFltb (read now) t = false -> float_while read t now env = (CFalse, []) /\ (forall before, float_do read t before ((false, now) :: env) = (CFalse, [before])).
Proof. intros F. split; [|intros before; cbn [float_do]; rewrite F; reflexivity]. destruct env as [|[b n'] env]; cbn [float_while]; rewrite F; reflexivity. Qed.
Theorem C95_any_ends : forall num den now env, 0 < num < 2 ^ 60 -> 0 < den < 2 ^ 60 -> - 2 ^ 63 < now < 2 ^ 63 ->
  (forall t, is_double t -> number t -> 2 ^ 50 * (val t * den) <= 2 ^ 50 * (now * num * 2 ^ 1074) - Z.abs (now * num * 2 ^ 1074) ->
    float_while (read_double num den) t now env = (CFalse, []) /\ (forall before, float_do (read_double num den) t before ((false, now) :: env) = (CFalse, [before]))) /\
  (forall t, is_single t -> number t -> 2 ^ 21 * (sval t * den) <= 2 ^ 21 * (now * num * 2 ^ 149) - Z.abs (now * num * 2 ^ 149) ->
    float_while (read_single num den) t now env = (CFalse, []) /\ (forall before, float_do (read_single num den) t before ((false, now) :: env) = (CFalse, [before]))).
Proof.
  intros num den now env Hm Hd Hn. split; intros t HT NT HL; apply ends_by.
  - destruct (SFltb (read_double num den now) t) eqn:E; [exfalso|reflexivity]. assert (fmt 53 1024) as F by (unfold fmt; lia). destruct (gread_all 53 1024 num den now F Hm Hd Hn) as (V & N & U & L). change (gread 53 1024 num den now) with (read_double num den now) in *.
    rewrite (gltb_val 53 1024 _ _ F V N HT NT) in E. change (gval 53 1024 t) with (val t) in E. change (1024 + 53 - 3) with 1074 in *. set (r := gval 53 1024 (read_double num den now)) in *. clearbody r. set (v := val t) in *. clearbody v. set (P := now * num * 2 ^ 1074) in *. clearbody P.
    apply Z.ltb_lt in E. assert (r * den < v * den) by (apply Z.mul_lt_mono_pos_r; lia). lia.
  - destruct (SFltb (read_single num den now) t) eqn:E; [exfalso|reflexivity]. assert (fmt 24 128) as F by (unfold fmt; lia). destruct (gread_all 24 128 num den now F Hm Hd Hn) as (V & N & U & L). change (gread 24 128 num den now) with (read_single num den now) in *.
    rewrite (gltb_val 24 128 _ _ F V N HT NT) in E. change (gval 24 128 t) with (sval t) in E. change (128 + 24 - 3) with 149 in *. set (r := gval 24 128 (read_single num den now)) in *. clearbody r. set (v := sval t) in *. clearbody v. set (P := now * num * 2 ^ 149) in *. clearbody P.
    apply Z.ltb_lt in E. assert (r * den < v * den) by (apply Z.mul_lt_mono_pos_r; lia). lia.
Qed.
Print Assumptions C95_any_ends.

(** As long as the readings are before the deadline by that margin, the wait goes on, with one inner wait for each reading, and the first inner wait that succeeds makes it succeed.  [early]: such a reading.
    Specification; no counterpart in /repo. *)
Definition early (w s num den v n : Z) : Prop := - 2 ^ 63 < n < 2 ^ 63 /\ w * (n * num * s) + Z.abs (n * num * s) < w * (v * den).
(** What the loops do while the readings are early.  Specification; no counterpart in /repo. *)
Definition goes_on (read : Z -> spec_float) (t : spec_float) (early : Z -> Prop) : Prop := forall now seen n rest, Forall early seen ->
  let failed := map (fun r => (false, r)) seen in
  (early now -> float_while read t now (failed ++ (true, n) :: rest) = (CTrue, now :: seen) /\ float_while read t now failed = (CBlocked, now :: seen)) /\
  float_do read t now (failed ++ (true, n) :: rest) = (CTrue, now :: seen) /\ float_do read t now failed = (CBlocked, now :: seen).
Lemma goes_on_by read t (up on early : Z -> Prop) : (forall n, - 2 ^ 63 < n < 2 ^ 63 -> if SFltb (read n) t then on n else up n) -> (forall n, early n -> - 2 ^ 63 < n < 2 ^ 63 /\ ~ up n) -> goes_on read t early.
Proof.
  intros R E now seen n rest HF. cbv zeta. assert (forall x, early x -> SFltb (read x) t = true) as T.
  { intros x X. destruct (E x X) as (E1 & E2). pose proof (R x E1) as Q. destruct (SFltb (read x) t); [reflexivity|contradiction]. }
  split; [intros Hn; revert now Hn|revert now]; induction seen as [|a seen IH]; intros now; try intros Hn; cbn [map app float_while float_do]; rewrite ?(T now) by assumption; try (split; reflexivity).
  - inversion HF; subst. destruct (IH H2 a H1) as (-> & ->). split; reflexivity.
  - inversion HF; subst. rewrite (T a) by assumption. destruct (IH H2 a) as (-> & ->). split; reflexivity.
Qed.
Theorem C95_any_served : forall num den, 0 < num < 2 ^ 60 -> 0 < den < 2 ^ 60 ->
  (forall t, is_double t -> number t -> goes_on (read_double num den) t (early (2 ^ 50) (2 ^ 1074) num den (val t))) /\
  (forall t, is_single t -> number t -> goes_on (read_single num den) t (early (2 ^ 21) (2 ^ 149) num den (sval t))).
Proof.
  intros num den Hm Hd. split; intros t HT NT.
  - apply goes_on_by with (up := reached (2 ^ 50) (2 ^ 1074) num den (val t)) (on := pending (2 ^ 50) (2 ^ 1074) num den (val t)); [exact (cmp_double num den t Hm Hd HT NT)|]. intros n (E1 & E2). split; [exact E1|]. unfold reached. intros X. apply Z.lt_nge in E2. exact (E2 X).
  - apply goes_on_by with (up := reached (2 ^ 21) (2 ^ 149) num den (sval t)) (on := pending (2 ^ 21) (2 ^ 149) num den (sval t)); [exact (cmp_single num den t Hm Hd HT NT)|]. intros n (E1 & E2). split; [exact E1|]. unfold reached. intros X. apply Z.lt_nge in E2. exact (E2 X).
Qed.
Print Assumptions C95_any_served.
Example C95_any_served_example : let t := S754_finite false 8866461766385664 (-48) in is_double t /\ number t /\ Forall (early (2 ^ 50) (2 ^ 1074) 3 1000000000 (val t)) [-5; 10000000000; 10499999999] /\
  float_while (read_double 3 1000000000) t (-5) [(false, 10000000000); (false, 10499999999); (true, 0)] = (CTrue, [-5; 10000000000; 10499999999]).
Proof. cbv zeta. split; [reflexivity|]. split; [exact I|]. split; [|reflexivity]. repeat constructor. Qed.

(** A clock of nanoseconds, a time point in units of 1/3 second (den/num = 10^9/3 ticks); 31.5 thirds are 10.5 seconds.  And a float deadline of 10.5 seconds. *)
Example C95_any_example :
  (let t := S754_finite false 8866461766385664 (-48) in is_double t /\ number t /\ val t = 315 * 2 ^ 1074 / 10 /\
    float_while (read_double 3 1000000000) t 10000000000 [(false, 10499999999); (false, 10500000000)] = (CFalse, [10000000000; 10499999999])) /\
  (let t := S754_finite false 11010048 (-20) in is_single t /\ number t /\ sval t * 10 = 105 * 2 ^ 149 /\
    float_while (read_single 1 1000000000) t 10000000000 [(false, 10499990000); (false, 10500000000)] = (CFalse, [10000000000; 10499990000])).
Proof. cbv zeta. split; repeat (split; [first [reflexivity|exact I]|]); reflexivity. Qed.
