(** C93, continued: floating-point durations of any period; the conversion multiplies and divides, and rounds twice (FloatDur.v). *)
From Coq Require Import ZArith Bool Lia List.
From Coq Require Import Floats.SpecFloat.
From Verif Require Import FloatDur PropsFloatDur.
Local Open Scope Z_scope.

(** [q] * 2^[E] is [P]/([Q] * 2^1074) rounded to a double.  Proof device; no counterpart in /repo. *)
Definition nearq (P Q q E : Z) : Prop := exists N DD, 0 < DD /\ 0 <= N /\ 0 <= q /\ -1074 <= E /\ P * DD = N * 2 ^ (E + 1074) * Q /\ 2 * Z.abs (q * DD - N) <= DD /\
  (forall a, a * DD <= N -> a <= q) /\ (forall a, N <= a * DD -> q <= a) /\ (q * DD = N \/ (E = -1074 /\ q <= 2 ^ 53) \/ 2 ^ 52 * DD <= N).
Lemma nearq_lower P q E w j : nearq P 1 q E -> 0 <= w <= 2 ^ 53 -> 0 <= j -> w * 2 ^ j * 2 ^ 1074 <= P -> w * 2 ^ j * 2 ^ 1074 <= q * 2 ^ (E + 1074).
Proof.
  intros (N & DD & HD & HN & Hq & HE & EQ & A & L & R & C) Hw Hj H. assert (0 < 2 ^ j) as PJ by (apply Z.pow_pos_nonneg; lia). assert (0 < 2 ^ (E + 1074)) as PT by (apply Z.pow_pos_nonneg; lia). rewrite Z.mul_1_r in EQ.
  destruct (Z_le_gt_dec E j) as [G|G].
  - assert (w * 2 ^ j * 2 ^ 1074 = w * 2 ^ (j - E) * 2 ^ (E + 1074)) as EA. { rewrite <- !Z.mul_assoc, <- !Z.pow_add_r by lia. f_equal. f_equal. lia. }
    rewrite EA in *. apply grow; [lia|]. apply L. apply (canc _ _ (2 ^ (E + 1074))); [assumption|]. rewrite <- EQ. apply (grow _ _ DD) in H; [|lia]. eapply Z.le_trans; [|exact H]. apply Z.eq_le_incl. ring.
  - destruct C as [C|[(C & _)|C]]; [|lia|].
    + eapply Z.le_trans; [exact H|]. apply (canc _ _ DD HD). rewrite EQ, <- C. apply Z.eq_le_incl. ring.
    + apply L in C. apply Z.le_trans with (2 ^ 52 * 2 ^ (E + 1074)); [|apply grow; [lia|exact C]].
      rewrite (Z.pow_add_r 2 E) by lia. rewrite Z.mul_assoc. apply grow; [apply Z.pow_nonneg; lia|].
      apply Z.le_trans with (2 ^ 53 * 2 ^ j); [apply grow; lia|]. rewrite <- !Z.pow_add_r by lia. apply Z.pow_le_mono_r; lia.
Qed.
Lemma nearq_upper P q E w j : nearq P 1 q E -> 0 <= w <= 2 ^ 53 -> 0 <= j -> P <= w * 2 ^ j * 2 ^ 1074 -> q * 2 ^ (E + 1074) <= w * 2 ^ j * 2 ^ 1074.
Proof.
  intros (N & DD & HD & HN & Hq & HE & EQ & A & L & R & C) Hw Hj H. assert (0 < 2 ^ j) as PJ by (apply Z.pow_pos_nonneg; lia). assert (0 < 2 ^ (E + 1074)) as PT by (apply Z.pow_pos_nonneg; lia). rewrite Z.mul_1_r in EQ.
  destruct (Z_le_gt_dec E j) as [G|G].
  - assert (w * 2 ^ j * 2 ^ 1074 = w * 2 ^ (j - E) * 2 ^ (E + 1074)) as EA. { rewrite <- !Z.mul_assoc, <- !Z.pow_add_r by lia. f_equal. f_equal. lia. }
    rewrite EA in *. apply grow; [lia|]. apply R. apply (canc _ _ (2 ^ (E + 1074))); [assumption|]. rewrite <- EQ. apply (grow _ _ DD) in H; [|lia]. eapply Z.le_trans; [exact H|]. apply Z.eq_le_incl. ring.
  - destruct C as [C|[(C & _)|C]]; [|lia|].
    + eapply Z.le_trans; [|exact H]. apply (canc _ _ DD HD). rewrite EQ, <- C. apply Z.eq_le_incl. ring.
    + assert (w * 2 ^ j * 2 ^ 1074 <= 2 ^ 52 * 2 ^ (E + 1074)) as S.
      { rewrite (Z.pow_add_r 2 E) by lia. rewrite (Z.mul_assoc (2 ^ 52)). apply grow; [apply Z.pow_nonneg; lia|]. apply Z.le_trans with (2 ^ 53 * 2 ^ j); [apply grow; lia|]. rewrite <- !Z.pow_add_r by lia. apply Z.pow_le_mono_r; lia. }
      assert (P <= 2 ^ 52 * 2 ^ (E + 1074)) as S1 by (eapply Z.le_trans; eassumption).
      assert (q <= 2 ^ 52) as Q52. { apply R. apply (canc _ _ (2 ^ (E + 1074))); [assumption|]. rewrite <- EQ. apply (grow _ _ DD) in S1; [|lia]. eapply Z.le_trans; [exact S1|]. apply Z.eq_le_incl. ring. }
      apply Z.le_trans with (2 ^ 52 * 2 ^ (E + 1074)); [apply grow; [lia|exact Q52]|]. eapply Z.le_trans; [|exact H]. apply (canc _ _ DD HD). rewrite EQ.
      apply (grow _ _ (2 ^ (E + 1074))) in C; [|lia]. eapply Z.le_trans; [|exact C]. apply Z.eq_le_incl; ring.
Qed.
(** The product is off by at most one part in 2^53. *)
Lemma nearq_rel P q E : nearq P 1 q E -> 0 <= P -> 2 ^ 53 * Z.abs (q * 2 ^ (E + 1074) - P) <= P.
Proof.
  intros (N & DD & HD & HN & Hq & HE & EQ & A & L & R & C) HP. assert (0 < 2 ^ (E + 1074)) as PT by (apply Z.pow_pos_nonneg; lia). rewrite Z.mul_1_r in EQ.
  destruct C as [C|[(C & B)|C]].
  - assert (P = q * 2 ^ (E + 1074)) as -> by (apply (Z.mul_cancel_r _ _ DD); [lia|]; rewrite EQ, <- C; ring). rewrite Z.sub_diag. cbn. apply Z.mul_nonneg_nonneg; lia.
  - subst E. change (-1074 + 1074) with 0 in *. change (2 ^ 0) with 1 in *. rewrite Z.mul_1_r in *. assert (2 * Z.abs (q - P) <= 1) as X; [|lia].
    apply (canc _ _ DD HD). replace (2 * Z.abs (q - P) * DD) with (2 * Z.abs (q * DD - P * DD)); [rewrite EQ; lia|]. rewrite <- Z.mul_sub_distr_r, Z.abs_mul, (Z.abs_eq DD) by lia. ring.
  - set (T := 2 ^ (E + 1074)) in *. clearbody T. apply (canc _ _ DD HD). replace (2 ^ 53 * Z.abs (q * T - P) * DD) with (2 ^ 53 * Z.abs (q * DD - N) * T).
    + rewrite EQ. apply grow; [lia|]. lia.
    + rewrite <- !Z.mul_assoc. f_equal. rewrite <- (Z.abs_eq T) at 1 by lia. rewrite <- (Z.abs_eq DD) at 2 by lia. rewrite <- !Z.abs_mul. f_equal. rewrite !Z.mul_sub_distr_r, EQ. ring.
Qed.

(** Rounding an integer times a power of two: the double itself. *)
Lemma aux_val s m ex : 0 < m -> ex <= fexp 53 1024 (Zdigits2 m + ex) -> exists q K, 0 <= K /\ 0 <= q /\ -1074 <= ex + K /\
  2 * Z.abs (q * 2 ^ K - m) <= 2 ^ K /\ (forall a, a * 2 ^ K <= m -> a <= q) /\ (forall a, m <= a * 2 ^ K -> q <= a) /\
  (q * 2 ^ K = m \/ (ex + K = -1074 /\ q <= 2 ^ 53) \/ 2 ^ 52 * 2 ^ K <= m) /\
  let r := binary_round_aux 53 1024 s m ex loc_Exact in let V := q * 2 ^ (ex + K + 1074) in
  (V = 0 /\ r = S754_zero s) \/ (exists p e', r = S754_finite s p e' /\ is_double r /\ Zpos p * 2 ^ (e' + 1074) = V) \/ (r = S754_infinity s /\ 2 ^ 900 * 2 ^ 1074 <= V).
Proof.
  intros Hm HL. set (k := fexp 53 1024 (Zdigits2 m + ex) - ex). assert (0 <= k) as K0 by (unfold k; lia). assert (Z.max 0 k = k) as MK by lia. set (x0 := shr_record_of_loc m loc_Exact).
  assert (rep m 1 x0) as R0 by (unfold rep, x0; cbn [shr_record_of_loc shr_m shr_r shr_s]; lia).
  set (x1 := match k with Zpos p => iter_pos shr_1 p x0 | _ => x0 end). assert (rep m (1 * 2 ^ Z.max 0 k) x1) as R1 by (apply shr_rep; [lia|exact R0]). rewrite MK, Z.mul_1_l in R1.
  set (q := rne x1). destruct (rne_spec _ _ _ R1) as (Q0 & QA & QL & QH). fold q in Q0, QA, QL, QH. assert (0 < 2 ^ k) as PK by (apply Z.pow_pos_nonneg; lia).
  pose proof (digits_spec m Hm) as (DL & DH). assert (0 < Zdigits2 m) as D0 by (apply digits_pos; exact Hm).
  assert (ex + k = Z.max (Zdigits2 m + ex - 53) (-1074)) as EK by (unfold k; rewrite fexp_val; lia).
  assert (q <= 2 ^ 53) as Q53. { apply QH. apply Z.lt_le_incl. eapply Z.lt_le_trans; [exact DH|]. rewrite <- Z.pow_add_r by lia. apply Z.pow_le_mono_r; lia. }
  assert ((ex + k = -1074 /\ q <= 2 ^ 53) \/ 2 ^ 52 * 2 ^ k <= m) as C.
  { destruct (Z_le_gt_dec (Zdigits2 m + ex - 53) (-1074)) as [B|B]; [left; split; lia|right]. rewrite <- Z.pow_add_r by lia. replace (52 + k) with (Zdigits2 m - 1) by lia. exact DL. }
  exists q, k. split; [exact K0|]. split; [exact Q0|]. split; [lia|]. split; [exact QA|]. split; [exact QL|]. split; [exact QH|]. split; [right; exact C|]. cbv zeta.
  unfold binary_round_aux, shr_fexp. fold x0. rewrite shr_case. fold k. rewrite MK. fold x1. change (round_nearest_even (shr_m x1) (loc_of_shr_record x1)) with q. rewrite shr_case. clearbody q. clear R1 QA. set (E := ex + k) in *. 
  set (k2 := fexp 53 1024 (Zdigits2 q + E) - E). cbn [shr_record_of_loc].
  destruct (Z.eq_dec q 0) as [QZ|QZ].
  { left. rewrite QZ. split; [ring|]. assert (forall p, iter_pos shr_1 p {| shr_m := 0; shr_r := false; shr_s := false |} = {| shr_m := 0; shr_r := false; shr_s := false |}) as IT.
    { induction p as [p IH|p IH|]; cbn [iter_pos]; [change (shr_1 {| shr_m := 0; shr_r := false; shr_s := false |}) with {| shr_m := 0; shr_r := false; shr_s := false |}|..]; rewrite ?IH; reflexivity. }
    destruct k2; rewrite ?IT; reflexivity. }
  right. assert (0 < q) as QP by lia. pose proof (digits_spec q QP) as (GL & GH). assert (0 < Zdigits2 q) as G0 by (apply digits_pos; exact QP).
  assert (forall f e, f <= 971 -> fexp 53 1024 (Zdigits2 e + f) = f -> 0 < e -> is_double (S754_finite s (Z.to_pos e) f)) as CAN.
  { intros f e F1 F2 F3. unfold is_double. cbn [valid_binary]. unfold bounded, canonical_mantissa. replace (Zpos (digits2_pos (Z.to_pos e))) with (Zdigits2 e) by (destruct e; try lia; reflexivity). rewrite F2. replace (Zeq_bool f f) with true by (symmetry; apply Zeq_is_eq_bool; reflexivity). destruct (Z.leb_spec f (1024 - 53)); [reflexivity|lia]. }
  assert (forall f e, 0 < e -> fexp 53 1024 (Zdigits2 e + f) = f -> e * 2 ^ (f + 1074) = q * 2 ^ (E + 1074) ->
    (exists p e', match e with Z0 => S754_zero s | Zpos p => if Zle_bool f (1024 - 53) then S754_finite s p f else S754_infinity s | Zneg _ => S754_nan end = S754_finite s p e' /\ is_double (match e with Z0 => S754_zero s | Zpos p => if Zle_bool f (1024 - 53) then S754_finite s p f else S754_infinity s | Zneg _ => S754_nan end) /\ Zpos p * 2 ^ (e' + 1074) = q * 2 ^ (E + 1074)) \/
    (match e with Z0 => S754_zero s | Zpos p => if Zle_bool f (1024 - 53) then S754_finite s p f else S754_infinity s | Zneg _ => S754_nan end = S754_infinity s /\ 2 ^ 900 * 2 ^ 1074 <= q * 2 ^ (E + 1074))) as FIN.
  { intros f e F1 F2 F3. destruct e as [|p|p]; try lia. change (1024 - 53) with 971. destruct (Z.leb_spec f 971) as [B|B].
    - left. exists p, f. split; [reflexivity|]. split; [apply (CAN f (Zpos p) B F2 F1)|exact F3].
    - right. split; [reflexivity|]. rewrite <- F3. rewrite <- Z.pow_add_r by lia. assert (2 ^ (900 + 1074) <= 2 ^ (f + 1074)) as PW by (apply Z.pow_le_mono_r; lia). assert (0 <= 2 ^ (f + 1074)) by (apply Z.pow_nonneg; lia).
      apply Z.le_trans with (1 * 2 ^ (f + 1074)); [rewrite Z.mul_1_l; exact PW|]. apply grow; [assumption|lia]. }
  assert (53 <= Zdigits2 q \/ E = -1074) as NORM.
  { destruct C as [(C & _)|C]; [right; exact C|left]. apply QL in C. destruct (Z_le_gt_dec 53 (Zdigits2 q)) as [|B]; [assumption|]. exfalso. assert (2 ^ Zdigits2 q <= 2 ^ 52) by (apply Z.pow_le_mono_r; lia). lia. }
  destruct (Z_le_gt_dec k2 0) as [P2|P2].
  - assert ((match k2 with Zpos p => iter_pos shr_1 p {| shr_m := q; shr_r := false; shr_s := false |} | _ => {| shr_m := q; shr_r := false; shr_s := false |} end) = {| shr_m := q; shr_r := false; shr_s := false |}) as ->
      by (destruct k2; [reflexivity|lia|reflexivity]). cbn [shr_m]. replace (E + Z.max 0 k2) with E by lia. apply FIN; [exact QP| |reflexivity]. unfold k2 in P2. rewrite fexp_val in *. lia.
  - assert (q = 2 ^ 53 /\ k2 = 1) as (E53 & E1).
    { unfold k2 in *. rewrite fexp_val in *. assert (Zdigits2 q <= 54) as D54. { destruct (Z_le_gt_dec (Zdigits2 q) 54) as [|B]; [assumption|]. exfalso. assert (2 ^ 54 <= 2 ^ (Zdigits2 q - 1)) by (apply Z.pow_le_mono_r; lia). lia. }
      assert (Zdigits2 q = 54) as DD by lia. rewrite DD in GL. split; lia. }
    rewrite E1. cbn [iter_pos]. assert (shr_1 {| shr_m := q; shr_r := false; shr_s := false |} = {| shr_m := 2 ^ 52; shr_r := false; shr_s := false |}) as -> by (rewrite E53; reflexivity). cbn [shr_m].
    replace (Z.max 0 1) with 1 by lia. apply FIN; [lia|change (Zdigits2 (2 ^ 52)) with 53; rewrite fexp_val; lia|]. rewrite E53. replace (E + 1 + 1074) with (1 + (E + 1074)) by lia. rewrite Z.pow_add_r by lia. change (2 ^ 53) with (2 ^ 52 * 2 ^ 1). ring.
Qed.

Lemma mul_double s m e num : 0 < num < 2 ^ 53 -> -1074 <= e -> exists q E, nearq (Zpos m * num * 2 ^ (e + 1074)) 1 q E /\
  let r := SFmul 53 1024 (S754_finite s m e) (dbl_of num) in let V := q * 2 ^ (E + 1074) in
  (V = 0 /\ r = S754_zero s) \/ (exists p e', r = S754_finite s p e' /\ is_double r /\ Zpos p * 2 ^ (e' + 1074) = V) \/ (r = S754_infinity s /\ 2 ^ 900 * 2 ^ 1074 <= V).
Proof.
  intros H He. destruct (dbl_of_spec num H) as (my & ey & -> & EY & MY & DM). unfold SFmul. replace (xorb s false) with s by (destruct s; reflexivity).
  destruct (aux_val s (Zpos (m * my)) (e + ey)) as (q & K & K0 & Q0 & HE & A & L & R & C & RES); [lia| |].
  { rewrite fexp_val. enough (53 <= Zdigits2 (Zpos (m * my))) by lia. pose proof (digits_spec (Zpos my) ltac:(lia)) as (A & _). rewrite DM in A. pose proof (digits_spec (Zpos (m * my)) ltac:(lia)) as (_ & B).
    assert (0 < Zdigits2 (Zpos (m * my))) by (apply digits_pos; lia). destruct (Z_le_gt_dec 53 (Zdigits2 (Zpos (m * my)))) as [|G]; [assumption|]. exfalso. assert (2 ^ Zdigits2 (Zpos (m * my)) <= 2 ^ 52) by (apply Z.pow_le_mono_r; lia). rewrite Pos2Z.inj_mul in *. change (2 ^ (53 - 1)) with (2 ^ 52) in A. nia. }
  exists q, (e + ey + K). split; [|exact RES]. exists (Zpos (m * my)), (2 ^ K). assert (0 < 2 ^ K) by (apply Z.pow_pos_nonneg; lia). split; [lia|]. split; [lia|]. split; [lia|]. split; [lia|]. split; [|split; [exact A|split; [exact L|split; [exact R|exact C]]]].
  rewrite Pos2Z.inj_mul, MY, Z.mul_1_r. enough (2 ^ (e + 1074) * 2 ^ K = 2 ^ (- ey) * 2 ^ (e + ey + K + 1074)) as X. { rewrite <- !Z.mul_assoc, X. ring. } rewrite <- !Z.pow_add_r by lia. f_equal. lia.
Qed.
(** The general case: a product [V] and a quotient. *)
Lemma cast_twice num den s m e : 0 < num < 2 ^ 53 -> 0 < den < 2 ^ 53 -> num <> 1 -> den <> 1 -> is_double (S754_finite s m e) ->
  exists q E, nearq (Zpos m * num * 2 ^ (e + 1074)) 1 q E /\
  ((exists c, near (q * 2 ^ (E + 1074)) den c /\ float_cast num den (S754_finite s m e) = fits s c) \/ (2 ^ 900 * 2 ^ 1074 <= q * 2 ^ (E + 1074) /\ float_cast num den (S754_finite s m e) = None)).
Proof.
  intros HN HD NN ND HX. apply double_low in HX. destruct (mul_double s m e num HN HX) as (q & E & NQ & RES). exists q, E. split; [exact NQ|]. cbv zeta in RES.
  unfold float_cast. destruct (Z.eqb_spec num 1) as [|_]; [contradiction|]. destruct (Z.eqb_spec den 1) as [|_]; [contradiction|].
  destruct RES as [(V0 & ->)|[(p & e' & RE & RD & RV)|(-> & BIG)]].
  - left. exists 0. rewrite V0. split.
    + exists 0, 0, 1, 0. split; [lia|]. split; [lia|]. split; [lia|]. split; [lia|]. split; [ring|]. split; [reflexivity|]. split; [lia|]. split; [lia|]. split; [lia|left; lia].
    + destruct (dbl_of_spec den HD) as (my & ey & -> & _). destruct s; reflexivity.
  - left. rewrite RE in *. apply double_low in RD. destruct (div_near s p e' den HD RD) as (c & NC & V). exists c. rewrite RV in NC. split; assumption.
  - right. split; [exact BIG|]. destruct (dbl_of_spec den HD) as (my & ey & -> & _). destruct s; reflexivity.
Qed.

(** ** C93 for any period *)

(** The denominator of the ratio of the tick to the unit, in lowest terms.  Specification; no counterpart in /repo. *)
Definition low_den (sub pn pd : Z) : Z := pd / Z.gcd (pn * sub) pd.
(** Any tick whose ratio to the unit has, in lowest terms, a numerator and a denominator that a double can hold.  Specification; no counterpart in /repo. *)
Definition any_tick (sub pn pd : Z) : Prop := 0 < sub /\ 0 < pn /\ 0 < pd /\ pn * sub / Z.gcd (pn * sub) pd < 2 ^ 53 /\ low_den sub pn pd < 2 ^ 53.
Lemma ratio_any sub pn pd : any_tick sub pn pd -> let g := Z.gcd (pn * sub) pd in let num := pn * sub / g in let den := low_den sub pn pd in
  0 < num < 2 ^ 53 /\ 0 < den < 2 ^ 53 /\ pn * sub = num * g /\ pd = den * g /\ 0 < g.
Proof.
  intros (S0 & N0 & D0 & N1 & D1). cbv zeta. unfold low_den in *. assert (0 < pn * sub) as NS by (apply Z.mul_pos_pos; assumption). set (a := pn * sub) in *. clearbody a.
  assert (0 < Z.gcd a pd) as G. { pose proof (Z.gcd_nonneg a pd). assert (Z.gcd a pd <> 0); [|lia]. intros X. apply Z.gcd_eq_0_l in X. lia. }
  destruct (Z.gcd_divide_l a pd) as (x & X). destruct (Z.gcd_divide_r a pd) as (y & Y). set (g := Z.gcd a pd) in *. clearbody g.
  assert (pd / g = y) as EY by (rewrite Y; apply Z.div_mul; lia). assert (a / g = x) as EX by (rewrite X; apply Z.div_mul; lia). rewrite EY, ?EX in *. assert (0 < x) by nia. assert (0 < y) by nia. lia.
Qed.
(** The conversion of a number: [c] is the size of the result, [V] the product. *)
Lemma any_near sub pn pd x : any_tick sub pn pd -> is_double x -> number x ->
  exists (s : bool) P g, 0 <= P /\ 0 < g /\ ask sub pn x = (if s then - P else P) * g /\ one pd = low_den sub pn pd * 2 ^ 1074 * g /\
  exists V, 2 ^ 53 * Z.abs (V - P) <= P /\
    (forall z, 0 <= z <= 2 ^ 53 -> (z * 2 ^ 1074 <= P -> z * 2 ^ 1074 <= V) /\ (P <= z * 2 ^ 1074 -> V <= z * 2 ^ 1074)) /\
    ((exists c, near V (low_den sub pn pd) c /\ float_units sub pn pd x = fits s c) \/ (2 ^ 900 * 2 ^ 1074 <= V /\ float_units sub pn pd x = None)).
Proof.
  intros H HX NX. destruct (ratio_any _ _ _ H) as (A & B & EN & ED & G). cbv zeta in *. unfold ask, one.
  assert (forall P, 0 <= P -> 2 ^ 53 * Z.abs (P - P) <= P) as TR by (intros P HP; rewrite Z.sub_diag; cbn; exact HP).
  destruct x as [b|b| |s m e]; try contradiction.
  - exists false, 0, (Z.gcd (pn * sub) pd). split; [lia|]. split; [exact G|]. split; [cbn [val]; ring|]. split; [rewrite ED at 1; ring|]. exists 0. split; [apply TR; lia|]. split; [intros z HZ; split; intros HH; exact HH|]. left. exists 0. split.
    { exists 0, 0, 1, 0. split; [lia|]. split; [lia|]. split; [lia|]. split; [lia|]. split; [ring|]. split; [reflexivity|]. split; [lia|]. split; [lia|]. split; [lia|left; lia]. }
    change (fits false 0) with (Some 0). unfold float_units, float_cast. fold (low_den sub pn pd). set (n := pn * sub / _) in *. set (d := low_den sub pn pd) in *. clearbody n d.
    destruct (dbl_of_spec d B) as (my & ey & -> & _). destruct (dbl_of_spec n A) as (mx & ex & -> & _). destruct (n =? 1), (d =? 1); reflexivity.
  - assert (0 <= Zpos m * (pn * sub / Z.gcd (pn * sub) pd) * 2 ^ (e + 1074)) as HP by (apply Z.mul_nonneg_nonneg; [lia|apply Z.pow_nonneg; lia]).
    exists s, (Zpos m * (pn * sub / Z.gcd (pn * sub) pd) * 2 ^ (e + 1074)), (Z.gcd (pn * sub) pd). split; [exact HP|]. split; [exact G|]. split; [cbn [val]; rewrite <- Z.mul_assoc; rewrite EN at 1; destruct s; ring|]. split; [rewrite ED at 1; ring|].
    unfold float_units. fold (low_den sub pn pd). set (n := pn * sub / _) in *. set (d := low_den sub pn pd) in *. clearbody n d. set (P := Zpos m * n * 2 ^ (e + 1074)) in *.
    destruct (Z.eq_dec n 1) as [N1|N1]; [|destruct (Z.eq_dec d 1) as [D1|D1]].
    + destruct (cast_near n d s m e A B (or_introl N1) HX) as (c & NC & V). exists P. split; [apply TR, HP|]. split; [intros z HZ; split; intros HH; exact HH|]. left. exists c. split; assumption.
    + destruct (cast_near n d s m e A B (or_intror D1) HX) as (c & NC & V). exists P. split; [apply TR, HP|]. split; [intros z HZ; split; intros HH; exact HH|]. left. exists c. split; assumption.
    + destruct (cast_twice n d s m e A B N1 D1 HX) as (q & E & NQ & RES). fold P in NQ. exists (q * 2 ^ (E + 1074)). split; [apply nearq_rel; assumption|]. split; [|exact RES].
      intros z HZ. pose proof (nearq_lower P q E z 0 NQ HZ ltac:(lia)) as LO. pose proof (nearq_upper P q E z 0 NQ HZ ltac:(lia)) as UP. replace (z * 2 ^ 0) with z in LO, UP by (change (2 ^ 0) with 1; ring). split; assumption.
Qed.

(** As C93_whole, for numbers of units whose product with the denominator is at most 2^53. *)
Theorem C93_any_whole : forall sub pn pd x r, any_tick sub pn pd -> is_double x -> number x -> float_units sub pn pd x = Some r ->
  forall z, 0 <= z -> z * low_den sub pn pd <= 2 ^ 53 ->
  (z * one pd <= ask sub pn x -> z <= r) /\ (ask sub pn x <= z * one pd -> r <= z) /\ (- z * one pd <= ask sub pn x -> - z <= r) /\ (ask sub pn x <= - z * one pd -> r <= - z).
Proof.
  intros sub pn pd x r HT HX NX HR z Z0 ZD. destruct (ratio_any _ _ _ HT) as (_ & B & _). cbv zeta in B. destruct (any_near _ _ _ _ HT HX NX) as (s & P & g & HP & Hg & EA & EO & V & VP & VW & [(c & NC & FV)|(_ & FV)]); rewrite HR in FV; [|discriminate].
  symmetry in FV. apply fits_some in FV. rewrite EA, EO. set (d := low_den sub pn pd) in *. clearbody d. assert (z <= z * d) as ZZ by nia. pose proof (near_nonneg _ _ _ NC) as C0.
  pose proof (near_lower V d c z 0 NC ltac:(lia) ltac:(lia) ltac:(lia)) as LO. pose proof (near_upper V d c z 0 NC ltac:(lia) ltac:(lia) ltac:(lia)) as UP. destruct (VW (z * d) ltac:(lia)) as (V1 & V2).
  pose proof (near_upper V d c 0 0 NC ltac:(lia) ltac:(lia) ltac:(lia)) as CZ. change (2 ^ 0) with 1 in *. rewrite !Z.mul_1_r in *. assert (0 < 2 ^ 1074) as U0 by (apply Z.pow_pos_nonneg; lia). set (U := 2 ^ 1074) in *. clearbody U.
  replace (z * d * U) with (z * U * d) in V1, V2 by ring. assert (P <= 0 -> V <= 0) as PV by lia. rewrite !Z.mul_0_l in CZ.
  assert (0 <= z * U * d) as ZU by (apply Z.mul_nonneg_nonneg; [apply Z.mul_nonneg_nonneg|]; lia). assert (0 < z -> 0 < z * U * d) as ZP by (intros; apply Z.mul_pos_pos; [apply Z.mul_pos_pos|]; lia).
  assert (forall a, a * (d * U * g) = a * U * d * g) as ER by (intros; ring). rewrite !ER. assert (- z * U * d = - (z * U * d)) as ZN by ring. rewrite ZN.
  subst r. destruct s; (split; [|split; [|split]]); intros H; apply (canc _ _ g Hg) in H; lia.
Qed.
Print Assumptions C93_any_whole.
(** Defined up to 2^62 units (146 years of nanoseconds) either way. *)
Theorem C93_any_defined : forall sub pn pd x, any_tick sub pn pd -> is_double x -> number x -> Z.abs (ask sub pn x) <= 2 ^ 62 * one pd -> exists r, float_units sub pn pd x = Some r.
Proof.
  intros sub pn pd x HT HX NX HA. destruct (ratio_any _ _ _ HT) as (_ & B & _). cbv zeta in B. destruct (any_near _ _ _ _ HT HX NX) as (s & P & g & HP & Hg & EA & EO & V & VP & VW & RES).
  replace (Z.abs (ask sub pn x)) with (P * g) in HA by (rewrite EA; destruct s; nia). rewrite EO, Z.mul_assoc in HA. apply (canc _ _ g Hg) in HA. set (d := low_den sub pn pd) in *. clearbody d.
  assert (0 < 2 ^ 1074) as U0 by (apply Z.pow_pos_nonneg; lia). destruct RES as [(c & NC & ->)|(BIG & _)].
  - pose proof (near_nonneg _ _ _ NC) as C0. assert (c <= (2 ^ 53 - 1) * 2 ^ 10) as UP. { apply (near_upper V d c (2 ^ 53 - 1) 10 NC ltac:(lia) ltac:(lia) ltac:(lia)). set (U := 2 ^ 1074) in *. clearbody U. lia. }
    unfold fits. destruct s; cbv zeta.
    + exists (- c). destruct (Z.leb_spec (- 2 ^ 63) (- c)); [|lia]. destruct (Z.ltb_spec (- c) (2 ^ 63)); [|lia]. reflexivity.
    + exists c. destruct (Z.leb_spec (- 2 ^ 63) c); [|lia]. destruct (Z.ltb_spec c (2 ^ 63)); [|lia]. reflexivity.
  - exfalso. assert (2 ^ 120 <= 2 ^ 900) as B9 by (apply Z.pow_le_mono_r; lia). set (X := 2 ^ 900) in *. clearbody X. set (U := 2 ^ 1074) in *. clearbody U.
    apply (grow _ _ U) in B9; [|lia]. assert (d * U <= 2 ^ 53 * U) as DU by (apply grow; lia). lia.
Qed.
Print Assumptions C93_any_defined.
(** Two roundings: off by one part in 2^51 and one unit; never of the other sign. *)
Theorem C93_any_accuracy : forall sub pn pd x r, any_tick sub pn pd -> is_double x -> number x -> float_units sub pn pd x = Some r ->
  2 ^ 51 * (Z.abs r * one pd) <= (2 ^ 51 + 1) * Z.abs (ask sub pn x) /\ (2 ^ 51 - 1) * Z.abs (ask sub pn x) < 2 ^ 51 * ((Z.abs r + 1) * one pd) /\
  (0 <= ask sub pn x -> 0 <= r) /\ (ask sub pn x <= 0 -> r <= 0).
Proof.
  intros sub pn pd x r HT HX NX HR. pose proof (C93_any_whole _ _ _ _ _ HT HX NX HR 0 ltac:(lia) ltac:(lia)) as (S1 & S2 & _). rewrite !Z.mul_0_l in *.
  enough (2 ^ 51 * (Z.abs r * one pd) <= (2 ^ 51 + 1) * Z.abs (ask sub pn x) /\ (2 ^ 51 - 1) * Z.abs (ask sub pn x) < 2 ^ 51 * ((Z.abs r + 1) * one pd)) by tauto.
  destruct (ratio_any _ _ _ HT) as (_ & B & _). cbv zeta in B. destruct (any_near _ _ _ _ HT HX NX) as (s & P & g & HP & Hg & EA & EO & V & VP & VW & [(c & NC & FV)|(_ & FV)]); rewrite HR in FV; [|discriminate].
  symmetry in FV. apply fits_some in FV. pose proof (near_nonneg _ _ _ NC) as C0. destruct (near_rel V (low_den sub pn pd) c NC ltac:(lia) ltac:(lia)) as (R1 & R2).
  replace (Z.abs (ask sub pn x)) with (P * g) by (rewrite EA; destruct s; nia). replace (Z.abs r) with c by (subst r; destruct s; lia). rewrite EO. set (d := low_den sub pn pd) in *. clearbody d.
  assert (0 < 2 ^ 1074) as U0 by (apply Z.pow_pos_nonneg; lia). set (U := 2 ^ 1074) in *. clearbody U. assert (0 < d * U) as DU by (apply Z.mul_pos_pos; lia). assert (0 <= c * (d * U)) as CU by (apply Z.mul_nonneg_nonneg; lia).
  assert (2 ^ 51 * (c * (d * U)) <= (2 ^ 51 + 1) * P) as X1 by lia. assert ((2 ^ 51 - 1) * P < 2 ^ 51 * ((c + 1) * (d * U))) as X2 by lia.
  apply (grow _ _ g) in X1; [|lia]. apply (Z.mul_lt_mono_pos_r g _ _ Hg) in X2.
  split; [eapply Z.le_trans; [|eapply Z.le_trans; [exact X1|]]|eapply Z.le_lt_trans; [|eapply Z.lt_le_trans; [exact X2|]]]; apply Z.eq_le_incl; ring.
Qed.
Print Assumptions C93_any_accuracy.
(** Exact for whole numbers of units, less than one unit off otherwise, as long as the product with the denominator stays within 2^53. *)
Theorem C93_any_exact : forall sub pn pd x z, any_tick sub pn pd -> is_double x -> number x -> Z.abs z * low_den sub pn pd <= 2 ^ 53 -> ask sub pn x = z * one pd -> float_units sub pn pd x = Some z.
Proof.
  intros sub pn pd x z HT HX NX HZ HA. assert (0 < one pd) as O by (unfold one; apply Z.mul_pos_pos; [apply HT|apply Z.pow_pos_nonneg; lia]). destruct (ratio_any _ _ _ HT) as (_ & B & _). cbv zeta in B. assert (Z.abs z <= 2 ^ 53) as AZ by nia.
  destruct (C93_any_defined _ _ _ _ HT HX NX) as (r & HR). { rewrite HA, Z.abs_mul, (Z.abs_eq (one pd)) by lia. apply grow; lia. }
  pose proof (C93_any_whole _ _ _ _ _ HT HX NX HR (Z.abs z) ltac:(lia) HZ) as W. rewrite HR. f_equal. rewrite HA in W.
  destruct (Z.abs_spec z) as [(S & E)|(S & E)]; rewrite E in W; destruct W as (W1 & W2 & W3 & W4); [specialize (W1 ltac:(lia)); specialize (W2 ltac:(lia)); lia|]. rewrite Z.opp_involutive in W3, W4. specialize (W3 ltac:(lia)). specialize (W4 ltac:(lia)). lia.
Qed.
Print Assumptions C93_any_exact.
Theorem C93_any_within_unit : forall sub pn pd x, any_tick sub pn pd -> is_double x -> number x -> (Z.abs (ask sub pn x) + one pd) * low_den sub pn pd <= 2 ^ 53 * one pd ->
  exists r, float_units sub pn pd x = Some r /\ Z.abs (r * one pd - ask sub pn x) < one pd.
Proof.
  intros sub pn pd x HT HX NX HA. assert (0 < one pd) as O by (unfold one; apply Z.mul_pos_pos; [apply HT|apply Z.pow_pos_nonneg; lia]). destruct (ratio_any _ _ _ HT) as (_ & B & _). cbv zeta in B.
  assert (Z.abs (ask sub pn x) + one pd <= (Z.abs (ask sub pn x) + one pd) * low_den sub pn pd) as G1 by nia.
  destruct (C93_any_defined _ _ _ _ HT HX NX) as (r & HR). { lia. }
  exists r. split; [exact HR|]. pose proof (C93_any_whole _ _ _ _ _ HT HX NX HR) as W. set (A := ask sub pn x) in *. set (D := one pd) in *. set (d := low_den sub pn pd) in *. clearbody A D d.
  pose proof (Z.div_mod (Z.abs A) D ltac:(lia)) as E. pose proof (Z.mod_pos_bound (Z.abs A) D O) as M. set (z := Z.abs A / D) in *. set (f := Z.abs A mod D) in *. assert (0 <= z) as Z0 by (apply Z.div_pos; lia). clearbody z f.
  assert ((z + 1) * d <= 2 ^ 53) as Z2. { apply (canc _ _ D O). eapply Z.le_trans; [|exact HA]. assert ((z + 1) * D <= Z.abs A + D) as X by lia. apply (grow _ _ d) in X; [|lia]. eapply Z.le_trans; [|exact X]. apply Z.eq_le_incl. ring. }
  destruct (W z ltac:(lia) ltac:(lia)) as (W1 & W2 & W3 & W4). destruct (W (z + 1) ltac:(lia) ltac:(lia)) as (V1 & V2 & V3 & V4).
  destruct (Z.eq_dec f 0) as [F|F]; destruct (Z.abs_spec A) as [(S & EA)|(S & EA)]; rewrite EA in E.
  - specialize (W1 ltac:(lia)). specialize (W2 ltac:(lia)). assert (r = z) as -> by lia. lia.
  - specialize (W3 ltac:(lia)). specialize (W4 ltac:(lia)). assert (r = - z) as -> by lia. lia.
  - specialize (W1 ltac:(lia)). specialize (V2 ltac:(lia)). assert (r = z \/ r = z + 1) as [-> | ->] by lia; lia.
  - specialize (W4 ltac:(lia)). specialize (V3 ltac:(lia)). assert (r = - z \/ r = - (z + 1)) as [-> | ->] by lia; lia.
Qed.
Print Assumptions C93_any_within_unit.
(** Three frames of 1/60 second are 50 ms, also in nanoseconds; one frame is 16666666 ns. *)
Example C93_any_example : any_tick 1000000000 1 60 /\ low_den 1000000000 1 60 = 3 /\ any_tick 1000 1 60 /\
  (let x := S754_finite false 6755399441055744 (-51) in is_double x /\ number x /\ ask 1000000000 1 x = 50000000 * one 60 /\ float_units 1000000000 1 60 x = Some 50000000 /\ float_units 1000 1 60 x = Some 50) /\
  float_units 1000000000 1 60 (S754_finite false 4503599627370496 (-52)) = Some 16666666.
Proof. repeat split; reflexivity. Qed.
