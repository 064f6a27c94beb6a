(** C93, continued: durations of float of any period, where the conversion rounds twice (FloatDur.v).  As PropsFloatAny.v, for 24 bits instead of 53. *)
From Coq Require Import ZArith Bool Lia List.
From Coq Require Import Floats.SpecFloat.
From Verif Require Import FloatDur PropsFloatDur PropsFloatAny PropsFloatSingle.
Local Open Scope Z_scope.

(** [q] * 2^[E] is [P]/([Q] * 2^149) rounded to a float.  Proof device; no counterpart in /repo. *)
Definition snearq (P Q q E : Z) : Prop := exists N DD, 0 < DD /\ 0 <= N /\ 0 <= q /\ -149 <= E /\ P * DD = N * 2 ^ (E + 149) * Q /\ 2 * Z.abs (q * DD - N) <= DD /\
  (forall a, a * DD <= N -> a <= q) /\ (forall a, N <= a * DD -> q <= a) /\ (q * DD = N \/ (E = -149 /\ q <= 2 ^ 24) \/ 2 ^ 23 * DD <= N).
Lemma snearq_lower P q E w j : snearq P 1 q E -> 0 <= w <= 2 ^ 24 -> 0 <= j -> w * 2 ^ j * 2 ^ 149 <= P -> w * 2 ^ j * 2 ^ 149 <= q * 2 ^ (E + 149).
Proof.
  intros (N & DD & HD & HN & Hq & HE & EQ & A & L & R & C) Hw Hj H. assert (0 < 2 ^ j) as PJ by (apply Z.pow_pos_nonneg; lia). assert (0 < 2 ^ (E + 149)) as PT by (apply Z.pow_pos_nonneg; lia). rewrite Z.mul_1_r in EQ.
  destruct (Z_le_gt_dec E j) as [G|G].
  - assert (w * 2 ^ j * 2 ^ 149 = w * 2 ^ (j - E) * 2 ^ (E + 149)) as EA. { rewrite <- !Z.mul_assoc, <- !Z.pow_add_r by lia. f_equal. f_equal. lia. }
    rewrite EA in *. apply grow; [lia|]. apply L. apply (canc _ _ (2 ^ (E + 149))); [assumption|]. rewrite <- EQ. apply (grow _ _ DD) in H; [|lia]. eapply Z.le_trans; [|exact H]. apply Z.eq_le_incl. ring.
  - destruct C as [C|[(C & _)|C]]; [|lia|].
    + eapply Z.le_trans; [exact H|]. apply (canc _ _ DD HD). rewrite EQ, <- C. apply Z.eq_le_incl. ring.
    + apply L in C. apply Z.le_trans with (2 ^ 23 * 2 ^ (E + 149)); [|apply grow; [lia|exact C]].
      rewrite (Z.pow_add_r 2 E) by lia. rewrite Z.mul_assoc. apply grow; [apply Z.pow_nonneg; lia|].
      apply Z.le_trans with (2 ^ 24 * 2 ^ j); [apply grow; lia|]. rewrite <- !Z.pow_add_r by lia. apply Z.pow_le_mono_r; lia.
Qed.
Lemma snearq_upper P q E w j : snearq P 1 q E -> 0 <= w <= 2 ^ 24 -> 0 <= j -> P <= w * 2 ^ j * 2 ^ 149 -> q * 2 ^ (E + 149) <= w * 2 ^ j * 2 ^ 149.
Proof.
  intros (N & DD & HD & HN & Hq & HE & EQ & A & L & R & C) Hw Hj H. assert (0 < 2 ^ j) as PJ by (apply Z.pow_pos_nonneg; lia). assert (0 < 2 ^ (E + 149)) as PT by (apply Z.pow_pos_nonneg; lia). rewrite Z.mul_1_r in EQ.
  destruct (Z_le_gt_dec E j) as [G|G].
  - assert (w * 2 ^ j * 2 ^ 149 = w * 2 ^ (j - E) * 2 ^ (E + 149)) as EA. { rewrite <- !Z.mul_assoc, <- !Z.pow_add_r by lia. f_equal. f_equal. lia. }
    rewrite EA in *. apply grow; [lia|]. apply R. apply (canc _ _ (2 ^ (E + 149))); [assumption|]. rewrite <- EQ. apply (grow _ _ DD) in H; [|lia]. eapply Z.le_trans; [exact H|]. apply Z.eq_le_incl. ring.
  - destruct C as [C|[(C & _)|C]]; [|lia|].
    + eapply Z.le_trans; [|exact H]. apply (canc _ _ DD HD). rewrite EQ, <- C. apply Z.eq_le_incl. ring.
    + assert (w * 2 ^ j * 2 ^ 149 <= 2 ^ 23 * 2 ^ (E + 149)) as S.
      { rewrite (Z.pow_add_r 2 E) by lia. rewrite (Z.mul_assoc (2 ^ 23)). apply grow; [apply Z.pow_nonneg; lia|]. apply Z.le_trans with (2 ^ 24 * 2 ^ j); [apply grow; lia|]. rewrite <- !Z.pow_add_r by lia. apply Z.pow_le_mono_r; lia. }
      assert (P <= 2 ^ 23 * 2 ^ (E + 149)) as S1 by (eapply Z.le_trans; eassumption).
      assert (q <= 2 ^ 23) as Q52. { apply R. apply (canc _ _ (2 ^ (E + 149))); [assumption|]. rewrite <- EQ. apply (grow _ _ DD) in S1; [|lia]. eapply Z.le_trans; [exact S1|]. apply Z.eq_le_incl. ring. }
      apply Z.le_trans with (2 ^ 23 * 2 ^ (E + 149)); [apply grow; [lia|exact Q52]|]. eapply Z.le_trans; [|exact H]. apply (canc _ _ DD HD). rewrite EQ.
      apply (grow _ _ (2 ^ (E + 149))) in C; [|lia]. eapply Z.le_trans; [|exact C]. apply Z.eq_le_incl; ring.
Qed.
(** The product is off by at most one part in 2^24. *)
Lemma snearq_rel P q E : snearq P 1 q E -> 0 <= P -> 2 ^ 24 * Z.abs (q * 2 ^ (E + 149) - P) <= P.
Proof.
  intros (N & DD & HD & HN & Hq & HE & EQ & A & L & R & C) HP. assert (0 < 2 ^ (E + 149)) as PT by (apply Z.pow_pos_nonneg; lia). rewrite Z.mul_1_r in EQ.
  destruct C as [C|[(C & B)|C]].
  - assert (P = q * 2 ^ (E + 149)) as -> by (apply (Z.mul_cancel_r _ _ DD); [lia|]; rewrite EQ, <- C; ring). rewrite Z.sub_diag. cbn. apply Z.mul_nonneg_nonneg; lia.
  - subst E. change (-149 + 149) with 0 in *. change (2 ^ 0) with 1 in *. rewrite Z.mul_1_r in *. assert (2 * Z.abs (q - P) <= 1) as X; [|lia].
    apply (canc _ _ DD HD). replace (2 * Z.abs (q - P) * DD) with (2 * Z.abs (q * DD - P * DD)); [rewrite EQ; lia|]. rewrite <- Z.mul_sub_distr_r, Z.abs_mul, (Z.abs_eq DD) by lia. ring.
  - set (T := 2 ^ (E + 149)) in *. clearbody T. apply (canc _ _ DD HD). replace (2 ^ 24 * Z.abs (q * T - P) * DD) with (2 ^ 24 * Z.abs (q * DD - N) * T).
    + rewrite EQ. apply grow; [lia|]. lia.
    + rewrite <- !Z.mul_assoc. f_equal. rewrite <- (Z.abs_eq T) at 1 by lia. rewrite <- (Z.abs_eq DD) at 2 by lia. rewrite <- !Z.abs_mul. f_equal. rewrite !Z.mul_sub_distr_r, EQ. ring.
Qed.

(** Rounding an integer times a power of two: the float itself. *)
Lemma saux_val s m ex : 0 < m -> ex <= fexp 24 128 (Zdigits2 m + ex) -> exists q K, 0 <= K /\ 0 <= q /\ -149 <= ex + K /\
  2 * Z.abs (q * 2 ^ K - m) <= 2 ^ K /\ (forall a, a * 2 ^ K <= m -> a <= q) /\ (forall a, m <= a * 2 ^ K -> q <= a) /\
  (q * 2 ^ K = m \/ (ex + K = -149 /\ q <= 2 ^ 24) \/ 2 ^ 23 * 2 ^ K <= m) /\
  let r := binary_round_aux 24 128 s m ex loc_Exact in let V := q * 2 ^ (ex + K + 149) in
  (V = 0 /\ r = S754_zero s) \/ (exists p e', r = S754_finite s p e' /\ is_single r /\ Zpos p * 2 ^ (e' + 149) = V) \/ (r = S754_infinity s /\ 2 ^ 104 * 2 ^ 149 <= V).
Proof.
  intros Hm HL. set (k := fexp 24 128 (Zdigits2 m + ex) - ex). assert (0 <= k) as K0 by (unfold k; lia). assert (Z.max 0 k = k) as MK by lia. set (x0 := shr_record_of_loc m loc_Exact).
  assert (rep m 1 x0) as R0 by (unfold rep, x0; cbn [shr_record_of_loc shr_m shr_r shr_s]; lia).
  set (x1 := match k with Zpos p => iter_pos shr_1 p x0 | _ => x0 end). assert (rep m (1 * 2 ^ Z.max 0 k) x1) as R1 by (apply shr_rep; [lia|exact R0]). rewrite MK, Z.mul_1_l in R1.
  set (q := rne x1). destruct (rne_spec _ _ _ R1) as (Q0 & QA & QL & QH). fold q in Q0, QA, QL, QH. assert (0 < 2 ^ k) as PK by (apply Z.pow_pos_nonneg; lia).
  pose proof (digits_spec m Hm) as (DL & DH). assert (0 < Zdigits2 m) as D0 by (apply digits_pos; exact Hm).
  assert (ex + k = Z.max (Zdigits2 m + ex - 24) (-149)) as EK by (unfold k; rewrite sfexp_val; lia).
  assert (q <= 2 ^ 24) as Q53. { apply QH. apply Z.lt_le_incl. eapply Z.lt_le_trans; [exact DH|]. rewrite <- Z.pow_add_r by lia. apply Z.pow_le_mono_r; lia. }
  assert ((ex + k = -149 /\ q <= 2 ^ 24) \/ 2 ^ 23 * 2 ^ k <= m) as C.
  { destruct (Z_le_gt_dec (Zdigits2 m + ex - 24) (-149)) as [B|B]; [left; split; lia|right]. rewrite <- Z.pow_add_r by lia. replace (23 + k) with (Zdigits2 m - 1) by lia. exact DL. }
  exists q, k. split; [exact K0|]. split; [exact Q0|]. split; [lia|]. split; [exact QA|]. split; [exact QL|]. split; [exact QH|]. split; [right; exact C|]. cbv zeta.
  unfold binary_round_aux, shr_fexp. fold x0. rewrite shr_case. fold k. rewrite MK. fold x1. change (round_nearest_even (shr_m x1) (loc_of_shr_record x1)) with q. rewrite shr_case. clearbody q. clear R1 QA. set (E := ex + k) in *. 
  set (k2 := fexp 24 128 (Zdigits2 q + E) - E). cbn [shr_record_of_loc].
  destruct (Z.eq_dec q 0) as [QZ|QZ].
  { left. rewrite QZ. split; [ring|]. assert (forall p, iter_pos shr_1 p {| shr_m := 0; shr_r := false; shr_s := false |} = {| shr_m := 0; shr_r := false; shr_s := false |}) as IT.
    { induction p as [p IH|p IH|]; cbn [iter_pos]; [change (shr_1 {| shr_m := 0; shr_r := false; shr_s := false |}) with {| shr_m := 0; shr_r := false; shr_s := false |}|..]; rewrite ?IH; reflexivity. }
    destruct k2; rewrite ?IT; reflexivity. }
  right. assert (0 < q) as QP by lia. pose proof (digits_spec q QP) as (GL & GH). assert (0 < Zdigits2 q) as G0 by (apply digits_pos; exact QP).
  assert (forall f e, f <= 104 -> fexp 24 128 (Zdigits2 e + f) = f -> 0 < e -> is_single (S754_finite s (Z.to_pos e) f)) as CAN.
  { intros f e F1 F2 F3. unfold is_single. cbn [valid_binary]. unfold bounded, canonical_mantissa. replace (Zpos (digits2_pos (Z.to_pos e))) with (Zdigits2 e) by (destruct e; try lia; reflexivity). rewrite F2. replace (Zeq_bool f f) with true by (symmetry; apply Zeq_is_eq_bool; reflexivity). destruct (Z.leb_spec f (128 - 24)); [reflexivity|lia]. }
  assert (forall f e, 0 < e -> fexp 24 128 (Zdigits2 e + f) = f -> e * 2 ^ (f + 149) = q * 2 ^ (E + 149) ->
    (exists p e', match e with Z0 => S754_zero s | Zpos p => if Zle_bool f (128 - 24) then S754_finite s p f else S754_infinity s | Zneg _ => S754_nan end = S754_finite s p e' /\ is_single (match e with Z0 => S754_zero s | Zpos p => if Zle_bool f (128 - 24) then S754_finite s p f else S754_infinity s | Zneg _ => S754_nan end) /\ Zpos p * 2 ^ (e' + 149) = q * 2 ^ (E + 149)) \/
    (match e with Z0 => S754_zero s | Zpos p => if Zle_bool f (128 - 24) then S754_finite s p f else S754_infinity s | Zneg _ => S754_nan end = S754_infinity s /\ 2 ^ 104 * 2 ^ 149 <= q * 2 ^ (E + 149))) as FIN.
  { intros f e F1 F2 F3. destruct e as [|p|p]; try lia. change (128 - 24) with 104. destruct (Z.leb_spec f 104) as [B|B].
    - left. exists p, f. split; [reflexivity|]. split; [apply (CAN f (Zpos p) B F2 F1)|exact F3].
    - right. split; [reflexivity|]. rewrite <- F3. rewrite <- Z.pow_add_r by lia. assert (2 ^ (104 + 149) <= 2 ^ (f + 149)) as PW by (apply Z.pow_le_mono_r; lia). assert (0 <= 2 ^ (f + 149)) by (apply Z.pow_nonneg; lia).
      apply Z.le_trans with (1 * 2 ^ (f + 149)); [rewrite Z.mul_1_l; exact PW|]. apply grow; [assumption|lia]. }
  assert (24 <= Zdigits2 q \/ E = -149) as NORM.
  { destruct C as [(C & _)|C]; [right; exact C|left]. apply QL in C. destruct (Z_le_gt_dec 24 (Zdigits2 q)) as [|B]; [assumption|]. exfalso. assert (2 ^ Zdigits2 q <= 2 ^ 23) by (apply Z.pow_le_mono_r; lia). lia. }
  destruct (Z_le_gt_dec k2 0) as [P2|P2].
  - assert ((match k2 with Zpos p => iter_pos shr_1 p {| shr_m := q; shr_r := false; shr_s := false |} | _ => {| shr_m := q; shr_r := false; shr_s := false |} end) = {| shr_m := q; shr_r := false; shr_s := false |}) as ->
      by (destruct k2; [reflexivity|lia|reflexivity]). cbn [shr_m]. replace (E + Z.max 0 k2) with E by lia. apply FIN; [exact QP| |reflexivity]. unfold k2 in P2. rewrite sfexp_val in *. lia.
  - assert (q = 2 ^ 24 /\ k2 = 1) as (E53 & E1).
    { unfold k2 in *. rewrite sfexp_val in *. assert (Zdigits2 q <= 25) as D54. { destruct (Z_le_gt_dec (Zdigits2 q) 25) as [|B]; [assumption|]. exfalso. assert (2 ^ 25 <= 2 ^ (Zdigits2 q - 1)) by (apply Z.pow_le_mono_r; lia). lia. }
      assert (Zdigits2 q = 25) as DD by lia. rewrite DD in GL. split; lia. }
    rewrite E1. cbn [iter_pos]. assert (shr_1 {| shr_m := q; shr_r := false; shr_s := false |} = {| shr_m := 2 ^ 23; shr_r := false; shr_s := false |}) as -> by (rewrite E53; reflexivity). cbn [shr_m].
    replace (Z.max 0 1) with 1 by lia. apply FIN; [lia|change (Zdigits2 (2 ^ 23)) with 24; rewrite sfexp_val; lia|]. rewrite E53. replace (E + 1 + 149) with (1 + (E + 149)) by lia. rewrite Z.pow_add_r by lia. change (2 ^ 24) with (2 ^ 23 * 2 ^ 1). ring.
Qed.

Lemma mul_single s m e num : exact24 num -> -149 <= e -> exists q E, snearq (Zpos m * num * 2 ^ (e + 149)) 1 q E /\
  let r := SFmul 24 128 (S754_finite s m e) (sgl_of num) in let V := q * 2 ^ (E + 149) in
  (V = 0 /\ r = S754_zero s) \/ (exists p e', r = S754_finite s p e' /\ is_single r /\ Zpos p * 2 ^ (e' + 149) = V) \/ (r = S754_infinity s /\ 2 ^ 104 * 2 ^ 149 <= V).
Proof.
  intros H He. destruct (sgl_of_spec num H) as (my & ey & a0 & b0 & -> & A0 & B0 & EY & MY & DM). unfold SFmul. replace (xorb s false) with s by (destruct s; reflexivity).
  destruct (saux_val s (Zpos (m * my)) (e + ey)) as (q & K & K0 & Q0 & HE & A & L & R & C & RES); [lia| |].
  { rewrite sfexp_val. enough (24 <= Zdigits2 (Zpos (m * my))) by lia. pose proof (digits_spec (Zpos my) ltac:(lia)) as (A & _). rewrite DM in A. pose proof (digits_spec (Zpos (m * my)) ltac:(lia)) as (_ & B).
    assert (0 < Zdigits2 (Zpos (m * my))) by (apply digits_pos; lia). destruct (Z_le_gt_dec 24 (Zdigits2 (Zpos (m * my)))) as [|G]; [assumption|]. exfalso. assert (2 ^ Zdigits2 (Zpos (m * my)) <= 2 ^ 23) by (apply Z.pow_le_mono_r; lia). rewrite Pos2Z.inj_mul in *. change (2 ^ (24 - 1)) with (2 ^ 23) in A. nia. }
  exists q, (e + ey + K). split; [|exact RES]. exists (Zpos (m * my)), (2 ^ K). assert (0 < 2 ^ K) by (apply Z.pow_pos_nonneg; lia). split; [lia|]. split; [lia|]. split; [lia|]. split; [lia|]. split; [|split; [exact A|split; [exact L|split; [exact R|exact C]]]].
  rewrite Pos2Z.inj_mul, Z.mul_1_r. apply (Z.mul_cancel_r _ _ (2 ^ b0)); [apply Z.pow_nonzero; lia|].
  enough (2 ^ (e + ey + K + 149) * 2 ^ b0 = 2 ^ a0 * (2 ^ (e + 149) * 2 ^ K)) as X.
  { transitivity (Zpos m * (num * 2 ^ b0) * (2 ^ (e + 149) * 2 ^ K)); [ring|]. rewrite <- MY. transitivity (Zpos m * Zpos my * (2 ^ (e + ey + K + 149) * 2 ^ b0)); [rewrite X; ring|ring]. }
  rewrite <- !Z.pow_add_r by lia. f_equal. lia.
Qed.
(** The general case: a product [V] and a quotient. *)
Lemma scast_twice num den s m e : exact24 num -> exact24 den -> num <> 1 -> den <> 1 -> is_single (S754_finite s m e) ->
  exists q E, snearq (Zpos m * num * 2 ^ (e + 149)) 1 q E /\
  ((exists c, snear (q * 2 ^ (E + 149)) den c /\ single_cast num den (S754_finite s m e) = fits s c) \/ (2 ^ 104 * 2 ^ 149 <= q * 2 ^ (E + 149) /\ single_cast num den (S754_finite s m e) = None)).
Proof.
  intros HN HD NN ND HX. apply single_low in HX. destruct (mul_single s m e num HN HX) as (q & E & NQ & RES). exists q, E. split; [exact NQ|]. cbv zeta in RES.
  unfold single_cast. destruct (Z.eqb_spec num 1) as [|_]; [contradiction|]. destruct (Z.eqb_spec den 1) as [|_]; [contradiction|].
  destruct RES as [(V0 & ->)|[(p & e' & RE & RD & RV)|(-> & BIG)]].
  - left. exists 0. rewrite V0. split.
    + exists 0, 0, 1, 0. split; [lia|]. split; [lia|]. split; [lia|]. split; [lia|]. split; [ring|]. split; [reflexivity|]. split; [lia|]. split; [lia|]. split; [lia|left; lia].
    + destruct (sgl_of_spec den HD) as (my & ey & a0 & b0 & -> & _). destruct s; reflexivity.
  - left. rewrite RE in *. apply single_low in RD. destruct (sdiv_near s p e' den HD RD) as (c & NC & V). exists c. rewrite RV in NC. split; assumption.
  - right. split; [exact BIG|]. destruct (sgl_of_spec den HD) as (my & ey & a0 & b0 & -> & _). destruct s; reflexivity.
Qed.

(** ** C93 for any period *)

(** Any tick whose ratio to the unit has, in lowest terms, a numerator and a denominator that a float can hold.  Specification; no counterpart in /repo. *)
Definition sany_tick (sub pn pd : Z) : Prop := 0 < sub /\ 0 < pn /\ 0 < pd /\ exact24 (pn * sub / Z.gcd (pn * sub) pd) /\ low_den sub pn pd < 2 ^ 24.
Lemma sratio_any sub pn pd : sany_tick sub pn pd -> let g := Z.gcd (pn * sub) pd in let num := pn * sub / g in let den := low_den sub pn pd in
  exact24 num /\ exact24 den /\ den < 2 ^ 24 /\ pn * sub = num * g /\ pd = den * g /\ 0 < g.
Proof.
  intros (S0 & N0 & D0 & N1 & D1). pose proof (exact24_pos _ N1) as NP. cbv zeta. unfold low_den in *. assert (0 < pn * sub) as NS by (apply Z.mul_pos_pos; assumption). set (a := pn * sub) in *. clearbody a.
  assert (0 < Z.gcd a pd) as G. { pose proof (Z.gcd_nonneg a pd). assert (Z.gcd a pd <> 0); [|lia]. intros X. apply Z.gcd_eq_0_l in X. lia. }
  destruct (Z.gcd_divide_l a pd) as (x & X). destruct (Z.gcd_divide_r a pd) as (y & Y). set (g := Z.gcd a pd) in *. clearbody g.
  assert (pd / g = y) as EY by (rewrite Y; apply Z.div_mul; lia). assert (a / g = x) as EX by (rewrite X; apply Z.div_mul; lia). rewrite EY, ?EX in *. assert (0 < y) by nia. split; [exact N1|]. split; [split; [lia|]; exists y, 0; lia|]. lia.
Qed.
(** The conversion of a number: [c] is the size of the result, [V] the product. *)
Lemma sany_near sub pn pd x : sany_tick sub pn pd -> is_single x -> number x ->
  exists (s : bool) P g, 0 <= P /\ 0 < g /\ sask sub pn x = (if s then - P else P) * g /\ sone pd = low_den sub pn pd * 2 ^ 149 * g /\
  exists V, 2 ^ 24 * Z.abs (V - P) <= P /\
    (forall z, 0 <= z <= 2 ^ 24 -> (z * 2 ^ 149 <= P -> z * 2 ^ 149 <= V) /\ (P <= z * 2 ^ 149 -> V <= z * 2 ^ 149)) /\
    ((exists c, snear V (low_den sub pn pd) c /\ single_units sub pn pd x = fits s c) \/ (2 ^ 104 * 2 ^ 149 <= V /\ single_units sub pn pd x = None)).
Proof.
  intros H HX NX. destruct (sratio_any _ _ _ H) as (A & B & B24 & EN & ED & G). cbv zeta in *. pose proof (exact24_pos _ A) as PA. pose proof (exact24_pos _ B) as PB. unfold sask, sone.
  assert (forall P, 0 <= P -> 2 ^ 24 * Z.abs (P - P) <= P) as TR by (intros P HP; rewrite Z.sub_diag; cbn; exact HP).
  destruct x as [b|b| |s m e]; try contradiction.
  - exists false, 0, (Z.gcd (pn * sub) pd). split; [lia|]. split; [exact G|]. split; [cbn [sval]; ring|]. split; [rewrite ED at 1; ring|]. exists 0. split; [apply TR; lia|]. split; [intros z HZ; split; intros HH; exact HH|]. left. exists 0. split.
    { exists 0, 0, 1, 0. split; [lia|]. split; [lia|]. split; [lia|]. split; [lia|]. split; [ring|]. split; [reflexivity|]. split; [lia|]. split; [lia|]. split; [lia|left; lia]. }
    change (fits false 0) with (Some 0). unfold single_units, single_cast. fold (low_den sub pn pd). set (n := pn * sub / _) in *. set (d := low_den sub pn pd) in *. clearbody n d.
    destruct (sgl_of_spec d B) as (my & ey & a0 & b0 & -> & _). destruct (sgl_of_spec n A) as (mx & ex & a1 & b1 & -> & _). destruct (n =? 1), (d =? 1); reflexivity.
  - assert (0 <= Zpos m * (pn * sub / Z.gcd (pn * sub) pd) * 2 ^ (e + 149)) as HP by (apply Z.mul_nonneg_nonneg; [lia|apply Z.pow_nonneg; lia]).
    exists s, (Zpos m * (pn * sub / Z.gcd (pn * sub) pd) * 2 ^ (e + 149)), (Z.gcd (pn * sub) pd). split; [exact HP|]. split; [exact G|]. split; [cbn [sval]; rewrite <- Z.mul_assoc; rewrite EN at 1; destruct s; ring|]. split; [rewrite ED at 1; ring|].
    unfold single_units. fold (low_den sub pn pd). set (n := pn * sub / _) in *. set (d := low_den sub pn pd) in *. clearbody n d. set (P := Zpos m * n * 2 ^ (e + 149)) in *.
    destruct (Z.eq_dec n 1) as [N1|N1]; [|destruct (Z.eq_dec d 1) as [D1|D1]].
    + destruct (scast_near n d s m e A B (or_introl N1) HX) as (c & NC & V). exists P. split; [apply TR, HP|]. split; [intros z HZ; split; intros HH; exact HH|]. left. exists c. split; assumption.
    + destruct (scast_near n d s m e A B (or_intror D1) HX) as (c & NC & V). exists P. split; [apply TR, HP|]. split; [intros z HZ; split; intros HH; exact HH|]. left. exists c. split; assumption.
    + destruct (scast_twice n d s m e A B N1 D1 HX) as (q & E & NQ & RES). fold P in NQ. exists (q * 2 ^ (E + 149)). split; [apply snearq_rel; assumption|]. split; [|exact RES].
      intros z HZ. pose proof (snearq_lower P q E z 0 NQ HZ ltac:(lia)) as LO. pose proof (snearq_upper P q E z 0 NQ HZ ltac:(lia)) as UP. replace (z * 2 ^ 0) with z in LO, UP by (change (2 ^ 0) with 1; ring). split; assumption.
Qed.

(** As C93_single_whole, for numbers of units whose product with the denominator is at most 2^24. *)
Theorem C93_single_any_whole : forall sub pn pd x r, sany_tick sub pn pd -> is_single x -> number x -> single_units sub pn pd x = Some r ->
  forall z, 0 <= z -> z * low_den sub pn pd <= 2 ^ 24 ->
  (z * sone pd <= sask sub pn x -> z <= r) /\ (sask sub pn x <= z * sone pd -> r <= z) /\ (- z * sone pd <= sask sub pn x -> - z <= r) /\ (sask sub pn x <= - z * sone pd -> r <= - z).
Proof.
  intros sub pn pd x r HT HX NX HR z Z0 ZD. destruct (sratio_any _ _ _ HT) as (_ & BE & BL & _). cbv zeta in BE, BL. pose proof (exact24_pos _ BE) as BP. destruct (sany_near _ _ _ _ HT HX NX) as (s & P & g & HP & Hg & EA & EO & V & VP & VW & [(c & NC & FV)|(_ & FV)]); rewrite HR in FV; [|discriminate].
  symmetry in FV. apply fits_some in FV. rewrite EA, EO. set (d := low_den sub pn pd) in *. clearbody d. assert (z <= z * d) as ZZ by nia. pose proof (snear_nonneg _ _ _ NC) as C0.
  pose proof (snear_lower V d c z 0 NC ltac:(lia) ltac:(lia) ltac:(lia)) as LO. pose proof (snear_upper V d c z 0 NC ltac:(lia) ltac:(lia) ltac:(lia)) as UP. destruct (VW (z * d) ltac:(lia)) as (V1 & V2).
  pose proof (snear_upper V d c 0 0 NC ltac:(lia) ltac:(lia) ltac:(lia)) as CZ. change (2 ^ 0) with 1 in *. rewrite !Z.mul_1_r in *. assert (0 < 2 ^ 149) as U0 by (apply Z.pow_pos_nonneg; lia). set (U := 2 ^ 149) in *. clearbody U.
  replace (z * d * U) with (z * U * d) in V1, V2 by ring. assert (P <= 0 -> V <= 0) as PV by lia. rewrite !Z.mul_0_l in CZ.
  assert (0 <= z * U * d) as ZU by (apply Z.mul_nonneg_nonneg; [apply Z.mul_nonneg_nonneg|]; lia). assert (0 < z -> 0 < z * U * d) as ZP by (intros; apply Z.mul_pos_pos; [apply Z.mul_pos_pos|]; lia).
  assert (forall a, a * (d * U * g) = a * U * d * g) as ER by (intros; ring). rewrite !ER. assert (- z * U * d = - (z * U * d)) as ZN by ring. rewrite ZN.
  subst r. destruct s; (split; [|split; [|split]]); intros H; apply (canc _ _ g Hg) in H; lia.
Qed.
Print Assumptions C93_single_any_whole.
(** Defined up to 2^62 units (146 years of nanoseconds) either way. *)
Theorem C93_single_any_defined : forall sub pn pd x, sany_tick sub pn pd -> is_single x -> number x -> Z.abs (sask sub pn x) <= 2 ^ 62 * sone pd -> exists r, single_units sub pn pd x = Some r.
Proof.
  intros sub pn pd x HT HX NX HA. destruct (sratio_any _ _ _ HT) as (_ & BE & BL & _). cbv zeta in BE, BL. pose proof (exact24_pos _ BE) as BP. destruct (sany_near _ _ _ _ HT HX NX) as (s & P & g & HP & Hg & EA & EO & V & VP & VW & RES).
  replace (Z.abs (sask sub pn x)) with (P * g) in HA by (rewrite EA; destruct s; nia). rewrite EO, Z.mul_assoc in HA. apply (canc _ _ g Hg) in HA. set (d := low_den sub pn pd) in *. clearbody d.
  assert (0 < 2 ^ 149) as U0 by (apply Z.pow_pos_nonneg; lia). destruct RES as [(c & NC & ->)|(BIG & _)].
  - pose proof (snear_nonneg _ _ _ NC) as C0. assert (c <= (2 ^ 24 - 1) * 2 ^ 39) as UP. { apply (snear_upper V d c (2 ^ 24 - 1) 39 NC ltac:(lia) ltac:(lia) ltac:(lia)). set (U := 2 ^ 149) in *. clearbody U. lia. }
    unfold fits. destruct s; cbv zeta.
    + exists (- c). destruct (Z.leb_spec (- 2 ^ 63) (- c)); [|lia]. destruct (Z.ltb_spec (- c) (2 ^ 63)); [|lia]. reflexivity.
    + exists c. destruct (Z.leb_spec (- 2 ^ 63) c); [|lia]. destruct (Z.ltb_spec c (2 ^ 63)); [|lia]. reflexivity.
  - exfalso. assert (2 ^ 120 <= 2 ^ 104) as B9 by (apply Z.pow_le_mono_r; lia). set (X := 2 ^ 104) in *. clearbody X. set (U := 2 ^ 149) in *. clearbody U.
    apply (grow _ _ U) in B9; [|lia]. assert (d * U <= 2 ^ 24 * U) as DU by (apply grow; lia). lia.
Qed.
Print Assumptions C93_single_any_defined.
(** Two roundings: off by one part in 2^22 and one unit; never of the other sign. *)
Theorem C93_single_any_accuracy : forall sub pn pd x r, sany_tick sub pn pd -> is_single x -> number x -> single_units sub pn pd x = Some r ->
  2 ^ 22 * (Z.abs r * sone pd) <= (2 ^ 22 + 1) * Z.abs (sask sub pn x) /\ (2 ^ 22 - 1) * Z.abs (sask sub pn x) < 2 ^ 22 * ((Z.abs r + 1) * sone pd) /\
  (0 <= sask sub pn x -> 0 <= r) /\ (sask sub pn x <= 0 -> r <= 0).
Proof.
  intros sub pn pd x r HT HX NX HR. pose proof (C93_single_any_whole _ _ _ _ _ HT HX NX HR 0 ltac:(lia) ltac:(lia)) as (S1 & S2 & _). rewrite !Z.mul_0_l in *.
  enough (2 ^ 22 * (Z.abs r * sone pd) <= (2 ^ 22 + 1) * Z.abs (sask sub pn x) /\ (2 ^ 22 - 1) * Z.abs (sask sub pn x) < 2 ^ 22 * ((Z.abs r + 1) * sone pd)) by tauto.
  destruct (sratio_any _ _ _ HT) as (_ & BE & BL & _). cbv zeta in BE, BL. pose proof (exact24_pos _ BE) as BP. destruct (sany_near _ _ _ _ HT HX NX) as (s & P & g & HP & Hg & EA & EO & V & VP & VW & [(c & NC & FV)|(_ & FV)]); rewrite HR in FV; [|discriminate].
  symmetry in FV. apply fits_some in FV. pose proof (snear_nonneg _ _ _ NC) as C0. destruct (snear_rel V (low_den sub pn pd) c NC ltac:(lia) ltac:(lia)) as (R1 & R2).
  replace (Z.abs (sask sub pn x)) with (P * g) by (rewrite EA; destruct s; nia). replace (Z.abs r) with c by (subst r; destruct s; lia). rewrite EO. set (d := low_den sub pn pd) in *. clearbody d.
  assert (0 < 2 ^ 149) as U0 by (apply Z.pow_pos_nonneg; lia). set (U := 2 ^ 149) in *. clearbody U. assert (0 < d * U) as DU by (apply Z.mul_pos_pos; lia). assert (0 <= c * (d * U)) as CU by (apply Z.mul_nonneg_nonneg; lia).
  assert (2 ^ 22 * (c * (d * U)) <= (2 ^ 22 + 1) * P) as X1 by lia. assert ((2 ^ 22 - 1) * P < 2 ^ 22 * ((c + 1) * (d * U))) as X2 by lia.
  apply (grow _ _ g) in X1; [|lia]. apply (Z.mul_lt_mono_pos_r g _ _ Hg) in X2.
  split; [eapply Z.le_trans; [|eapply Z.le_trans; [exact X1|]]|eapply Z.le_lt_trans; [|eapply Z.lt_le_trans; [exact X2|]]]; apply Z.eq_le_incl; ring.
Qed.
Print Assumptions C93_single_any_accuracy.
(** Exact for whole numbers of units, less than one unit off otherwise, as long as the product with the denominator stays within 2^24. *)
Theorem C93_single_any_exact : forall sub pn pd x z, sany_tick sub pn pd -> is_single x -> number x -> Z.abs z * low_den sub pn pd <= 2 ^ 24 -> sask sub pn x = z * sone pd -> single_units sub pn pd x = Some z.
Proof.
  intros sub pn pd x z HT HX NX HZ HA. assert (0 < sone pd) as O by (unfold sone; apply Z.mul_pos_pos; [apply HT|apply Z.pow_pos_nonneg; lia]). destruct (sratio_any _ _ _ HT) as (_ & BE & BL & _). cbv zeta in BE, BL. pose proof (exact24_pos _ BE) as BP. assert (Z.abs z <= 2 ^ 24) as AZ by nia.
  destruct (C93_single_any_defined _ _ _ _ HT HX NX) as (r & HR). { rewrite HA, Z.abs_mul, (Z.abs_eq (sone pd)) by lia. apply grow; lia. }
  pose proof (C93_single_any_whole _ _ _ _ _ HT HX NX HR (Z.abs z) ltac:(lia) HZ) as W. rewrite HR. f_equal. rewrite HA in W.
  destruct (Z.abs_spec z) as [(S & E)|(S & E)]; rewrite E in W; destruct W as (W1 & W2 & W3 & W4); [specialize (W1 ltac:(lia)); specialize (W2 ltac:(lia)); lia|]. rewrite Z.opp_involutive in W3, W4. specialize (W3 ltac:(lia)). specialize (W4 ltac:(lia)). lia.
Qed.
Print Assumptions C93_single_any_exact.
Theorem C93_single_any_within_unit : forall sub pn pd x, sany_tick sub pn pd -> is_single x -> number x -> (Z.abs (sask sub pn x) + sone pd) * low_den sub pn pd <= 2 ^ 24 * sone pd ->
  exists r, single_units sub pn pd x = Some r /\ Z.abs (r * sone pd - sask sub pn x) < sone pd.
Proof.
  intros sub pn pd x HT HX NX HA. assert (0 < sone pd) as O by (unfold sone; apply Z.mul_pos_pos; [apply HT|apply Z.pow_pos_nonneg; lia]). destruct (sratio_any _ _ _ HT) as (_ & BE & BL & _). cbv zeta in BE, BL. pose proof (exact24_pos _ BE) as BP.
  assert (Z.abs (sask sub pn x) + sone pd <= (Z.abs (sask sub pn x) + sone pd) * low_den sub pn pd) as G1 by nia.
  destruct (C93_single_any_defined _ _ _ _ HT HX NX) as (r & HR). { lia. }
  exists r. split; [exact HR|]. pose proof (C93_single_any_whole _ _ _ _ _ HT HX NX HR) as W. set (A := sask sub pn x) in *. set (D := sone pd) in *. set (d := low_den sub pn pd) in *. clearbody A D d.
  pose proof (Z.div_mod (Z.abs A) D ltac:(lia)) as E. pose proof (Z.mod_pos_bound (Z.abs A) D O) as M. set (z := Z.abs A / D) in *. set (f := Z.abs A mod D) in *. assert (0 <= z) as Z0 by (apply Z.div_pos; lia). clearbody z f.
  assert ((z + 1) * d <= 2 ^ 24) as Z2. { apply (canc _ _ D O). eapply Z.le_trans; [|exact HA]. assert ((z + 1) * D <= Z.abs A + D) as X by lia. apply (grow _ _ d) in X; [|lia]. eapply Z.le_trans; [|exact X]. apply Z.eq_le_incl. ring. }
  destruct (W z ltac:(lia) ltac:(lia)) as (W1 & W2 & W3 & W4). destruct (W (z + 1) ltac:(lia) ltac:(lia)) as (V1 & V2 & V3 & V4).
  destruct (Z.eq_dec f 0) as [F|F]; destruct (Z.abs_spec A) as [(S & EA)|(S & EA)]; rewrite EA in E.
  - specialize (W1 ltac:(lia)). specialize (W2 ltac:(lia)). assert (r = z) as -> by lia. lia.
  - specialize (W3 ltac:(lia)). specialize (W4 ltac:(lia)). assert (r = - z) as -> by lia. lia.
  - specialize (W1 ltac:(lia)). specialize (V2 ltac:(lia)). assert (r = z \/ r = z + 1) as [-> | ->] by lia; lia.
  - specialize (W4 ltac:(lia)). specialize (V3 ltac:(lia)). assert (r = - z \/ r = - (z + 1)) as [-> | ->] by lia; lia.
Qed.
Print Assumptions C93_single_any_within_unit.
(** Three frames of 1/60 second are 50 ms, also in nanoseconds; one frame is 16666667 ns, one third of a nanosecond too long. *)
Example C93_single_any_example : sany_tick 1000000000 1 60 /\ low_den 1000000000 1 60 = 3 /\ sany_tick 1000 1 60 /\
  (let x := S754_finite false 12582912 (-22) in is_single x /\ number x /\ sask 1000000000 1 x = 50000000 * sone 60 /\ single_units 1000000000 1 60 x = Some 50000000 /\ single_units 1000 1 60 x = Some 50) /\
  single_units 1000000000 1 60 (S754_finite false 8388608 (-23)) = Some 16666667.
Proof.
  assert (exact24 50000000) as E by (split; [lia|]; exists 390625, 7; lia). assert (exact24 50) as E' by (split; [lia|]; exists 50, 0; lia).
  split; [split; [lia|]; split; [lia|]; split; [lia|]; split; [exact E|reflexivity]|]. split; [reflexivity|]. split; [split; [lia|]; split; [lia|]; split; [lia|]; split; [exact E'|reflexivity]|]. repeat split; reflexivity.
Qed.
