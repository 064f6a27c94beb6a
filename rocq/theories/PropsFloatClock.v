(** C95: waits until a time point of any clock that counts in floating point (FloatClock.v). *)
From Coq Require Import List ZArith Bool Lia.
From Coq Require Import Floats.SpecFloat.
From Verif Require Import TimedLoops FloatDur FloatClock PropsFloatDur PropsFloatSingle.
Import ListNotations.
Local Open Scope Z_scope.

(** ** The comparison of doubles is that of their values *)
Lemma canon s m e : is_double (S754_finite s m e) -> e = Z.max (Zdigits2 (Zpos m) + e - 53) (-1074).
Proof.
  unfold is_double. cbn [valid_binary]. unfold bounded, canonical_mantissa. intros H. apply andb_true_iff in H. destruct H as (H & _). apply Zeq_bool_eq in H. rewrite fexp_val in H. cbn [Zdigits2]. lia.
Qed.
Lemma mag_lt s m e s' m' e' : is_double (S754_finite s m e) -> is_double (S754_finite s' m' e') -> e < e' -> Zpos m * 2 ^ (e + 1074) < Zpos m' * 2 ^ (e' + 1074).
Proof.
  intros H H' L. apply canon in H. apply canon in H'. pose proof (digits_spec (Zpos m) ltac:(lia)) as (_ & M). pose proof (digits_spec (Zpos m') ltac:(lia)) as (M' & _).
  set (d := Zdigits2 (Zpos m)) in *. set (d' := Zdigits2 (Zpos m')) in *. assert (0 < d) by (apply digits_pos; lia). clearbody d d'. assert (d' = 53) by lia. subst d'. assert (d <= 53) by lia.
  assert (2 ^ d <= 2 ^ 53) by (apply Z.pow_le_mono_r; lia). replace (e' + 1074) with (1 + (e' - e - 1) + (e + 1074)) by lia. rewrite (Z.pow_add_r 2 (1 + (e' - e - 1)) (e + 1074)), (Z.pow_add_r 2 1) by lia.
  assert (0 < 2 ^ (e + 1074)) as T0 by (apply Z.pow_pos_nonneg; lia). assert (0 < 2 ^ (e' - e - 1)) as U0 by (apply Z.pow_pos_nonneg; lia). set (T := 2 ^ (e + 1074)) in *. set (U := 2 ^ (e' - e - 1)) in *. clearbody T U.
  rewrite Z.mul_assoc. apply Z.mul_lt_mono_pos_r; [exact T0|]. change (2 ^ 1) with 2. change (2 ^ (53 - 1)) with (2 ^ 52) in M'. nia.
Qed.
Lemma mag_cmp s m e s' m' e' : is_double (S754_finite s m e) -> is_double (S754_finite s' m' e') ->
  (Zpos m * 2 ^ (e + 1074) ?= Zpos m' * 2 ^ (e' + 1074)) = match e ?= e' with Eq => Pcompare m m' Eq | c => c end.
Proof.
  intros H H'. destruct (Z.compare_spec e e') as [C|C|C].
  - subst e'. assert (-1074 <= e) as E0 by (apply canon in H; lia). assert (0 < 2 ^ (e + 1074)) as T0 by (apply Z.pow_pos_nonneg; lia). rewrite <- Zmult_compare_compat_r by lia. reflexivity.
  - apply Z.compare_lt_iff. apply (mag_lt _ _ _ _ _ _ H H' C).
  - apply Z.compare_gt_iff. apply (mag_lt _ _ _ _ _ _ H' H C).
Qed.
Lemma ltb_val x y : is_double x -> number x -> is_double y -> number y -> SFltb x y = (val x <? val y).
Proof.
  intros HX NX HY NY. unfold SFltb, Z.ltb.
  assert (forall m e b, is_double (S754_finite b m e) -> 0 < Zpos m * 2 ^ (e + 1074)) as POS by (intros m e b H; apply canon in H; apply Z.mul_pos_pos; [lia|apply Z.pow_pos_nonneg; lia]).
  destruct x as [b|b| |s m e]; try contradiction; destruct y as [b'|b'| |s' m' e']; try contradiction; cbn [SFcompare val].
  - reflexivity.
  - pose proof (POS _ _ _ HY) as P. destruct s'; [rewrite (proj2 (Z.compare_gt_iff _ _))|rewrite (proj2 (Z.compare_lt_iff _ _))]; try reflexivity; lia.
  - pose proof (POS _ _ _ HX) as P. destruct s; [rewrite (proj2 (Z.compare_lt_iff _ _))|rewrite (proj2 (Z.compare_gt_iff _ _))]; try reflexivity; lia.
  - pose proof (POS _ _ _ HX) as P. pose proof (POS _ _ _ HY) as P'. pose proof (mag_cmp _ _ _ _ _ _ HX HY) as M. destruct s, s'.
    + rewrite Z.compare_opp, (Z.compare_antisym (Zpos m * 2 ^ (e + 1074))), M. destruct (e ?= e'); cbn [CompOpp]; reflexivity.
    + rewrite (proj2 (Z.compare_lt_iff _ _)) by lia. reflexivity.
    + rewrite (proj2 (Z.compare_gt_iff _ _)) by lia. reflexivity.
    + rewrite M. destruct (e ?= e'); reflexivity.
Qed.

(** ** The converted reading *)
Lemma dbl_of_val n : 0 <= n < 2 ^ 53 -> is_double (dbl_of n) /\ number (dbl_of n) /\ val (dbl_of n) = n * 2 ^ 1074.
Proof.
  intros H. destruct (Z.eq_dec n 0) as [->|NZ]; [split; [reflexivity|split; [exact I|reflexivity]]|]. destruct (dbl_of_spec n ltac:(lia)) as (m & e & -> & E0 & M & D).
  assert (- e < 53) as EL.
  { destruct (Z_lt_le_dec (- e) 53); [assumption|]. exfalso. pose proof (digits_spec (Zpos m) ltac:(lia)) as (_ & B). rewrite D, M in B. assert (2 ^ 53 <= 2 ^ (- e)) by (apply Z.pow_le_mono_r; lia). nia. }
  split; [|split; [exact I|]].
  - unfold is_double. cbn [valid_binary]. unfold bounded, canonical_mantissa. cbn [Zdigits2] in D. rewrite D, fexp_val. replace (Z.max (53 + e - 53) (-1074)) with e by lia. apply andb_true_iff. split; [apply Zeq_is_eq_bool; reflexivity|apply Z.leb_le; lia].
  - cbn [val]. rewrite M. rewrite <- Z.mul_assoc, <- Z.pow_add_r by lia. f_equal. f_equal. lia.
Qed.
Lemma aux_quot N D m l ex : 0 < D -> 0 < m -> rep N D (shr_record_of_loc m l) -> 53 <= Zdigits2 m <= 200 -> -1000 <= ex <= 100 ->
  let r := binary_round_aux 53 1024 false m ex l in exists p e', r = S754_finite false p e' /\ is_double r /\ 2 ^ 53 * Z.abs (Zpos p * 2 ^ (e' + 1074) * D - N * 2 ^ (ex + 1074)) <= N * 2 ^ (ex + 1074).
Proof.
  intros HD Hm R0 HG HX. set (x0 := shr_record_of_loc m l) in *. assert (shr_m x0 = m) as M0 by (unfold x0; destruct l as [|[| |]]; reflexivity).
  set (k := fexp 53 1024 (Zdigits2 m + ex) - ex). assert (k = Zdigits2 m - 53) as EK by (unfold k; rewrite fexp_val; lia). assert (Z.max 0 k = k) as MK by lia.
  set (x1 := match k with Zpos p => iter_pos shr_1 p x0 | _ => x0 end). assert (rep N (D * 2 ^ Z.max 0 k) x1) as R1 by (apply shr_rep; [lia|exact R0]). rewrite MK in R1.
  destruct R0 as (_ & R0 & _). rewrite M0 in R0. assert (0 < 2 ^ k) as PK by (apply Z.pow_pos_nonneg; lia).
  set (q := rne x1). destruct (rne_spec _ _ _ R1) as (Q0 & QA & QL & QH). fold q in Q0, QA, QL, QH. pose proof (digits_spec m Hm) as (DL & DH).
  assert (2 ^ 52 * (D * 2 ^ k) <= N) as LN.
  { replace (2 ^ 52 * (D * 2 ^ k)) with (2 ^ (Zdigits2 m - 1) * D); [nia|]. replace (Zdigits2 m - 1) with (52 + k) by lia. rewrite Z.pow_add_r by lia. ring. }
  assert (N <= 2 ^ 53 * (D * 2 ^ k)) as UN.
  { replace (2 ^ 53 * (D * 2 ^ k)) with (2 ^ Zdigits2 m * D); [nia|]. replace (Zdigits2 m) with (53 + k) by lia. rewrite Z.pow_add_r by lia. ring. }
  apply QL in LN as Q52. apply QH in UN as Q53. cbv zeta. set (E := ex + k).
  assert (2 ^ 53 * Z.abs (q * 2 ^ (E + 1074) * D - N * 2 ^ (ex + 1074)) <= N * 2 ^ (ex + 1074)) as REL.
  { unfold E. replace (ex + k + 1074) with (k + (ex + 1074)) by lia. rewrite Z.pow_add_r by lia. assert (0 < 2 ^ (ex + 1074)) as T0 by (apply Z.pow_pos_nonneg; lia). set (T := 2 ^ (ex + 1074)) in *. clearbody T.
    replace (q * (2 ^ k * T) * D - N * T) with ((q * (D * 2 ^ k) - N) * T) by ring. rewrite Z.abs_mul, (Z.abs_eq T) by lia. rewrite Z.mul_assoc. apply grow; lia. }
  unfold binary_round_aux, shr_fexp. fold x0. rewrite shr_case. fold k. rewrite MK. fold x1. change (round_nearest_even (shr_m x1) (loc_of_shr_record x1)) with q. rewrite shr_case. fold E. clearbody q. clear R1 QA QL QH x1.
  set (k2 := fexp 53 1024 (Zdigits2 q + E) - E). cbn [shr_record_of_loc]. pose proof (digits_spec q ltac:(lia)) as (GL & GH). assert (0 < Zdigits2 q) as G0 by (apply digits_pos; lia).
  assert (53 <= Zdigits2 q) as G1. { destruct (Z_le_gt_dec 53 (Zdigits2 q)) as [|B]; [assumption|]. exfalso. assert (2 ^ Zdigits2 q <= 2 ^ 52) by (apply Z.pow_le_mono_r; lia). lia. }
  assert (Zdigits2 q <= 54) as G2. { destruct (Z_le_gt_dec (Zdigits2 q) 54) as [|B]; [assumption|]. exfalso. assert (2 ^ 54 <= 2 ^ (Zdigits2 q - 1)) by (apply Z.pow_le_mono_r; lia). lia. }
  assert (forall f p, f <= 971 -> fexp 53 1024 (Zdigits2 (Zpos p) + f) = f -> is_double (S754_finite false p f)) as CAN.
  { intros f p F1 F2. unfold is_double. cbn [valid_binary]. unfold bounded, canonical_mantissa. cbn [Zdigits2] in F2. rewrite F2. replace (Zeq_bool f f) with true by (symmetry; apply Zeq_is_eq_bool; reflexivity). destruct (Z.leb_spec f (1024 - 53)); [reflexivity|lia]. }
  assert (k2 = Zdigits2 q - 53) as K2 by (unfold k2; rewrite fexp_val; unfold E; lia). destruct (Z.eq_dec (Zdigits2 q) 53) as [G|G].
  - replace k2 with 0 by lia. cbn [shr_m]. replace (E + Z.max 0 0) with E by lia. destruct q as [|p|p]; try lia. destruct (Z.leb_spec E (1024 - 53)) as [_|X]; [|unfold E in X; lia]. exists p, E. split; [reflexivity|]. split; [|exact REL].
    apply CAN; [unfold E; lia|]. rewrite fexp_val. unfold E. lia.
  - assert (Zdigits2 q = 54) as DD by lia. rewrite DD in GL. assert (q = 2 ^ 53) as E53 by lia. replace k2 with 1 by lia. cbn [iter_pos]. rewrite E53 in *. change (shr_1 {| shr_m := 2 ^ 53; shr_r := false; shr_s := false |}) with {| shr_m := 2 ^ 52; shr_r := false; shr_s := false |}. cbn [shr_m].
    replace (E + Z.max 0 1) with (E + 1) by lia. change (2 ^ 52) with (Zpos 4503599627370496). cbv iota beta. destruct (Z.leb_spec (E + 1) (1024 - 53)) as [_|X]; [|unfold E in X; lia]. exists 4503599627370496%positive, (E + 1). split; [reflexivity|]. split.
    + apply CAN; [unfold E; lia|]. change (Zdigits2 (Zpos 4503599627370496)) with 53. rewrite fexp_val. unfold E. lia.
    + replace (Zpos 4503599627370496 * 2 ^ (E + 1 + 1074)) with (2 ^ 53 * 2 ^ (E + 1074)); [exact REL|]. replace (E + 1 + 1074) with (1 + (E + 1074)) by lia. rewrite (Z.pow_add_r 2 1) by (unfold E; lia). change (2 ^ 53) with (Zpos 4503599627370496 * 2 ^ 1). ring.
Qed.
Lemma quot_val n den : 0 < n < 2 ^ 53 -> 0 < den < 2 ^ 53 -> let r := SFdiv 53 1024 (dbl_of n) (dbl_of den) in is_double r /\ number r /\ 2 ^ 53 * Z.abs (val r * den - n * 2 ^ 1074) <= n * 2 ^ 1074.
Proof.
  intros Hn Hd. cbv zeta.
  assert (forall z, 0 < z < 2 ^ 53 -> exists m e, dbl_of z = S754_finite false m e /\ -53 < e <= 0 /\ Zpos m = z * 2 ^ (- e) /\ 2 ^ 52 <= Zpos m < 2 ^ 53 /\ Zdigits2 (Zpos m) = 53) as SP.
  { intros z Hz. destruct (dbl_of_spec z Hz) as (m & e & E & E0 & M & D). pose proof (digits_spec (Zpos m) ltac:(lia)) as B. rewrite D in B. change (2 ^ (53 - 1)) with (2 ^ 52) in B. exists m, e. split; [exact E|]. split; [|split; [exact M|split; [exact B|exact D]]].
    destruct (Z_lt_le_dec (-53) e); [lia|]. exfalso. assert (2 ^ 53 <= 2 ^ (- e)) by (apply Z.pow_le_mono_r; lia). nia. }
  destruct (SP n Hn) as (m & e & -> & HE & M & MB & MD). destruct (SP den Hd) as (my & ey & -> & HEY & MY & MYB & MYD). unfold SFdiv, SFdiv_core_binary. rewrite MD, MYD. cbn [xorb].
  replace (Z.min (fexp 53 1024 (53 + e - (53 + ey))) (e - ey)) with (e - ey - 53) by (rewrite fexp_val; lia). replace (e - ey - (e - ey - 53)) with 53 by lia. cbv iota beta. rewrite Z.shiftl_mul_pow2 by lia.
  set (N := Zpos m * 2 ^ 53). assert (Z.div_eucl N (Zpos my) = (N / Zpos my, N mod Zpos my)) as -> by (unfold Z.div, Z.modulo; destruct (Z.div_eucl N (Zpos my)); reflexivity).
  assert (2 ^ 52 <= N / Zpos my) as LB by (apply Z.div_le_lower_bound; unfold N; lia). assert (N / Zpos my < 2 ^ 106) as UB by (apply Z.div_lt_upper_bound; unfold N; lia).
  destruct (aux_quot N (Zpos my) (N / Zpos my) (new_location (Zpos my) (N mod Zpos my)) (e - ey - 53)) as (p & e' & R & DR & REL); [lia|lia|apply new_loc_rep; unfold N; lia| |lia|].
  { pose proof (digits_spec (N / Zpos my) ltac:(lia)) as (A & B). split.
    - destruct (Z_le_gt_dec 53 (Zdigits2 (N / Zpos my))) as [|G]; [assumption|]. exfalso. assert (2 ^ Zdigits2 (N / Zpos my) <= 2 ^ 52) by (apply Z.pow_le_mono_r; lia). lia.
    - destruct (Z_le_gt_dec (Zdigits2 (N / Zpos my)) 200) as [|G]; [assumption|]. exfalso. assert (2 ^ 106 <= 2 ^ (Zdigits2 (N / Zpos my) - 1)) by (apply Z.pow_le_mono_r; lia). lia. }
  cbv zeta in R, DR. rewrite R in *. split; [exact DR|]. split; [exact I|]. cbn [val].
  assert (N * 2 ^ (e - ey - 53 + 1074) = n * 2 ^ 1074 * 2 ^ (- ey)) as EN. { unfold N. rewrite M. rewrite <- !Z.mul_assoc. f_equal. rewrite <- !Z.pow_add_r by lia. f_equal. lia. }
  rewrite EN, MY in REL. assert (0 < 2 ^ (- ey)) as P0 by (apply Z.pow_pos_nonneg; lia). set (T := 2 ^ (- ey)) in *. clearbody T. set (V := Zpos p * 2 ^ (e' + 1074)) in *. clearbody V. set (W := n * 2 ^ 1074) in *. clearbody W.
  apply (canc _ _ T P0). replace (V * (den * T) - W * T) with ((V * den - W) * T) in REL by ring. rewrite Z.abs_mul, (Z.abs_eq T) in REL by lia. lia.
Qed.
Lemma read_val den n : 0 < den < 2 ^ 53 -> 0 <= n < 2 ^ 53 -> let r := read_double 1 den n in
  is_double r /\ number r /\ 2 ^ 53 * Z.abs (val r * den - n * 2 ^ 1074) <= n * 2 ^ 1074 /\ (den = 1 -> val r = n * 2 ^ 1074).
Proof.
  intros Hd Hn. cbv zeta. assert (0 < 2 ^ 1074) as U0 by (apply Z.pow_pos_nonneg; lia). unfold read_double. change (1 =? 1) with true. cbv iota zeta. destruct (Z.eqb_spec den 1) as [->|D1].
  - destruct (dbl_of_val n Hn) as (A & B & C). split; [exact A|]. split; [exact B|]. split; [|intros _; exact C]. rewrite C, Z.mul_1_r, Z.sub_diag. cbn [Z.abs]. rewrite Z.mul_0_r. apply Z.mul_nonneg_nonneg; lia.
  - destruct (Z.eq_dec n 0) as [->|N0].
    + destruct (dbl_of_spec den Hd) as (m & e & -> & _). change (dbl_of 0) with (S754_zero false). cbn. split; [reflexivity|]. split; [exact I|]. split; [lia|contradiction].
    + destruct (quot_val n den ltac:(lia) Hd) as (A & B & C). split; [exact A|]. split; [exact B|]. split; [exact C|]. intros X. contradiction.
Qed.

(** ** The loops *)
Lemma while_shape read t : forall env now o l, float_while read t now env = (o, l) ->
  (o = CFalse -> exists n, In n (now :: map snd env) /\ SFltb (read n) t = false) /\ (forall n, In n l -> In n (now :: map snd env) /\ SFltb (read n) t = true) /\ (o = CTrue -> exists n, In (true, n) env).
Proof.
  induction env as [|[b n'] env IH]; intros now o l H; cbn [float_while] in H; destruct (SFltb (read now) t) eqn:L.
  - injection H as <- <-. split; [discriminate|]. split; [|discriminate]. intros n [<-|[]]. split; [left; reflexivity|exact L].
  - injection H as <- <-. split; [intros _; exists now; split; [left; reflexivity|exact L]|]. split; [intros n []|discriminate].
  - destruct b.
    + injection H as <- <-. split; [discriminate|]. split; [|intros _; exists n'; left; reflexivity]. intros n [<-|[]]. split; [left; reflexivity|exact L].
    + destruct (float_while read t n' env) as [o' l'] eqn:E. injection H as <- <-. destruct (IH _ _ _ E) as (A & B & C). cbn [map snd]. split; [|split].
      * intros X. destruct (A X) as (n & I1 & I2). exists n. split; [right; exact I1|exact I2].
      * intros n [<-|X]; [split; [left; reflexivity|exact L]|]. destruct (B n X) as (I1 & I2). split; [right; exact I1|exact I2].
      * intros X. destruct (C X) as (n & I1). exists n. right. exact I1.
  - injection H as <- <-. split; [intros _; exists now; split; [left; reflexivity|exact L]|]. split; [intros n []|discriminate].
Qed.
Lemma do_shape read t : forall env now o l, float_do read t now env = (o, l) ->
  (o = CFalse -> exists n, In n (map snd env) /\ SFltb (read n) t = false) /\ (forall n, In n l -> n = now \/ In n (map snd env) /\ SFltb (read n) t = true) /\ (o = CTrue -> exists n, In (true, n) env).
Proof.
  induction env as [|[b n'] env IH]; intros now o l H; cbn [float_do] in H.
  - injection H as <- <-. split; [discriminate|]. split; [|discriminate]. intros n [<-|[]]. left. reflexivity.
  - destruct b.
    + injection H as <- <-. split; [discriminate|]. split; [|intros _; exists n'; left; reflexivity]. intros n [<-|[]]. left. reflexivity.
    + destruct (SFltb (read n') t) eqn:L.
      * destruct (float_do read t n' env) as [o' l'] eqn:E. injection H as <- <-. destruct (IH _ _ _ E) as (A & B & C). cbn [map snd]. split; [|split].
        -- intros X. destruct (A X) as (n & I1 & I2). exists n. split; [right; exact I1|exact I2].
        -- intros n [<-|X]; [left; reflexivity|]. right. destruct (B n X) as [->|(I1 & I2)]; [split; [left; reflexivity|exact L]|split; [right; exact I1|exact I2]].
        -- intros X. destruct (C X) as (n & I1). exists n. right. exact I1.
      * injection H as <- <-. split; [intros _; exists n'; split; [left; reflexivity|exact L]|]. split; [intros n [<-|[]]; left; reflexivity|discriminate].
Qed.

(** What the user is promised about a reading at which the wait gives up ([gave_up]) or waits on ([waits]).  The deadline is [val t] * 2^-1074 periods of [den] ticks.  Specification; no counterpart in /repo. *)
Definition gave_up (den : Z) (t : double) (n : Z) : Prop := 2 ^ 53 * (val t * den) <= (2 ^ 53 + 1) * (n * 2 ^ 1074) /\ (den = 1 -> val t <= n * 2 ^ 1074).
(** See [gave_up].  Specification; no counterpart in /repo. *)
Definition waits (den : Z) (t : double) (n : Z) : Prop := (2 ^ 53 - 1) * (n * 2 ^ 1074) < 2 ^ 53 * (val t * den) /\ (den = 1 -> n * 2 ^ 1074 < val t).
Lemma read_cmp den t n : 0 < den < 2 ^ 53 -> is_double t -> number t -> 0 <= n < 2 ^ 53 -> if SFltb (read_double 1 den n) t then waits den t n else gave_up den t n.
Proof.
  intros Hd HT NT Hn. destruct (read_val den n Hd Hn) as (A & B & C & D). rewrite (ltb_val _ _ A B HT NT). set (r := val (read_double 1 den n)) in *. clearbody r. unfold waits, gave_up. set (v := val t) in *. clearbody v.
  set (W := n * 2 ^ 1074) in *. clearbody W. destruct (Z.ltb_spec r v) as [L|L].
  - split; [|intros X; rewrite <- (D X); exact L]. assert (r * den < v * den) by (apply Z.mul_lt_mono_pos_r; lia). lia.
  - split; [|intros X; rewrite <- (D X); exact L]. assert (v * den <= r * den) by (apply grow; lia). lia.
Qed.

(** A wait until a time point that counts in double, of periods of [den] ticks of the clock (10^9 for seconds of a clock that counts nanoseconds), as long as the clock shows less than 2^53 ticks (104 days of nanoseconds):
    it gives up only when the clock has reached the deadline, up to one part in 2^53 of the reading, and exactly if the period is the clock's own tick; it starts an inner wait only at readings before the deadline,
    with the same accuracy; it reports success only if an inner wait did. *)
Theorem C95_while_partial : forall den t now env o l, 0 < den < 2 ^ 53 -> is_double t -> number t -> Forall (fun n => 0 <= n < 2 ^ 53) (now :: map snd env) -> float_while (read_double 1 den) t now env = (o, l) ->
  (o = CFalse -> exists n, In n (now :: map snd env) /\ gave_up den t n) /\ Forall (waits den t) l /\ (o = CTrue -> exists n, In (true, n) env).
Proof.
  intros den t now env o l Hd HT NT HF H. destruct (while_shape _ _ _ _ _ _ H) as (A & B & C). rewrite Forall_forall in HF. split; [|split; [|exact C]].
  - intros X. destruct (A X) as (n & I1 & I2). exists n. split; [exact I1|]. pose proof (read_cmp den t n Hd HT NT (HF _ I1)) as R. rewrite I2 in R. exact R.
  - apply Forall_forall. intros n X. destruct (B n X) as (I1 & I2). pose proof (read_cmp den t n Hd HT NT (HF _ I1)) as R. rewrite I2 in R. exact R.
Qed.
Print Assumptions C95_while_partial.
Theorem C95_do_partial : forall den t now env o l, 0 < den < 2 ^ 53 -> is_double t -> number t -> Forall (fun n => 0 <= n < 2 ^ 53) (map snd env) -> float_do (read_double 1 den) t now env = (o, l) ->
  (o = CFalse -> exists n, In n (map snd env) /\ gave_up den t n) /\ Forall (fun n => n = now \/ waits den t n) l /\ (o = CTrue -> exists n, In (true, n) env).
Proof.
  intros den t now env o l Hd HT NT HF H. destruct (do_shape _ _ _ _ _ _ H) as (A & B & C). rewrite Forall_forall in HF. split; [|split; [|exact C]].
  - intros X. destruct (A X) as (n & I1 & I2). exists n. split; [exact I1|]. pose proof (read_cmp den t n Hd HT NT (HF _ I1)) as R. rewrite I2 in R. exact R.
  - apply Forall_forall. intros n X. destruct (B n X) as [->|(I1 & I2)]; [left; reflexivity|right]. pose proof (read_cmp den t n Hd HT NT (HF _ I1)) as R. rewrite I2 in R. exact R.
Qed.
Print Assumptions C95_do_partial.

(** Once the clock is past the deadline by that margin, the wait ends: at the first reading in the while loops, after the inner wait that precedes it in the do loops. *)
Theorem C95_ends : forall den t now env, 0 < den < 2 ^ 53 -> is_double t -> number t -> 0 <= now < 2 ^ 53 -> 2 ^ 53 * (val t * den) <= (2 ^ 53 - 1) * (now * 2 ^ 1074) \/ (den = 1 /\ val t <= now * 2 ^ 1074) ->
  float_while (read_double 1 den) t now env = (CFalse, []) /\ (forall before, float_do (read_double 1 den) t before ((false, now) :: env) = (CFalse, [before])).
Proof.
  intros den t now env Hd HT NT Hn HL. pose proof (read_cmp den t now Hd HT NT Hn) as R. assert (SFltb (read_double 1 den now) t = false) as F. { destruct (SFltb (read_double 1 den now) t); [|reflexivity]. destruct R as (R1 & R2). destruct HL as [HL|(D & HL)]; [lia|specialize (R2 D); lia]. }
  split; [|intros before; cbn [float_do]; rewrite F; reflexivity]. destruct env as [|[b n'] env]; cbn [float_while]; rewrite F; reflexivity.
Qed.
Print Assumptions C95_ends.

(** A deadline that is NaN: the wait gives up at the first reading that it compares.  Infinity: it never gives up. *)
Theorem C95_nan : forall read now env, float_while read S754_nan now env = (CFalse, []) /\ (forall before, float_do read S754_nan before ((false, now) :: env) = (CFalse, [before])).
Proof.
  intros read now env. assert (forall x, SFltb x S754_nan = false) as F by (intros [?|?| |? ? ?]; reflexivity). split; [|intros before; cbn [float_do]; rewrite F; reflexivity]. destruct env as [|[b n'] env]; cbn [float_while]; rewrite F; reflexivity.
Qed.
Print Assumptions C95_nan.
Theorem C95_infinity : forall den now env, 0 < den < 2 ^ 53 -> Forall (fun n => 0 <= n < 2 ^ 53) (now :: map snd env) ->
  fst (float_while (read_double 1 den) (S754_infinity false) now env) <> CFalse /\ fst (float_do (read_double 1 den) (S754_infinity false) now env) <> CFalse.
Proof.
  intros den now env Hd HF. rewrite Forall_forall in HF. assert (forall n, 0 <= n < 2 ^ 53 -> SFltb (read_double 1 den n) (S754_infinity false) = true) as T.
  { intros n Hn. destruct (read_val den n Hd Hn) as (_ & B & _). destruct (read_double 1 den n) as [s|s| |s m e]; try contradiction; [|destruct s]; reflexivity. }
  split; intros X.
  - destruct (float_while (read_double 1 den) (S754_infinity false) now env) as [o l] eqn:E. cbn [fst] in X. destruct (while_shape _ _ _ _ _ _ E) as (A & _). destruct (A X) as (n & I1 & I2). rewrite (T n (HF n I1)) in I2. discriminate.
  - destruct (float_do (read_double 1 den) (S754_infinity false) now env) as [o l] eqn:E. cbn [fst] in X. destruct (do_shape _ _ _ _ _ _ E) as (A & _). destruct (A X) as (n & I1 & I2). rewrite (T n (HF n (or_intror I1))) in I2. discriminate.
Qed.
Print Assumptions C95_infinity.

(** Never before the deadline, whatever the reading and the type: false.  Float seconds of a clock that counts nanoseconds, 20 days after its start: the wait gives up 129 milliseconds early.
    Double seconds, 1700000000 seconds after its start: 247 nanoseconds early. *)
Theorem C95_never_early_refuted :
  (exists n t, is_single t /\ (n + 129000000) * 2 ^ 149 < sval t * 1000000000 /\ forall env, float_while (read_single 1 1000000000) t n env = (CFalse, [])) /\
  (exists n t, is_double t /\ (n + 247) * 2 ^ 1074 < val t * 1000000000 /\ forall env, float_while (read_double 1 1000000000) t n env = (CFalse, [])).
Proof.
  split; [exists 1728054120415233, (S754_finite false 13824434 (-3))|exists 1700000000000071040, (S754_finite false 7130316800000299 (-22))]; (split; [reflexivity|]; split; [reflexivity|]; intros [|[b n] env]; reflexivity).
Qed.
Print Assumptions C95_never_early_refuted.

(** A deadline 10.5 seconds after the start of a clock that counts nanoseconds, in double: in seconds and in nanoseconds. *)
Example C95_example : let t := S754_finite false 5910974510923776 (-49) in let t9 := S754_finite false 5505024000000000 (-19) in
  is_double t /\ number t /\ val t * 1000000000 = 10500000000 * 2 ^ 1074 /\ is_double t9 /\ val t9 = 10500000000 * 2 ^ 1074 /\
  float_while (read_double 1 1000000000) t 10000000000 [(false, 10499999999); (false, 10500000000)] = (CFalse, [10000000000; 10499999999]) /\
  float_while (read_double 1 1) t9 10000000000 [(false, 10499999999); (true, 10499999999)] = (CTrue, [10000000000; 10499999999]) /\
  float_do (read_double 1 1000000000) t 11000000000 [(false, 11000000001)] = (CFalse, [11000000000]) /\
  float_do (read_double 1 1000000000) t 10000000000 [(false, 10400000000)] = (CBlocked, [10000000000; 10400000000]).
Proof. cbv zeta. repeat (split; [first [reflexivity|exact I]|]). reflexivity. Qed.
