(** Unsigned machine words as integers with explicit wrap-around.
    Support library; nothing here models code of /repo. *)
From Coq Require Import ZArith Lia Bool.
Local Open Scope Z_scope.

(** Model of the integer types of C++; no counterpart in /repo. *)
Definition two31 : Z := 2 ^ 31.
(** Range of uint32_t / unsigned int; no counterpart in /repo. *)
Definition two32 : Z := 2 ^ 32.
(** No counterpart in /repo. *)
Definition two63 : Z := 2 ^ 63.
(** Range of uint64_t; no counterpart in /repo. *)
Definition two64 : Z := 2 ^ 64.

(** Value of an unsigned 32/64-bit arithmetic result. No counterpart in /repo. *)
Definition u32 (x : Z) : Z := x mod two32.
(** No counterpart in /repo. *)
Definition u64 (x : Z) : Z := x mod two64.
(** Conversion of a 64-bit pattern to int64_t (two's complement). No counterpart in /repo. *)
Definition i64 (x : Z) : Z :=
  let y := x mod two64 in if y <? two63 then y else y - two64.
(** The same for int32_t; no counterpart in /repo. *)
Definition i32 (x : Z) : Z :=
  let y := x mod two32 in if y <? two31 then y else y - two32.
(** Representable as int64_t: signed overflow is undefined behaviour in C++. No counterpart in /repo. *)
Definition in_i64 (x : Z) : bool := (- two63 <=? x) && (x <? two63).

Lemma u32_id x : 0 <= x < two32 -> u32 x = x.
Proof. intros H. apply Z.mod_small; auto. Qed.
Lemma u64_id x : 0 <= x < two64 -> u64 x = x.
Proof. intros H. apply Z.mod_small; auto. Qed.
Lemma u32_range x : 0 <= u32 x < two32.
Proof. apply Z.mod_pos_bound. reflexivity. Qed.
Lemma u64_range x : 0 <= u64 x < two64.
Proof. apply Z.mod_pos_bound. reflexivity. Qed.

Lemma i64_id x : - two63 <= x < two63 -> i64 x = x.
Proof.
  unfold i64, two63, two64. intros H.
  destruct (Z_lt_le_dec x 0) as [Hn|Hp].
  - rewrite <- (Z_mod_plus_full x 1), Z.mod_small by lia.
    destruct (Z.ltb_spec (x + 1 * 2 ^ 64) (2 ^ 63)); lia.
  - rewrite Z.mod_small by lia. destruct (Z.ltb_spec x (2 ^ 63)); lia.
Qed.

Lemma i64_mod x : i64 x mod two64 = x mod two64.
Proof.
  unfold i64. destruct (Z.ltb_spec (x mod two64) two63).
  - apply Z.mod_mod. discriminate.
  - rewrite <- (Z_mod_plus_full _ 1). replace (x mod two64 - two64 + 1 * two64) with (x mod two64) by lia.
    apply Z.mod_mod. discriminate.
Qed.

Lemma i64_range x : - two63 <= i64 x < two63.
Proof.
  unfold i64. pose proof (Z.mod_pos_bound x two64 ltac:(reflexivity)).
  unfold two63, two64 in *. destruct (Z.ltb_spec (x mod 2 ^ 64) (2 ^ 63)); lia.
Qed.

(** Low-bit masks and shifts. *)
Lemma land_ones_mod x k : 0 <= k -> Z.land x (2 ^ k - 1) = x mod 2 ^ k.
Proof. intros H. replace (2 ^ k - 1) with (Z.ones k) by (rewrite Z.ones_equiv; lia). apply Z.land_ones; auto. Qed.

Lemma shiftr_div x k : 0 <= k -> Z.shiftr x k = x / 2 ^ k.
Proof. apply Z.shiftr_div_pow2. Qed.

(** Single-bit masks. *)
Lemma land_bit x k : 0 <= k -> Z.land x (2 ^ k) = 2 ^ k * ((x / 2 ^ k) mod 2).
Proof.
  intros Hk. apply Z.bits_inj'. intros i Hi.
  rewrite Z.land_spec. rewrite Z.pow2_bits_eqb by auto.
  rewrite (Z.mul_comm (2 ^ k)), <- Z.shiftl_mul_pow2 by auto.
  rewrite Z.shiftl_spec by auto.
  rewrite <- (Z.testbit_spec' x k) by auto.
  destruct (Z.eqb_spec k i) as [<-|Hne].
  - rewrite Z.sub_diag. destruct (Z.testbit x k); cbn; reflexivity.
  - rewrite andb_false_r. destruct (Z_lt_le_dec (i - k) 0) as [Hl|Hl].
    + rewrite Z.testbit_neg_r by auto. reflexivity.
    + destruct (Z.testbit x k); cbn [Z.b2z].
      * change 1 with (2 ^ 0). rewrite Z.pow2_bits_eqb by lia.
        symmetry. apply Z.eqb_neq. lia.
      * rewrite Z.bits_0. reflexivity.
Qed.

Lemma lor_bit x k : 0 <= k -> Z.testbit x k = false -> Z.lor x (2 ^ k) = x + 2 ^ k.
Proof.
  intros Hk Hb. assert (E : Z.land x (2 ^ k) = 0).
  { apply Z.bits_inj'. intros i Hi. rewrite Z.land_spec, Z.pow2_bits_eqb, Z.bits_0 by auto.
    destruct (Z.eqb_spec k i) as [<-|]; [rewrite Hb; reflexivity|apply andb_false_r]. }
  rewrite Z.add_nocarry_lxor, Z.lxor_lor by exact E. reflexivity.
Qed.

(** The lowest bit of a word as a flag. *)
Lemma land_one x : Z.land x 1 = x mod 2.
Proof. exact (Z.land_ones x 1 ltac:(lia)). Qed.

Lemma lor_one x : Z.lor x 1 = x + (1 - x mod 2).
Proof.
  pose proof (Z.mod_pos_bound x 2 ltac:(lia)).
  destruct (Z.eq_dec (x mod 2) 0) as [E|E].
  - change 1 with (2 ^ 0) at 1. rewrite lor_bit; [change (2 ^ 0) with 1; lia|lia|].
    rewrite Z.bit0_odd. rewrite Zmod_odd in E. destruct (Z.odd x); [discriminate|reflexivity].
  - assert (x mod 2 = 1) as E1 by lia.
    replace (x + (1 - x mod 2)) with x by lia.
    apply Z.bits_inj'. intros i Hi. rewrite Z.lor_spec.
    change 1 with (2 ^ 0). rewrite Z.pow2_bits_eqb by lia.
    destruct (Z.eqb_spec 0 i) as [<-|]; [|apply orb_false_r].
    rewrite Z.bit0_odd. rewrite Zmod_odd in E1. destruct (Z.odd x); [reflexivity|discriminate].
Qed.

Lemma land_clear0 x : 0 <= x < two32 -> Z.land x (two32 - 2) = x - x mod 2.
Proof.
  unfold two32. intros Hx.
  replace (x - x mod 2) with (2 * (x / 2)) by (pose proof (Z.div_mod x 2 ltac:(lia)); lia).
  apply Z.bits_inj'. intros i Hi. rewrite Z.land_spec.
  replace (2 ^ 32 - 2) with (2 * Z.ones 31) by reflexivity.
  destruct (Z.eq_dec i 0) as [->|Hn].
  - rewrite !Z.testbit_even_0. apply andb_false_r.
  - replace i with (Z.succ (i - 1)) by lia. rewrite !Z.testbit_even_succ by lia.
    replace (x / 2) with (Z.shiftr x 1) by (apply Z.shiftr_div_pow2; lia).
    rewrite Z.shiftr_spec by lia. replace (i - 1 + 1) with (Z.succ (i - 1)) by lia.
    destruct (Z_lt_le_dec (i - 1) 31) as [Hl|Hl].
    + rewrite Z.ones_spec_low by lia. apply andb_true_r.
    + rewrite Z.ones_spec_high by lia. rewrite andb_false_r. symmetry.
      rewrite Z.testbit_eqb by lia. rewrite Z.div_small; [reflexivity|].
      split; [lia|]. apply Z.lt_le_trans with (2 ^ 32); [lia|]. apply Z.pow_le_mono_r; lia.
Qed.
