(** C54: processes do not share the semaphore. *)
From Coq Require Import List Bool Arith ZArith Lia.
From Verif Require Import ListSum TimerName.
Import ListNotations.
Local Open Scope Z_scope.

(** The digits of [pid], most significant first. *)
Definition hex (pid : Z) : list Z := map (fun k => (pid / 16 ^ k) mod 16) [7; 6; 5; 4; 3; 2; 1; 0].
Lemma half_hi pid k : 0 <= k -> Z.shiftr (Z.shiftr pid (k * 8) mod 256) 4 = (pid / 16 ^ (2 * k + 1)) mod 16.
Proof.
  intros Hk. rewrite !Z.shiftr_div_pow2 by lia. replace (2 ^ (k * 8)) with (16 ^ (2 * k)) by (change 16 with (2 ^ 4); rewrite <- Z.pow_mul_r by lia; f_equal; lia).
  rewrite Z.pow_add_r, Z.pow_1_r by lia. rewrite <- Z.div_div by (try lia; apply Z.pow_pos_nonneg; lia). change (2 ^ 4) with 16. change 256 with (16 * 16).
  set (x := pid / 16 ^ (2 * k)). rewrite Z.rem_mul_r by lia. rewrite Z.mul_comm, Z.div_add by lia. rewrite (Z.div_small (x mod 16)) by (apply Z.mod_pos_bound; lia). reflexivity.
Qed.
Lemma half_lo pid k : 0 <= k -> Z.land (Z.shiftr pid (k * 8) mod 256) 15 = (pid / 16 ^ (2 * k)) mod 16.
Proof.
  intros Hk. change 15 with (Z.ones 4). rewrite Z.land_ones, Z.shiftr_div_pow2 by lia. replace (2 ^ (k * 8)) with (16 ^ (2 * k)) by (change 16 with (2 ^ 4); rewrite <- Z.pow_mul_r by lia; f_equal; lia).
  change (2 ^ 4) with 16. change 256 with (16 * 16). set (x := pid / 16 ^ (2 * k)). rewrite Z.rem_mul_r by lia. rewrite (Z.mul_comm 16 ((x / 16) mod 16)), Z.mod_add, Z.mod_mod by lia. reflexivity.
Qed.

(** The name is "boost_sync_tls_" followed by the process id in eight hexadecimal digits, terminated within the array. *)
Theorem C54_name : forall pid, sem_name pid = firstn 15 name0 ++ map digit (hex pid) ++ [0].
Proof.
  intros pid. unfold sem_name, name_round, name0. cbn [seq fold_left Nat.mul Nat.add upd firstn app].
  change (3 - Z.of_nat 0) with 3. change (3 - Z.of_nat 1) with 2. change (3 - Z.of_nat 2) with 1. change (3 - Z.of_nat 3) with 0.
  rewrite !half_hi, !half_lo by lia. reflexivity.
Qed.
Print Assumptions C54_name.

Lemma digit_inj a b : 0 <= a < 16 -> 0 <= b < 16 -> digit a = digit b -> a = b.
Proof. unfold digit. intros Ha Hb. destruct (Z.ltb_spec a 10), (Z.ltb_spec b 10); lia. Qed.
Lemma digit_pos a : 0 <= a < 16 -> 48 <= digit a <= 57 \/ 97 <= digit a <= 102.
Proof. unfold digit. intros Ha. destruct (Z.ltb_spec a 10); lia. Qed.
(** Different processes have different names, as the system reads them: up to the first null character, of which there is none before the end. *)
Theorem C54_name_injective : forall p p', 0 <= p < 2 ^ 32 -> 0 <= p' < 2 ^ 32 -> sem_name p = sem_name p' -> p = p'.
Proof.
  intros p p' Hp Hp' E. rewrite !C54_name in E. apply app_inv_head in E. apply app_inj_tail in E. destruct E as (E & _). unfold hex in E. cbn [map] in E.
  assert (D : forall k, digit ((p / 16 ^ k) mod 16) = digit ((p' / 16 ^ k) mod 16) -> (p / 16 ^ k) mod 16 = (p' / 16 ^ k) mod 16) by (intros k; apply digit_inj; apply Z.mod_pos_bound; lia).
  injection E as E7 E6 E5 E4 E3 E2 E1 E0. apply (D 7) in E7. apply (D 6) in E6. apply (D 5) in E5. apply (D 4) in E4. apply (D 3) in E3. apply (D 2) in E2. apply (D 1) in E1. apply (D 0) in E0.
  assert (S : forall x k, 0 <= k -> x / 16 ^ k = 16 * (x / 16 ^ (k + 1)) + (x / 16 ^ k) mod 16).
  { intros x k Hk. rewrite Z.pow_add_r, Z.pow_1_r by lia. rewrite <- Z.div_div by (try lia; apply Z.pow_pos_nonneg; lia). apply Z.div_mod. lia. }
  assert (T : forall x, 0 <= x < 2 ^ 32 -> x / 16 ^ 8 = 0) by (intros x Hx; apply Z.div_small; exact Hx).
  assert (G : forall k, 0 <= k -> p / 16 ^ (k + 1) = p' / 16 ^ (k + 1) -> (p / 16 ^ k) mod 16 = (p' / 16 ^ k) mod 16 -> p / 16 ^ k = p' / 16 ^ k).
  { intros k Hk H1 H2. rewrite (S p k Hk), (S p' k Hk), H1, H2. reflexivity. }
  assert (F8 : p / 16 ^ 8 = p' / 16 ^ 8) by (rewrite !T by assumption; reflexivity).
  assert (F7 := G 7 ltac:(lia) F8 E7). assert (F6 := G 6 ltac:(lia) F7 E6). assert (F5 := G 5 ltac:(lia) F6 E5). assert (F4 := G 4 ltac:(lia) F5 E4).
  assert (F3 := G 3 ltac:(lia) F4 E3). assert (F2 := G 2 ltac:(lia) F3 E2). assert (F1 := G 1 ltac:(lia) F2 E1). assert (F0 := G 0 ltac:(lia) F1 E0).
  rewrite Z.pow_0_r, !Z.div_1_r in F0. exact F0.
Qed.
Print Assumptions C54_name_injective.
Theorem C54_name_terminated : forall p, 0 <= p -> length (sem_name p) = 24%nat /\ forall i, (i < 24)%nat -> (nth i (sem_name p) 0 = 0 <-> i = 23%nat).
Proof.
  intros p Hp. rewrite C54_name. split; [reflexivity|]. assert (D : forall k, digit ((p / 16 ^ k) mod 16) <> 0) by (intros k; pose proof (digit_pos ((p / 16 ^ k) mod 16) (Z.mod_pos_bound _ 16 ltac:(lia))); lia).
  intros i Hi. unfold hex. cbn [map firstn name0 app]. do 24 (destruct i as [|i]; [cbn [nth]; split; intros; try discriminate; try lia; try reflexivity; try (exfalso; eapply D; eassumption)|]). lia.
Qed.
Print Assumptions C54_name_terminated.
Example C54_name_ex : sem_name 48879 = [98; 111; 111; 115; 116; 95; 115; 121; 110; 99; 95; 116; 108; 115; 95; 48; 48; 48; 48; 98; 101; 101; 102; 0].
Proof. reflexivity. Qed.
