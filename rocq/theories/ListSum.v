(** Lists of threads: point update and sums over all threads.
    Support library; nothing here models code of /repo. *)
From Coq Require Import List ZArith Lia.
Import ListNotations.
Local Open Scope Z_scope.

Section Upd.
  Context {A : Type}.

  (** Replace the [i]-th element (no effect when out of range). *)
  Fixpoint upd (l : list A) (i : nat) (x : A) : list A :=
    match l, i with
    | [], _ => []
    | _ :: l', O => x :: l'
    | a :: l', S i' => a :: upd l' i' x
    end.

  Lemma upd_length l i x : length (upd l i x) = length l.
  Proof. revert i; induction l as [|a l IH]; intros [|i]; cbn; auto. Qed.

  Lemma nth_upd_eq l i x a :
    nth_error l i = Some a -> nth_error (upd l i x) i = Some x.
  Proof. revert i; induction l as [|b l IH]; intros [|i]; cbn; intros H; try discriminate; auto. Qed.

  Lemma nth_upd_neq l i j x :
    i <> j -> nth_error (upd l i x) j = nth_error l j.
  Proof.
    revert i j; induction l as [|b l IH]; intros [|i] [|j] H; cbn; auto; try congruence.
  Qed.

  Lemma nth_upd_inv l i j x y :
    nth_error (upd l i x) j = Some y ->
    (i = j /\ y = x /\ exists a, nth_error l i = Some a) \/ (i <> j /\ nth_error l j = Some y).
  Proof.
    intros H. destruct (Nat.eq_dec i j) as [->|Hn].
    - left. destruct (nth_error l j) as [a|] eqn:E.
      + rewrite (nth_upd_eq _ _ x _ E) in H. inversion H; subst. eauto.
      + exfalso. apply nth_error_None in E.
        assert (nth_error (upd l j x) j = None) as E2.
        { apply nth_error_None. rewrite upd_length. lia. }
        congruence.
    - right. rewrite nth_upd_neq in H by assumption. auto.
  Qed.

  Lemma upd_upd l i x y : upd (upd l i x) i y = upd l i y.
  Proof. revert i; induction l as [|a l IH]; intros [|i]; cbn; auto. rewrite IH; auto. Qed.

  Lemma upd_comm l i j x y : i <> j -> upd (upd l i x) j y = upd (upd l j y) i x.
  Proof.
    revert i j; induction l as [|a l IH]; intros [|i] [|j] H; cbn; auto; try congruence.
    rewrite IH; auto.
  Qed.

  Lemma upd_same l i x : nth_error l i = Some x -> upd l i x = l.
  Proof.
    revert i; induction l as [|a l IH]; intros [|i]; cbn; intros H; try discriminate; auto.
    - inversion H; auto.
    - rewrite IH; auto.
  Qed.
End Upd.

Lemma map_upd {A B} (f : A -> B) l i x : map f (upd l i x) = upd (map f l) i (f x).
Proof. revert i; induction l as [|a l IH]; intros [|i]; cbn; auto. rewrite IH; auto. Qed.

Lemma nth_map {A B} (f : A -> B) l i a :
  nth_error l i = Some a -> nth_error (map f l) i = Some (f a).
Proof. intros H. rewrite nth_error_map, H. reflexivity. Qed.

Lemma nth_map_inv {A B} (f : A -> B) l i b :
  nth_error (map f l) i = Some b -> exists a, nth_error l i = Some a /\ f a = b.
Proof.
  rewrite nth_error_map. destruct (nth_error l i) as [a|]; cbn; intros H; inversion H; eauto.
Qed.

Lemma nth_repeat {A} (x : A) n i y : nth_error (repeat x n) i = Some y -> y = x.
Proof. intros H. apply nth_error_In, repeat_spec in H. auto. Qed.

(** Sum of a per-thread quantity over all threads. Support library; no counterpart in /repo. *)
Fixpoint sumf {A} (f : A -> Z) (l : list A) : Z :=
  match l with
  | [] => 0
  | a :: l' => f a + sumf f l'
  end.

Section Sum.
  Context {A : Type}.
  Implicit Types (f g : A -> Z) (l : list A).

  Lemma sumf_upd f l i a x :
    nth_error l i = Some a -> sumf f (upd l i x) = sumf f l - f a + f x.
  Proof.
    revert i; induction l as [|b l IH]; intros [|i]; cbn; intros H; try discriminate.
    - inversion H; subst. lia.
    - rewrite (IH _ H). lia.
  Qed.

  Lemma sumf_nonneg f l : (forall a, 0 <= f a) -> 0 <= sumf f l.
  Proof. intros H; induction l as [|a l IH]; cbn; [lia|]. specialize (H a); lia. Qed.

  Lemma sumf_elem f l i a :
    (forall x, 0 <= f x) -> nth_error l i = Some a -> f a <= sumf f l.
  Proof.
    intros Hf; revert i; induction l as [|b l IH]; intros [|i]; cbn; intros H; try discriminate.
    - inversion H; subst. pose proof (sumf_nonneg f l Hf). lia.
    - specialize (IH _ H). specialize (Hf b). lia.
  Qed.

  Lemma sumf_two f l i j a b :
    (forall x, 0 <= f x) -> i <> j -> nth_error l i = Some a -> nth_error l j = Some b ->
    f a + f b <= sumf f l.
  Proof.
    intros Hf; revert i j; induction l as [|c l IH]; intros [|i] [|j]; cbn;
      intros Hij H1 H2; try discriminate; try congruence.
    - inversion H1; subst. pose proof (sumf_elem f l j b Hf H2). lia.
    - inversion H2; subst. pose proof (sumf_elem f l i a Hf H1). lia.
    - specialize (IH i j ltac:(congruence) H1 H2). specialize (Hf c). lia.
  Qed.

  Lemma sumf_pos_ex f l :
    0 < sumf f l -> exists i a, nth_error l i = Some a /\ 0 < f a.
  Proof.
    induction l as [|b l IH]; cbn; intros H; [lia|].
    destruct (Z_lt_le_dec 0 (f b)) as [Hb|Hb].
    - exists O, b. auto.
    - destruct IH as (i & a & Hi & Ha); [lia|]. exists (S i), a. auto.
  Qed.

  Lemma sumf_repeat f x n : sumf f (repeat x n) = Z.of_nat n * f x.
  Proof. induction n as [|n IH]; cbn [repeat sumf]; [lia|]. rewrite IH. lia. Qed.

  Lemma sumf_add f g l : sumf (fun a => f a + g a) l = sumf f l + sumf g l.
  Proof. induction l as [|a l IH]; cbn; [lia|]. rewrite IH. lia. Qed.

  Lemma sumf_le f g l : (forall a, f a <= g a) -> sumf f l <= sumf g l.
  Proof. intros H; induction l as [|a l IH]; cbn; [lia|]. specialize (H a); lia. Qed.

  Lemma sumf_ext f g l : (forall a, f a = g a) -> sumf f l = sumf g l.
  Proof. intros H; induction l as [|a l IH]; cbn; [lia|]. rewrite H; lia. Qed.

  Lemma sumf_bound f l k :
    (forall a, f a <= k) -> sumf f l <= Z.of_nat (length l) * k.
  Proof. intros H; induction l as [|a l IH]; cbn [sumf length]; [lia|]. specialize (H a); lia. Qed.

  Lemma sumf_zero_all f l i a :
    (forall x, 0 <= f x) -> sumf f l = 0 -> nth_error l i = Some a -> f a = 0.
  Proof.
    intros Hf H Hi. pose proof (sumf_elem f l i a Hf Hi). specialize (Hf a). lia.
  Qed.

  Lemma sumf_app f l1 l2 : sumf f (l1 ++ l2) = sumf f l1 + sumf f l2.
  Proof. induction l1 as [|a l1 IH]; cbn; [lia|]. rewrite IH. lia. Qed.
End Sum.

Lemma sumf_map {A B} (f : B -> Z) (g : A -> B) l :
  sumf f (map g l) = sumf (fun a => f (g a)) l.
Proof. induction l as [|a l IH]; cbn; [lia|]. rewrite IH. reflexivity. Qed.
