(** Property theorems: the scope guard for Windows handles (C82). *)
From Coq Require Import List Bool ZArith Lia.
From Verif Require Import HandleModel.
Import ListNotations.
Local Open Scope Z_scope.

Fixpoint total {A} (f : A -> nat) (l : list A) : nat := match l with [] => 0%nat | a :: l' => (f a + total f l')%nat end.
Lemma total_app : forall A (f : A -> nat) a b, total f (a ++ b) = (total f a + total f b)%nat.
Proof. induction a as [|x a IH]; intros b; cbn; [reflexivity|]. rewrite IH. lia. Qed.

(** How often [h] was taken over, closed, handed out; how many live objects hold it. *)
Definition is_adopt (h : Z) (e : hev) : nat := match e with Adopt x => if x =? h then 1 else 0 | _ => 0 end.
Definition is_close (h : Z) (e : hev) : nat := match e with Close x => if x =? h then 1 else 0 | _ => 0 end.
Definition is_give (h : Z) (e : hev) : nat := match e with Give x => if x =? h then 1 else 0 | _ => 0 end.
Definition times (f : Z -> hev -> nat) (h : Z) (evs : list hev) : nat := total (f h) evs.
Definition holds (h : Z) (o : option Z) : nat := match o with Some x => if x =? h then 1 else 0 | None => 0 end.
Definition held (h : Z) (s : hstate) : nat := total (holds h) s.

Lemma times_app : forall f h a b, times f h (a ++ b) = (times f h a + times f h b)%nat.
Proof. intros. unfold times. apply total_app. Qed.
Lemma held_put : forall h s i x o, nth_error s i = Some o -> (held h (put s i x) + holds h o = held h s + holds h x)%nat.
Proof.
  unfold held. induction s as [|y s IH]; intros [|i] x o H; cbn in *; try discriminate.
  - injection H as ->. lia.
  - specialize (IH i x o H). lia.
Qed.
Lemma put_same : forall s i x, (i < length s)%nat -> nth_error (put s i x) i = Some x.
Proof. induction s as [|y s IH]; intros [|i] x H; cbn in *; try lia; auto. apply IH. lia. Qed.
Lemma put_other : forall s i j x, i <> j -> nth_error (put s i x) j = nth_error s j.
Proof. induction s as [|y s IH]; intros [|i] [|j] x H; cbn; auto; try congruence. Qed.

Lemma eqb_sym_real : forall h x, real h = true -> (real x = false) -> (x =? h) = false.
Proof. intros h x H G. apply Z.eqb_neq. intros ->. congruence. Qed.

Ltac hold := repeat match goal with
  | H : context [match nth_error ?s ?o with _ => _ end] |- _ => let N := fresh "N" in destruct (nth_error s o) as [[?|]|] eqn:N; [|discriminate H..]
  end.

Lemma step_balance : forall h s op s' ev r, real h = true -> hstep s op = Some (s', ev, r) ->
  (times is_adopt h ev + held h s = times is_close h ev + times is_give h ev + held h s')%nat.
Proof.
  intros h s op s' ev r R H.
  assert (N0 : (NULL =? h) = false) by (apply eqb_sym_real; auto).
  destruct op; cbn [hstep] in H; try unfold reset in H; hold; try (injection H as <- <- <-).
  - unfold held. rewrite total_app. cbn. lia.
  - pose proof (held_put h s o None _ N) as P. rewrite times_app, times_app, times_app. destruct (real z) eqn:Z; cbn in *; rewrite ?N0 in *.
    + lia.
    + rewrite (eqb_sym_real h z R Z) in P. lia.
  - pose proof (held_put h s o (Some h0) _ N) as P. rewrite !times_app. destruct (real z) eqn:Z; cbn in *.
    + lia.
    + rewrite (eqb_sym_real h z R Z) in P. lia.
  - cbn. lia.
  - cbn. lia.
  - pose proof (held_put h s o (Some NULL) _ N) as P. cbn in *. rewrite N0 in P. lia.
  - destruct answer; injection H as <- <- <-; cbn; lia.
  - pose proof (held_put h s a (Some z0) _ N) as P. cbn. destruct (Nat.eq_dec a b) as [->|D].
    + assert (z0 = z) by congruence. subst. assert (L : (b < length s)%nat) by (apply nth_error_Some; congruence).
      pose proof (held_put h (put s b (Some z)) b (Some z) _ (put_same s b (Some z) L)) as Q. cbn in *. lia.
    + assert (M : nth_error (put s a (Some z0)) b = Some (Some z0)) by (rewrite put_other; auto).
      pose proof (held_put h _ b (Some z) _ M) as Q. cbn in *. lia.
Qed.

(** Whatever the program does, a handle that was taken over so many times has been closed or handed out or is still held, in total, as
    many times. *)
Theorem C82_balance : forall ops s evs rs h, real h = true -> hrun [] ops = Some (s, evs, rs) ->
  times is_adopt h evs = (times is_close h evs + times is_give h evs + held h s)%nat.
Proof.
  intros ops s evs rs h R H.
  assert (G : forall ops s0 s evs rs, hrun s0 ops = Some (s, evs, rs) ->
     (times is_adopt h evs + held h s0 = times is_close h evs + times is_give h evs + held h s)%nat).
  { clear ops s evs rs H. induction ops as [|op ops IH]; intros s0 s evs rs H; cbn in H.
    - injection H as <- <- <-. reflexivity.
    - destruct (hstep s0 op) as [[[s1 ev] r]|] eqn:E; [|discriminate].
      destruct (hrun s1 ops) as [[[s2 evs2] rs2]|] eqn:F; [|discriminate]. injection H as <- <- <-.
      pose proof (step_balance _ _ _ _ _ _ R E). specialize (IH _ _ _ _ F). rewrite !times_app. lia. }
  specialize (G ops [] s evs rs H). change (held h []) with 0%nat in G. lia.
Qed.
Print Assumptions C82_balance.

(** So a handle taken over once is closed at most once, never while an object holds it, never if it was handed out; and once all
    objects are destroyed it has been closed unless it was handed out. *)
Theorem C82_once : forall ops s evs rs h, real h = true -> hrun [] ops = Some (s, evs, rs) -> times is_adopt h evs = 1%nat ->
  (times is_close h evs <= 1)%nat /\ (held h s <= 1)%nat /\
  (held h s = 1%nat -> times is_close h evs = 0%nat /\ times is_give h evs = 0%nat) /\
  (times is_give h evs = 1%nat -> times is_close h evs = 0%nat) /\
  (Forall (fun o => o = None) s -> times is_give h evs = 0%nat -> times is_close h evs = 1%nat).
Proof.
  intros ops s evs rs h R H A. pose proof (C82_balance _ _ _ _ _ R H) as B.
  repeat split; try lia. intros F G.
  assert (Z : held h s = 0%nat). { clear - F. unfold held. induction F as [|x l -> F IH]; cbn; auto. } lia.
Qed.
Print Assumptions C82_once.

(** NULL and invalid_handle_value are never closed, and nothing is closed that was not taken over. *)
Theorem C82_only_real : forall ops s evs rs h, hrun [] ops = Some (s, evs, rs) -> (0 < times is_close h evs)%nat ->
  h <> 0 /\ h <> -1 /\ (0 < times is_adopt h evs)%nat.
Proof.
  intros ops s evs rs h H C.
  assert (G : forall ops s0 s evs rs, hrun s0 ops = Some (s, evs, rs) -> (0 < times is_close h evs)%nat -> real h = true).
  { clear ops s evs rs H C. induction ops as [|op ops IH]; intros s0 s evs rs H C; cbn in H.
    - injection H as <- <- <-. cbn in C. lia.
    - destruct (hstep s0 op) as [[[s1 ev] r]|] eqn:E; [|discriminate].
      destruct (hrun s1 ops) as [[[s2 evs2] rs2]|] eqn:F; [|discriminate]. injection H as <- <- <-.
      rewrite times_app in C. destruct (Nat.eq_dec (times is_close h evs2) 0) as [Z|Z]; [|apply (IH _ _ _ _ F); lia].
      assert (C' : (0 < times is_close h ev)%nat) by lia. clear - E C'.
      destruct op; cbn [hstep] in E; try unfold reset in E; hold; try (injection E as <- <- <-); try (cbn in C'; lia).
      + rewrite times_app in C'. destruct (real z) eqn:R; cbn in C'; [|lia]. destruct (Z.eqb_spec z h); [congruence|lia].
      + rewrite times_app in C'. destruct (real z) eqn:R; cbn in C'; [|lia]. destruct (Z.eqb_spec z h); [congruence|lia].
      + destruct answer; injection E as <- <- <-; cbn in C'; lia. }
  assert (R : real h = true) by (eapply G; eauto). pose proof (C82_balance _ _ _ _ _ R H).
  unfold real, NULL, INVALID in R. apply andb_prop in R as [R1 R2]. apply negb_true_iff, Z.eqb_neq in R1, R2. repeat split; auto. lia.
Qed.
Print Assumptions C82_only_real.

(** What the members do to one object, completely. *)
Theorem C82_members_exact : forall s o m, nth_error s o = Some (Some m) ->
  let closed := if real m then [Close m] else [] in
  (forall h, hstep s (Reset o h) = Some (put s o (Some h), closed ++ [Adopt h], RVoid)) /\
  hstep s (Destroy o) = Some (put s o None, closed ++ [Adopt 0], RVoid) /\
  hstep s (Get o) = Some (s, [], RHandle m) /\
  (exists b, hstep s (Not o) = Some (s, [], RBool b) /\ (b = true <-> m = 0)) /\
  hstep s (Release o) = Some (put s o (Some 0), [Give m], RHandle m) /\
  (forall n, hstep s (Duplicate o (Some n)) = Some (s, [Made n], RHandle n)) /\
  hstep s (Duplicate o None) = Some (s, [], RThrow) /\
  (forall b y, nth_error s b = Some (Some y) -> exists s', hstep s (Swap o b) = Some (s', [], RVoid) /\
     nth_error s' o = Some (Some y) /\ nth_error s' b = Some (Some m) /\ (forall i, i <> o -> i <> b -> nth_error s' i = nth_error s i)).
Proof.
  intros s o m N. cbn [hstep]. rewrite N. repeat split; auto.
  - eexists. split; [reflexivity|]. apply Z.eqb_eq.
  - intros b y M. rewrite M. eexists. split; [reflexivity|].
    assert (Lo : (o < length s)%nat) by (apply nth_error_Some; congruence).
    assert (Lb : (b < length s)%nat) by (apply nth_error_Some; congruence).
    assert (Lp : forall l i x, length (put l i x) = length l) by (induction l; intros [|] x; cbn; auto).
    split; [|split].
    + destruct (Nat.eq_dec o b) as [->|D]; [|rewrite put_other by auto; apply put_same; auto].
      rewrite put_same by (rewrite Lp; auto). congruence.
    + apply put_same. rewrite Lp. auto.
    + intros i A B. rewrite !put_other by auto. reflexivity.
Qed.
Print Assumptions C82_members_exact.

(** Resetting an object to the handle it already holds closes that handle and keeps it: used after being closed, and closed a second
    time by the destructor. *)
Theorem C82_self_reset_refuted : exists ops s evs rs h, hrun [] ops = Some (s, evs, rs) /\ real h = true /\
  ops = [New h; Reset 0 h; Get 0; Destroy 0] /\ rs = [RVoid; RVoid; RHandle h; RVoid] /\
  times is_close h evs = 2%nat.
Proof. exists [New 7; Reset 0 7; Get 0; Destroy 0]. do 4 eexists. split; [reflexivity|]. repeat split; reflexivity. Qed.
Print Assumptions C82_self_reset_refuted.

(** operator! does not recognise invalid_handle_value, which reset() and the destructor treat as "no handle". *)
Theorem C82_not_invalid_refuted : exists s, nth_error s 0 = Some (Some (-1)) /\ real (-1) = false /\
  hstep s (Not 0) = Some (s, [], RBool false).
Proof. exists [Some (-1)]. repeat split. Qed.
Print Assumptions C82_not_invalid_refuted.

(** Two handles, one handed out, the other moved by swap and closed by a destructor. *)
Theorem C82_example : exists s evs rs,
  hrun [] [New 7; New 8; Swap 0 1; Release 0; Duplicate 1 (Some 9); Destroy 0; Destroy 1] = Some (s, evs, rs) /\
  times is_adopt 7 evs = 1%nat /\ times is_adopt 8 evs = 1%nat /\ times is_give 8 evs = 1%nat /\ times is_close 7 evs = 1%nat /\
  times is_close 8 evs = 0%nat /\ s = [None; None].
Proof. do 3 eexists. split; [reflexivity|]. repeat split; reflexivity. Qed.
Print Assumptions C82_example.
