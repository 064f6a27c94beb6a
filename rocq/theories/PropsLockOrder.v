(** C94: threads that use lock objects in a fixed order of the mutexes do not deadlock (LockThreads.v). *)
From Coq Require Import List Bool ZArith Lia.
From Verif Require Import ListSum LockModel PropsLock LockThreads PropsLockThreads.
Import ListNotations.
Local Open Scope Z_scope.

Lemma owners_owns os m k : 1 <= owners os m k -> exists i, owns os i m k.
Proof.
  unfold owners, owns. induction os as [|x os IH]; cbn [sumf]; [lia|]. intros H.
  destruct (Z_le_gt_dec 1 (own x m k)) as [G|G].
  - exists 0%nat. cbn [nth_error]. f_equal. unfold own in G. destruct x as [[k' [[m'|] []]]|]; cbn in G; try lia. unfold at_ in G. destruct (Nat.eqb_spec m' m) as [->|]; destruct k', k; cbn in G; try lia; reflexivity.
  - destruct IH as (i & I). { assert (own x m k <= 0) by lia. lia. } exists (S i). exact I.
Qed.
Lemma sumf_pos (f : nat -> Z) n : 1 <= sumf f (seq 0 n) -> exists t, (t < n)%nat /\ 1 <= f t.
Proof.
  induction n as [|n IH]; [cbn; lia|]. rewrite seq_S, sumf_app. cbn [sumf Nat.add]. intros H. destruct (Z_le_gt_dec 1 (f n)) as [G|G]; [exists n; split; [lia|exact G]|].
  destruct IH as (t & L & P); [lia|]. exists t. split; [lia|exact P].
Qed.
(** What a thread waits for: the mutex, the mode, and the mode it gives up for it (the conversion of an upgrade_lock to a unique_lock).  Specification; no counterpart
    in /repo. *)
Record wish := Wish { wm : nat; wk : kind; wfrom : option kind }.
(** A thread has a lock, in a lock object or outside.  Specification; no counterpart in /repo. *)
Definition has (t : nat) (h : history) (os : store) (m : nat) (k : kind) : Prop := (exists i, owns os i m k) \/ 1 <= pocket t h m k.

(** A waiting thread that waits for the last mutex. *)
Lemma decide_below (P : nat -> Prop) : (forall t, P t \/ ~ P t) -> forall n, (exists t, (t < n)%nat /\ P t) \/ ~ (exists t, (t < n)%nat /\ P t).
Proof.
  intros D. induction n as [|n [(t & L & W)|N]]; [right; intros (t & L & _); lia|left; exists t; split; [lia|exact W]|]. destruct (D n) as [E|E]; [left; exists n; split; [lia|exact E]|].
  right. intros (t & L & W). destruct (Nat.eq_dec t n) as [->|G]; [exact (E W)|]. apply N. exists t. split; [lia|exact W].
Qed.
Lemma last_waiting (want : nat -> option wish) n : (exists t, (t < n)%nat /\ want t <> None) ->
  exists t w, (t < n)%nat /\ want t = Some w /\ forall u v, (u < n)%nat -> want u = Some v -> (wm v <= wm w)%nat.
Proof.
  induction n as [|n IH]; intros (t & L & W); [lia|].
  destruct (decide_below (fun t => want t <> None) ltac:(intros u; cbv beta; destruct (want u) as [w|]; [left; congruence|right; intros X; apply X; reflexivity]) n) as [D|D].
  - destruct (IH D) as (v & w & LV & WV & MX). destruct (want n) as [w0|] eqn:E.
    + destruct (Nat.le_gt_cases (wm w0) (wm w)) as [G|G].
      * exists v, w. split; [lia|]. split; [exact WV|]. intros u w' LU WU. destruct (Nat.eq_dec u n) as [->|N]; [rewrite E in WU; injection WU as <-; exact G|apply (MX u w'); [lia|exact WU]].
      * exists n, w0. split; [lia|]. split; [exact E|]. intros u w' LU WU. destruct (Nat.eq_dec u n) as [->|N]; [rewrite E in WU; injection WU as <-; lia|]. specialize (MX u w' ltac:(lia) WU). lia.
    + exists v, w. split; [lia|]. split; [exact WV|]. intros u w' LU WU. destruct (Nat.eq_dec u n) as [->|N]; [congruence|]. apply (MX u w'); [lia|exact WU].
  - assert (t = n) as -> by (destruct (Nat.eq_dec t n); [assumption|exfalso; apply D; exists t; split; [lia|exact W]]). destruct (want n) as [w0|] eqn:E; [|congruence].
    exists n, w0. split; [lia|]. split; [exact E|]. intros u w' LU WU. destruct (Nat.eq_dec u n) as [->|N]; [rewrite E in WU; injection WU as <-; lia|]. exfalso. apply D. exists u. split; [lia|congruence].
Qed.
Lemma out_has n h os m k : fair_play n h -> (forall t, (t < n)%nat -> between t h (os t)) -> 1 <= out_now h m k -> exists u, (u < n)%nat /\ has u h (os u) m k.
Proof.
  intros F B P. rewrite (C92_accounting n h m k os F B) in P. apply sumf_pos in P as (u & LU & P). pose proof (pocket_nonneg u h m k ltac:(apply F)) as PN. exists u. split; [exact LU|].
  destruct (Z_le_gt_dec 1 (pocket u h m k)) as [G|G]; [right; exact G|left]. apply owners_owns. lia.
Qed.
Lemma has_out n h os m k u : fair_play n h -> (forall t, (t < n)%nat -> between t h (os t)) -> (u < n)%nat -> has u h (os u) m k -> 1 <= out_now h m k.
Proof.
  intros F B LU H. rewrite (C92_accounting n h m k os F B). assert (forall os', 0 <= owners os' m k) as ON. { induction os' as [|x l IH]; unfold owners in *; cbn [sumf]; [lia|]. assert (0 <= own x m k); [|lia]. unfold own. destruct x as [[? [[?|] []]]|]; try lia. unfold at_. destruct (_ && _); lia. }
  assert (forall t, (t < n)%nat -> 0 <= owners (os t) m k + pocket t h m k) as NN. { intros t LT. pose proof (pocket_nonneg t h m k ltac:(apply F)). specialize (ON (os t)). lia. }
  pose proof (sumf_seq_ge (fun t => owners (os t) m k + pocket t h m k) n u NN LU) as G. cbv beta in G. pose proof (pocket_nonneg u h m k ltac:(apply F)). specialize (ON (os u)). destruct H as [(i & I)|H]; [apply owns_owners in I|]; lia.
Qed.

(** Whatever has happened (failed tries, timeouts, exceptions, release() and adopt_lock included): if every thread either waits for a lock of a mutex that comes after all
    mutexes of which it has locks, or waits to change its upgrade lock of the last mutex of which it has locks to an exclusive one, or has no locks, then the mutex of some
    waiting thread can grant its lock. *)
Theorem C94_no_deadlock : forall n h (os : nat -> store) (want : nat -> option wish), fair_play n h -> (forall t, (t < n)%nat -> between t h (os t)) ->
  (forall t, (t < n)%nat -> want t = None -> forall m k, ~ has t h (os t) m k) ->
  (forall t m k, (t < n)%nat -> want t = Some (Wish m k None) -> forall m' k', has t h (os t) m' k' -> (m' < m)%nat) ->
  (forall t m k k0, (t < n)%nat -> want t = Some (Wish m k (Some k0)) -> k = KU /\ k0 = KG /\ has t h (os t) m KG /\ forall m' k', has t h (os t) m' k' -> (m' < m)%nat \/ (m' = m /\ k' = KG)) ->
  (exists t, (t < n)%nat /\ want t <> None) ->
  exists t m k from, (t < n)%nat /\ want t = Some (Wish m k from) /\ admits (fun k' => out_now h m k' - match from with Some k0 => one m k0 m k' | None => 0 end) k.
Proof.
  intros n h os want F B HN HW HC HE. destruct (last_waiting want n HE) as (t & [m k from] & L & W & MX). cbn [wm] in MX.
  (* whoever has a lock of m is a converter *)
  assert (forall u k', (u < n)%nat -> has u h (os u) m k' -> k' = KG /\ want u = Some (Wish m KU (Some KG))) as HOLD.
  { intros u k' LU H. destruct (want u) as [[mu ku [fu|]]|] eqn:WU; [| |exfalso; exact (HN u LU WU m k' H)].
    - destruct (HC u mu ku fu LU WU) as (-> & -> & _ & O). specialize (MX u _ LU WU). cbn [wm] in MX. destruct (O m k' H) as [X|(-> & ->)]; [lia|split; reflexivity].
    - specialize (HW u mu ku LU WU m k' H). specialize (MX u _ LU WU). cbn [wm] in MX. lia. }
  pose proof (fun k' => out_nonneg n h m k' F) as NN. pose proof (table n h m F) as TB.
  assert (forall k', k' <> KG -> out_now h m k' = 0) as Z0. { intros k' NK. specialize (NN k'). destruct (Z_le_gt_dec 1 (out_now h m k')) as [P|P]; [|lia]. destruct (out_has n h os m k' F B P) as (u & LU & H). destruct (HOLD u k' LU H). contradiction. }
  pose proof (Z0 KU ltac:(discriminate)) as ZU. pose proof (Z0 KS ltac:(discriminate)) as ZS.
  destruct (Z_le_gt_dec 1 (out_now h m KG)) as [P|P].
  - destruct (out_has n h os m KG F B P) as (u & LU & H). destruct (HOLD u KG LU H) as (_ & WU). exists u, m, KU, (Some KG). split; [exact LU|]. split; [exact WU|]. cbn [admits]. unfold one. rewrite Nat.eqb_refl. cbn. lia.
  - specialize (NN KG). exists t, m, k, from. split; [exact L|]. split; [exact W|]. destruct from as [k0|].
    + exfalso. destruct (HC t m k k0 L W) as (_ & _ & H & _). pose proof (has_out n h os m KG t F B L H). lia.
    + destruct k; cbn [admits]; lia.
Qed.
Print Assumptions C94_no_deadlock.

(** Refuted: the same without the order.  Two threads that each have one mutex and wait for the other's; and two threads that both have a shared lock of one mutex and
    wait for an exclusive one of it. *)
Theorem C94_any_order_refuted :
  (exists h os want, fair_play 2 h /\ (forall t, (t < 2)%nat -> between t h (os t)) /\ want 0%nat = Wish 1 KU None /\ want 1%nat = Wish 0 KU None /\
    (forall t m k, (t < 2)%nat -> want t = Wish m k None -> (forall k', ~ has t h (os t) m k') /\ ~ admits (out_now h m) k)) /\
  (exists h os, fair_play 2 h /\ (forall t, (t < 2)%nat -> between t h (os t) /\ has t h (os t) 0 KS) /\ ~ admits (out_now h 0) KU /\
    forall t, (t < 2)%nat -> ~ admits (fun k' => out_now h 0 k' - one 0 KS 0 k') KU).
Proof.
  split.
  - exists [TE 0 false (EvCall 0 (MLock KU) OYes); TE 1 false (EvCall 1 (MLock KU) OYes)], (fun t => [Some (KU, LO (Some t) true)]), (fun t => Wish (1 - t) KU None).
    split; [|split; [|split; [reflexivity|split; [reflexivity|]]]].
    + split; [repeat constructor|]. split.
      { intros t L. exists (fun _ _ _ => OYes), [PCtor KU t], [Some (KU, LO (Some t) true)], [], [XOk VUnit]. destruct t as [|[|t]]; [reflexivity|reflexivity|lia]. }
      split.
      * intros h1 t d e h2 H. destruct h1 as [|? h1]; [injection H as <- <- <- <-; split; intros; discriminate|injection H as <- H].
        destruct h1 as [|? h1]; [injection H as <- <- <- <-; split; intros; discriminate|injection H as <- H; destruct h1; discriminate].
      * intros h1 t d m o out h2 k from H G. destruct h1 as [|? h1]; [injection H as <- <- <- <- <- <-; injection G as <- <-; cbn; lia|injection H as <- H].
        destruct h1 as [|? h1]; [injection H as <- <- <- <- <- <-; injection G as <- <-; cbn; lia|injection H as <- H; destruct h1; discriminate].
    + intros t L. exists (fun _ _ _ => OYes), [PCtor KU t], [XOk VUnit]. destruct t as [|[|t]]; [reflexivity|reflexivity|lia].
    + intros t m k L E. injection E as <- <-. destruct t as [|[|t]]; [| |lia]; (split; [|cbn; lia]); intros k' [([|i] & O)|O]; try (destruct i; discriminate O); try discriminate O; cbn in O; destruct k'; cbn in O; lia.
  - exists [TE 0 false (EvCall 0 (MLock KS) OYes); TE 1 false (EvCall 0 (MLock KS) OYes)], (fun t => [Some (KS, LO (Some 0%nat) true)]). split; [|split; [|split]].
    + split; [repeat constructor|]. split.
      { intros t L. exists (fun _ _ _ => OYes), [PCtor KS 0], [Some (KS, LO (Some 0%nat) true)], [], [XOk VUnit]. destruct t as [|[|t]]; [reflexivity|reflexivity|lia]. }
      split.
      * intros h1 t d e h2 H. destruct h1 as [|? h1]; [injection H as <- <- <- <-; split; intros; discriminate|injection H as <- H].
        destruct h1 as [|? h1]; [injection H as <- <- <- <-; split; intros; discriminate|injection H as <- H; destruct h1; discriminate].
      * intros h1 t d m o out h2 k from H G. destruct h1 as [|? h1]; [injection H as <- <- <- <- <- <-; injection G as <- <-; cbn; lia|injection H as <- H].
        destruct h1 as [|? h1]; [injection H as <- <- <- <- <- <-; injection G as <- <-; cbn; lia|injection H as <- H; destruct h1; discriminate].
    + intros t L. split; [|left; exists 0%nat; reflexivity]. exists (fun _ _ _ => OYes), [PCtor KS 0], [XOk VUnit]. destruct t as [|[|t]]; [reflexivity|reflexivity|lia].
    + cbn. lia.
    + intros t L. cbn. lia.
Qed.
Print Assumptions C94_any_order_refuted.
(** Two threads, mutexes 0 and 1: thread 0 has mutex 0 in a unique_lock and waits for mutex 1, of which thread 1 has the upgrade lock that it waits to make exclusive; the
    conversion can go on.  Without the order (thread 1 waits for mutex 0 instead) nobody can.  Example; no counterpart in /repo. *)
Definition ord_h : history := [TE 0 false (EvCall 0 (MLock KU) OYes); TE 1 false (EvCall 1 (MLock KG) OYes)].
Example C94_example : fair_play 2 ord_h /\ between 0 ord_h [Some (KU, LO (Some 0%nat) true)] /\ between 1 ord_h [Some (KG, LO (Some 1%nat) true)] /\
  has 0 ord_h [Some (KU, LO (Some 0%nat) true)] 0 KU /\ has 1 ord_h [Some (KG, LO (Some 1%nat) true)] 1 KG /\
  ~ admits (out_now ord_h 1) KU /\ admits (fun k => out_now ord_h 1 k - one 1 KG 1 k) KU /\ ~ admits (out_now ord_h 0) KU.
Proof.
  split; [|split; [exists (fun _ _ _ => OYes), [PCtor KU 0], [XOk VUnit]; reflexivity|split; [exists (fun _ _ _ => OYes), [PCtor KG 1], [XOk VUnit]; reflexivity|]]].
  - split; [repeat constructor|]. split.
    { intros t L. destruct t as [|[|t]]; [|  |lia].
      - exists (fun _ _ _ => OYes), [PCtor KU 0], [Some (KU, LO (Some 0%nat) true)], [], [XOk VUnit]. reflexivity.
      - exists (fun _ _ _ => OYes), [PCtor KG 1], [Some (KG, LO (Some 1%nat) true)], [], [XOk VUnit]. reflexivity. }
    split.
    + intros h1 t d e h2 H. unfold ord_h in H. destruct h1 as [|? h1]; [injection H as <- <- <- <-; split; intros; discriminate|injection H as <- H].
      destruct h1 as [|? h1]; [injection H as <- <- <- <-; split; intros; discriminate|injection H as <- H; destruct h1; discriminate].
    + intros h1 t d m o out h2 k from H G. unfold ord_h in H. destruct h1 as [|? h1]; [injection H as <- <- <- <- <- <-; injection G as <- <-; cbn; lia|injection H as <- H].
      destruct h1 as [|? h1]; [injection H as <- <- <- <- <- <-; injection G as <- <-; cbn; lia|injection H as <- H; destruct h1; discriminate].
  - split; [left; exists 0%nat; reflexivity|]. split; [left; exists 0%nat; reflexivity|]. split; [cbn; lia|]. split; cbn; lia.
Qed.
Print Assumptions C94_example.
