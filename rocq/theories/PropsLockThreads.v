(** C92: threads that use a mutex through lock objects exclude each other, and the mutex only ever sees proper use (LockThreads.v). *)
From Coq Require Import List Bool Arith ZArith Lia.
From Verif Require Import ListSum LockModel PropsLock LockThreads.
Import ListNotations.
Local Open Scope Z_scope.

(** Thread [t] runs some program on its own lock objects; what it did so far is the beginning of what that program does (it may be in the middle of
    an operation).  No counterpart in /repo. *)
Definition runs_program (t : nat) (h : history) : Prop :=
  exists E ps os rest xs, lrun E [] [] ps = Some (os, objs_of t h ++ rest, xs).
(** Thread [t] is between two operations and its lock objects are [os].  No counterpart in /repo. *)
Definition between (t : nat) (h : history) (os : store) : Prop := exists E ps xs, lrun E [] [] ps = Some (os, objs_of t h, xs).
(** The object number [i] of [os] says that it owns a mode-[k] lock of [m] (owns_lock() and mutex() of its class).  No counterpart in /repo. *)
Definition owns (os : store) (i : nat) (m : nat) (k : kind) : Prop := nth_error os i = Some (Some (k, LO (Some m) true)).
(** Two modes that can be held at once; no counterpart in /repo. *)
Definition compatible (a b : kind) : Prop := (a = KS /\ b <> KU) \/ (b = KS /\ a <> KU).
(** All of [h] so far is by threads below [n] that run programs, with proper users and mutexes; no counterpart in /repo. *)
Definition fair_play (n : nat) (h : history) : Prop :=
  Forall (fun x => (who x < n)%nat) h /\ (forall t, (t < n)%nat -> runs_program t h) /\ users_ok h /\ mutexes_ok h.

(** ** Accounting *)
Lemma effect_change m o out m' k : effect (EvCall m o out) m' k = change (EvCall m o out) m' k.
Proof. unfold change, one. destruct out, o; cbn; unfold at_; lia. Qed.
Lemma objs_snoc t h x : objs_of t (h ++ [x]) = objs_of t h ++ (if Nat.eqb (who x) t && negb (direct x) then [what x] else []).
Proof. unfold objs_of. rewrite filter_app, map_app. cbn [filter]. destruct (_ && _); reflexivity. Qed.
(** What thread [t] is responsible for; no counterpart in /repo. *)
Definition held (t : nat) (h : history) (m : nat) (k : kind) : Z := ledger (objs_of t h) m k + pocket t h m k.
Lemma ledger_nil m k : ledger [] m k = 0. Proof. reflexivity. Qed.
Lemma ledger_one e m k : ledger [e] m k = effect e m k. Proof. unfold ledger. cbn [sumf]. lia. Qed.
Lemma held_snoc t h x m k : (direct x = true -> exists m o out, what x = EvCall m o out) ->
  held t (h ++ [x]) m k = held t h m k + (if Nat.eqb (who x) t then change (what x) m k else 0).
Proof.
  intros HD. unfold held. rewrite objs_snoc, ledger_app. unfold pocket. rewrite sumf_app. cbn [sumf].
  assert (ledger (if Nat.eqb (who x) t && negb (direct x) then [what x] else []) m k + pocket1 t x m k = if Nat.eqb (who x) t then change (what x) m k else 0) as Q.
  2: { rewrite <- Q. assert (forall a b c d : Z, a + b + (c + (d + 0)) = a + c + (b + d)) as AR by (intros; ring). apply AR. }
  unfold pocket1. destruct (Nat.eqb (who x) t); cbn [andb]; [|rewrite ledger_nil; lia]. destruct (direct x) eqn:D; cbn [negb].
  - rewrite ledger_nil. lia.
  - rewrite ledger_one. destruct (what x) as [m' o out|m' k'|m' k']; [rewrite effect_change; lia|..]; cbn [effect change]; unfold one, at_; lia.
Qed.
Lemma sum_one (f : nat -> Z) t z : forall n, (t < n)%nat -> sumf (fun u => f u + (if Nat.eqb t u then z else 0)) (seq 0 n) = sumf f (seq 0 n) + z.
Proof.
  assert (forall l, ~ In t l -> sumf (fun u => f u + (if Nat.eqb t u then z else 0)) l = sumf f l) as NI.
  { induction l as [|a l IH]; intros H; [reflexivity|]. cbn [sumf]. destruct (Nat.eqb_spec t a); [exfalso; apply H; left; auto|]. rewrite IH; [lia|]. intros J. apply H. right. exact J. }
  intros n H. replace n with (t + S (n - S t))%nat by lia. rewrite seq_app. rewrite !sumf_app. cbn [seq sumf]. rewrite Nat.eqb_refl. cbn [plus].
  rewrite !NI; [lia| |]; rewrite in_seq; lia.
Qed.
Lemma account n h m k : Forall (fun x => (who x < n)%nat) h -> users_ok h -> out_now h m k = sumf (fun t => held t h m k) (seq 0 n).
Proof.
  induction h as [|x h IH] using rev_ind; intros HW HU.
  - unfold out_now, held, pocket, objs_of, ledger. cbn. induction (seq 0 n) as [|a l IHl]; [reflexivity|]. cbn [sumf]. rewrite <- IHl. lia.
  - apply Forall_app in HW. destruct HW as (HW & HX). inversion HX as [|? ? HX' _]; subst.
    assert (users_ok h) as HU1 by (intros h1 t d e h2 ->; apply (HU h1 t d e (h2 ++ [x])); rewrite <- app_assoc; reflexivity).
    assert (direct x = true -> exists m o out, what x = EvCall m o out) as HD.
    { intros D. destruct x as [t d e]. destruct (HU h t d e [] eq_refl) as (U & _). cbn in D. destruct (U D) as (m0 & o & out & -> & _). cbn. eauto. }
    rewrite (sumf_ext (fun t => held t (h ++ [x]) m k) (fun t => held t h m k + (if Nat.eqb (who x) t then change (what x) m k else 0))) by (intros t; apply held_snoc; exact HD).
    rewrite sum_one by exact HX'. rewrite <- (IH HW HU1). unfold out_now. rewrite sumf_app. cbn [sumf]. lia.
Qed.

Lemma effect_neg e m k : effect e m k < 0 -> gives_up e m k /\ -1 <= effect e m k.
Proof.
  destruct e as [m' o out|m' k'|m' k']; [destruct out, o|..]; cbn [effect gives_up]; unfold at_;
    repeat match goal with |- context [if ?c then _ else _] => destruct c eqn:? end; intros N; try lia;
    repeat match goal with H : _ && _ = true |- _ => apply andb_prop in H; destruct H end;
    repeat match goal with H : Nat.eqb _ _ = true |- _ => apply Nat.eqb_eq in H | H : kind_eqb _ _ = true |- _ => apply kind_eqb_true in H end; subst; split; auto; lia.
Qed.
Lemma covered_nonneg tr m k : covered tr -> 0 <= ledger tr m k.
Proof.
  induction tr as [|e tr IH] using rev_ind; intros C; [rewrite ledger_nil; lia|]. rewrite ledger_app, ledger_one.
  assert (covered tr) as C1 by (intros t1 e1 t2 m1 k1 ->; apply (C t1 e1 (t2 ++ [e])); rewrite <- app_assoc; reflexivity). specialize (IH C1).
  destruct (Z_lt_le_dec (effect e m k) 0) as [N|N]; [|lia]. destruct (effect_neg _ _ _ N) as (GU & L). pose proof (C tr e [] m k eq_refl GU). lia.
Qed.
Lemma covered_prefix a b : covered (a ++ b) -> covered a.
Proof. intros C t1 e t2 m k ->. apply (C t1 e (t2 ++ b)). rewrite <- app_assoc. reflexivity. Qed.
Lemma runs_covered t h : runs_program t h -> covered (objs_of t h).
Proof. intros (E & ps & os & rest & xs & H). destruct (lrun_inv _ _ _ _ _ _ _ inv_init H) as ([_ _ C] & _). eapply covered_prefix; eauto. Qed.

Lemma one_range m k m' k' : 0 <= one m k m' k' <= 1.
Proof. unfold one. destruct (_ && _); lia. Qed.
Lemma one_pos m k m' k' : one m k m' k' <> 0 -> m = m' /\ k = k'.
Proof. unfold one. destruct (Nat.eqb m m' && kind_eqb k k') eqn:Q; [|lia]. intros _. apply andb_prop in Q. destruct Q as (Q1 & Q2). split; [apply Nat.eqb_eq|apply kind_eqb_true]; assumption. Qed.
Lemma one_self m k : one m k m k = 1.
Proof. exact (at_refl m k). Qed.
(** A call that takes away. *)
Lemma change_neg m' o out m k : change (EvCall m' o out) m k < 0 -> m' = m /\ (exists k1, o = MUnlock k \/ o = MConv k1 k \/ o = MTryConv k1 k \/ o = MTimedConv k1 k) /\ change (EvCall m' o out) m k = -1.
Proof.
  rewrite <- effect_change. intros N. destruct (effect_neg _ _ _ N) as (G & L). destruct o as [k'|k'|k'|k'|a b|a b|a b]; cbn [gives_up] in G; try contradiction; destruct G as (-> & ->);
    (split; [reflexivity|]; split; [|lia]); [exists KU|exists a..]; auto.
Qed.
Lemma users_prefix a b : users_ok (a ++ b) -> users_ok a.
Proof. intros U h1 t d e h2 ->. apply (U h1 t d e (h2 ++ b)). rewrite <- app_assoc. reflexivity. Qed.
Lemma pocket_nonneg t h m k : users_ok h -> 0 <= pocket t h m k.
Proof.
  induction h as [|x h IH] using rev_ind; intros U; [unfold pocket; cbn; lia|]. specialize (IH (users_prefix _ _ U)). unfold pocket in *. rewrite sumf_app. cbn [sumf]. unfold pocket1 at 2.
  destruct x as [u d e]. cbn [who direct what]. destruct (Nat.eqb_spec u t) as [->|]; [|lia]. destruct (U h t d e [] eq_refl) as (U1 & U2). destruct d.
  - destruct (U1 eq_refl) as (m' & o & out & -> & G). destruct (Z_lt_le_dec (change (EvCall m' o out) m k) 0) as [N|N]; [|lia].
    destruct (change_neg _ _ _ _ _ N) as (-> & (k1 & D) & L). specialize (G k1 k D). unfold pocket in G. lia.
  - destruct e as [m' o out|m' k'|m' k']; try lia; [|pose proof (one_range m' k' m k); lia].
    destruct (Z.eq_dec (one m' k' m k) 0) as [Q|Q]; [lia|]. destruct (one_pos _ _ _ _ Q) as (-> & ->). specialize (U2 eq_refl m k eq_refl). unfold pocket in U2. rewrite one_self. lia.
Qed.
Lemma held_nonneg n t h m k : fair_play n h -> (t < n)%nat -> 0 <= held t h m k.
Proof. intros (_ & R & U & _) L. pose proof (covered_nonneg _ m k (runs_covered t h (R t L))). pose proof (pocket_nonneg t h m k U). unfold held. lia. Qed.

Lemma runs_prefix t a b : runs_program t (a ++ b) -> runs_program t a.
Proof. intros (E & ps & os & rest & xs & H). exists E, ps, os. unfold objs_of in *. rewrite filter_app, map_app, <- app_assoc in H. eauto. Qed.
Lemma fair_prefix n a b : fair_play n (a ++ b) -> fair_play n a.
Proof.
  intros (W & R & U & M). split; [apply Forall_app in W; tauto|]. split; [intros t L; eapply runs_prefix; eauto|]. split; [eapply users_prefix; eauto|].
  intros h1 t d m o out h2 k from -> G. apply (M h1 t d m o out (h2 ++ b) k from); [rewrite <- app_assoc; reflexivity|exact G].
Qed.
Lemma sumf_seq_nonneg (f : nat -> Z) n : (forall t, (t < n)%nat -> 0 <= f t) -> 0 <= sumf f (seq 0 n).
Proof.
  intros H. assert (forall l, (forall t, In t l -> 0 <= f t) -> 0 <= sumf f l) as G. { induction l as [|a l IH]; intros Q; [cbn; lia|]. cbn [sumf]. pose proof (Q a (or_introl eq_refl)). specialize (IH (fun t J => Q t (or_intror J))). lia. }
  apply G. intros t J. apply in_seq in J. apply H. lia.
Qed.
Lemma out_nonneg n h m k : fair_play n h -> 0 <= out_now h m k.
Proof. intros F. destruct F as (W & R & U & M) eqn:EF. rewrite (account n) by assumption. apply sumf_seq_nonneg. intros t L. eapply held_nonneg; eauto. Qed.
Lemma sumf_seq_ge (f : nat -> Z) n t : (forall t, (t < n)%nat -> 0 <= f t) -> (t < n)%nat -> f t <= sumf f (seq 0 n).
Proof.
  intros H L. replace n with (t + S (n - S t))%nat in * by lia. rewrite seq_app, sumf_app. cbn [seq sumf plus].
  assert (forall a c, (a + c <= t + S (n - S t))%nat -> 0 <= sumf f (seq a c)) as G. { intros a c. revert a. induction c as [|c IH]; intros a Q; [cbn; lia|]. cbn [seq sumf]. pose proof (H a ltac:(lia)). specialize (IH (S a) ltac:(lia)). lia. }
  pose proof (G 0%nat t ltac:(lia)). pose proof (G (S t) (n - S t)%nat ltac:(lia)). lia.
Qed.
Lemma sumf_seq_two (f : nat -> Z) n t u : (forall t, (t < n)%nat -> 0 <= f t) -> (t < n)%nat -> (u < n)%nat -> t <> u -> f t + f u <= sumf f (seq 0 n).
Proof.
  intros H L1 L2 NE. pose proof (sum_one (fun v => if Nat.eqb v t then 0 else f v) t (f t) n L1) as S1. cbv beta in S1.
  rewrite (sumf_ext _ f) in S1. 2: { intros v. rewrite (Nat.eqb_sym t v). destruct (Nat.eqb_spec v t); subst; lia. }
  pose proof (sumf_seq_ge (fun v => if Nat.eqb v t then 0 else f v) n u) as S2. cbv beta in S2. destruct (Nat.eqb_spec u t); [congruence|].
  assert (f u <= sumf (fun v => if Nat.eqb v t then 0 else f v) (seq 0 n)); [|lia]. apply S2; [|exact L2]. intros v LV. destruct (Nat.eqb v t); [lia|apply H; exact LV].
Qed.

(** ** The theorems *)
Lemma owns_owners os i m k : owns os i m k -> 1 <= owners os m k.
Proof. intros H. unfold owners. pose proof (sumf_elem (fun x => own x m k) os i _ (fun x => own_nonneg x m k) H) as G. cbn [own] in G. rewrite at_refl in G. exact G. Qed.
Lemma owns_two os i j m k : owns os i m k -> owns os j m k -> i <> j -> 2 <= owners os m k.
Proof. intros H1 H2 N. unfold owners. pose proof (sumf_two (fun x => own x m k) os i j _ _ (fun x => own_nonneg x m k) N H1 H2) as G. cbn [own] in G. rewrite at_refl in G. lia. Qed.
Lemma between_held n t h os m k : fair_play n h -> (t < n)%nat -> between t h os -> owners os m k <= held t h m k.
Proof.
  intros (_ & _ & U & _) L (E & ps & xs & H). pose proof (proj1 (C31_ownership _ _ _ _ _ H) m k) as Q. pose proof (pocket_nonneg t h m k U). unfold held. lia.
Qed.

(** At most one exclusive lock of a mutex is out, and then no other; at most one upgrade lock. *)
Lemma table n h m : fair_play n h ->
  out_now h m KU <= 1 /\ out_now h m KG <= 1 /\ (1 <= out_now h m KU -> out_now h m KS = 0 /\ out_now h m KG = 0).
Proof.
  induction h as [|x h IH] using rev_ind; intros F; [unfold out_now; cbn; lia|]. pose proof (fair_prefix _ _ _ F) as F1. specialize (IH F1).
  pose proof (out_nonneg n (h ++ [x]) m KU F) as NU. pose proof (out_nonneg n (h ++ [x]) m KS F) as NS. pose proof (out_nonneg n (h ++ [x]) m KG F) as NG.
  pose proof (out_nonneg n h m KU F1) as MU. pose proof (out_nonneg n h m KS F1) as MS. pose proof (out_nonneg n h m KG F1) as MG.
  destruct F as (_ & _ & _ & M). destruct x as [t d e].
  assert (forall k, out_now (h ++ [TE t d e]) m k = out_now h m k + change e m k) as S by (intros k; unfold out_now; rewrite sumf_app; cbn [sumf what]; lia). rewrite !S in *. clear S.
  destruct e as [m' o out|m' k'|m' k']; try (cbn [change] in *; lia).
  destruct (grants o out) as [[k from]|] eqn:G.
  - specialize (M h t d m' o out [] k from eq_refl G). assert (drops o out = None) as D by (destruct out, o; cbn in *; congruence). cbn [change] in *. rewrite G, D in *.
    destruct (Nat.eq_dec m' m) as [->|NE].
    + unfold one in *. rewrite Nat.eqb_refl in *. destruct from as [k0|]; destruct k; try destruct k0; cbn [admits kind_eqb andb] in *; lia.
    + unfold one in *. apply Nat.eqb_neq in NE. rewrite NE in *. destruct from; cbn [andb] in *; lia.
  - cbn [change] in *. rewrite G in *. destruct (drops o out) as [k0|]; [|lia]. pose proof (one_range m' k0 m KU). pose proof (one_range m' k0 m KS). pose proof (one_range m' k0 m KG). lia.
Qed.
Lemma compat n h m a b : fair_play n h -> 1 <= out_now h m a -> 1 <= out_now h m b -> (a = b -> 2 <= out_now h m a) -> compatible a b.
Proof.
  intros F HA HB HE. pose proof (table n h m F) as (TU & TG & TX). unfold compatible. destruct a, b; try (specialize (HE eq_refl)); try lia; try (left; split; [reflexivity|discriminate]); try (right; split; [reflexivity|discriminate]).
Qed.

(** Two lock objects, of one thread or of two, that say they own locks on the same mutex: both locks are shared, or one is and the other an upgrade lock.
    For all threads, programs and interleavings, whatever other threads are in the middle of. *)
Theorem C92_exclusion : forall n h t u os1 os2 i j m a b, fair_play n h -> (t < n)%nat -> (u < n)%nat -> between t h os1 -> between u h os2 ->
  owns os1 i m a -> owns os2 j m b -> (t <> u \/ (os1 = os2 /\ i <> j)) -> compatible a b.
Proof.
  intros n h t u os1 os2 i j m a b F LT LU B1 B2 O1 O2 D. pose proof (owns_owners _ _ _ _ O1) as P1. pose proof (owns_owners _ _ _ _ O2) as P2.
  pose proof (between_held n t h os1 m a F LT B1) as H1. pose proof (between_held n u h os2 m b F LU B2) as H2.
  destruct F as (W & R & U & M) eqn:EF. pose proof (account n h m a W U) as CA. pose proof (account n h m b W U) as CB.
  pose proof (sumf_seq_ge (fun t => held t h m a) n t (fun v LV => held_nonneg n v h m a F LV) LT) as GA.
  pose proof (sumf_seq_ge (fun t => held t h m b) n u (fun v LV => held_nonneg n v h m b F LV) LU) as GB. cbv beta in GA, GB.
  apply (compat n h m a b F); [lia|lia|]. intros ->. destruct (Nat.eq_dec t u) as [->|NE].
  - destruct D as [D|(-> & NIJ)]; [congruence|]. pose proof (owns_two _ _ _ _ _ O1 O2 NIJ). lia.
  - pose proof (sumf_seq_two (fun t => held t h m b) n t u (fun v LV => held_nonneg n v h m b F LV) LT LU NE) as G2. cbv beta in G2. lia.
Qed.
Print Assumptions C92_exclusion.

(** The mutexes only see proper use: whoever unlocks or changes the mode of a lock (a lock object or the user) has that lock at that moment. *)
Theorem C92_proper_use : forall n h1 t d m o out h2 k k1, fair_play n (h1 ++ TE t d (EvCall m o out) :: h2) ->
  (o = MUnlock k \/ o = MConv k1 k \/ o = MTryConv k1 k \/ o = MTimedConv k1 k) ->
  (d = false -> 1 <= ledger (objs_of t h1) m k) /\ (d = true -> 1 <= pocket t h1 m k) /\ 1 <= out_now h1 m k.
Proof.
  intros n h1 t d m o out h2 k k1 F HO.
  assert ((t < n)%nat) as L. { destruct F as (W & _). apply Forall_app in W. destruct W as (_ & W). inversion W; subst. assumption. }
  pose proof (fair_prefix n h1 _ F) as F1.
  assert (d = false -> 1 <= ledger (objs_of t h1) m k) as A.
  { intros ->. destruct F as (_ & R & _ & _). pose proof (runs_covered _ _ (R t L)) as C. unfold objs_of in C. rewrite filter_app, map_app in C. cbn [filter who direct what] in C. rewrite Nat.eqb_refl in C. cbn [andb negb map what] in C.
    apply (C (objs_of t h1) (EvCall m o out) _ m k eq_refl). destruct HO as [-> |[-> |[-> | ->]]]; cbn; auto. }
  assert (d = true -> 1 <= pocket t h1 m k) as B.
  { intros ->. destruct F as (_ & _ & U & _). destruct (U h1 t true (EvCall m o out) h2 eq_refl) as (U1 & _). destruct (U1 eq_refl) as (m' & o' & out' & Q & G). injection Q as <- <- <-. exact (G k1 k HO). }
  split; [exact A|]. split; [exact B|].
  pose proof F1 as (W1 & R1 & U1 & M1). rewrite (account n h1 m k W1 U1).
  pose proof (sumf_seq_ge (fun t => held t h1 m k) n t (fun v LV => held_nonneg n v h1 m k F1 LV) L) as GE. cbv beta in GE.
  pose proof (covered_nonneg _ m k (runs_covered t h1 (R1 t L))). pose proof (pocket_nonneg t h1 m k U1). unfold held in GE at 1. destruct d; [specialize (B eq_refl)|specialize (A eq_refl)]; lia.
Qed.
Print Assumptions C92_proper_use.

(** When all lock objects are destroyed and the users have given back what they hold outside them, every mutex is free. *)
Theorem C92_all_released : forall n h m k, fair_play n h ->
  (forall t, (t < n)%nat -> exists os, between t h os /\ (forall i x, nth_error os i = Some x -> x = None) /\ pocket t h m k = 0) -> out_now h m k = 0.
Proof.
  intros n h m k F H. pose proof F as (W & R & U & M). rewrite (account n h m k W U).
  assert (forall l, (forall t, In t l -> held t h m k = 0) -> sumf (fun t => held t h m k) l = 0) as Z0. { induction l as [|a l IH]; intros Q; [reflexivity|]. cbn [sumf]. rewrite (Q a (or_introl eq_refl)), IH; [reflexivity|]. intros t J. apply Q. right. exact J. }
  apply Z0. intros t J. apply in_seq in J. destruct (H t ltac:(lia)) as (os & (E & ps & xs & B) & D & P). unfold held. rewrite P. rewrite (C31_no_leak _ _ _ _ _ B D). reflexivity.
Qed.
Print Assumptions C92_all_released.

(** What a mutex has out is exactly what the threads' lock objects own and what the users hold outside them. *)
Theorem C92_accounting : forall n h m k (os : nat -> store), fair_play n h -> (forall t, (t < n)%nat -> between t h (os t)) ->
  out_now h m k = sumf (fun t => owners (os t) m k + pocket t h m k) (seq 0 n).
Proof.
  intros n h m k os F B. pose proof F as (W & R & U & M). rewrite (account n h m k W U).
  assert (forall l, (forall t, In t l -> held t h m k = owners (os t) m k + pocket t h m k) -> sumf (fun t => held t h m k) l = sumf (fun t => owners (os t) m k + pocket t h m k) l) as S.
  { induction l as [|a l IH]; intros Q; [reflexivity|]. cbn [sumf]. rewrite (Q a (or_introl eq_refl)), IH; [reflexivity|]. intros t J. apply Q. right. exact J. }
  apply S. intros t J. apply in_seq in J. destruct (B t ltac:(lia)) as (E & ps & xs & H). unfold held. rewrite (proj1 (C31_ownership _ _ _ _ _ H)). reflexivity.
Qed.
Print Assumptions C92_accounting.

(** Two threads: thread 0 has a shared_lock; thread 1 a shared_lock got by try_lock, and an upgrade lock it took itself and handed to an upgrade_lock. Proof or specification device; no counterpart in /repo. *)
Definition ex_h : history :=
  [TE 0 false (EvCall 0 (MLock KS) OYes); TE 1 false (EvCall 0 (MTry KS) OYes); TE 1 true (EvCall 0 (MLock KG) OYes); TE 1 false (EvAdopt 0 KG)].
Lemma ex_fair : fair_play 2 ex_h.
Proof.
  split; [repeat constructor|]. split.
  { intros t L. destruct t as [|[|t]]; [|  |lia].
    - exists (fun _ _ _ => OYes), [PCtor KS 0], [Some (KS, LO (Some 0%nat) true)], [], [XOk VUnit]. reflexivity.
    - exists (fun _ _ _ => OYes), [PCtorTry KS 0; PAdopt KG 0], [Some (KS, LO (Some 0%nat) true); Some (KG, LO (Some 0%nat) true)], [], [XOk VUnit; XOk VUnit]. reflexivity. }
  split.
  - intros h1 t d e h2 H. unfold ex_h in H.
    destruct h1 as [|? h1]; [injection H as <- <- <- <-; split; intros; discriminate|injection H as <- H].
    destruct h1 as [|? h1]; [injection H as <- <- <- <-; split; intros; discriminate|injection H as <- H].
    destruct h1 as [|? h1]; [injection H as <- <- <- <-|injection H as <- H].
    { split; [|intros; discriminate]. intros _. exists 0%nat, (MLock KG), OYes. split; [reflexivity|]. intros k k0 [Q|[Q|[Q|Q]]]; discriminate. }
    destruct h1 as [|? h1]; [injection H as <- <- <- <-|injection H as <- H; destruct h1; discriminate].
    split; [intros; discriminate|]. intros _ m k Q. injection Q as <- <-. cbn. lia.
  - intros h1 t d m o out h2 k from H G. unfold ex_h in H.
    destruct h1 as [|? h1]; [injection H as <- <- <- <- <- <-; injection G as <- <-; cbn; lia|injection H as <- H].
    destruct h1 as [|? h1]; [injection H as <- <- <- <- <- <-; injection G as <- <-; cbn; lia|injection H as <- H].
    destruct h1 as [|? h1]; [injection H as <- <- <- <- <- <-; injection G as <- <-; cbn; lia|injection H as <- H].
    destruct h1 as [|? [|]]; discriminate.
Qed.
Example C92_example : fair_play 2 ex_h /\
  between 0 ex_h [Some (KS, LO (Some 0%nat) true)] /\ between 1 ex_h [Some (KS, LO (Some 0%nat) true); Some (KG, LO (Some 0%nat) true)] /\
  out_now ex_h 0 KS = 2 /\ out_now ex_h 0 KG = 1 /\ compatible KS KG /\ ~ compatible KU KS /\ ~ compatible KG KG /\
  (forall h2, ~ fair_play 2 (ex_h ++ TE 0 false (EvCall 0 (MLock KU) OYes) :: h2)) /\
  (forall h2, ~ fair_play 2 (ex_h ++ TE 0 false (EvCall 0 (MUnlock KG) OYes) :: h2)).
Proof.
  split; [exact ex_fair|]. split; [exists (fun _ _ _ => OYes), [PCtor KS 0], [XOk VUnit]; reflexivity|].
  split; [exists (fun _ _ _ => OYes), [PCtorTry KS 0; PAdopt KG 0], [XOk VUnit; XOk VUnit]; reflexivity|].
  split; [reflexivity|]. split; [reflexivity|]. split; [left; split; [reflexivity|discriminate]|].
  split; [intros [(Q & _)|(_ & Q)]; [discriminate|apply Q; reflexivity]|]. split; [intros [(Q & _)|(Q & _)]; discriminate|].
  split; intros h2 F.
  - destruct F as (_ & _ & _ & M). specialize (M ex_h 0%nat false 0%nat (MLock KU) OYes h2 KU None eq_refl eq_refl). cbn in M. lia.
  - destruct (C92_proper_use 2 ex_h 0 false 0 (MUnlock KG) OYes h2 KG KG F (or_introl eq_refl)) as (A & _). specialize (A eq_refl). cbn in A. lia.
Qed.
Print Assumptions C92_example.
