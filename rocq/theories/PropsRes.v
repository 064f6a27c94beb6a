(** Properties C62 (construction and destruction), about [ResModel]. *)
From Coq Require Import List Bool ZArith Lia Permutation.
From Verif Require Import ResModel.
Import ListNotations.

Definition made (t : list rev) : list (kobj * nat) := flat_map (fun e => match e with EMake x => [x] | EDrop _ => [] end) t.
Definition dropped (t : list rev) : list (kobj * nat) := flat_map (fun e => match e with EDrop x => [x] | EMake _ => [] end) t.
(** Every object made is dropped exactly once, after it was made; nothing else is dropped. *)
Definition balanced (t : list rev) : Prop :=
  NoDup (made t) /\ Permutation (made t) (dropped t) /\ (forall t1 t2, t = t1 ++ t2 -> incl (dropped t1) (made t1)).

(** Shapes in which no constructor body makes a second plain member by a call that may fail. *)
Fixpoint unwinds (o : cobj) : Prop :=
  match o with
  | Wrap _ _ => True
  | Raw ks st => st = true \/ (length ks <= 1)%nat
  | Class ms => (fix go (ms : list cobj) : Prop := match ms with [] => True | m :: ms' => unwinds m /\ go ms' end) ms
  end.

(** *** Proof: what a constructor does to the set of live objects *)
Lemma made_app a b : made (a ++ b) = made a ++ made b.
Proof. apply flat_map_app. Qed.
Lemma dropped_app a b : dropped (a ++ b) = dropped a ++ dropped b.
Proof. apply flat_map_app. Qed.

Fixpoint inst_objs (i : inst) : list (kobj * nat) :=
  match i with
  | IWrap k id => [(k, id)]
  | IRaw ids => ids
  | IClass is => (fix go (is : list inst) := match is with [] => [] | i1 :: is' => inst_objs i1 ++ go is' end) is
  end.
Definition insts_objs := fix go (is : list inst) := match is with [] => [] | i1 :: is' => inst_objs i1 ++ go is' end.
Definition dtors := fix go (is : list inst) : list rev := match is with [] => [] | i1 :: is' => go is' ++ dtor i1 end.
Definition ctors := fix go (ms : list cobj) (n : nat) (env : list bool) : nat * list bool * list rev * option (list inst) :=
  match ms with
  | [] => (n, env, [], Some [])
  | m :: ms' =>
      match ctor m n env with
      | (n1, e1, t1, None) => (n1, e1, t1, None)
      | (n1, e1, t1, Some i) =>
          match go ms' n1 e1 with
          | (n2, e2, t2, None) => (n2, e2, t1 ++ t2 ++ dtor i, None)
          | (n2, e2, t2, Some is) => (n2, e2, t1 ++ t2, Some (i :: is))
          end
      end
  end.
Fixpoint all_unwind (ms : list cobj) : Prop := match ms with [] => True | m :: ms' => unwinds m /\ all_unwind ms' end.

(** Induction over shapes, with the members of a class. *)
Lemma cobj_ind2 (P : cobj -> Prop) : (forall k st, P (Wrap k st)) -> (forall ks st, P (Raw ks st)) -> (forall ms, Forall P ms -> P (Class ms)) -> forall o, P o.
Proof.
  intros HW HR HC. fix IH 1. intros [k st|ms|ks st]; [apply HW| |apply HR]. apply HC.
  induction ms as [|m ms IHm]; constructor; [apply IH|exact IHm].
Qed.
Lemma inst_ind2 (P : inst -> Prop) : (forall k id, P (IWrap k id)) -> (forall ids, P (IRaw ids)) -> (forall is, Forall P is -> P (IClass is)) -> forall i, P i.
Proof.
  intros HW HR HC. fix IH 1. intros [k id|is|ids]; [apply HW| |apply HR]. apply HC.
  induction is as [|m ms IHm]; constructor; [apply IH|exact IHm].
Qed.

(** A destructor makes nothing and drops exactly the objects held. *)
Lemma dtor_spec i : made (dtor i) = [] /\ Permutation (dropped (dtor i)) (inst_objs i).
Proof.
  induction i as [k id|ids|is IH] using inst_ind2; cbn [dtor inst_objs].
  - split; reflexivity.
  - induction ids as [|x ids IH]; cbn; [split; reflexivity|]. destruct IH as (A & B). split; [exact A|]. constructor. exact B.
  - fold dtors. fold insts_objs. induction IH as [|i is (A & B) _ (C & D)]; cbn [dtors insts_objs]; [split; reflexivity|].
    rewrite made_app, dropped_app, A, C. split; [reflexivity|]. rewrite D, B. apply Permutation_app_comm.
Qed.

(** The trace of a constructor: new identities only, all below the next free one afterwards; what it has dropped it had made before. *)
Definition fresh (n n' : nat) (t : list rev) : Prop :=
  (n <= n')%nat /\ NoDup (made t) /\ (forall x, In x (made t) -> (n <= snd x < n')%nat) /\
  (forall t1 t2, t = t1 ++ t2 -> incl (dropped t1) (made t1)).

Lemma nodup_app {A} (l l' : list A) : NoDup l -> NoDup l' -> (forall x, In x l -> In x l' -> False) -> NoDup (l ++ l').
Proof.
  intros H H' D. induction H as [|x l Hx H IH]; [exact H'|]. cbn. constructor.
  - intros Hi. apply in_app_or in Hi as [Hi|Hi]; [auto|]. apply (D x); [left; reflexivity|exact Hi].
  - apply IH. intros y Hy. apply D. right. exact Hy.
Qed.

Lemma prefix_cases {A} (a b c d : list A) : a ++ b = c ++ d -> (exists e, a = c ++ e) \/ (exists e, c = a ++ e /\ b = e ++ d).
Proof.
  revert c. induction a as [|x a IH]; intros c H; [right; exists c; auto|].
  destruct c as [|y c]; [left; exists (x :: a); reflexivity|]. cbn in H. injection H as -> H.
  destruct (IH c H) as [(e & ->)|(e & -> & ->)]; [left|right]; exists e; auto.
Qed.

Lemma fresh_app n n1 n2 a b : fresh n n1 a -> fresh n1 n2 b -> fresh n n2 (a ++ b).
Proof.
  intros (A1 & A2 & A3 & A4) (B1 & B2 & B3 & B4). split; [lia|]. rewrite made_app. split; [|split].
  - apply nodup_app; auto. intros x Hx Hy. specialize (A3 x Hx). specialize (B3 x Hy). lia.
  - intros x Hx. apply in_app_or in Hx as [Hx|Hx]; [specialize (A3 x Hx)|specialize (B3 x Hx)]; lia.
  - intros t1 t2 E. destruct (prefix_cases _ _ _ _ E) as [(e & ->)|(e & -> & ->)].
    + apply (A4 t1 e). reflexivity.
    + rewrite made_app, dropped_app. apply incl_app.
      * apply incl_appl. apply (A4 a []). symmetry. apply app_nil_r.
      * apply incl_appr. apply (B4 e t2). reflexivity.
Qed.

(** Dropping at the end what has been made. *)
Lemma fresh_drop n n' a d : fresh n n' a -> made d = [] -> incl (dropped d) (made a) -> fresh n n' (a ++ d).
Proof.
  intros (A1 & A2 & A3 & A4) Hm Hd. split; [exact A1|]. rewrite made_app, Hm, app_nil_r. split; [exact A2|split; [exact A3|]].
  intros t1 t2 E. destruct (prefix_cases _ _ _ _ E) as [(e & ->)|(e & -> & ->)]; [apply (A4 t1 e); reflexivity|].
  rewrite made_app, dropped_app. rewrite dropped_app in Hd. apply incl_app.
  - apply incl_appl. apply (A4 a []). symmetry. apply app_nil_r.
  - apply incl_appl. intros x Hx. apply Hd. apply in_or_app. left. exact Hx.
Qed.

Definition settles (t : list rev) (objs : list (kobj * nat)) : Prop := Permutation (made t) (dropped t ++ objs).

Lemma make_spec k st n env n' e' t r : make k st n env = (n', e', t, r) ->
  fresh n n' t /\ dropped t = [] /\ match r with Some id => made t = [(k, id)] | None => t = [] /\ st = false end.
Proof.
  unfold make. intros H. assert (G : fresh n (S n) [EMake (k, n)]).
  { split; [lia|]. split; [repeat constructor; intros []|]. split; [intros x [<-|[]]; cbn; lia|].
    intros t1 t2 E. destruct t1 as [|y t1]; [intros ? []|]. cbn in E. injection E as <- E. symmetry in E. apply app_eq_nil in E as (-> & ->). intros ? []. }
  assert (G0 : fresh n n []).
  { split; [lia|]. split; [constructor|]. split; [intros ? []|]. intros t1 t2 E. symmetry in E. apply app_eq_nil in E as (-> & ->). intros ? []. }
  destruct st; [inversion H; subst; auto|].
  destruct env as [|[|] env]; inversion H; subst; auto.
Qed.

Lemma make_all_spec ks st : forall n env n' e' t r, make_all ks st n env = (n', e', t, r) ->
  fresh n n' t /\ dropped t = [] /\ match r with Some ids => made t = ids | None => st = false /\ (length (made t) < length ks)%nat end.
Proof.
  induction ks as [|k ks IH]; intros n env n' e' t r H; cbn [make_all] in H.
  - inversion H; subst. split; [|auto]. split; [lia|]. split; [constructor|]. split; [intros ? []|].
    intros t1 t2 E. symmetry in E. apply app_eq_nil in E as (-> & ->). intros ? [].
  - destruct (make k st n env) as [[[n1 e1] t1] [id|]] eqn:E1; destruct (make_spec _ _ _ _ _ _ _ _ E1) as (F1 & D1 & M1).
    + destruct (make_all ks st n1 e1) as [[[n2 e2] t2] [ids|]] eqn:E2; destruct (IH _ _ _ _ _ _ E2) as (F2 & D2 & M2); inversion H; subst;
        (split; [eapply fresh_app; eauto|]; rewrite dropped_app, made_app, D1, D2, M1; split; [reflexivity|]).
      * reflexivity.
      * destruct M2 as (M2 & L2). split; [exact M2|]. cbn. lia.
    + inversion H; subst. destruct M1 as (-> & ->). split; [exact F1|]. split; [reflexivity|]. split; [reflexivity|]. cbn. lia.
Qed.

Lemma ctor_spec o : unwinds o -> forall n env n' e' t r, ctor o n env = (n', e', t, r) ->
  fresh n n' t /\ settles t (match r with Some i => inst_objs i | None => [] end).
Proof.
  unfold settles. induction o as [k st|ks st|ms IH] using cobj_ind2; intros U n env n' e' t r H; cbn [ctor] in H.
  - destruct (make k st n env) as [[[n1 e1] t1] [id|]] eqn:E1; destruct (make_spec _ _ _ _ _ _ _ _ E1) as (F1 & D1 & M1); inversion H; subst; (split; [exact F1|]); rewrite D1.
    + rewrite M1. reflexivity.
    + destruct M1 as (-> & _). reflexivity.
  - destruct (make_all ks st n env) as [[[n1 e1] t1] [ids|]] eqn:E1; destruct (make_all_spec _ _ _ _ _ _ _ _ E1) as (F1 & D1 & M1); inversion H; subst; (split; [exact F1|]); rewrite D1.
    + reflexivity.
    + destruct M1 as (-> & L). cbn [unwinds] in U. destruct U as [U|U]; [discriminate|].
      destruct (made t); [reflexivity|cbn in L; lia].
  - fold ctors in H. change (all_unwind ms) in U.
    destruct (ctors ms n env) as [[[n1 e1] t1] r1] eqn:E1.
    assert (G : fresh n n1 t1 /\ Permutation (made t1) (dropped t1 ++ match r1 with Some is => insts_objs is | None => [] end)).
    { clear H. revert n env n1 e1 t1 r1 E1. induction IH as [|m ms Hm _ IHms]; intros n env n1 e1 t1 r1 E1; cbn [ctors] in E1.
      - inversion E1; subst. split; [|reflexivity]. split; [lia|]. split; [constructor|]. split; [intros ? []|].
        intros a b E. symmetry in E. apply app_eq_nil in E as (-> & ->). intros ? [].
      - destruct U as (Um & Ums). destruct (ctor m n env) as [[[n2 e2] t2] [i|]] eqn:E2; destruct (Hm Um _ _ _ _ _ _ E2) as (F2 & S2).
        + destruct (ctors ms n2 e2) as [[[n3 e3] t3] [is|]] eqn:E3; destruct (IHms Ums _ _ _ _ _ _ E3) as (F3 & S3); inversion E1; subst.
          * split; [eapply fresh_app; eauto|]. rewrite made_app, dropped_app, S2, S3. cbn [insts_objs].
            rewrite <- !app_assoc. apply Permutation_app_head. rewrite !app_assoc. apply Permutation_app_tail. apply Permutation_app_comm.
          * destruct (dtor_spec i) as (Dm & Dd). rewrite app_assoc. split.
            -- apply fresh_drop; [eapply fresh_app; eauto|exact Dm|]. intros x Hx. rewrite made_app. apply in_or_app. left.
               eapply Permutation_in; [symmetry; exact S2|]. apply in_or_app. right. eapply Permutation_in; [exact Dd|exact Hx].
            -- rewrite !made_app, !dropped_app, Dm, S2, S3, Dd, !app_nil_r.
               rewrite <- !app_assoc. apply Permutation_app_head. apply Permutation_app_comm.
        + inversion E1; subst. split; [exact F2|exact S2]. }
    destruct G as (F1 & S1). destruct r1 as [is|]; inversion H; subst; split; auto.
Qed.

(** *** C62: nothing is leaked and nothing dropped twice *)
(** For every class built from such constructors, of any depth, whichever creating calls fail. *)
Theorem C62_balanced : forall o env, unwinds o -> balanced (life o env).
Proof.
  intros o env U. unfold life, balanced. destruct (ctor o 0 env) as [[[n e] t] r] eqn:E.
  destruct (ctor_spec o U _ _ _ _ _ _ E) as (F & S). unfold settles in S. destruct r as [i|].
  - destruct (dtor_spec i) as (Dm & Dd).
    assert (F2 : fresh 0 n (t ++ dtor i)).
    { apply fresh_drop; auto. intros x Hx. eapply Permutation_in; [symmetry; exact S|]. apply in_or_app. right. eapply Permutation_in; eauto. }
    destruct F2 as (_ & N & _ & P). split; [exact N|]. split; [|exact P].
    rewrite made_app, dropped_app, Dm, app_nil_r, S, Dd. reflexivity.
  - destruct F as (_ & N & _ & P). rewrite app_nil_r in S. auto.
Qed.
Print Assumptions C62_balanced.

(** The classes of the library, except the emulated timed_mutex with pthread objects that are initialised by calls. *)
Theorem C62_library : forall o env, In o library -> balanced (life o env).
Proof.
  intros o env H. apply C62_balanced. unfold library in H. cbn in H.
  repeat (destruct H as [<-|H]; [cbn; repeat split; auto|]). destruct H.
Qed.
Print Assumptions C62_library.

(** That one leaks its mutex when pthread_cond_init fails: the constructor throws and nobody destroys m_mutex. *)
Theorem C62_timed_mutex_refuted : exists env t, t = life (timed_mutex_posix_emulated false) env /\
  In (OMutex, 0%nat) (made t) /\ ~ In (OMutex, 0%nat) (dropped t) /\ ~ balanced t.
Proof.
  exists [true; false], [EMake (OMutex, 0%nat)]. repeat split; [left; reflexivity|intros []|].
  intros (_ & P & _). cbn in P. apply Permutation_length in P. discriminate.
Qed.
Print Assumptions C62_timed_mutex_refuted.

(** With its members in classes of their own, as in the emulated events, it would not. *)
Theorem C62_timed_mutex_repaired : forall env, balanced (life (emulation false false) env).
Proof. intros env. apply C62_balanced. cbn. auto. Qed.
Print Assumptions C62_timed_mutex_repaired.

(** A constructor succeeds if and only if every creating call does: [calls] is the number of calls that may fail. *)
Fixpoint calls (o : cobj) : nat :=
  match o with
  | Wrap _ st => if st then 0 else 1
  | Raw ks st => if st then 0 else length ks
  | Class ms => (fix go (ms : list cobj) : nat := match ms with [] => 0 | m :: ms' => calls m + go ms' end) ms
  end.
Definition callss := fix go (ms : list cobj) : nat := match ms with [] => 0%nat | m :: ms' => (calls m + go ms')%nat end.

Lemma make_ok k st n env n' e' t r : make k st n env = (n', e', t, r) ->
  (r <> None <-> firstn (if st then 0 else 1) env = repeat true (if st then 0 else 1)) /\ (r <> None -> e' = skipn (if st then 0 else 1) env).
Proof.
  unfold make. destruct st; [intros H; inversion H; subst; cbn; split; [split; [auto|discriminate]|auto]|].
  destruct env as [|[|] env]; intros H; inversion H; subst; cbn; split; try (split; [congruence|discriminate]); congruence.
Qed.

Lemma firstn_true a b (env : list bool) : firstn (a + b) env = repeat true (a + b) <->
  firstn a env = repeat true a /\ firstn b (skipn a env) = repeat true b.
Proof.
  revert env. induction a as [|a IH]; intros env; cbn [Nat.add]; [split; [cbn; auto|intros (_ & H); exact H]|].
  destruct env as [|x env]; cbn [firstn repeat skipn].
  - split; [discriminate|intros (H & _); discriminate].
  - split.
    + intros H. injection H as -> H. apply IH in H as (H1 & H2). rewrite H1. auto.
    + intros (H1 & H2). injection H1 as -> H1. f_equal. apply IH. auto.
Qed.
Lemma skipn_plus {A} a b (l : list A) : skipn (a + b) l = skipn b (skipn a l).
Proof. revert l. induction a as [|a IH]; intros l; [reflexivity|]. destruct l; cbn; [rewrite skipn_nil; reflexivity|apply IH]. Qed.

Lemma make_all_ok ks st : forall n env n' e' t r, make_all ks st n env = (n', e', t, r) ->
  (r <> None <-> firstn (if st then 0 else length ks) env = repeat true (if st then 0 else length ks)) /\
  (r <> None -> e' = skipn (if st then 0 else length ks) env).
Proof.
  induction ks as [|k ks IH]; intros n env n' e' t r H; cbn [make_all] in H.
  - inversion H; subst. destruct st; cbn; split; try (split; [auto|discriminate]); auto.
  - destruct (make k st n env) as [[[n1 e1] t1] [id|]] eqn:E1; destruct (make_ok _ _ _ _ _ _ _ _ E1) as (A1 & B1).
    + specialize (B1 ltac:(discriminate)). assert (A1' := proj1 A1 ltac:(discriminate)).
      destruct (make_all ks st n1 e1) as [[[n2 e2] t2] r2] eqn:E2. destruct (IH _ _ _ _ _ _ E2) as (A2 & B2).
      assert (X : (r <> None <-> r2 <> None) /\ (r <> None -> e' = e2)) by (destruct r2; inversion H; subst; split; auto; split; congruence).
      destruct X as (X1 & X2). split.
      * rewrite X1, A2. destruct st; [cbn; reflexivity|]. change (length (k :: ks)) with (1 + length ks)%nat. rewrite (firstn_true 1), <- B1. tauto.
      * intros R. rewrite (X2 R), (B2 (proj1 X1 R)). destruct st; [cbn in *; congruence|].
        change (length (k :: ks)) with (1 + length ks)%nat. rewrite skipn_plus, <- B1. reflexivity.
    + inversion H; subst. split; [|congruence]. split; [congruence|]. intros F. exfalso. apply (proj2 A1); [|reflexivity]. destruct st; [exact F|].
      change (length (k :: ks)) with (1 + length ks)%nat in F. apply firstn_true in F. tauto.
Qed.

Theorem C62_succeeds_iff : forall o env, (exists n e t i, ctor o 0 env = (n, e, t, Some i)) <-> firstn (calls o) env = repeat true (calls o).
Proof.
  assert (G : forall o n env n' e' t r, ctor o n env = (n', e', t, r) ->
    (r <> None <-> firstn (calls o) env = repeat true (calls o)) /\ (r <> None -> e' = skipn (calls o) env)).
  { induction o as [k st|ks st|ms IH] using cobj_ind2; intros n env n' e' t r H; cbn [ctor calls] in *.
    - destruct (make k st n env) as [[[n1 e1] t1] r1] eqn:E1. destruct (make_ok _ _ _ _ _ _ _ _ E1) as (A1 & B1).
      assert (X : (r <> None <-> r1 <> None) /\ e' = e1) by (destruct r1; inversion H; subst; split; auto; split; congruence).
      destruct X as (X1 & ->). rewrite X1. auto.
    - destruct (make_all ks st n env) as [[[n1 e1] t1] r1] eqn:E1. destruct (make_all_ok _ _ _ _ _ _ _ _ E1) as (A1 & B1).
      assert (X : (r <> None <-> r1 <> None) /\ e' = e1) by (destruct r1; inversion H; subst; split; auto; split; congruence).
      destruct X as (X1 & ->). rewrite X1. auto.
    - fold ctors in H. change ((fix go (ms : list cobj) : nat := match ms with [] => 0%nat | m :: ms' => (calls m + go ms')%nat end) ms) with (callss ms).
      destruct (ctors ms n env) as [[[n1 e1] t1] r1] eqn:E1.
      assert (X : (r <> None <-> r1 <> None) /\ e' = e1) by (destruct r1; inversion H; subst; split; auto; split; congruence).
      destruct X as (X1 & ->). rewrite X1. clear H X1. revert n env n1 e1 t1 r1 E1. induction IH as [|m ms Hm _ IHms]; intros n env n1 e1 t1 r1 E1; cbn [ctors callss] in *.
      + inversion E1; subst. cbn. split; [split; [auto|discriminate]|auto].
      + destruct (ctor m n env) as [[[n2 e2] t2] [i|]] eqn:E2; destruct (Hm _ _ _ _ _ _ E2) as (A2 & B2).
        * specialize (B2 ltac:(discriminate)). assert (A2' := proj1 A2 ltac:(discriminate)).
          destruct (ctors ms n2 e2) as [[[n3 e3] t3] r3] eqn:E3. destruct (IHms _ _ _ _ _ _ E3) as (A3 & B3).
          assert (X : (r1 <> None <-> r3 <> None) /\ e1 = e3) by (destruct r3; inversion E1; subst; split; auto; split; congruence).
          destruct X as (X1 & ->). rewrite X1, firstn_true, <- B2, skipn_plus, <- B2. split; [tauto|exact B3].
        * inversion E1; subst. split; [|congruence]. split; [congruence|]. intros F. apply firstn_true in F. exfalso. apply (proj2 A2); [tauto|reflexivity]. }
  intros o env. destruct (ctor o 0 env) as [[[n e] t] r] eqn:E. destruct (G o _ _ _ _ _ _ E) as (A & _). rewrite <- A. split.
  - intros (? & ? & ? & i & H). inversion H; subst. discriminate.
  - intros H. destruct r as [i|]; [exists n, e, t, i; reflexivity|congruence].
Qed.
Print Assumptions C62_succeeds_iff.

Example C62_example : life (emulation false false) [true; true] = [EMake (OMutex, 0%nat); EMake (OCond, 1%nat); EDrop (OCond, 1%nat); EDrop (OMutex, 0%nat)] /\
  life (emulation false false) [true; false] = [EMake (OMutex, 0%nat); EDrop (OMutex, 0%nat)] /\
  life (Class [emulation true false; event_windows]) [true; false] = [EMake (OMutex, 0%nat); EMake (OCond, 1%nat); EDrop (OCond, 1%nat); EDrop (OMutex, 0%nat)].
Proof. repeat split. Qed.

(** *** The initial count of a semaphore *)
Local Open Scope Z_scope.
Lemma signal_n_spec k : forall c, signal_n k c = c + Z.of_nat k.
Proof. induction k as [|k IH]; intros c; cbn [signal_n]; [lia|rewrite IH; lia]. Qed.

(** A semaphore that is constructed has exactly the count asked for, for every unsigned int: no conversion turns it into another one. *)
Theorem C62_initial_count : forall s i ok c, 0 <= i < two32 -> sem_ctor s i ok = Some c -> c = i.
Proof.
  intros s i ok c Hi H. destruct s; cbn [sem_ctor] in H; destruct ok; cbn [andb] in H; try discriminate.
  - unfold to_i32 in H. destruct (Z.leb_spec i int_max) as [L|L].
    + destruct ((0 <=? i) && (i <=? int_max)); inversion H; reflexivity.
    + destruct (Z.leb_spec 0 (i - two32)); [lia|discriminate].
  - destruct (i <=? sem_value_max); inversion H; reflexivity.
  - unfold to_i32 in H. destruct (Z.leb_spec i int_max) as [L|L].
    + destruct (0 <=? i); inversion H; reflexivity.
    + destruct (Z.leb_spec 0 (i - two32)); [lia|discriminate].
  - inversion H. rewrite signal_n_spec. lia.
  - inversion H. reflexivity.
Qed.
Print Assumptions C62_initial_count.

(** Values up to INT_MAX are supported, as documented, where the POSIX system allows them. *)
Theorem C62_int_max_supported : forall s i, 0 <= i <= int_max -> (forall m, s = SPosix m -> int_max <= m) -> sem_ctor s i true = Some i.
Proof.
  intros s i Hi Hs. assert (T : to_i32 i = i) by (unfold to_i32; destruct (Z.leb_spec i int_max); [reflexivity|lia]).
  destruct s; cbn [sem_ctor andb]; rewrite ?T.
  - destruct (Z.leb_spec 0 i), (Z.leb_spec i int_max); try lia. reflexivity.
  - specialize (Hs _ eq_refl). destruct (Z.leb_spec i sem_value_max); [reflexivity|lia].
  - destruct (Z.leb_spec 0 i); [reflexivity|lia].
  - rewrite signal_n_spec. f_equal. lia.
  - reflexivity.
Qed.
Print Assumptions C62_int_max_supported.

(** The dispatch semaphore can be released after any use: the counter is never below the value it was created with. *)
Theorem C62_dispatch_release : forall i ops b, 0 <= i -> release_crashes 0 i ops = Some b -> b = false.
Proof.
  intros i ops b Hi. unfold release_crashes. rewrite signal_n_spec.
  assert (G : forall ops c c', 0 <= c -> dispatch_use c ops = Some c' -> 0 <= c').
  { clear. induction ops as [|[|] ops IH]; intros c c' Hc H; cbn [dispatch_use] in H.
    - inversion H; subst. exact Hc.
    - eapply IH; [|exact H]. lia.
    - destruct (Z.ltb_spec 0 c); [|discriminate]. eapply IH; [|exact H]. lia. }
  destruct (dispatch_use _ ops) as [c|] eqn:E; [|discriminate]. intros H. inversion H; subst.
  apply G in E; [|lia]. apply Z.ltb_ge. exact E.
Qed.
Print Assumptions C62_dispatch_release.

(** If it were created with the initial count itself, a single wait would make the destructor crash, for every positive count. *)
Theorem C62_dispatch_release_needed : forall i, 0 < i -> release_crashes i i [false] = Some true.
Proof.
  intros i Hi. unfold release_crashes. rewrite signal_n_spec. replace (i - i) with 0 by ring. cbn [Z.to_nat Z.of_nat dispatch_use].
  replace (i + 0) with i by ring. destruct (Z.ltb_spec 0 i); [|lia]. destruct (Z.ltb_spec (i - 1) i); [reflexivity|lia].
Qed.
Print Assumptions C62_dispatch_release_needed.

Example C62_count_example : sem_ctor SWindows 4294967295 true = None /\ sem_ctor SDispatch 5 true = Some 5 /\ release_crashes 0 2 [false; true; false] = Some false.
Proof. repeat split. Qed.
