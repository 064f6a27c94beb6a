(** What "behaves as an atomic object" means (linearizability), independently of
    any implementation.

    An atomic object is a sequential specification: operations, results, an
    abstract state and a transition relation.  The reference system lets every
    thread (i) call an operation its client protocol allows, (ii) at some later
    instant execute the operation on the abstract state in one atomic step,
    (iii) return the result.  A history of Call/Ret events is linearizable iff
    the reference system can produce it: every operation then took effect at one
    instant between its call and its return. *)
From Coq Require Import List Lia.
From Verif Require Import ListSum Exec.
Import ListNotations.

(** API events: [Call t o], [Ret t o r]: thread [t] calls / returns from [o]. *)
Inductive event (Op Res : Type) : Type :=
| Call (t : nat) (o : Op)
| Ret (t : nat) (o : Op) (r : Res).
Arguments Call {Op Res} t o.
Arguments Ret {Op Res} t o r.

(** Sequential specification. [mode] is the client's side of the contract (for
    instance "holds the lock"): [pre] says which calls are allowed in a mode,
    [next] how a returned result changes it. *)
Record spec : Type := {
  op : Type;
  res : Type;
  ost : Type;
  mode : Type;
  oinit : ost;
  minit : mode;
  pre : mode -> op -> bool;
  next : mode -> op -> res -> mode;
  otrans : nat -> op -> ost -> res -> ost -> Prop
}.

Section Canon.
  Variable S : spec.

  Inductive cth : Type :=
  | CIdle (m : mode S)
  | CPend (m : mode S) (o : op S)
  | CDone (m : mode S) (o : op S) (r : res S).

  Definition cstate : Type := (ost S * list cth)%type.

  Definition cinit (n : nat) : cstate := (oinit S, repeat (CIdle (minit S)) n).

  (** One step of the reference system, with the events it emits. *)
  Inductive cstep : cstate -> list (event (op S) (res S)) -> cstate -> Prop :=
  | cs_call s ths t m o :
      nth_error ths t = Some (CIdle m) -> pre S m o = true ->
      cstep (s, ths) [Call t o] (s, upd ths t (CPend m o))
  | cs_lin s ths t m o r s' :
      nth_error ths t = Some (CPend m o) -> otrans S t o s r s' ->
      cstep (s, ths) [] (s', upd ths t (CDone m o r))
  | cs_ret s ths t m o r :
      nth_error ths t = Some (CDone m o r) ->
      cstep (s, ths) [Ret t o r] (s, upd ths t (CIdle (next S m o r))).

  Inductive csteps : cstate -> list (event (op S) (res S)) -> cstate -> Prop :=
  | css_nil s : csteps s [] s
  | css_cons s e1 s1 e2 s2 : cstep s e1 s1 -> csteps s1 e2 s2 -> csteps s (e1 ++ e2) s2.

  Lemma csteps_one s e s' : cstep s e s' -> csteps s e s'.
  Proof. intros H. rewrite <- (app_nil_r e). econstructor; eauto. constructor. Qed.

  Lemma csteps_app s e1 s1 e2 s2 : csteps s e1 s1 -> csteps s1 e2 s2 -> csteps s (e1 ++ e2) s2.
  Proof.
    induction 1 as [|s e1 s1 e1' s1' H1 H2 IH]; cbn; auto.
    intros H. rewrite <- app_assoc. econstructor; eauto.
  Qed.

  (** The history [tr] of [n] threads is linearizable. *)
  Definition linearizable (n : nat) (tr : list (event (op S) (res S))) : Prop :=
    exists s, csteps (cinit n) tr s.

  (** Reference system with deferred choice: besides executing its operation, a
      pending call may [observe] that a result which leaves the abstract state
      unchanged is possible now, and adopt it later.  It produces the same
      histories (lemma [xlin_lin]); used when the code decides late to return a
      result that was right earlier in the call (timeouts). *)
  Inductive xth : Type :=
  | XIdle (m : mode S)
  | XPend (m : mode S) (o : op S) (obs : list (res S))
  | XDone (m : mode S) (o : op S) (r : res S).

  Definition xstate : Type := (ost S * list xth)%type.
  Definition xinit (n : nat) : xstate := (oinit S, repeat (XIdle (minit S)) n).

  Inductive xstep : xstate -> list (event (op S) (res S)) -> xstate -> Prop :=
  | xs_call s ths t m o :
      nth_error ths t = Some (XIdle m) -> pre S m o = true ->
      xstep (s, ths) [Call t o] (s, upd ths t (XPend m o []))
  | xs_obs s ths t m o l r :
      nth_error ths t = Some (XPend m o l) -> otrans S t o s r s ->
      xstep (s, ths) [] (s, upd ths t (XPend m o (r :: l)))
  | xs_adopt s ths t m o l r :
      nth_error ths t = Some (XPend m o l) -> In r l ->
      xstep (s, ths) [] (s, upd ths t (XDone m o r))
  | xs_lin s ths t m o l r s' :
      nth_error ths t = Some (XPend m o l) -> otrans S t o s r s' ->
      xstep (s, ths) [] (s', upd ths t (XDone m o r))
  | xs_ret s ths t m o r :
      nth_error ths t = Some (XDone m o r) ->
      xstep (s, ths) [Ret t o r] (s, upd ths t (XIdle (next S m o r))).

  Inductive xsteps : xstate -> list (event (op S) (res S)) -> xstate -> Prop :=
  | xss_nil s : xsteps s [] s
  | xss_cons s e1 s1 e2 s2 : xstep s e1 s1 -> xsteps s1 e2 s2 -> xsteps s (e1 ++ e2) s2.

  Lemma xsteps_one s e s' : xstep s e s' -> xsteps s e s'.
  Proof. intros H. rewrite <- (app_nil_r e). econstructor; eauto. constructor. Qed.

  Lemma xsteps_app s e1 s1 e2 s2 : xsteps s e1 s1 -> xsteps s1 e2 s2 -> xsteps s (e1 ++ e2) s2.
  Proof.
    induction 1 as [|s e1 s1 e1' s1' H1 H2 IH]; cbn; auto.
    intros H. rewrite <- app_assoc. econstructor; eauto.
  Qed.

  (* Backward simulation from the deferred-choice system to the reference system. *)
  Definition thr (x : xth) (c : cth) : Prop :=
    match x with
    | XIdle m => c = CIdle m
    | XPend m o l => c = CPend m o \/ exists r, In r l /\ c = CDone m o r
    | XDone m o r => c = CDone m o r
    end.

  Lemma forall2_upd (R : xth -> cth -> Prop) xs cs t x c :
    Forall2 R xs cs -> R x c -> Forall2 R (upd xs t x) (upd cs t c).
  Proof.
    intros H Hr; revert t; induction H as [|x' c' xs cs H1 H2 IH]; intros [|t]; cbn; constructor; auto.
  Qed.

  Lemma forall2_nth (R : xth -> cth -> Prop) xs cs t x :
    Forall2 R xs cs -> nth_error xs t = Some x ->
    exists c, nth_error cs t = Some c /\ R x c.
  Proof.
    intros H; revert t; induction H as [|x' c' xs cs H1 H2 IH]; intros [|t]; cbn; intros E; try discriminate; eauto.
    inversion E; subst; eauto.
  Qed.

  (* recover the list before an update *)
  Lemma forall2_unupd xs cs t x x' (R : xth -> cth -> Prop) :
    nth_error xs t = Some x -> Forall2 R (upd xs t x') cs ->
    exists c', nth_error cs t = Some c' /\ R x' c' /\
      forall c, R x c -> Forall2 R xs (upd cs t c).
  Proof.
    revert t cs; induction xs as [|y xs IH]; intros [|t] cs; cbn; intros E H; try discriminate.
    - inversion E; subst. inversion H as [|a b la lb Hr1 Hr2]; subst. cbn.
      exists b. repeat split; auto.
    - inversion H as [|a b la lb Hr1 Hr2]; subst. cbn.
      destruct (IH _ _ E Hr2) as (c' & E' & Hc' & Hall).
      exists c'. repeat split; auto.
  Qed.

  Lemma back_step s xs e s' xs' cs' :
    xstep (s, xs) e (s', xs') -> Forall2 thr xs' cs' ->
    exists cs, Forall2 thr xs cs /\ csteps (s, cs) e (s', cs').
  Proof.
    intros H HR. inversion H; subst.
    - (* call *)
      edestruct forall2_unupd as (c' & E' & Hc' & Hall); [eassumption|exact HR|].
      cbn in Hc'. destruct Hc' as [->|(r & [] & _)].
      exists (upd cs' t (CIdle m)). split; [apply Hall; reflexivity|].
      apply csteps_one.
      replace cs' with (upd (upd cs' t (CIdle m)) t (CPend m o)) at 2
        by (rewrite upd_upd; apply upd_same; assumption).
      constructor; auto. eapply nth_upd_eq; eauto.
    - (* obs *)
      edestruct forall2_unupd as (c' & E' & Hc' & Hall); [eassumption|exact HR|].
      cbn in Hc'. destruct Hc' as [->|(r' & [<-|Hin] & ->)].
      + exists (upd cs' t (CPend m o)). split; [apply Hall; left; reflexivity|].
        rewrite upd_same by assumption. constructor.
      + exists (upd cs' t (CPend m o)). split; [apply Hall; left; reflexivity|].
        apply csteps_one.
        replace cs' with (upd (upd cs' t (CPend m o)) t (CDone m o r)) at 2
          by (rewrite upd_upd; apply upd_same; assumption).
        constructor; auto. eapply nth_upd_eq; eauto.
      + exists (upd cs' t (CDone m o r')). split; [apply Hall; right; eauto|].
        rewrite upd_same by assumption. constructor.
    - (* adopt *)
      edestruct forall2_unupd as (c' & E' & Hc' & Hall); [eassumption|exact HR|].
      cbn in Hc'. subst c'.
      exists (upd cs' t (CDone m o r)). split; [apply Hall; right; eauto|].
      rewrite upd_same by assumption. constructor.
    - (* lin *)
      edestruct forall2_unupd as (c' & E' & Hc' & Hall); [eassumption|exact HR|].
      cbn in Hc'. subst c'.
      exists (upd cs' t (CPend m o)). split; [apply Hall; left; reflexivity|].
      apply csteps_one.
      replace cs' with (upd (upd cs' t (CPend m o)) t (CDone m o r)) at 2
        by (rewrite upd_upd; apply upd_same; assumption).
      constructor; auto. eapply nth_upd_eq; eauto.
    - (* ret *)
      edestruct forall2_unupd as (c' & E' & Hc' & Hall); [eassumption|exact HR|].
      cbn in Hc'. subst c'.
      exists (upd cs' t (CDone m o r)). split; [apply Hall; reflexivity|].
      apply csteps_one.
      replace cs' with (upd (upd cs' t (CDone m o r)) t (CIdle (next S m o r))) at 2
        by (rewrite upd_upd; apply upd_same; assumption).
      constructor; auto. eapply nth_upd_eq; eauto.
  Qed.

  Lemma back_steps x e x' :
    xsteps x e x' -> forall cs', Forall2 thr (snd x') cs' ->
    exists cs, Forall2 thr (snd x) cs /\ csteps (fst x, cs) e (fst x', cs').
  Proof.
    induction 1 as [x|x e1 x1 e2 x2 H1 H2 IH]; intros cs' HR.
    - exists cs'. split; auto. constructor.
    - destruct (IH _ HR) as (cs1 & HR1 & Hs1).
      destruct x as [s xs], x1 as [s1 xs1].
      destruct (back_step _ _ _ _ _ _ H1 HR1) as (cs & HR0 & Hs0).
      exists cs. split; auto. eapply csteps_app; eauto.
  Qed.

  Lemma thr_exists xs : exists cs, Forall2 thr xs cs.
  Proof.
    induction xs as [|x xs (cs & IH)]; [exists []; constructor|].
    destruct x as [m|m o l|m o r].
    - exists (CIdle m :: cs). constructor; cbn; auto.
    - exists (CPend m o :: cs). constructor; cbn; auto.
    - exists (CDone m o r :: cs). constructor; cbn; auto.
  Qed.

  Lemma xlin_lin n tr x : xsteps (xinit n) tr x -> linearizable n tr.
  Proof.
    intros H. destruct (thr_exists (snd x)) as (cs' & HR).
    destruct (back_steps _ _ _ H _ HR) as (cs & HR0 & Hs).
    cbn in *.
    assert (cs = repeat (CIdle (minit S)) n) as ->.
    { clear - HR0. revert cs HR0. induction n as [|n IH]; cbn; intros cs H; inversion H; subst; auto.
      cbn in *; subst. f_equal. auto. }
    exists (fst x, cs'). exact Hs.
  Qed.
End Canon.

Arguments CIdle {S}. Arguments CPend {S}. Arguments CDone {S}.
Arguments XIdle {S}. Arguments XPend {S}. Arguments XDone {S}.

(** Forward simulation: the standard way to prove that all histories of an
    executable model are linearizable. *)
Lemma forward_sim {C A} (S : spec) (step : C -> A -> option (C * list (event (op S) (res S))))
      (R : C -> xstate S -> Prop) c0 n :
  R c0 (xinit S n) ->
  (forall c x a c' e, R c x -> step c a = Some (c', e) ->
     exists x', xsteps S x e x' /\ R c' x') ->
  forall sched c tr, exec step c0 sched = Some (c, tr) ->
  linearizable S n tr /\ exists x, R c x.
Proof.
  intros H0 Hs sched c tr H.
  assert (G : exists x, xsteps S (xinit S n) tr x /\ R c x).
  { eapply (exec_inv step (fun c tr => exists x, xsteps S (xinit S n) tr x /\ R c x)); eauto.
    - exists (xinit S n). split; auto. constructor.
    - intros c1 t1 a c2 e (x & Hx & HR) E.
      destruct (Hs _ _ _ _ _ HR E) as (x' & Hx' & HR').
      exists x'. split; auto. eapply xsteps_app; eauto. }
  destruct G as (x & Hx & HR). split; eauto. eapply xlin_lin; eauto.
Qed.

(** The same with an abstraction function, an invariant and a guard assumed of every configuration visited. *)
Lemma forward_sim_abs_x {C A} (S : spec) (step : C -> A -> option (C * list (event (op S) (res S))))
      (absf : C -> xstate S) (Inv G : C -> Prop) c0 n :
  absf c0 = xinit S n -> Inv c0 ->
  (forall c a c' e, Inv c -> G c -> G c' -> step c a = Some (c', e) -> Inv c' /\ xsteps S (absf c) e (absf c')) ->
  forall sched c tr, along step G c0 sched -> exec step c0 sched = Some (c, tr) ->
  xsteps S (xinit S n) tr (absf c) /\ Inv c.
Proof.
  intros H0 Hi Hs sched c tr Ha H.
  eapply (exec_inv_along step G (fun c tr => xsteps S (xinit S n) tr (absf c) /\ Inv c)); eauto.
  - rewrite H0. split; auto. constructor.
  - intros c1 t1 a c2 e (Hx & HI) G1 G2 E. destruct (Hs _ _ _ _ HI G1 G2 E) as (HI' & Hx').
    split; auto. eapply xsteps_app; eauto.
Qed.

Lemma forward_sim_abs {C A} (S : spec) (step : C -> A -> option (C * list (event (op S) (res S))))
      (absf : C -> xstate S) (Inv G : C -> Prop) c0 n :
  absf c0 = xinit S n -> Inv c0 ->
  (forall c a c' e, Inv c -> G c -> G c' -> step c a = Some (c', e) -> Inv c' /\ xsteps S (absf c) e (absf c')) ->
  forall sched c tr, along step G c0 sched -> exec step c0 sched = Some (c, tr) ->
  linearizable S n tr /\ Inv c.
Proof.
  intros H0 Hi Hs sched c tr Ha H. destruct (forward_sim_abs_x S step absf Inv G c0 n H0 Hi Hs sched c tr Ha H) as (Hx & HI).
  split; auto. eapply xlin_lin; eauto.
Qed.
