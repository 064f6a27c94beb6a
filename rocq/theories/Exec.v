(** Executable interleaving semantics shared by all models.

    A model gives [step : C -> A -> option (C * list E)]: from configuration [C],
    scheduler action [A] (which thread moves, and how each nondeterministic
    choice - spurious failure, timeout, which thread the kernel wakes - is
    resolved) leads to a new configuration and emits API events [E], or is not
    possible ([None]).  A schedule is a list of actions of arbitrary length.
    Support library; nothing here models code of /repo. *)
From Coq Require Import List Bool.
Import ListNotations.

Section Exec.
  Context {C A E : Type}.
  Variable step : C -> A -> option (C * list E).

  Fixpoint exec (c : C) (sched : list A) : option (C * list E) :=
    match sched with
    | [] => Some (c, [])
    | a :: sched' =>
        match step c a with
        | None => None
        | Some (c1, e1) =>
            match exec c1 sched' with
            | None => None
            | Some (c2, e2) => Some (c2, e1 ++ e2)
            end
        end
    end.

  Lemma exec_app c s1 s2 :
    exec c (s1 ++ s2) =
    match exec c s1 with
    | None => None
    | Some (c1, e1) =>
        match exec c1 s2 with
        | None => None
        | Some (c2, e2) => Some (c2, e1 ++ e2)
        end
    end.
  Proof.
    revert c; induction s1 as [|a s1 IH]; intros c; cbn [app exec].
    - destruct (exec c s2) as [[c2 e2]|]; reflexivity.
    - destruct (step c a) as [[c1 e1]|]; [|reflexivity].
      rewrite IH. destruct (exec c1 s1) as [[c2 e2]|]; [|reflexivity].
      destruct (exec c2 s2) as [[c3 e3]|]; [|reflexivity].
      rewrite app_assoc. reflexivity.
  Qed.

  (** Invariants over configuration and emitted history, by induction on the schedule. *)
  Lemma exec_inv (P : C -> list E -> Prop) c0 sched c tr :
    P c0 [] ->
    (forall c1 t1 a c2 e, P c1 t1 -> step c1 a = Some (c2, e) -> P c2 (t1 ++ e)) ->
    exec c0 sched = Some (c, tr) -> P c tr.
  Proof.
    intros H0 Hs.
    enough (G : forall sched c1 t1 c2 t2, P c1 t1 -> exec c1 sched = Some (c2, t2) -> P c2 (t1 ++ t2)).
    { intros H. change tr with ([] ++ tr). eapply G; eauto. }
    clear - Hs. induction sched as [|a sched IH]; intros c1 t1 c2 t2 HP H; cbn [exec] in H.
    - inversion H; subst. rewrite app_nil_r. assumption.
    - destruct (step c1 a) as [[c3 e3]|] eqn:E1; [|discriminate].
      destruct (exec c3 sched) as [[c4 e4]|] eqn:E2; [|discriminate].
      inversion H; subst. rewrite app_assoc. eapply IH; eauto.
  Qed.

  Lemma exec_inv_state (P : C -> Prop) c0 sched c tr :
    P c0 ->
    (forall c1 a c2 e, P c1 -> step c1 a = Some (c2, e) -> P c2) ->
    exec c0 sched = Some (c, tr) -> P c.
  Proof.
    intros H0 Hs H. eapply (exec_inv (fun c _ => P c)); eauto.
  Qed.

  (** The same for schedules all of whose actions satisfy [Q]. *)
  Lemma exec_inv_acts (Q : A -> Prop) (P : C -> list E -> Prop) c0 sched c tr :
    P c0 [] ->
    (forall c1 t1 a c2 e, P c1 t1 -> Q a -> step c1 a = Some (c2, e) -> P c2 (t1 ++ e)) ->
    Forall Q sched -> exec c0 sched = Some (c, tr) -> P c tr.
  Proof.
    intros H0 Hs.
    enough (G : forall sched c1 t1 c2 t2, P c1 t1 -> Forall Q sched -> exec c1 sched = Some (c2, t2) -> P c2 (t1 ++ t2)).
    { intros HQ H. change tr with ([] ++ tr). eapply G; eauto. }
    clear - Hs. induction sched as [|a sched IH]; intros c1 t1 c2 t2 HP HQ H; cbn [exec] in H.
    - inversion H; subst. rewrite app_nil_r. assumption.
    - destruct (step c1 a) as [[c3 e3]|] eqn:E1; [|discriminate].
      destruct (exec c3 sched) as [[c4 e4]|] eqn:E2; [|discriminate].
      inversion HQ; subst. inversion H; subst. rewrite app_assoc. eapply IH; eauto.
  Qed.

  (** Every prefix of a run is a run. *)
  Lemma exec_prefix c s1 s2 c2 tr :
    exec c (s1 ++ s2) = Some (c2, tr) ->
    exists c1 t1 t2, exec c s1 = Some (c1, t1) /\ exec c1 s2 = Some (c2, t2) /\ tr = t1 ++ t2.
  Proof.
    rewrite exec_app. destruct (exec c s1) as [[c1 t1]|]; [|discriminate].
    destruct (exec c1 s2) as [[c3 t3]|] eqn:E2; [|discriminate].
    intros H; inversion H; subst. eauto 6.
  Qed.

  (** [along G c0 sched]: every configuration visited satisfies [G] (a bound on the load, say). *)
  Definition along (G : C -> Prop) (c0 : C) (sched : list A) : Prop :=
    forall s1 s2 c tr, sched = s1 ++ s2 -> exec c0 s1 = Some (c, tr) -> G c.

  Lemma exec_inv_along (G : C -> Prop) (P : C -> list E -> Prop) c0 sched c tr :
    P c0 [] ->
    (forall c1 t1 a c2 e, P c1 t1 -> G c1 -> G c2 -> step c1 a = Some (c2, e) -> P c2 (t1 ++ e)) ->
    along G c0 sched -> exec c0 sched = Some (c, tr) -> P c tr.
  Proof.
    intros H0 Hs.
    enough (Q : forall sched c1 t1 c2 t2, P c1 t1 -> along G c1 sched ->
                  exec c1 sched = Some (c2, t2) -> P c2 (t1 ++ t2)).
    { intros Ha H. change tr with ([] ++ tr). eapply Q; eauto. }
    clear - Hs. induction sched as [|a sched IH]; intros c1 t1 c2 t2 HP Ha H; cbn [exec] in H.
    - inversion H; subst. rewrite app_nil_r. assumption.
    - destruct (step c1 a) as [[c3 e3]|] eqn:E1; [|discriminate].
      destruct (exec c3 sched) as [[c4 e4]|] eqn:E2; [|discriminate].
      inversion H; subst. rewrite app_assoc.
      assert (G1 : G c1) by (apply (Ha [] (a :: sched) c1 []); reflexivity).
      assert (Ha3 : along G c3 sched).
      { intros s1 s2 c tr0 -> Hx. apply (Ha (a :: s1) s2 c (e3 ++ tr0)); [reflexivity|].
        cbn [exec]. rewrite E1, Hx. reflexivity. }
      assert (G3 : G c3) by (apply (Ha3 [] sched c3 []); reflexivity).
      eapply IH; eauto.
  Qed.

  Lemma along_all (G : C -> Prop) c0 sched :
    G c0 -> (forall c1 a c2 e, G c1 -> step c1 a = Some (c2, e) -> G c2) -> along G c0 sched.
  Proof. intros H0 Hs s1 s2 c tr _ H. eapply exec_inv_state; eauto. Qed.

  (** Executable check of [along] for concrete schedules. *)
  Fixpoint alongb (G : C -> bool) (c : C) (sched : list A) : bool :=
    G c && match sched with
           | [] => true
           | a :: sched' => match step c a with Some (c1, _) => alongb G c1 sched' | None => true end
           end.
  Lemma alongb_ok (G : C -> bool) (P : C -> Prop) c sched :
    (forall c, G c = true -> P c) -> alongb G c sched = true -> along P c sched.
  Proof.
    intros HP. revert c. induction sched as [|a sched IH]; intros c H s1 s2 c' tr Eq Hx; cbn [alongb] in H; apply andb_prop in H; destruct H as (H1 & H2).
    - destruct s1; [|discriminate]. cbn in Hx. inversion Hx; subst. auto.
    - destruct s1 as [|a' s1]; [cbn in Hx; inversion Hx; subst; auto|].
      cbn [app] in Eq. inversion Eq; subst. cbn [exec] in Hx.
      destruct (step c a') as [[c1 e1]|]; [|discriminate].
      destruct (exec c1 s1) as [[c2 e2]|] eqn:E2; [|discriminate]. inversion Hx; subst. eapply (IH c1 H2); eauto.
  Qed.

  Definition reach (c0 c : C) : Prop := exists sched tr, exec c0 sched = Some (c, tr).

  Lemma reach_inv (P : C -> Prop) c0 c :
    P c0 -> (forall c1 a c2 e, P c1 -> step c1 a = Some (c2, e) -> P c2) ->
    reach c0 c -> P c.
  Proof. intros H0 Hs (sched & tr & H). eapply exec_inv_state; eauto. Qed.

  Lemma reach_refl c : reach c c.
  Proof. exists [], []. reflexivity. Qed.

  Lemma reach_step c0 c a c' e : reach c0 c -> step c a = Some (c', e) -> reach c0 c'.
  Proof.
    intros (sched & tr & H) Hs. exists (sched ++ [a]), (tr ++ e).
    rewrite exec_app, H. cbn. rewrite Hs, app_nil_r. reflexivity.
  Qed.
End Exec.
