(** What an invariant says about the history before each event. *)
From Coq Require Import List.
From Verif Require Import Exec.
Import ListNotations.

Lemma app_cut {A} (l1 l2 a : list A) x b : l1 ++ l2 = a ++ x :: b -> (exists b', l1 = a ++ x :: b' /\ b = b' ++ l2) \/ (exists a', a = l1 ++ a' /\ l2 = a' ++ x :: b).
Proof.
  revert a. induction l1 as [|y l1 IH]; intros a H; cbn in H; [right; exists a; auto|]. destruct a as [|z a]; cbn in H; inversion H; subst; [left; exists l1; auto|].
  destruct (IH a H2) as [(b' & -> & ->)|(a' & -> & E)]; [left; exists b'; auto|right; exists a'; auto].
Qed.

Lemma exec_events {C A E} (step : C -> A -> option (C * list E)) (P : C -> list E -> Prop) (Q : list E -> E -> Prop) c0 :
  P c0 [] -> (forall c tr a c' e, P c tr -> step c a = Some (c', e) -> P c' (tr ++ e)) ->
  (forall c tr a c' es d x b, P c tr -> step c a = Some (c', es) -> es = d ++ x :: b -> Q (tr ++ d) x) ->
  forall sched c tr a x b, exec step c0 sched = Some (c, tr) -> tr = a ++ x :: b -> Q a x.
Proof.
  intros P0 Ps Pq sched c tr a x b H E0.
  assert (G : P c tr /\ forall a x b, tr = a ++ x :: b -> Q a x).
  { revert H. apply (exec_inv step (fun c tr => P c tr /\ forall a x b, tr = a ++ x :: b -> Q a x)).
    - split; [exact P0|]. intros a1 e1 b1 E1. destruct a1; discriminate.
    - intros c1 t1 a1 c2 e1 (HP & HQ) Hs. split; [eauto|]. intros a2 e2 b2 E2. apply app_cut in E2. destruct E2 as [(b' & E2 & _)|(a' & -> & E2)]; [eauto|]. eapply Pq; eauto. }
  eapply (proj2 G). exact E0.
Qed.

(** The step that emits a given event. *)
Lemma exec_cut {C A E} (step : C -> A -> option (C * list E)) c0 sched c tr x e y : exec step c0 sched = Some (c, tr) -> tr = x ++ e :: y ->
  exists s1 a s2 c1 c2 x1 d es d' y1, exec step c0 s1 = Some (c1, x1) /\ step c1 a = Some (c2, es) /\ exec step c2 s2 = Some (c, y1) /\
    es = d ++ e :: d' /\ x = x1 ++ d /\ y = d' ++ y1.
Proof.
  revert c0 tr x. induction sched as [|a sched IH]; intros c0 tr x H E0; cbn [exec] in H.
  - inversion H; subst. destruct x; discriminate.
  - destruct (step c0 a) as [[c1 e1]|] eqn:E1; [|discriminate]. destruct (exec step c1 sched) as [[c2 e2]|] eqn:E2; [|discriminate]. injection H as <- <-.
    apply app_cut in E0. destruct E0 as [(b' & -> & ->)|(a' & -> & E0)].
    + exists [], a, sched, c0, c1, [], x, (x ++ e :: b'), b', e2. repeat split; auto.
    + destruct (IH c1 e2 a' E2 E0) as (s1 & a1 & s2 & c3 & c4 & x1 & d & es & d' & y1 & H1 & H2 & H3 & H4 & H5 & H6).
      exists (a :: s1), a1, s2, c3, c4, (e1 ++ x1), d, es, d', y1. repeat split; auto.
      * cbn [exec]. rewrite E1, H1. reflexivity.
      * rewrite H5, app_assoc. reflexivity.
Qed.
