(** Counting the steps a thread needs: a potential bounds the number of its own steps by its initial value plus the number of disturbances.
    Support library; nothing here models code of /repo. *)
From Coq Require Import List Bool Arith Lia.
From Verif Require Import Exec.
Import ListNotations.

(** Number of actions in [sched] with [f]. Proof or specification device; no counterpart in /repo. *)
Fixpoint count {A} (f : A -> bool) (sched : list A) : nat :=
  match sched with [] => 0 | a :: sched' => (if f a then 1 else 0) + count f sched' end.

Section Progress.
  Context {C A E : Type}.
  Variable step : C -> A -> option (C * list E).

  (** Number of steps along the execution of [sched] from [c] with [f before action after]. *)
  Fixpoint count_along (f : C -> A -> C -> bool) (c : C) (sched : list A) : nat :=
    match sched with
    | [] => 0
    | a :: sched' => match step c a with Some (c', _) => (if f c a c' then 1 else 0) + count_along f c' sched' | None => 0 end
    end.

  (** [pot c = Some k]: at most [k] own steps are left if nothing disturbs. *)
  Lemma bounded_steps (own ok : A -> bool) (noise : C -> A -> C -> bool) (pot : C -> option nat) :
    (forall c a c' e k, step c a = Some (c', e) -> ok a = true -> pot c = Some k ->
       exists k', pot c' = Some k' /\ k' + (if own a then 1 else 0) <= k + (if noise c a c' then 1 else 0)) ->
    forall sched c c' e k, exec step c sched = Some (c', e) -> forallb ok sched = true -> pot c = Some k ->
      count own sched <= k + count_along noise c sched.
  Proof.
    intros Hs. induction sched as [|a sched IH]; intros c c' e k H Hok Hp; cbn [exec count count_along forallb] in *; [lia|].
    apply andb_prop in Hok as (Ha & Hok). destruct (step c a) as [[c1 e1]|] eqn:E1; [|discriminate].
    destruct (exec step c1 sched) as [[c2 e2]|] eqn:E2; [|discriminate].
    destruct (Hs _ _ _ _ _ E1 Ha Hp) as (k' & Hp' & Hk). specialize (IH _ _ _ _ E2 Hok Hp'). lia.
  Qed.
End Progress.
