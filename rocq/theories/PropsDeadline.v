(** Property theorems: one overall deadline for duration-based predicate waits (C30). *)
From Coq Require Import List Bool ZArith Lia.
From Verif Require Import DeadlineModel.
Import ListNotations.
Local Open Scope Z_scope.

(** POSIX and Windows: every inner wait, whatever wakes occurred before, is asked to time out at the time of the call plus the
    duration - the same as for wait_until(now() + rel). *)
Theorem C30_single_deadline : forall i t0 rel env ws r, i <> Generic -> wait_for_pred i t0 rel env = (ws, r) ->
  Forall (fun w => w_deadline w = t0 + rel) ws.
Proof.
  intros i t0 rel env ws r Hi. unfold wait_for_pred. generalize t0 at 2 as now. revert ws r.
  induction env as [|tn env IH]; intros ws r now H; cbn [loop] in H; [inversion H; constructor|].
  destruct (pred_val tn); [inversion H; constructor|].
  assert (Hd : forall s, deadline i t0 rel s = t0 + rel) by (intros s; destruct i; try reflexivity; congruence).
  destruct (wait_res tn).
  - destruct (loop i t0 rel (wait_end tn) env) as [ws1 r1] eqn:E. inversion H; subst. constructor; [apply Hd|]. eapply IH; eassumption.
  - destruct env; inversion H; subst; repeat constructor; apply Hd.
Qed.
Print Assumptions C30_single_deadline.

(** The result is the value of the predicate at its last evaluation, made after the last wait; all earlier evaluations were false. *)
Theorem C30_result : forall i t0 rel env ws v t, wait_for_pred i t0 rel env = (ws, Some (v, t)) ->
  exists tn, nth_error env (length ws) = Some tn /\ v = pred_val tn /\ t = last (map w_end ws) t0 + pred_dur tn /\
  Forall (fun tn => pred_val tn = false) (firstn (length ws) env) /\
  (v = false -> exists w, last (map Some ws) None = Some w /\ w_res w = Timeout).
Proof.
  intros i t0 rel env ws v t. unfold wait_for_pred.
  enough (G : forall now, loop i t0 rel now env = (ws, Some (v, t)) -> exists tn, nth_error env (length ws) = Some tn /\ v = pred_val tn /\
    t = last (map w_end ws) now + pred_dur tn /\ Forall (fun tn => pred_val tn = false) (firstn (length ws) env) /\
    (v = false -> exists w, last (map Some ws) None = Some w /\ w_res w = Timeout)) by apply G.
  revert ws. induction env as [|tn env IH]; intros ws now H; cbn [loop] in H; [discriminate|].
  destruct (pred_val tn) eqn:Ep.
  - inversion H; subst. exists tn. cbn. repeat split; auto. discriminate.
  - destruct (wait_res tn) eqn:Ew.
    + destruct (loop i t0 rel (wait_end tn) env) as [ws1 r1] eqn:E. inversion H; subst.
      destruct (IH _ _ E) as (tn' & A & B & C & D & F). exists tn'. cbn [length nth_error firstn map]. repeat split; auto.
      * rewrite C. f_equal. cbn [w_end]. destruct (map w_end ws1) as [|z l]; [reflexivity|]. cbn [last]. clear. revert z. induction l as [|y l IH]; intros z; [reflexivity|]. cbn [last] in *. destruct l; [reflexivity|apply (IH y)].
      * intros Hv. destruct (F Hv) as (w & L & R). exists w. split; [|exact R]. destruct ws1; [discriminate L|exact L].
    + destruct env as [|tn' env']; inversion H; subst. exists tn'. cbn. repeat split; auto. intros _. eexists. split; [reflexivity|reflexivity].
Qed.
Print Assumptions C30_result.

(** Hence, with a prompt environment, the call returns by its deadline plus two predicate evaluations and one wake-up
    latency - independently of the number of notifications and spurious wake-ups. *)
Theorem C30_bounded : forall i t0 rel env ws v t p l, i <> Generic -> 0 <= rel -> 0 <= l ->
  wait_for_pred i t0 rel env = (ws, Some (v, t)) ->
  Forall (prompt_turn p) env -> Forall (prompt_wait l) ws ->
  t <= t0 + rel + 2 * (p + l).
Proof.
  intros i t0 rel env ws v t p l Hi Hr Hl. unfold wait_for_pred.
  assert (Hd : forall s, deadline i t0 rel s = t0 + rel) by (intros s; destruct i; try reflexivity; congruence).
  assert (G : forall env now ws, now <= t0 + rel + l -> loop i t0 rel now env = (ws, Some (v, t)) ->
    Forall (prompt_turn p) env -> Forall (prompt_wait l) ws -> t <= t0 + rel + 2 * (p + l)).
  { clear env ws. induction env as [|tn env IH]; intros now ws Hn H Ht Hw; cbn [loop] in H; [discriminate|].
    inversion Ht as [|? ? Ht1 Ht2]; subst. unfold prompt_turn in Ht1.
    destruct (pred_val tn); [inversion H; subst; lia|]. destruct (wait_res tn) eqn:Er.
    - destruct (loop i t0 rel (wait_end tn) env) as [ws1 r1] eqn:E. inversion H; subst.
      inversion Hw as [|? ? Hw1 Hw2]; subst. unfold prompt_wait in Hw1. cbn in Hw1. rewrite Hd in Hw1.
      destruct Hw1 as (Hw1 & Hw3). destruct (Z_lt_dec (t0 + rel) (now + pred_dur tn)) as [Hlt|Hge]; [specialize (Hw3 Hlt); discriminate|].
      apply (IH (wait_end tn) ws1); auto. lia.
    - destruct env as [|tn' env]; [discriminate|]. inversion H; subst. inversion Hw as [|? ? Hw1 Hw2]; subst.
      unfold prompt_wait in Hw1. cbn in Hw1. rewrite Hd in Hw1. destruct Hw1 as (Hw1 & _). inversion Ht2 as [|? ? Ht3 _]; subst. unfold prompt_turn in Ht3. lia. }
  intros H. apply (G env t0 ws); [lia|exact H].
Qed.
Print Assumptions C30_bounded.

Example C30_example :
  wait_for_pred Posix 100 50 [Turn 1 false 120 NoTimeout; Turn 2 false 149 NoTimeout; Turn 0 false 151 Timeout; Turn 1 false 0 NoTimeout] =
    ([Inner 101 150 120 NoTimeout; Inner 122 150 149 NoTimeout; Inner 149 150 151 Timeout], Some (false, 152)).
Proof. reflexivity. Qed.

(** A woken waiter of the generic implementation: [n] notifications, one time unit before each timeout. *)
Fixpoint teased (rel now : Z) (n : nat) : list turn :=
  match n with O => [] | S n' => Turn 0 false (now + rel - 1) NoTimeout :: teased rel (now + rel - 1) n' end.

(** Generic condition_variable_any: for every duration of at least 2 units and every bound [b], there is an environment that is
    perfectly prompt (no latency, instantaneous predicate) in which the call has not returned [b] units after it was made. *)
Theorem C30_generic_refuted : exists i, forall t0 rel b, 2 <= rel -> exists env ws,
  wait_for_pred i t0 rel env = (ws, None) /\ Forall (prompt_turn 0) env /\ Forall (prompt_wait 0) ws /\
  exists w, In w ws /\ w_res w = NoTimeout /\ w_end w >= t0 + b.
Proof.
  exists Generic. intros t0 rel b Hr.
  assert (G : forall n now, exists ws, loop Generic t0 rel now (teased rel now n) = (ws, None) /\
    Forall (prompt_turn 0) (teased rel now n) /\ Forall (prompt_wait 0) ws /\
    (n <> O -> exists w, In w ws /\ w_res w = NoTimeout /\ w_end w = now + Z.of_nat n * (rel - 1))).
  { induction n as [|n IH]; intros now; cbn [teased loop]; [exists []; repeat split; auto; congruence|].
    cbn [pred_val wait_res pred_dur wait_end]. destruct (IH (now + rel - 1)) as (ws & E & F1 & F2 & F3). rewrite E. eexists. split; [reflexivity|].
    split; [constructor; [unfold prompt_turn; cbn; lia|exact F1]|]. split.
    - constructor; [|exact F2]. unfold prompt_wait, deadline. cbn. split; [lia|]. intros; lia.
    - intros _. destruct n as [|n].
      + eexists. split; [left; reflexivity|]. cbn [w_res w_end]. split; [reflexivity|]. change (Z.of_nat 1) with 1. lia.
      + destruct F3 as (w & W1 & W2 & W3); [discriminate|]. exists w. split; [right; exact W1|]. split; [exact W2|]. rewrite W3. lia. }
  destruct (G (S (Z.to_nat b)) t0) as (ws & E & F1 & F2 & F3). exists (teased rel t0 (S (Z.to_nat b))), ws.
  split; [exact E|]. split; [exact F1|]. split; [exact F2|]. destruct F3 as (w & W1 & W2 & W3); [discriminate|].
  exists w. split; [exact W1|]. split; [exact W2|]. rewrite W3. nia.
Qed.
Print Assumptions C30_generic_refuted.
