(** Executable refutation of linearizability: all states the reference system can
    be in after a history, by exhaustive search.  Used to show that concrete
    histories are not linearizable.  Support library; nothing here models code of /repo. *)
From Coq Require Import List Bool Arith Lia.
From Verif Require Import ListSum Exec Lin.
Import ListNotations.

Section Check.
  Variable SP : spec.
  (** All outcomes of an operation. *)
  Variable outs : nat -> op SP -> ost SP -> list (res SP * ost SP).
  Hypothesis outs_ok : forall t o s r s', otrans SP t o s r s' -> In (r, s') (outs t o s).
  Variable op_eqb : op SP -> op SP -> bool.
  Variable res_eqb : res SP -> res SP -> bool.
  Hypothesis op_eqb_refl : forall o, op_eqb o o = true.
  Hypothesis res_eqb_refl : forall r, res_eqb r r = true.

  Fixpoint pends (k : nat) (ths : list (cth SP)) : nat :=
    match ths with
    | [] => 0
    | CPend _ _ :: l => S (pends k l)
    | _ :: l => pends k l
    end.

  (* states after one linearization step of thread t *)
  Definition lin1 (x : cstate SP) (t : nat) : list (cstate SP) :=
    match nth_error (snd x) t with
    | Some (CPend m o) => map (fun q => (snd q, upd (snd x) t (CDone m o (fst q)))) (outs t o (fst x))
    | _ => []
    end.
  Definition lins (x : cstate SP) : list (cstate SP) := flat_map (lin1 x) (seq 0 (length (snd x))).
  Fixpoint clos (k : nat) (x : cstate SP) : list (cstate SP) :=
    match k with
    | O => [x]
    | S k' => x :: flat_map (clos k') (lins x)
    end.

  Definition visible (e : event (op SP) (res SP)) (x : cstate SP) : list (cstate SP) :=
    match e with
    | Call t o =>
        match nth_error (snd x) t with
        | Some (CIdle m) => if pre SP m o then [(fst x, upd (snd x) t (CPend m o))] else []
        | _ => []
        end
    | Ret t o r =>
        match nth_error (snd x) t with
        | Some (CDone m o' r') =>
            if op_eqb o o' && res_eqb r r' then [(fst x, upd (snd x) t (CIdle (next SP m o r)))] else []
        | _ => []
        end
    end.

  Definition closs (x : cstate SP) : list (cstate SP) := clos (length (snd x)) x.
  Fixpoint after (tr : list (event (op SP) (res SP))) (xs : list (cstate SP)) : list (cstate SP) :=
    match tr with
    | [] => xs
    | e :: tr' => after tr' (flat_map closs (flat_map (visible e) xs))
    end.
  Definition possible (n : nat) (tr : list (event (op SP) (res SP))) : bool :=
    match after tr (closs (cinit SP n)) with [] => false | _ => true end.

  (* number of pending threads *)
  Definition np (x : cstate SP) : nat := pends 0 (snd x).

  Lemma np_le x : np x <= length (snd x).
  Proof. unfold np. induction (snd x) as [|[] l IH]; cbn; lia. Qed.

  Lemma pends_upd l t m o m' o' r' :
    nth_error l t = Some (CPend m o) -> S (pends 0 (upd l t (CDone m' o' r'))) = pends 0 l.
  Proof.
    revert t; induction l as [|c l IH]; intros [|t] H; cbn in *; try discriminate.
    - inversion H; subst. reflexivity.
    - destruct c; rewrite <- (IH _ H); reflexivity.
  Qed.

  Lemma clos_refl k x : In x (clos k x).
  Proof. destruct k; cbn; auto. Qed.

  (* silent steps *)
  Inductive sil : cstate SP -> cstate SP -> Prop :=
  | sil_refl x : sil x x
  | sil_step x y z : cstep SP x [] y -> sil y z -> sil x z.

  Lemma sil_clos x y : sil x y -> forall k, np x <= k -> In y (clos k x).
  Proof.
    induction 1 as [x|x y z H1 H2 IH]; intros k Hk; [apply clos_refl|].
    inversion H1 as [|s ths t m o r s' Hn Ht|]; subst.
    pose proof (pends_upd _ _ _ _ m o r Hn) as Hp.
    unfold np in *. cbn [snd fst] in *.
    destruct k as [|k]; [lia|]. cbn [clos]. right. apply in_flat_map.
    exists (s', upd ths t (CDone m o r)). split.
    - unfold lins. apply in_flat_map. exists t. split.
      + apply in_seq. cbn [snd]. split; [lia|]. cbn. apply nth_error_Some. congruence.
      + unfold lin1. cbn [snd fst]. rewrite Hn. apply in_map_iff. exists (r, s'). split; auto.
    - apply IH. cbn [snd]. lia.
  Qed.

  Lemma sil_trans x y z : sil x y -> sil y z -> sil x z.
  Proof. induction 1; auto. intros Hz. econstructor; eauto. Qed.

  Lemma csteps_split x tr z : csteps SP x tr z ->
    match tr with
    | [] => sil x z
    | e :: tr' => exists y y', sil x y /\ cstep SP y [e] y' /\ csteps SP y' tr' z
    end.
  Proof.
    induction 1 as [x|x e1 y e2 z H1 H2 IH]; [apply sil_refl|].
    inversion H1; subst; cbn [app].
    - eexists. eexists. split; [apply sil_refl|]. eauto.
    - destruct e2 as [|e e2].
      + econstructor; eauto.
      + destruct IH as (y & y' & Hs & Hc & Hr). exists y, y'. split; auto. econstructor; eauto.
    - eexists. eexists. split; [apply sil_refl|]. eauto.
  Qed.

  Lemma sil_closs x y : sil x y -> In y (closs x).
  Proof. intros H. apply sil_clos; auto. apply np_le. Qed.

  Lemma after_complete tr : forall x z xs,
    csteps SP x tr z -> (forall y, sil x y -> In y xs) -> exists z', In z' (after tr xs).
  Proof.
    induction tr as [|e tr IH]; intros x z xs H Hx; apply csteps_split in H.
    - cbn. exists z. auto.
    - destruct H as (y & y' & Hs & Hc & Hr). cbn [after].
      apply (IH y' z); auto. intros w Hw. apply in_flat_map. exists y'. split; [|apply sil_closs; auto].
      apply in_flat_map. exists y. split; [auto|].
      inversion Hc; subst; cbn [visible fst snd].
      + match goal with H : nth_error _ _ = _, H' : pre _ _ _ = true |- _ => rewrite H, H' end. left; reflexivity.
      + match goal with H : nth_error _ _ = _ |- _ => rewrite H end. rewrite op_eqb_refl, res_eqb_refl. left; reflexivity.
  Qed.

  Lemma not_linearizable n tr : possible n tr = false -> ~ linearizable SP n tr.
  Proof.
    intros Hp (z & Hz). unfold possible in Hp.
    destruct (after_complete _ _ _ (closs (cinit SP n)) Hz) as (z' & Hin).
    { intros y Hy. apply sil_closs; auto. }
    destruct (after tr (closs (cinit SP n))); [destruct Hin|discriminate].
  Qed.
End Check.
