(** Proofs of progress under fair scheduling: the futex-based manual_reset_event. *)
From Coq Require Import List Bool Arith ZArith Lia.
From Verif Require Import ListSum Exec Lin Word FlagSpec ManualFutexModel ManualFutexProof Fair.
Import ListNotations.
Local Open Scope Z_scope.

(** A step of thread [t] inside manual_reset_event_futex.hpp 56-203, whatever the environment chooses. *)
Definition man_acts (a : fact) (t : nat) : Prop := match a with FRun u _ => u = t | FCall _ _ => False end.
(** Thread [t] has a next access or system call that does not block (a thread asleep in FUTEX_WAIT has none, manual_reset_event_futex.hpp 77, 127, 166). *)
Definition man_enabled (c : fcfg) (t : nat) : Prop := exists c' e, man_step c (FRun t FNorm) = Some (c', e).

Definition man_rank (p : fpc) : nat :=
  match p with
  | FRest => 0 | FDone _ _ => 1 | FBcast | FAnd | FSub _ | FLoad _ _ => 2
  | FOr | FReload _ | FSubT | FAdd _ => 3 | FFutex _ _ | FSleep _ => 4
  end%nat.

Definition man_pc (c : fcfg) (t : nat) : fpc := match nth_error (snd c) t with Some p => p | None => FRest end.

Lemma nth_upd_lt {X} (l : list X) t x : (t < length l)%nat -> nth_error (upd l t x) t = Some x.
Proof. intros H. apply nth_error_Some in H. destruct (nth_error l t) eqn:Et; [|congruence]. eapply nth_upd_eq; eauto. Qed.

Lemma land1 s : Z.land s mpost_bit = s mod 2.
Proof. unfold mpost_bit. change 1 with (Z.ones 1). rewrite Z.land_ones by lia. reflexivity. Qed.

(** One step, seen from thread [t]. *)
Lemma man_progress c a c' e t p : FI c -> fst c mod 2 = 1 -> fst c' mod 2 = 1 -> man_step c a = Some (c', e) ->
  nth_error (snd c) t = Some p -> p <> FRest -> (forall k, p <> FSleep k) ->
  exists p', nth_error (snd c') t = Some p' /\
    (p' = FRest \/ (forall k, p' <> FSleep k)) /\ (man_rank p' <= man_rank p)%nat /\ (man_acts a t -> (man_rank p' < man_rank p)%nat).
Proof.
  destruct c as [s ths]. intros HI Hs Hs' H Et Hr Hsl. pose proof HI as (b & Hb & Es & _ & Hloc). cbn [fst snd] in *.
  destruct (Hloc _ _ Et) as (Hl & Hl2).
  destruct a as [u o|u ch]; cbn [man_step] in H; destruct (nth_error ths u) as [q|] eqn:Eu; try discriminate.
  - destruct q; try discriminate. inversion H; subst. cbn [snd]. assert (u <> t) by congruence.
    exists p. rewrite nth_upd_neq by auto. cbn [man_acts]. repeat split; auto. contradiction.
  - destruct (Nat.eq_dec u t) as [->|Hne].
    + rewrite Et in Eu. inversion Eu; subst q; clear Eu. cbn [man_acts].
      assert (G : forall s2 l p2, c' = (s2, upd l t p2) -> length l = length ths -> (p2 = FRest \/ (forall k, p2 <> FSleep k)) -> (man_rank p2 < man_rank p)%nat ->
                  exists p', nth_error (snd c') t = Some p' /\ (p' = FRest \/ (forall k, p' <> FSleep k)) /\ (man_rank p' <= man_rank p)%nat /\ (t = t -> (man_rank p' < man_rank p)%nat)).
      { intros s2 l p2 -> Hlen Hp Hm. exists p2. cbn [snd]. rewrite nth_upd_lt.
        - repeat split; auto; lia.
        - rewrite Hlen. apply nth_error_Some. rewrite Et. discriminate. }
      destruct p; cbn [man_run] in H; try (exfalso; congruence).
      * inversion H; subst c' e. eapply G; [reflexivity|auto|right; intros; destruct (_ && _); discriminate|destruct (_ && _); cbn; lia].
      * inversion H; subst c' e. eapply G; [reflexivity|apply map_length|right; discriminate|cbn; lia].
      * inversion H; subst c' e. eapply G; [reflexivity|auto|right; discriminate|cbn; lia].
      * rewrite land1, Hs in H. cbn [Z.eqb] in H. inversion H; subst c' e. eapply G; [reflexivity|auto|right; discriminate|cbn; lia].
      * inversion H; subst c' e. cbn [fst] in Hs'. unfold man_test in *. rewrite land1, Hs' in *. cbn [Z.eqb]. eapply G; [reflexivity|auto|right; discriminate|cbn; lia].
      * assert (Hne : (s =? e0) = false). { apply Z.eqb_neq. intros ->. cbn [floc] in Hl. lia. }
        rewrite Hne in H. destruct k, ch; inversion H; subst c' e; (eapply G; [reflexivity|auto|right; discriminate|cbn; lia]).
      * unfold man_test in H. rewrite land1, Hs in H. cbn [Z.eqb] in H. inversion H; subst c' e. eapply G; [reflexivity|auto|right; discriminate|cbn; lia].
      * inversion H; subst c' e. eapply G; [reflexivity|auto|right; discriminate|cbn; lia].
      * inversion H; subst c' e. eapply G; [reflexivity|auto|right; intros; destruct ch; discriminate|destruct ch; cbn; lia].
      * inversion H; subst c' e. eapply G; [reflexivity|auto|left; reflexivity|cbn; lia].
    + assert (G : forall p2, nth_error (snd c') t = Some p2 -> p2 = p \/ p2 = wake_all p -> exists p', nth_error (snd c') t = Some p' /\ (p' = FRest \/ (forall k, p' <> FSleep k)) /\ (man_rank p' <= man_rank p)%nat /\ (man_acts (FRun u ch) t -> (man_rank p' < man_rank p)%nat)).
      { intros p2 E2 Hp. assert (p2 = p) as -> by (destruct Hp as [->| ->]; auto; destruct p; cbn [wake_all]; auto; exfalso; eapply Hsl; reflexivity).
        exists p. cbn [man_acts]. repeat split; auto. congruence. }
      destruct q; try (destruct (man_run s _ ch) as [[s1 p1]|]; [|discriminate]); inversion H; subst c' e;
        (eapply G; [cbn [snd]; rewrite nth_upd_neq by auto; try rewrite nth_error_map, Et; cbn [option_map]; try reflexivity; exact Et|auto]).
Qed.

Lemma man_live_enabled c t p : nth_error (snd c) t = Some p -> p <> FRest -> (forall k, p <> FSleep k) -> man_enabled c t.
Proof.
  destruct c as [s ths]. cbn [snd]. intros Et Hr Hs. unfold man_enabled. cbn [man_step]. rewrite Et.
  destruct p; cbn [man_run]; try (exfalso; congruence); eauto.
  - destruct (_ =? 0); [destruct k|]; eauto.
  - destruct k; destruct (s =? e); eauto.
Qed.

Section Man.
  Variables (n : nat) (cf : nat -> fcfg) (ac : nat -> option fact) (i0 : nat).
  Hypothesis Hn : Z.of_nat n < 2 ^ 31.
  Hypothesis Hinf : infinite man_step (man_init n) cf ac.
  Hypothesis Hfair : fair man_acts man_enabled cf ac.
  Hypothesis Hset : forall i, (i0 <= i)%nat -> fst (cf i) mod 2 = 1.

  Let R (c : fcfg) := FI c /\ fst c mod 2 = 1.
  Lemma man_R i : (i0 <= i)%nat -> R (cf i).
  Proof.
    intros Hi. split; [|apply Hset; exact Hi]. destruct (inf_reach _ _ _ _ Hinf i) as (sched & tr & H).
    exact (proj2 (man_lin _ _ _ _ Hn H)).
  Qed.

  Lemma man_awake i t p : (i0 <= i)%nat -> nth_error (snd (cf i)) t = Some p -> (forall k, p <> FSleep k) ->
    exists j, (i <= j)%nat /\ nth_error (snd (cf j)) t = Some FRest.
  Proof.
    intros Hi Et Hs.
    assert (D : p = FRest \/ p <> FRest) by (destruct p; auto; right; discriminate).
    destruct D as [->|Hr]; [eauto|].
    apply (countdown man_step man_acts man_enabled cf ac R (fun c => nth_error (snd c) t = Some FRest)
             (fun c => exists p, nth_error (snd c) t = Some p /\ p <> FRest /\ forall k, p <> FSleep k)
             (fun c => man_rank (man_pc c t)) t i0); eauto using man_R.
    - exact (proj2 Hinf).
    - intros c _ (q & Eq & H1 & H2). eapply man_live_enabled; eauto.
    - intros c a c' e (HI & Hc) (_ & Hc') (q & Eq & H1 & H2) Hst.
      destruct (man_progress c a c' e t q HI Hc Hc' Hst Eq H1 H2) as (q' & Eq' & H3 & H4 & H5).
      destruct H3 as [->|H3]; [left; exact Eq'|].
      assert (D : q' = FRest \/ q' <> FRest) by (destruct q'; auto; right; discriminate).
      destruct D as [->|Hr']; [left; exact Eq'|]. right. unfold man_pc. rewrite Eq, Eq'. split; [eauto|auto].
  Qed.

  Lemma man_asleep i t k : (i0 <= i)%nat -> nth_error (snd (cf i)) t = Some (FSleep k) ->
    exists j p, (i <= j)%nat /\ nth_error (snd (cf j)) t = Some p /\ forall k, p <> FSleep k.
  Proof.
    intros Hi Et. destruct (inf_reach _ _ _ _ Hinf i) as (sched & tr & H). destruct (cf i) as [s ths] eqn:Ec. cbn [snd] in Et.
    destruct (man_wake n sched s ths tr t k Hn H) as (u & Eu); [rewrite <- (Hset i Hi), Ec; reflexivity|exact Et|].
    destruct (countdown man_step man_acts man_enabled cf ac R (fun c => exists p, nth_error (snd c) t = Some p /\ forall k, p <> FSleep k)
             (fun c => nth_error (snd c) t = Some (FSleep k) /\ nth_error (snd c) u = Some FBcast)
             (fun c => match man_pc c u with FBcast => 1%nat | _ => 0%nat end) u i0) with (i := i) as (j & Hj & p & Hp); eauto using man_R.
    - exact (proj2 Hinf).
    - intros c _ (_ & E). eapply man_live_enabled; [exact E|discriminate|discriminate].
    - intros [s1 l1] a c' e _ _ (Et1 & Eu1) Hst. cbn [snd] in Et1, Eu1. assert (Hut : u <> t) by (intros ->; congruence).
      assert (K : forall v q, nth_error l1 v = Some q -> v <> u -> forall q', (v = t -> (forall k, q' <> FSleep k)) -> c' = (fst c', upd l1 v q') ->
                  (exists p, nth_error (snd c') t = Some p /\ forall k, p <> FSleep k) \/ nth_error (snd c') t = Some (FSleep k) /\ nth_error (snd c') u = Some FBcast).
      { intros v q Ev Hv q' Hq' ->. cbn [fst snd]. rewrite (nth_upd_neq l1 v u q' Hv). destruct (Nat.eq_dec v t) as [->|Hvt].
        - left. exists q'. rewrite (nth_upd_eq _ _ _ _ Ev). auto.
        - right. rewrite nth_upd_neq by auto. auto. }
      assert (M : forall c, nth_error (snd c) u = Some FBcast -> match man_pc c u with FBcast => 1%nat | _ => 0%nat end = 1%nat) by (intros c E; unfold man_pc; rewrite E; reflexivity).
      destruct a as [v o|v ch]; cbn [man_step] in Hst; destruct (nth_error l1 v) as [q|] eqn:Ev; try discriminate.
      + destruct q; try discriminate. inversion Hst; subst c' e. destruct (K v _ Ev ltac:(congruence) (man_entry o)) as [K1|(K1 & K2)]; auto.
        * intros ->. congruence.
        * right. rewrite !M by auto. cbn [man_acts]. split; [auto|]. split; [lia|contradiction].
      + destruct (Nat.eq_dec v u) as [->|Hvu].
        * rewrite Eu1 in Ev. inversion Ev; subst q. inversion Hst; subst c' e. left. exists (FReload k). cbn [snd].
          rewrite nth_upd_neq by auto. rewrite nth_error_map, Et1. cbn. split; [reflexivity|discriminate].
        * assert (Hq : q = FBcast \/ exists q', c' = (fst c', upd l1 v q') /\ (v = t -> forall k, q' <> FSleep k)).
          { destruct q; auto; right; try (inversion Hst; subst c'; eexists; split; [reflexivity|intros ->; congruence]);
              destruct (man_run s1 _ ch) as [[s2 p2]|] eqn:Er; try discriminate; inversion Hst; subst c'; eexists; (split; [reflexivity|intros ->]); try congruence.
            intros k1. cbn [man_run] in Er. destruct k0, ch; inversion Er; discriminate. }
          destruct Hq as [->|(q' & Hc' & Hq')].
          -- inversion Hst; subst c' e. left. exists (FReload k). cbn [snd]. rewrite nth_upd_neq by (intros ->; congruence). rewrite nth_error_map, Et1. cbn. split; [reflexivity|discriminate].
          -- destruct (K v q Ev Hvu q' Hq' Hc') as [K1|(K1 & K2)]; auto. right. rewrite !M by auto. cbn [man_acts]. split; [auto|]. split; [lia|congruence].
    - rewrite Ec. cbn [snd]. auto.
  Qed.

  Lemma man_fair_returns i t : (i0 <= i)%nat -> (t < n)%nat -> exists j, (i <= j)%nat /\ nth_error (snd (cf j)) t = Some FRest.
  Proof.
    intros Hi Ht. destruct (inf_reach _ _ _ _ Hinf i) as (sched & tr & H).
    assert (L : length (snd (cf i)) = n).
    { assert (X : length (snd (cf i)) = length (snd (man_init n))); [|rewrite X; unfold man_init; cbn [snd]; apply repeat_length].
      revert H. apply (exec_inv_state man_step (fun c => length (snd c) = length (snd (man_init n)))); auto.
      intros c a c' e IH Hs. rewrite <- IH. eapply man_length; eauto. }
    destruct (nth_error (snd (cf i)) t) as [p|] eqn:Et; [|apply nth_error_None in Et; lia].
    assert (D : (exists k, p = FSleep k) \/ forall k, p <> FSleep k) by (destruct p; eauto; right; discriminate).
    destruct D as [(k & ->)|Hs].
    - destruct (man_asleep i t k Hi Et) as (j & p & Hj & Ep & Hp).
      destruct (man_awake j t p ltac:(lia) Ep Hp) as (j' & Hj' & E). exists j'. split; [lia|exact E].
    - eapply man_awake; eauto.
  Qed.
End Man.
