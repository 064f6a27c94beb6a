(** Proofs of progress under fair scheduling: spin_mutex (both implementations). *)
From Coq Require Import List Bool Arith Lia.
From Verif Require Import ListSum Exec Lin MutexSpec SpinModel Fair.
Import ListNotations.

(** A step of thread [t] inside spin_mutex.hpp 57-78 / 100-118. *)
Definition spin_acts (a : sact) (t : nat) : Prop := match a with SRun u => u = t | SCall _ _ => False end.
(** Every thread inside a function of spin_mutex.hpp 57-78 / 100-118 can make its next access: nothing blocks. *)
Definition spin_enabled (step : scfg -> sact -> option (scfg * list (event mop mres))) (c : scfg) (t : nat) : Prop := exists c' e, step c (SRun t) = Some (c', e).

(** The step from [c] to [c'] is the successful exchange of spin_mutex.hpp 71 / 112 by thread [u]. *)
Definition spin_taken (c c' : scfg) (u : nat) : Prop :=
  fst c = unlocked_state /\ fst c' = locked_state /\
  exists m o r, nth_error (snd c') u = Some (SDone m o r) /\ (o = MLock /\ r = ROk \/ o = MTryLock /\ r = RTrue).

Definition spin_rank (c : scfg) (t : nat) : nat := match nth_error (snd c) t with Some SLoad => 2 | Some SXchg => 1 | _ => 0 end.
Definition spin_wants (c : scfg) (t : nat) : Prop := fst c = unlocked_state /\ exists p, nth_error (snd c) t = Some p /\ (p = SLoad \/ p = SXchg).

Lemma spin_other (t u : nat) ths (p : spc) s : u <> t -> spin_wants (unlocked_state, ths) t -> 
  spin_wants (unlocked_state, upd ths u p) t /\ spin_rank (s, upd ths u p) t = spin_rank (s, ths) t.
Proof. intros H (_ & q & E & Hq). unfold spin_wants, spin_rank in *. cbn [fst snd] in *. rewrite nth_upd_neq by auto. eauto. Qed.

Lemma ttas_progress : forall c a c' e t, spin_wants c t -> ttas_step c a = Some (c', e) ->
  (exists u, spin_taken c c' u) \/ spin_wants c' t /\ spin_rank c' t <= spin_rank c t /\ (spin_acts a t -> spin_rank c' t < spin_rank c t).
Proof.
  unfold ttas_step, spin_step. intros [s ths] a [s' ths'] e t (Hs & q & Et & Hq) Hst; cbn [fst snd] in *; subst s.
  assert (O : forall u p, u <> t -> ~ spin_acts a t -> (s', ths') = (unlocked_state, upd ths u p) ->
    spin_wants (s', ths') t /\ spin_rank (s', ths') t <= spin_rank (unlocked_state, ths) t /\ (spin_acts a t -> spin_rank (s', ths') t < spin_rank (unlocked_state, ths) t)).
  { intros u p Hne Ha ->. destruct (spin_other t u ths p unlocked_state Hne) as (W & K); [split; [reflexivity|eauto]|].
    split; [exact W|]. rewrite K. split; [lia|tauto]. }
  destruct a as [u o|u]; destruct (nth_error ths u) as [p|] eqn:Eu; try discriminate.
  - destruct p; try discriminate. destruct (mpre m o); [|discriminate].
    assert (Hne : u <> t) by (intros ->; rewrite Et in Eu; inversion Eu; subst; destruct Hq; discriminate).
    destruct o; cbn in Hst; try discriminate; inversion Hst; subst; right; (eapply O; [exact Hne|cbn; tauto|reflexivity]).
  - destruct (Nat.eq_dec u t) as [->|Hne].
    + rewrite Et in Eu; inversion Eu; subst p; destruct Hq as [->| ->]; cbn in Hst; try discriminate; inversion Hst; subst.
      * right; unfold spin_wants, spin_rank; cbn [fst snd]; rewrite ?(nth_upd_eq _ _ _ _ Et), ?Et; split; [eauto|split; [lia|intros; lia]].
      * left; exists t; split; [reflexivity|split; [reflexivity|]]; cbn [snd]; rewrite (nth_upd_eq _ _ _ _ Et); eauto 8.
    + destruct p; cbn in Hst; try discriminate; inversion Hst; subst;
      try (right; eapply O; [exact Hne|cbn; congruence|reflexivity]);
      (left; exists u; (split; [reflexivity|split; [reflexivity|]]); cbn [snd]; rewrite (nth_upd_eq _ _ _ _ Eu); eauto 8).
Qed.

Lemma ttas_fair_taken c0 cf ac i t p : infinite ttas_step c0 cf ac -> fair spin_acts (spin_enabled ttas_step) cf ac ->
  fst (cf i) = unlocked_state -> nth_error (snd (cf i)) t = Some p -> (p = SLoad \/ p = SXchg) ->
  exists j u, i <= j /\ spin_taken (cf j) (cf (S j)) u.
Proof.
  intros Hi Hf Hs Et Hp.
  destruct (countdown_step ttas_step spin_acts (spin_enabled ttas_step) cf ac (fun _ => True) (fun c => spin_wants c t)
    (fun c _ c' => exists u, spin_taken c c' u) (fun c => spin_rank c t) t i) with (i := i) as (j & a & Hj & _ & u & Hu); auto.
  - exact (proj2 Hi).
  - intros [s ths] _ (Hs1 & q & Eq & Hq). cbn [fst snd] in *. unfold spin_enabled, ttas_step, spin_step. rewrite Eq. subst s.
    destruct Hq as [->| ->]; cbn; eauto.
  - intros k a e Hk _ L He. exact (ttas_progress _ _ _ _ t L He).
  - split; eauto.
  - eauto.
Qed.

Lemma tas_progress : forall c a c' e t, spin_wants c t -> tas_step c a = Some (c', e) ->
  (exists u, spin_taken c c' u) \/ spin_wants c' t /\ spin_rank c' t <= spin_rank c t /\ (spin_acts a t -> spin_rank c' t < spin_rank c t).
Proof.
  unfold tas_step, spin_step. intros [s ths] a [s' ths'] e t (Hs & q & Et & Hq) Hst; cbn [fst snd] in *; subst s.
  assert (O : forall u p, u <> t -> ~ spin_acts a t -> (s', ths') = (unlocked_state, upd ths u p) ->
    spin_wants (s', ths') t /\ spin_rank (s', ths') t <= spin_rank (unlocked_state, ths) t /\ (spin_acts a t -> spin_rank (s', ths') t < spin_rank (unlocked_state, ths) t)).
  { intros u p Hne Ha ->. destruct (spin_other t u ths p unlocked_state Hne) as (W & K); [split; [reflexivity|eauto]|].
    split; [exact W|]. rewrite K. split; [lia|tauto]. }
  destruct a as [u o|u]; destruct (nth_error ths u) as [p|] eqn:Eu; try discriminate.
  - destruct p; try discriminate. destruct (mpre m o); [|discriminate].
    assert (Hne : u <> t) by (intros ->; rewrite Et in Eu; inversion Eu; subst; destruct Hq; discriminate).
    destruct o; cbn in Hst; try discriminate; inversion Hst; subst; right; (eapply O; [exact Hne|cbn; tauto|reflexivity]).
  - destruct (Nat.eq_dec u t) as [->|Hne].
    + rewrite Et in Eu; inversion Eu; subst p; destruct Hq as [->| ->]; cbn in Hst; try discriminate; inversion Hst; subst.
      * left; exists t; split; [reflexivity|split; [reflexivity|]]; cbn [snd]; rewrite (nth_upd_eq _ _ _ _ Et); eauto 8.
    + destruct p; cbn in Hst; try discriminate; inversion Hst; subst;
      try (right; eapply O; [exact Hne|cbn; congruence|reflexivity]);
      (left; exists u; (split; [reflexivity|split; [reflexivity|]]); cbn [snd]; rewrite (nth_upd_eq _ _ _ _ Eu); eauto 8).
Qed.

Lemma tas_fair_taken c0 cf ac i t p : infinite tas_step c0 cf ac -> fair spin_acts (spin_enabled tas_step) cf ac ->
  fst (cf i) = unlocked_state -> nth_error (snd (cf i)) t = Some p -> p = SXchg ->
  exists j u, i <= j /\ spin_taken (cf j) (cf (S j)) u.
Proof.
  intros Hi Hf Hs Et Hp.
  destruct (countdown_step tas_step spin_acts (spin_enabled tas_step) cf ac (fun _ => True) (fun c => spin_wants c t /\ nth_error (snd c) t <> Some SLoad)
    (fun c _ c' => exists u, spin_taken c c' u) (fun c => spin_rank c t) t i) with (i := i) as (j & a & Hj & _ & u & Hu); auto.
  - exact (proj2 Hi).
  - intros [s ths] _ ((Hs1 & q & Eq & Hq) & Hn). cbn [fst snd] in *. unfold spin_enabled, tas_step, spin_step. rewrite Eq. subst s.
    destruct Hq as [->| ->]; cbn; eauto; exfalso; eapply Hn; eauto.
  - intros k a e Hk _ L He. destruct L as (L & L2). destruct (tas_progress _ _ _ _ t L He) as [T|(L' & M)]; [left; exact T|]. right. split; [split; [exact L'|]|exact M].
    intros E. destruct (cf k) as [s ths], (cf (S k)) as [s' ths']. cbn [snd] in *. clear M. unfold tas_step, spin_step in He.
    destruct a as [u o|u]; destruct (nth_error ths u) as [q|] eqn:Eu; try discriminate.
    + destruct q; try discriminate. destruct (mpre m o); [|discriminate]. destruct o; cbn in He; try discriminate; inversion He; subst;
        destruct (nth_upd_inv _ _ _ _ _ E) as [(_ & D & _)|(_ & D)]; congruence.
    + destruct q; cbn in He; try discriminate; try (destruct s; cbn in He); inversion He; subst; destruct (nth_upd_inv _ _ _ _ _ E) as [(_ & D & _)|(_ & D)]; congruence.
  - split; [split; eauto|congruence].
  - eauto.
Qed.

