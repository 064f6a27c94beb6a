(** Proofs about the spin_mutex model. *)
From Coq Require Import List Bool Arith Lia.
From Verif Require Import ListSum Exec Lin MutexSpec MutexSpecFacts SpinModel.
Import ListNotations.

Notation SP := (mutex_spec false).

(* abstraction of a thread *)
Definition sabs (p : spc) : xth SP :=
  match p with
  | SRest m => XIdle (S:=SP) m
  | SLoad | SXchg => XPend (S:=SP) false MLock []
  | STry m => XPend (S:=SP) m MTryLock []
  | SStore => XPend (S:=SP) true MUnlock []
  | SDone m o r => XDone (S:=SP) m o r
  end.

Definition sholds (p : spc) : bool :=
  match p with
  | SRest m => m
  | SLoad | SXchg => false
  | STry m => m
  | SStore => true
  | SDone m o r => mnext m o r
  end.

Definition SR (c : scfg) (x : xstate SP) : Prop :=
  snd x = map sabs (snd c) /\
  (fst x = None <-> fst c = unlocked_state) /\
  (forall t p, nth_error (snd c) t = Some p -> (sholds p = true <-> fst x = Some t)) /\
  (forall t, fst x = Some t -> (t < length (snd c))%nat).

Lemma SR_init n : SR (spin_init n) (xinit SP n).
Proof.
  repeat split; cbn.
  - induction n as [|n IH]; cbn; congruence.
  - apply nth_repeat in H. subst. discriminate.
  - discriminate.
  - discriminate.
Qed.

Lemma SR_intro s ths t q p o o' :
  (forall u q, nth_error ths u = Some q -> (sholds q = true <-> o = Some u)) ->
  nth_error ths t = Some q ->
  (forall u, u <> t -> (o = Some u <-> o' = Some u)) ->
  (sholds p = true <-> o' = Some t) ->
  (o' = None <-> s = unlocked_state) ->
  (forall u, o = Some u -> (u < length ths)%nat) ->
  SR (s, upd ths t p) (o', upd (map sabs ths) t (sabs p)).
Proof.
  intros Hh Ht Ho Hp Hs Hl. repeat split; cbn [fst snd] in *.
  - rewrite map_upd. reflexivity.
  - apply Hs.
  - apply Hs.
  - destruct (nth_upd_inv _ _ _ _ _ H) as [(<- & -> & _)|(Hne & Hu)].
    + apply Hp.
    + intros Hq. apply Ho; auto. apply (Hh _ _ Hu); auto.
  - destruct (nth_upd_inv _ _ _ _ _ H) as [(<- & -> & _)|(Hne & Hu)].
    + apply Hp.
    + intros Hq. apply (Hh _ _ Hu). apply Ho; auto.
  - intros u Hu. rewrite upd_length. destruct (Nat.eq_dec u t) as [->|Hne].
    + apply nth_error_Some. congruence.
    + apply Hl. apply Ho; auto.
Qed.

(* one internal step, for either implementation *)
Definition run_ok (run : bool -> spc -> option (bool * spc)) : Prop :=
  forall s p s' p', run s p = Some (s', p') ->
    (* no abstract effect *)
    (sabs p' = sabs p /\ s' = s /\ sholds p' = sholds p) \/
    (* takes a free mutex *)
    (exists m o r, sabs p = XPend (S:=SP) m o [] /\ p' = SDone m o r /\ s = unlocked_state /\ s' = locked_state /\
       mnext m o r = true /\ forall t, mtrans false t o None r (Some t)) \/
    (* fails on a held mutex *)
    (exists m, p = STry m /\ p' = SDone m MTryLock RFalse /\ s = locked_state /\ s' = locked_state) \/
    (* releases *)
    (p = SStore /\ p' = SDone true MUnlock ROk /\ s' = unlocked_state).

Lemma ttas_ok : run_ok ttas_run.
Proof.
  intros s p s' p' H. destruct p as [m| | |m| |m o r]; cbn in H; try discriminate.
  - destruct s; inversion H; subst; left; auto.
  - destruct s; inversion H; subst.
    + right; left. exists false, MLock, ROk. repeat split; auto. constructor.
    + left; auto.
  - destruct s; inversion H; subst.
    + right; left. exists m, MTryLock, RTrue. repeat split; auto. constructor.
    + right; right; left. eauto.
  - inversion H; subst. right; right; right; auto.
Qed.

Lemma tas_ok : run_ok tas_run.
Proof.
  intros s p s' p' H. destruct p as [m| | |m| |m o r]; cbn in H; try discriminate.
  - destruct s; inversion H; subst.
    + right; left. exists false, MLock, ROk. repeat split; auto. constructor.
    + left; auto.
  - destruct s; inversion H; subst.
    + right; left. exists m, MTryLock, RTrue. repeat split; auto. constructor.
    + right; right; left. eauto.
  - inversion H; subst. right; right; right; auto.
Qed.

Definition entry_ok (entry : bool -> mop -> option spc) : Prop :=
  forall m o p, mpre m o = true -> entry m o = Some p ->
    sabs p = XPend (S:=SP) m o [] /\ sholds p = m.

Lemma ttas_entry_ok : entry_ok ttas_entry.
Proof. intros [] [] p Hp H; cbn in *; inversion H; subst; auto; discriminate. Qed.
Lemma tas_entry_ok : entry_ok tas_entry.
Proof. intros [] [] p Hp H; cbn in *; inversion H; subst; auto; discriminate. Qed.

Section Sim.
  Variables (entry : bool -> mop -> option spc) (run : bool -> spc -> option (bool * spc)).
  Hypothesis He : entry_ok entry.
  Hypothesis Hr : run_ok run.

  Lemma SR_step c x a c' e :
    SR c x -> spin_step entry run c a = Some (c', e) -> exists x', xsteps SP x e x' /\ SR c' x'.
  Proof.
    destruct c as [s ths], x as [ow xs]. intros (Hx & Hs & Hh & Hl) H. cbn [fst snd] in *. subst xs.
    destruct a as [t o|t]; cbn [spin_step] in H.
    - destruct (nth_error ths t) as [q|] eqn:Et; [|discriminate].
      destruct q as [m| | |m| |m o' r']; try discriminate.
      destruct (mpre m o) eqn:Ep; [|discriminate].
      destruct (entry m o) as [p|] eqn:Ee; [|discriminate].
      inversion H; subst; clear H. destruct (He _ _ _ Ep Ee) as (Ha & Hm).
      exists (ow, upd (map sabs ths) t (sabs p)). split.
      + apply xsteps_one. rewrite Ha. constructor; auto.
        apply (nth_map sabs) in Et. exact Et.
      + eapply SR_intro; eauto; try tauto.
        rewrite Hm. apply (Hh _ _ Et).
    - destruct (nth_error ths t) as [q|] eqn:Et; [|discriminate].
      pose proof (nth_map sabs _ _ _ Et) as Ets.
      pose proof (Hh _ _ Et) as Hq.
      assert (Hcase : (exists m o r, q = SDone m o r /\ c' = (s, upd ths t (SRest (mnext m o r))) /\ e = [Ret t o r])
              \/ exists s' p', run s q = Some (s', p') /\ c' = (s', upd ths t p') /\ e = []).
      { destruct q as [m| | |m| |m o' r'].
        6: { inversion H; subst. left; eauto 6. }
        all: match type of H with context [run ?s0 ?q0] =>
               destruct (run s0 q0) as [[s1 p1]|] eqn:Er; [|discriminate] end;
             inversion H; subst; right; eauto 6. }
      destruct Hcase as [(m & o & r & -> & -> & ->)|(s' & p' & Er & -> & ->)].
      + exists (ow, upd (map sabs ths) t (sabs (SRest (mnext m o r)))). split.
        * apply xsteps_one. cbn [sabs]. change (mnext m o r) with (next SP m o r). constructor. exact Ets.
        * eapply SR_intro; eauto; try tauto.
      + destruct (Hr _ _ _ _ Er) as [(Ha & -> & Hho)|[(m & o & r & Ha & -> & -> & -> & Hn & Htr)|
             [(m & -> & -> & -> & ->)|(-> & -> & ->)]]].
        * exists (ow, upd (map sabs ths) t (sabs p')). split.
          -- rewrite Ha, upd_same by exact Ets. constructor.
          -- eapply SR_intro; eauto; try tauto. rewrite Hho. exact Hq.
        * assert (ow = None) as -> by tauto.
          exists (Some t, upd (map sabs ths) t (sabs (SDone m o r))). split.
          -- apply xsteps_one. rewrite Ha in Ets. cbn [sabs]. eapply (xs_lin SP); [exact Ets|]. apply Htr.
          -- eapply SR_intro; eauto; try tauto.
             ++ intros u Hu. split; congruence.
             ++ split; discriminate.
        * assert (exists u, ow = Some u) as (u & ->).
          { destruct ow; eauto. exfalso. assert (locked_state = unlocked_state) by tauto. discriminate. }
          exists (Some u, upd (map sabs ths) t (sabs (SDone m MTryLock RFalse))). split.
          -- apply xsteps_one. cbn [sabs] in Ets |- *. eapply (xs_lin SP); [exact Ets|]. constructor.
          -- eapply SR_intro; eauto; try tauto.
        * cbn in Hq. assert (ow = Some t) as -> by tauto.
          exists (None, upd (map sabs ths) t (sabs (SDone true MUnlock ROk))). split.
          -- apply xsteps_one. cbn [sabs] in Ets |- *. eapply (xs_lin SP); [exact Ets|]. constructor.
          -- eapply SR_intro; eauto; try tauto.
             ++ intros u Hu. split; congruence.
             ++ cbn. split; discriminate.
  Qed.

  Lemma spin_lin n sched c tr :
    exec (spin_step entry run) (spin_init n) sched = Some (c, tr) ->
    linearizable SP n tr /\ exists x, SR c x.
  Proof.
    apply (forward_sim SP); [apply SR_init|]. intros; eapply SR_step; eauto.
  Qed.

  (** Nobody holds the mutex (no thread is between a successful lock and the
      store of its unlock) iff the shared word says unlocked. *)
  Lemma spin_free n sched s ths tr :
    exec (spin_step entry run) (spin_init n) sched = Some ((s, ths), tr) ->
    (s = unlocked_state <-> forall t p, nth_error ths t = Some p -> sholds p = false).
  Proof.
    intros H. destruct (spin_lin _ _ _ _ H) as (_ & (ow & xs) & Hx & Hs & Hh & Hl). cbn [fst snd] in *.
    split.
    - intros ->. assert (ow = None) as -> by tauto.
      intros t p Ht. destruct (sholds p) eqn:E; auto.
      apply (Hh _ _ Ht) in E. discriminate.
    - intros Hall. apply Hs. destruct ow as [u|]; auto. exfalso.
      pose proof (Hl _ eq_refl) as Hlt. apply nth_error_Some in Hlt.
      destruct (nth_error ths u) as [p|] eqn:Eu; [|congruence].
      pose proof (Hall _ _ Eu) as Hf.
      assert (sholds p = true) by (apply (Hh _ _ Eu); reflexivity). congruence.
  Qed.

  (** unlock()'s assertion (line 76): the word is locked whenever unlock is about to store. *)
  Lemma spin_assert n sched s ths tr t :
    exec (spin_step entry run) (spin_init n) sched = Some ((s, ths), tr) ->
    nth_error ths t = Some SStore -> s = locked_state.
  Proof.
    intros H Ht. pose proof (spin_free _ _ _ _ _ H) as G.
    destruct s; auto. exfalso. destruct G as (G & _). specialize (G eq_refl _ _ Ht). discriminate.
  Qed.
End Sim.

(** Progress: with nobody holding the mutex, a thread inside lock() that runs alone returns. *)
Lemma ttas_solo n sched s ths tr t p :
  exec ttas_step (spin_init n) sched = Some ((s, ths), tr) ->
  nth_error ths t = Some p -> p = SLoad \/ p = SXchg ->
  (forall u q, nth_error ths u = Some q -> sholds q = false) ->
  exists k c', (k <= 3)%nat /\ exec ttas_step (s, ths) (repeat (SRun t) k) = Some (c', [Ret t MLock ROk]).
Proof.
  intros H Ht Hp Hfree.
  apply (spin_free _ _ ttas_entry_ok ttas_ok) in H. assert (s = unlocked_state) as -> by tauto.
  destruct Hp as [->| ->].
  - exists 3%nat. eexists. split; [lia|]. cbn [repeat exec ttas_step spin_step].
    unfold ttas_step, spin_step. rewrite Ht. cbn.
    rewrite (nth_upd_eq _ _ _ _ Ht). cbn.
    rewrite upd_upd, (nth_upd_eq _ _ _ _ Ht). cbn. reflexivity.
  - exists 2%nat. eexists. split; [lia|]. cbn [repeat exec ttas_step spin_step].
    unfold ttas_step, spin_step. rewrite Ht. cbn.
    rewrite (nth_upd_eq _ _ _ _ Ht). cbn. reflexivity.
Qed.

Lemma tas_solo n sched s ths tr t :
  exec tas_step (spin_init n) sched = Some ((s, ths), tr) ->
  nth_error ths t = Some SXchg ->
  (forall u q, nth_error ths u = Some q -> sholds q = false) ->
  exists k c', (k <= 2)%nat /\ exec tas_step (s, ths) (repeat (SRun t) k) = Some (c', [Ret t MLock ROk]).
Proof.
  intros H Ht Hfree.
  apply (spin_free _ _ tas_entry_ok tas_ok) in H. assert (s = unlocked_state) as -> by tauto.
  exists 2%nat. eexists. split; [lia|]. cbn [repeat exec].
  unfold tas_step, spin_step. rewrite Ht. cbn.
  rewrite (nth_upd_eq _ _ _ _ Ht). cbn. reflexivity.
Qed.
