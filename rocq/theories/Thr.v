(** Generic shape of the interleaving models: shared state, one program counter (with locals) per thread.
    A model supplies [call] (from an idle program counter), [ret] (a program counter about to return) and [run]
    (one atomic access or system call of thread [t]; it may change other threads, e.g. wake them).
    Support library; nothing here models code of /repo. *)
From Coq Require Import List Bool Arith ZArith Lia.
From Verif Require Import ListSum Exec Lin.
Import ListNotations.

(** Support library; no counterpart in /repo. *)
Inductive tact (Op Ch : Type) : Type := TCall (t : nat) (o : Op) | TRun (t : nat) (ch : Ch).
Arguments TCall {Op Ch} t o.
Arguments TRun {Op Ch} t ch.

Section Thr.
  Context {Sh Pc Ch Op Res : Type}.
  Variable call : Pc -> Op -> option Pc.
  Variable ret : Pc -> option (Op * Res * Pc).
  Variable run : Sh -> list Pc -> nat -> Pc -> Ch -> option (Sh * list Pc).

  Definition tstep (c : Sh * list Pc) (a : tact Op Ch) : option ((Sh * list Pc) * list (event Op Res)) :=
    let '(s, ths) := c in
    match a with
    | TCall t o =>
        match nth_error ths t with
        | Some p => match call p o with
                    | Some p' => Some ((s, upd ths t p'), [Call t o])
                    | None => None
                    end
        | None => None
        end
    | TRun t ch =>
        match nth_error ths t with
        | None => None
        | Some p =>
            match ret p with
            | Some (o, r, p') => Some ((s, upd ths t p'), [Ret t o r])
            | None => match run s ths t p ch with
                      | Some c' => Some (c', [])
                      | None => None
                      end
            end
        end
    end.

  Lemma tstep_cases s ths a c' e : tstep (s, ths) a = Some (c', e) ->
    (exists t o p p', a = TCall t o /\ nth_error ths t = Some p /\ call p o = Some p' /\ c' = (s, upd ths t p') /\ e = [Call t o])
    \/ (exists t ch p o r p', a = TRun t ch /\ nth_error ths t = Some p /\ ret p = Some (o, r, p') /\ c' = (s, upd ths t p') /\ e = [Ret t o r])
    \/ (exists t ch p, a = TRun t ch /\ nth_error ths t = Some p /\ ret p = None /\ run s ths t p ch = Some c' /\ e = []).
  Proof.
    destruct a as [t o|t ch]; cbn [tstep]; destruct (nth_error ths t) as [p|] eqn:Et; try discriminate.
    - destruct (call p o) as [p'|] eqn:Ec; [|discriminate]. intros H; inversion H; subst. left. eauto 10.
    - destruct (ret p) as [[[o r] p']|] eqn:Er.
      + intros H; inversion H; subst. right; left. exists t, ch, p, o, r, p'. auto.
      + destruct (run s ths t p ch) as [c1|] eqn:Ern; [|discriminate]. intros H; inversion H; subst. right; right. eauto 10.
  Qed.

  (** Invariants. *)
  Lemma tinv (Inv : Sh * list Pc -> Prop) c0 :
    Inv c0 ->
    (forall s ths t p o p', Inv (s, ths) -> nth_error ths t = Some p -> call p o = Some p' -> Inv (s, upd ths t p')) ->
    (forall s ths t p o r p', Inv (s, ths) -> nth_error ths t = Some p -> ret p = Some (o, r, p') -> Inv (s, upd ths t p')) ->
    (forall s ths t p ch c', Inv (s, ths) -> nth_error ths t = Some p -> ret p = None -> run s ths t p ch = Some c' -> Inv c') ->
    forall sched c tr, exec tstep c0 sched = Some (c, tr) -> Inv c.
  Proof.
    intros H0 Hc Hr Hn sched c tr. apply exec_inv_state; auto.
    intros [s ths] a c2 e HI Hs. apply tstep_cases in Hs.
    destruct Hs as [(t & o & p & p' & -> & H1 & H2 & -> & ->)|[(t & ch & p & o & r & p' & -> & H1 & H2 & -> & ->)|(t & ch & p & -> & H1 & H2 & H3 & ->)]]; eauto.
  Qed.

  Lemma tlength c0 :
    (forall s ths t p ch c', run s ths t p ch = Some c' -> length (snd c') = length ths) ->
    forall sched c tr, exec tstep c0 sched = Some (c, tr) -> length (snd c) = length (snd c0).
  Proof.
    intros Hn. apply (tinv (fun c => length (snd c) = length (snd c0))); auto.
    - intros s ths t p o p' <- _ _. apply upd_length.
    - intros s ths t p o r p' <- _ _. apply upd_length.
    - intros s ths t p ch c' <- _ _ H. eapply Hn; eauto.
  Qed.

  Lemma tstep_length :
    (forall s ths t p ch c', run s ths t p ch = Some c' -> length (snd c') = length ths) ->
    forall c a c' e, tstep c a = Some (c', e) -> length (snd c') = length (snd c).
  Proof.
    intros Hn [s ths] a c' e H. apply tstep_cases in H.
    destruct H as [(t & o & p & p' & -> & H1 & H2 & -> & ->)|[(t & ch & p & o & r & p' & -> & H1 & H2 & -> & ->)|(t & ch & p & -> & H1 & H2 & H3 & ->)]]; cbn [snd]; rewrite ?upd_length; eauto.
  Qed.
End Thr.

(** Simulation of such a model by the reference system. *)
Section Sim.
  Variable SP : spec.
  Context {Sh Pc Ch : Type}.
  Variable call : Pc -> op SP -> option Pc.
  Variable ret : Pc -> option (op SP * res SP * Pc).
  Variable run : Sh -> list Pc -> nat -> Pc -> Ch -> option (Sh * list Pc).
  Variable abs : Pc -> xth SP.

  Lemma sim_sil g ths t p q :
    nth_error ths t = Some q -> abs p = abs q -> xsteps SP (g, map abs ths) [] (g, map abs (upd ths t p)).
  Proof. intros Ht Ha. rewrite map_upd, Ha, upd_same by (apply nth_map; auto). constructor. Qed.

  Lemma sim_lin g g' ths t p q m o l r :
    nth_error ths t = Some q -> abs q = XPend m o l -> abs p = XDone m o r -> otrans SP t o g r g' ->
    xsteps SP (g, map abs ths) [] (g', map abs (upd ths t p)).
  Proof.
    intros Ht Hq Hp Ho. rewrite map_upd, Hp. apply xsteps_one. apply (nth_map abs) in Ht. rewrite Hq in Ht.
    econstructor; eauto.
  Qed.

  Lemma sim_obs g ths t p q m o l r :
    nth_error ths t = Some q -> abs q = XPend m o l -> abs p = XPend m o (r :: l) -> otrans SP t o g r g ->
    xsteps SP (g, map abs ths) [] (g, map abs (upd ths t p)).
  Proof.
    intros Ht Hq Hp Ho. rewrite map_upd, Hp. apply xsteps_one. apply (nth_map abs) in Ht. rewrite Hq in Ht.
    eapply xs_obs; eauto.
  Qed.

  Lemma sim_adopt g ths t p q m o l r :
    nth_error ths t = Some q -> abs q = XPend m o l -> abs p = XDone m o r -> In r l ->
    xsteps SP (g, map abs ths) [] (g, map abs (upd ths t p)).
  Proof.
    intros Ht Hq Hp Ho. rewrite map_upd, Hp. apply xsteps_one. apply (nth_map abs) in Ht. rewrite Hq in Ht.
    eapply xs_adopt; eauto.
  Qed.

  Variable g : Sh -> list Pc -> ost SP.
  Definition tabs (c : Sh * list Pc) : xstate SP := (g (fst c) (snd c), map abs (snd c)).

  Lemma tsim_x (Inv G : Sh * list Pc -> Prop) c0 n :
    tabs c0 = xinit SP n -> Inv c0 ->
    (forall s ths t p o p', Inv (s, ths) -> G (s, ths) -> nth_error ths t = Some p -> call p o = Some p' ->
       Inv (s, upd ths t p') /\ g s (upd ths t p') = g s ths /\
       exists m, abs p = XIdle m /\ pre SP m o = true /\ abs p' = XPend m o []) ->
    (forall s ths t p o r p', Inv (s, ths) -> G (s, ths) -> nth_error ths t = Some p -> ret p = Some (o, r, p') ->
       Inv (s, upd ths t p') /\ g s (upd ths t p') = g s ths /\
       exists m, abs p = XDone m o r /\ abs p' = XIdle (next SP m o r)) ->
    (forall s ths t p ch s' ths', Inv (s, ths) -> G (s, ths) -> G (s', ths') ->
       nth_error ths t = Some p -> ret p = None -> run s ths t p ch = Some (s', ths') ->
       Inv (s', ths') /\ xsteps SP (g s ths, map abs ths) [] (g s' ths', map abs ths')) ->
    forall sched c tr, along (tstep call ret run) G c0 sched -> exec (tstep call ret run) c0 sched = Some (c, tr) ->
    xsteps SP (xinit SP n) tr (tabs c) /\ Inv c.
  Proof.
    intros H0 HI Hc Hr Hn. apply (forward_sim_abs_x SP (tstep call ret run) tabs Inv G); auto.
    intros [s ths] a [s' ths'] e HI1 G1 G2 Hs. apply tstep_cases in Hs.
    destruct Hs as [(t & o & p & p' & -> & H1 & H2 & E & ->)|[(t & ch & p & o & r & p' & -> & H1 & H2 & E & ->)|(t & ch & p & -> & H1 & H2 & H3 & ->)]].
    - inversion E; subst. destruct (Hc _ _ _ _ _ _ HI1 G1 H1 H2) as (I1 & I2 & m & I3 & I4 & I5). split; auto.
      unfold tabs. cbn [fst snd]. rewrite I2, map_upd, I5. apply xsteps_one. constructor; auto.
      rewrite <- I3. apply nth_map; auto.
    - inversion E; subst. destruct (Hr _ _ _ _ _ _ _ HI1 G1 H1 H2) as (I1 & I2 & m & I3 & I4). split; auto.
      unfold tabs. cbn [fst snd]. rewrite I2, map_upd, I4. apply xsteps_one. constructor; auto.
      rewrite <- I3. apply nth_map; auto.
    - apply (Hn _ _ _ _ _ _ _ HI1 G1 G2 H1 H2 H3).
  Qed.

  Lemma tsim (Inv G : Sh * list Pc -> Prop) c0 n :
    tabs c0 = xinit SP n -> Inv c0 ->
    (forall s ths t p o p', Inv (s, ths) -> G (s, ths) -> nth_error ths t = Some p -> call p o = Some p' ->
       Inv (s, upd ths t p') /\ g s (upd ths t p') = g s ths /\
       exists m, abs p = XIdle m /\ pre SP m o = true /\ abs p' = XPend m o []) ->
    (forall s ths t p o r p', Inv (s, ths) -> G (s, ths) -> nth_error ths t = Some p -> ret p = Some (o, r, p') ->
       Inv (s, upd ths t p') /\ g s (upd ths t p') = g s ths /\
       exists m, abs p = XDone m o r /\ abs p' = XIdle (next SP m o r)) ->
    (forall s ths t p ch s' ths', Inv (s, ths) -> G (s, ths) -> G (s', ths') ->
       nth_error ths t = Some p -> ret p = None -> run s ths t p ch = Some (s', ths') ->
       Inv (s', ths') /\ xsteps SP (g s ths, map abs ths) [] (g s' ths', map abs ths')) ->
    forall sched c tr, along (tstep call ret run) G c0 sched -> exec (tstep call ret run) c0 sched = Some (c, tr) ->
    linearizable SP n tr /\ Inv c.
  Proof.
    intros H0 HI Hc Hr Hn sched c tr Ha H. destruct (tsim_x Inv G c0 n H0 HI Hc Hr Hn sched c tr Ha H) as (Hx & Hi).
    split; auto. eapply xlin_lin; eauto.
  Qed.
End Sim.
