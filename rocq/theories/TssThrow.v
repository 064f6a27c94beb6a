(** Cleanup functions and exit functions that throw: TssModel.v extended by exceptions that leave a user function called by the library.
    /repo/src/tss_manager.hpp ("M:"), /repo/src/tss_pthread.cpp ("X:"), /repo/src/tss_windows.cpp ("W:"),
    /repo/include/boost/sync/thread_specific/thread_specific_ptr.hpp ("P:").

    The library calls user functions in three places: reset() calls the cleanup function after the new value was stored (P:99-101) and lets
    the exception pass; delete_key calls it (M:250-253) under a handler that aborts (X:135-142, W:205-212); destroy_thread_context calls exit functions (M:160) and cleanup
    functions (M:176) and is noexcept (M:150), so that an exception ends in std::terminate.  BOOST_NOEXCEPT is taken to be noexcept.
    An exception that arrived in user code may be caught there or leave that function too; this is the schedule's choice.  Exceptions that leave the
    thread's own function are not the library's subject and are left out. *)
From Coq Require Import List Bool Arith ZArith Lia.
From Verif Require Import ListSum Exec TssModel.
Import ListNotations.

(** Which function made the frame of TssModel.v: a user function called by the library; reset (P:94-103); delete_key (M:222-255). *)
Inductive orig := OUser | OReset | ODel.
(** The state of TssModel.v, for each thread the makers of its frames, and whether the program was ended by std::abort or std::terminate (X:141, W:211, M:150). *)
Record xst := XS { xbase : tss_st; xorg : list (list orig); xdead : bool }.

(** A step of TssModel.v, or an exception leaves the user function that thread [t] runs (called at P:101, M:160, M:176, M:252). *)
Inductive xact := XDo (a : tact2) | XThrow (t : nat).
(** Events of TssModel.v; the exception leaves reset() of thread [t] (P:101); the program is ended (X:141, W:211, M:150). *)
Inductive xev := XE (e : tev) | XLeft (t : nat) | XTerm (t : nat).

(** Keeps the list of makers in step with the stack: P:100-101 for reset, M:250-253 for delete_key, M:160 M:176 M:252 P:101 for user functions. *)
Definition next_org (a : tact2) (old new : list frame) (os : list orig) : list orig :=
  if length new <? length old then tl os
  else if length old <? length new then (match a with AReset _ _ _ _ => OReset | ADel _ _ => ODel | _ => OUser end) :: os
  else os.

(** The stack of a thread. Model machinery; no counterpart in /repo. *)
Definition stk_of (c : tss_st) (t : nat) : list frame := match nth_error (snd c) t with Some th => stk th | None => [] end.

(** What the exception meets: reset() passes it on, its frame is gone (P:101-103); delete_key passes it to the handler that aborts (M:252, X:139-142, W:209-212);
    destroy_thread_context is noexcept (M:150, M:160, M:176). *)
Definition throw_at (x : xst) (t : nat) : option (xst * list xev) :=
  let '(s, ths) := xbase x in
  match nth_error ths t, nth_error (xorg x) t with
  | Some th, Some os =>
      match stk th, os with
      | FUser :: FRun _ _ :: r, OUser :: OReset :: os' => Some (XS (s, upd ths t (Th r (est th))) (upd (xorg x) t os') false, [XLeft t])
      | FUser :: FRun _ _ :: _, OUser :: ODel :: _ => Some (XS (xbase x) (xorg x) true, [XTerm t])
      | [FUser], [OUser] => Some (XS (xbase x) (xorg x) true, [XTerm t])
      | _, _ => None
      end
  | _, _ => None
  end.

(** One step over any step function of TssModel.v (P:43-103, M:134-255, X:46-164, W:156-234); a program that was ended makes none. *)
Definition xstep (step : tss_st -> tact2 -> option (tss_st * list tev)) (x : xst) (a : xact) : option (xst * list xev) :=
  if xdead x then None else
  match a with
  | XDo b =>
      let t := thread_of b in
      match step (xbase x) b, nth_error (xorg x) t with
      | Some (c', e), Some os => Some (XS c' (upd (xorg x) t (next_org b (stk_of (xbase x) t) (stk_of c' t) os)) false, map XE e)
      | _, _ => None
      end
  | XThrow t => throw_at x t
  end.

(** M:121-129; no thread has a context, none runs a function of the library. *)
Definition xinit (n : nat) : xst := XS (tss_init n) (repeat [] n) false.

(** The events of TssModel.v among the events (P:43-103, M:134-255). *)
Definition lib (tr : list xev) : list tev := concat (map (fun e => match e with XE e => [e] | _ => [] end) tr).

Lemma lib_app a b : lib (a ++ b) = lib a ++ lib b.
Proof. unfold lib. rewrite map_app, concat_app. reflexivity. Qed.
Lemma lib_XE e : lib (map XE e) = e.
Proof. unfold lib. induction e as [|x e IH]; cbn in *; [reflexivity|]. rewrite IH. reflexivity. Qed.

(** The list of makers fits the stack; reset() has at most one call to make, and none after it made it. Proof or specification device; no counterpart in /repo. *)
Fixpoint okst (fs : list frame) (os : list orig) : Prop :=
  match fs, os with
  | [], [] => True
  | FUser :: r, OUser :: o => okst r o /\ match r, o with [], _ => True | FRun _ vs :: _, OReset :: _ => vs = [] | FRun _ _ :: _, ODel :: _ => True | _, _ => False end
  | FRun _ vs :: r, OReset :: o => (length vs <= 1)%nat /\ okst r o
  | FRun _ vs :: r, ODel :: o => okst r o
  | _, _ => False
  end.
(** Proof or specification device; no counterpart in /repo. *)
Definition okx (x : xst) : Prop := length (xorg x) = length (snd (xbase x)) /\
  forall t th os, nth_error (snd (xbase x)) t = Some th -> nth_error (xorg x) t = Some os -> okst (stk th) os.

Lemma okst_run pl s t th s' th' e os : tss_run pl s t th = Some (s', th', e) -> okst (stk th) os -> okst (stk th') (next_org (AStep t) (stk th) (stk th') os).
Proof.
  intros H Hok. unfold tss_run in H. destruct (stk th) as [|[|cb [|v vs]] r] eqn:Es; try discriminate.
  - destruct os; [|cbn in Hok; contradiction].
    assert (G : stk th' = [] \/ stk th' = [FUser]).
    { destruct (est th) as [|[|n]|x n [|f fs]|x n k st|x n [|m ms]|]; try discriminate; try (inversion H; subst; auto; fail).
      - destruct (slot s t); inversion H; subst; auto.
      - destruct (ctx_of s x) as [c|]; [|discriminate]. destruct (atexit c); inversion H; subst; auto.
      - destruct (nth_error st k) as [[|v]|].
        + inversion H; subst; auto.
        + destruct (nth_error (keys s) k) as [[[cb|] fl]|]; inversion H; subst; auto.
        + destruct (ctx_of s x) as [c|]; [|discriminate]. destruct (storage c); inversion H; subst; auto.
      - destruct pl; inversion H; subst; auto. }
    destruct G as [-> | ->]; cbn; auto.
  - inversion H; subst. cbn [stk]. unfold next_org. cbn [length]. replace (length r <? S (length r)) with true by (symmetry; apply Nat.ltb_lt; lia).
    destruct os as [|[| |] os]; cbn in *; try contradiction; tauto.
  - inversion H; subst. cbn [stk]. unfold next_org. cbn [length]. replace (S (S (length r)) <? S (length r)) with false by (symmetry; apply Nat.ltb_ge; lia).
    replace (S (length r) <? S (S (length r))) with true by (symmetry; apply Nat.ltb_lt; lia).
    destruct os as [|[| |] os]; cbn in *; try contradiction.
    + destruct Hok as (Hl & Hok). assert (vs = []) by (destruct vs; [reflexivity|cbn in Hl; lia]). subst vs. cbn. repeat split; auto.
    + tauto.
Qed.

Lemma next_same a f os : next_org a f f os = os.
Proof. unfold next_org. rewrite Nat.ltb_irrefl. reflexivity. Qed.

Lemma okst_user pl s th a s' th' e os : tss_user pl s th a = Some (s', th', e) -> okst (stk th) os -> okst (stk th') (next_org a (stk th) (stk th') os).
Proof.
  intros H Hok.
  assert (G1 : th' = th -> okst (stk th') (next_org a (stk th) (stk th') os)) by (intros ->; rewrite next_same; exact Hok).
  assert (L1 : forall fs : list frame, (S (length fs) <? length fs) = false) by (intros; apply Nat.ltb_ge; lia).
  assert (L2 : forall fs : list frame, (length fs <? S (length fs)) = true) by (intros; apply Nat.ltb_lt; lia).
  destruct a; cbn [tss_user] in H.
  - inversion H; subst. auto.
  - destruct (nth_error (tptrs s) p) as [q|]; [|discriminate]. destruct (palive q); [|discriminate]. unfold delete_key in H.
    destruct (nth_error (keys s) (pkey q)) as [[[cb|] [|]]|]; inversion H; subst; cbn [push app stk]; try (rewrite next_same; exact Hok).
    unfold next_org. cbn [length]. rewrite L1, L2. cbn. exact Hok.
  - destruct (nth_error (tptrs s) p) as [q|]; [|discriminate]. destruct (palive q); [|discriminate]. inversion H; subst. auto.
  - destruct (nth_error (tptrs s) p) as [q|]; [|discriminate]. destruct (palive q); [|discriminate]. destruct (_ =? _); inversion H; subst; auto.
  - destruct (nth_error (tptrs s) p) as [q|]; [|discriminate]. destruct (palive q); [|discriminate]. destruct (_ =? v); [inversion H; subst; auto|].
    destruct f; [|destruct (can_fail _ _ _); inversion H; subst; auto; discriminate|destruct (can_fail _ _ _); inversion H; subst; auto; discriminate].
    destruct (pcb q) as [cb|]; [destruct (_ =? 0)|]; inversion H; subst; cbn [push app stk]; try (rewrite next_same; exact Hok).
    unfold next_org. cbn [length]. rewrite L1, L2. cbn. auto.
  - destruct f; [destruct (ensure s t) as [s1 x]; destruct (ctx_of s1 x); inversion H; subst; auto|destruct (can_fail _ _ _); inversion H; subst; auto; discriminate|destruct (can_fail _ _ _); inversion H; subst; auto; discriminate].
  - destruct f; [destruct (ensure s t) as [s1 x]; destruct (ctx_of s1 x); inversion H; subst; auto|destruct (can_fail _ _ _); inversion H; subst; auto; discriminate|destruct (can_fail _ _ _); inversion H; subst; auto; discriminate].
  - destruct (stk th) as [|[|] r] eqn:Es; try discriminate. inversion H; subst. cbn [stk]. unfold next_org. cbn [length]. rewrite L2.
    destruct os as [|[| |] os]; cbn in *; try contradiction; tauto.
  - destruct (stk th) as [|] eqn:Es; [|discriminate]. inversion H; subst. cbn [stk]. rewrite next_same. exact Hok.
  - discriminate.
Qed.

Section Sim.
  Variables (pl : plat) (step : tss_st -> tact2 -> option (tss_st * list tev)).
  Hypothesis sub : forall c a r, step c a = Some r -> tss_step pl c a = Some r.
  Hypothesis ret : forall c t, step c (ARet t) = tss_step pl c (ARet t).
  Hypothesis stp : forall c t, step c (AStep t) = tss_step pl c (AStep t).

  Lemma okx_step x a x' e : okx x -> xstep step x a = Some (x', e) -> okx x'.
  Proof.
    intros (HL & HO) H. unfold xstep in H. destruct (xdead x); [discriminate|]. destruct a as [b|t].
    - destruct (step (xbase x) b) as [[c' e0]|] eqn:Es; [|discriminate]. destruct (nth_error (xorg x) (thread_of b)) as [os|] eqn:Eo; [|discriminate].
      inversion H; subst. apply sub in Es. unfold tss_step in Es. destruct (xbase x) as [s ths] eqn:Ex. cbn [snd] in *.
      destruct (nth_error ths (thread_of b)) as [th|] eqn:Et; [|discriminate].
      destruct (match b with AStep _ => _ | _ => _ end) as [[[s' th'] e1]|] eqn:Er; [|discriminate]. inversion Es; subst. clear Es H.
      split; cbn [xorg xbase snd]; [rewrite !upd_length; exact HL|].
      intros u thu osu Hu Ho. destruct (Nat.eq_dec (thread_of b) u) as [<-|Hne].
      + rewrite (nth_upd_eq _ _ _ _ Et) in Hu. rewrite (nth_upd_eq _ _ _ _ Eo) in Ho. inversion Hu; subst thu. inversion Ho; subst osu.
        unfold stk_of. cbn [snd]. rewrite Et, (nth_upd_eq _ _ _ _ Et). specialize (HO _ _ _ Et Eo).
        destruct b; try (destruct (user th); [eapply okst_user; eauto|discriminate]). eapply okst_run; eauto.
      + rewrite nth_upd_neq in Hu by exact Hne. rewrite nth_upd_neq in Ho by exact Hne. eapply HO; eauto.
    - unfold throw_at in H. destruct (xbase x) as [s ths] eqn:Ex. cbn [snd] in *.
      destruct (nth_error ths t) as [th|] eqn:Et; [|discriminate]. destruct (nth_error (xorg x) t) as [os|] eqn:Eo; [|discriminate].
      pose proof (HO _ _ _ Et Eo) as Hk.
      destruct (stk th) as [|[|] [|[|cb vs] r]] eqn:Es; try discriminate; destruct os as [|[| |] [|[| |] os]]; try discriminate; inversion H; subst.
      + split; cbn [xorg xbase snd]; auto.
      + split; cbn [xorg xbase snd]; [rewrite !upd_length; exact HL|]. intros u thu osu Hu Ho. destruct (Nat.eq_dec t u) as [<-|Hne].
        * rewrite (nth_upd_eq _ _ _ _ Et) in Hu. rewrite (nth_upd_eq _ _ _ _ Eo) in Ho. inversion Hu; subst thu. inversion Ho; subst osu. cbn in *. tauto.
        * rewrite nth_upd_neq in Hu by exact Hne. rewrite nth_upd_neq in Ho by exact Hne. eapply HO; eauto.
      + split; cbn [xorg xbase snd]; auto.
  Qed.

  Lemma okx_init n : okx (xinit n).
  Proof.
    split; cbn; [rewrite !repeat_length; reflexivity|]. intros t th os H1 H2. apply nth_error_In, repeat_spec in H1. apply nth_error_In, repeat_spec in H2. subst. exact I.
  Qed.

  Lemma okx_reach n xs x tr : exec (xstep step) (xinit n) xs = Some (x, tr) -> okx x.
  Proof. apply (exec_inv_state (xstep step) okx); [apply okx_init|]. intros c a c' e. apply okx_step. Qed.

  (** An exception that leaves reset() does what a return does. *)
  Lemma throw_sim x t x' e : okx x -> throw_at x t = Some (x', e) -> lib e = [] /\ exists sched, exec step (xbase x) sched = Some (xbase x', []).
  Proof.
    intros (HL & HO) H. unfold throw_at in H. destruct (xbase x) as [s ths] eqn:Ex. cbn [snd] in *.
    destruct (nth_error ths t) as [th|] eqn:Et; [|discriminate]. destruct (nth_error (xorg x) t) as [os|] eqn:Eo; [|discriminate].
    pose proof (HO _ _ _ Et Eo) as Hk.
    destruct (stk th) as [|[|] [|[|cb vs] r]] eqn:Es; try discriminate; destruct os as [|[| |] [|[| |] os]]; try discriminate; inversion H; subst.
    - split; [reflexivity|]. exists []. reflexivity.
    - cbn in Hk. destruct Hk as (_ & ->). split; [reflexivity|]. exists [ARet t; AStep t]. cbn [exec]. rewrite ret. unfold tss_step at 1. cbn [thread_of].
      rewrite Et. unfold user. rewrite Es. cbn [tss_user]. rewrite Es, stp. unfold tss_step. cbn [thread_of]. rewrite (nth_upd_eq _ _ _ _ Et). cbn [tss_run stk est].
      cbn [xbase app]. do 3 f_equal. clear. revert t. induction ths as [|y l IH]; intros [|t]; cbn; auto. f_equal. apply IH.
    - split; [reflexivity|]. exists []. reflexivity.
  Qed.

  Lemma x_sim n xs x tr : exec (xstep step) (xinit n) xs = Some (x, tr) -> exists sched, exec step (tss_init n) sched = Some (xbase x, lib tr).
  Proof.
    intros H. assert (G : okx x /\ exists sched, exec step (tss_init n) sched = Some (xbase x, lib tr)); [|apply G].
    revert H. apply (exec_inv (xstep step) (fun x tr => okx x /\ exists sched, exec step (tss_init n) sched = Some (xbase x, lib tr))).
    - split; [apply okx_init|]. exists []. reflexivity.
    - intros y tr0 a y' e (Ho & sched & Hs) Hx. split; [eapply okx_step; eauto|]. rewrite lib_app. unfold xstep in Hx. destruct (xdead y); [discriminate|]. destruct a as [b|t].
      + destruct (step (xbase y) b) as [[c' e0]|] eqn:Es; [|discriminate]. destruct (nth_error (xorg y) (thread_of b)) as [os|]; [|discriminate].
        inversion Hx; subst. exists (sched ++ [b]). rewrite exec_app, Hs. cbn [exec xbase]. rewrite Es, lib_XE, app_nil_r. reflexivity.
      + destruct (throw_sim _ _ _ _ Ho Hx) as (-> & s2 & H2). exists (sched ++ s2). rewrite exec_app, Hs, H2. reflexivity.
  Qed.

  (** Every exception that leaves a user function called by the library has an outcome. *)
  Lemma throw_total x t th r : okx x -> nth_error (snd (xbase x)) t = Some th -> stk th = FUser :: r ->
    (exists os, nth_error (xorg x) t = Some (OUser :: OReset :: os) /\ exists x', throw_at x t = Some (x', [XLeft t]) /\ xdead x' = false /\ fst (xbase x') = fst (xbase x)) \/
    ((nth_error (xorg x) t = Some [OUser] /\ r = [] \/ exists os, nth_error (xorg x) t = Some (OUser :: ODel :: os)) /\ exists x', throw_at x t = Some (x', [XTerm t]) /\ xdead x' = true /\ xbase x' = xbase x).
  Proof.
    intros (HL & HO) Ht Hs. destruct (nth_error (xorg x) t) as [os|] eqn:Eo.
    2: { exfalso. apply nth_error_None in Eo. assert (t < length (snd (xbase x))) by (apply nth_error_Some; rewrite Ht; discriminate). lia. }
    pose proof (HO _ _ _ Ht Eo) as Hk. rewrite Hs in Hk. unfold throw_at. destruct (xbase x) as [s ths] eqn:Ex. cbn [snd fst] in *. rewrite Ht, Eo, Hs.
    destruct os as [|[| |] os]; cbn in Hk; try contradiction. destruct Hk as (Hk & Hk2). destruct r as [|[|cb vs] r].
    - destruct os; [|cbn in Hk; contradiction]. right. split; [auto|]. eexists. split; [reflexivity|]. cbn. auto.
    - contradiction.
    - destruct os as [|[| |] os]; try contradiction.
      + left. exists os. split; [reflexivity|]. eexists. split; [reflexivity|]. cbn. auto.
      + right. split; [eauto|]. eexists. split; [reflexivity|]. cbn. auto.
  Qed.
End Sim.
