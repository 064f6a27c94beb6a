(** Property C65: how often a waiting thread can be overtaken.  None of the blocking functions bounds it: for each of them there is an execution
    in which a thread waits from the start and never returns while another thread goes through the object N times, for every N.  What holds for the two
    spin mutexes is that an attempt to take a free lock fails only because another thread changed the lock meanwhile (or spuriously). *)
From Coq Require Import List Bool Arith ZArith Lia.
From Verif Require Import ListSum Exec Lin Thr Word Progress MutexSpec EventSpec FlagSpec RwSpec.
From Verif Require SpinModel SharedSpinModel SharedSpinProof AutoFutexModel AutoSemModel WinMutexModel Monitor EmuModel PropsProgress.
Import ListNotations.
Local Open Scope nat_scope.

(** Thread [t] called [o] and has not returned since; meanwhile at least [N] events with [f] happened. *)
Definition overtaken {O R} (t : nat) (o : O) (f : event O R -> bool) (N : nat) (tr : list (event O R)) : Prop :=
  exists tr1 tr2, tr = tr1 ++ Call t o :: tr2 /\ (forall o' r, ~ In (Ret t o' r) tr2) /\ N <= count f tr2.

Section Blocks.
  Context {C A E : Type}.
  Variable step : C -> A -> option (C * list E).

  Lemma repeat_block c B trB : exec step c B = Some (c, trB) -> forall N, exec step c (concat (repeat B N)) = Some (c, concat (repeat trB N)).
  Proof. intros H. induction N as [|N IH]; cbn [repeat concat]; [reflexivity|]. rewrite exec_app, H, IH. reflexivity. Qed.
End Blocks.

Lemma count_app {A} (f : A -> bool) a b : count f (a ++ b) = count f a + count f b.
Proof. induction a as [|x a IH]; cbn [app count]; [reflexivity|]. rewrite IH. lia. Qed.
Lemma count_block {A} (f : A -> bool) b N : count f (concat (repeat b N)) = N * count f b.
Proof. induction N as [|N IH]; cbn [repeat concat]; [reflexivity|]. rewrite count_app, IH. lia. Qed.
Lemma in_block {A} (x : A) b N : In x (concat (repeat b N)) -> In x b.
Proof. induction N as [|N IH]; cbn [repeat concat]; [contradiction|]. intros H. apply in_app_or in H. tauto. Qed.

Definition no_ret {O R} (t : nat) (e : event O R) : bool := match e with Ret u _ _ => negb (Nat.eqb u t) | _ => true end.

Lemma overtake {C A O R} (step : C -> A -> option (C * list (event O R))) c0 P c1 tr1 tr2 B trB t o f own :
  exec step c0 P = Some (c1, tr1 ++ Call t o :: tr2) -> exec step c1 B = Some (c1, trB) ->
  forallb (no_ret t) (tr2 ++ trB) = true -> 1 <= count f trB ->
  forall N, exists sched c tr, exec step c0 sched = Some (c, tr) /\ overtaken t o f N tr /\ N * count own B <= count own sched.
Proof.
  intros HP HB Hn Hf N. exists (P ++ concat (repeat B N)), c1, ((tr1 ++ Call t o :: tr2) ++ concat (repeat trB N)).
  split; [rewrite exec_app, HP, (repeat_block step _ _ _ HB); reflexivity|]. split.
  - exists tr1, (tr2 ++ concat (repeat trB N)). split; [rewrite <- app_assoc; reflexivity|]. split.
    + intros o' r Hi. rewrite forallb_forall in Hn.
      assert (X : In (Ret t o' r) (tr2 ++ trB)) by (apply in_or_app; apply in_app_or in Hi; destruct Hi as [Hi|Hi]; [auto|right; eapply in_block; eauto]).
      specialize (Hn _ X). cbn in Hn. rewrite Nat.eqb_refl in Hn. discriminate.
    + rewrite count_app, count_block. nia.
  - rewrite count_app, count_block. lia.
Qed.

(** Events counted: thread [u] returned from unlock() or post(). *)
Definition is_unlock (u : nat) (e : event mop mres) : bool := match e with Ret v MUnlock _ => Nat.eqb v u | _ => false end.
Definition is_post (u : nat) (e : event eop eres) : bool := match e with Ret v EPost _ => Nat.eqb v u | _ => false end.

(** ** Spin mutexes: the waiting thread runs, but always at the wrong moment. *)
Section Spin.
Import SpinModel PropsProgress.
Theorem C65_spin_refuted : exists n t u, t <> u /\ forall N, exists sched c tr,
  exec ttas_step (spin_init n) sched = Some (c, tr) /\ overtaken t MLock (is_unlock u) N tr /\ N <= count (spin_own t) sched.
Proof.
  exists 2, 0, 1. split; [discriminate|]. intros N.
  destruct (overtake ttas_step (spin_init 2) [SCall 0 MLock] (unlocked_state, [SLoad; SRest false]) [] []
    [SCall 1 MLock; SRun 1; SRun 1; SRun 1; SRun 0; SCall 1 MUnlock; SRun 1; SRun 1]
    [Call 1 MLock; Ret 1 MLock ROk; Call 1 MUnlock; Ret 1 MUnlock ROk] 0 MLock (is_unlock 1) (spin_own 0)
    eq_refl eq_refl eq_refl (le_n 1) N) as (sched & c & tr & H1 & H2 & H3).
  exists sched, c, tr. repeat split; auto. cbn in H3. lia.
Qed.
Print Assumptions C65_spin_refuted.

Theorem C65_spin_flag_refuted : exists n t u, t <> u /\ forall N, exists sched c tr,
  exec tas_step (spin_init n) sched = Some (c, tr) /\ overtaken t MLock (is_unlock u) N tr /\ N <= count (spin_own t) sched.
Proof.
  exists 2, 0, 1. split; [discriminate|]. intros N.
  destruct (overtake tas_step (spin_init 2) [SCall 0 MLock] (unlocked_state, [SXchg; SRest false]) [] []
    [SCall 1 MLock; SRun 1; SRun 1; SRun 0; SCall 1 MUnlock; SRun 1; SRun 1]
    [Call 1 MLock; Ret 1 MLock ROk; Call 1 MUnlock; Ret 1 MUnlock ROk] 0 MLock (is_unlock 1) (spin_own 0)
    eq_refl eq_refl eq_refl (le_n 1) N) as (sched & c & tr & H1 & H2 & H3).
  exists sched, c, tr. repeat split; auto. cbn in H3. lia.
Qed.
Print Assumptions C65_spin_flag_refuted.

(** What holds: the number of exchanges a call of lock() needs is at most one plus the number of times another thread took the lock. *)
Definition spin_attempt (t : nat) (c : scfg) (a : sact) : bool :=
  match a with SRun u => Nat.eqb u t && match nth_error (snd c) t with Some SXchg => true | _ => false end | _ => false end.
Definition spin_taken (t : nat) (c : scfg) (a : sact) (c' : scfg) : bool :=
  match a with SRun u => negb (Nat.eqb u t) && Bool.eqb (fst c) unlocked_state && Bool.eqb (fst c') locked_state | _ => false end.

(** Counting along the execution. *)
Lemma bounded_along {C A E} (step : C -> A -> option (C * list E)) (ok : A -> bool) (own noise : C -> A -> C -> bool) (pot : C -> option nat) (Inv : C -> Prop) :
  (forall c a c' e, Inv c -> step c a = Some (c', e) -> Inv c') ->
  (forall c a c' e k, Inv c -> step c a = Some (c', e) -> ok a = true -> pot c = Some k ->
     exists k', pot c' = Some k' /\ k' + (if own c a c' then 1 else 0) <= k + (if noise c a c' then 1 else 0)) ->
  forall sched c c' e k, Inv c -> exec step c sched = Some (c', e) -> forallb ok sched = true -> pot c = Some k ->
    count_along step own c sched <= k + count_along step noise c sched.
Proof.
  intros Hi Hs. induction sched as [|a sched IH]; intros c c' e k HI H Hok Hp; cbn [exec count_along forallb] in *; [lia|].
  apply andb_prop in Hok as (Ha & Hok). destruct (step c a) as [[c1 e1]|] eqn:E1; [|discriminate].
  destruct (exec step c1 sched) as [[c2 e2]|] eqn:E2; [|discriminate].
  destruct (Hs _ _ _ _ _ HI E1 Ha Hp) as (k' & Hp' & Hk). specialize (IH _ _ _ _ (Hi _ _ _ _ HI E1) E2 Hok Hp'). lia.
Qed.

Definition spin_lpot (s : bool) (p : spc) : option nat :=
  match p with SRest _ | SDone _ _ _ => Some 0 | SLoad => Some 1 | SXchg => Some (if Bool.eqb s unlocked_state then 1 else 2) | _ => None end.

Theorem C65_spin_attempts : forall c0 sched c tr t,
  nth_error (snd c0) t = Some SLoad -> exec ttas_step c0 sched = Some (c, tr) -> forallb (spin_nocall t) sched = true ->
  count_along ttas_step (fun c a _ => spin_attempt t c a) c0 sched <= 1 + count_along ttas_step (spin_taken t) c0 sched.
Proof.
  intros c0 sched c tr t Ht H Hok.
  eapply (bounded_along ttas_step (spin_nocall t) (fun c a _ => spin_attempt t c a) (spin_taken t)
    (fun c => match nth_error (snd c) t with Some p => spin_lpot (fst c) p | None => None end) (fun _ => True)); [auto| |exact I|exact H|exact Hok|rewrite Ht; reflexivity].
  clear. intros [s ths] a c' e k _ H Hok Hk. cbn [fst snd] in Hk. destruct (nth_error ths t) as [p|] eqn:Et; [|discriminate].
  destruct a as [u o|u]; cbn [spin_nocall spin_attempt spin_taken] in *; unfold ttas_step, spin_step in H.
  - destruct (nth_error ths u) as [[m| | | | |]|] eqn:Eu; try discriminate. destruct (mpre m o); [|discriminate].
    destruct (ttas_entry m o) as [q|]; [|discriminate]. inversion H; subst. cbn [fst snd].
    apply negb_true_iff, Nat.eqb_neq in Hok. rewrite nth_upd_neq by auto. rewrite Et. eexists. split; [exact Hk|]. lia.
  - destruct (Nat.eqb_spec u t) as [->|N]; cbn [snd]; rewrite ?Et; cbn [andb negb].
    + rewrite Et in H. destruct p; cbn [spin_lpot] in Hk; try discriminate; cbn [ttas_run] in H.
      * destruct s; cbn [Bool.eqb unlocked_state] in *; inversion H; subst; inversion Hk; subst; cbn [fst snd]; erewrite nth_upd_eq by exact Et; cbn; eexists; split; try reflexivity; lia.
      * destruct s; cbn [Bool.eqb unlocked_state] in *; inversion H; subst; inversion Hk; subst; cbn [fst snd]; erewrite nth_upd_eq by exact Et; cbn; eexists; split; try reflexivity; lia.
      * inversion H; subst; inversion Hk; subst; cbn [fst snd]. erewrite nth_upd_eq by exact Et. cbn. eexists; split; try reflexivity; lia.
    + assert (X : nth_error (snd c') t = Some p).
      { destruct (nth_error ths u) as [q|]; [|discriminate]. destruct q; try (destruct (ttas_run s _) as [[s' p']|]; [|discriminate]);
          inversion H; subst; cbn [snd]; rewrite nth_upd_neq by auto; exact Et. }
      rewrite X. cbn [fst]. destruct p; cbn [spin_lpot] in *; try discriminate; try (exists k; split; [exact Hk|lia]).
      destruct s, (fst c'); cbn in *; inversion Hk; subst; eexists; (split; [reflexivity|lia]).
Qed.
Print Assumptions C65_spin_attempts.
End Spin.

(** ** shared_spin_mutex *)
Section Shared.
Import SharedSpinModel PropsProgress.
Definition is_sunlock (e : event rop rres) : bool := match e with Ret _ SUnlock _ => true | _ => false end.
Definition is_xunlock (e : event rop rres) : bool := match e with Ret _ XUnlock _ => true | _ => false end.

(** A waiting writer is passed by any number of readers that arrive after it. *)
Theorem C65_writer_refuted : exists n t, forall N, exists sched c tr,
  exec rw_step (rw_init n) sched = Some (c, tr) /\ overtaken t XLock is_sunlock N tr /\ N <= count (rw_own t) sched.
Proof.
  exists 3, 0. intros N.
  destruct (overtake rw_step (rw_init 3) [RCall 1 SLock; RRun 1 false; RRun 1 false; RRun 1 false; RRun 1 false; RCall 0 XLock]
    (1%Z, [XLoad; RRest HShared; RRest HNone]) [Call 1 SLock; Ret 1 SLock QOk] []
    [RCall 2 SLock; RRun 2 false; RRun 2 false; RRun 2 false; RRun 2 false; RCall 1 SUnlock; RRun 1 false; RRun 1 false; RRun 0 false;
     RCall 1 SLock; RRun 1 false; RRun 1 false; RRun 1 false; RRun 1 false; RCall 2 SUnlock; RRun 2 false; RRun 2 false]
    [Call 2 SLock; Ret 2 SLock QOk; Call 1 SUnlock; Ret 1 SUnlock QOk; Call 1 SLock; Ret 1 SLock QOk; Call 2 SUnlock; Ret 2 SUnlock QOk]
    0 XLock is_sunlock (rw_own 0) eq_refl eq_refl eq_refl (le_S _ _ (le_n 1)) N) as (sched & c & tr & H1 & H2 & H3).
  exists sched, c, tr. repeat split; auto. cbn in H3. lia.
Qed.
Print Assumptions C65_writer_refuted.

(** A waiting reader is passed by any number of writers, although the lock is free again and again. *)
Theorem C65_reader_refuted : exists n t, forall N, exists sched c tr,
  exec rw_step (rw_init n) sched = Some (c, tr) /\ overtaken t SLock is_xunlock N tr /\ N <= count (rw_own t) sched.
Proof.
  exists 2, 0. intros N.
  destruct (overtake rw_step (rw_init 2) [RCall 0 SLock] (0%Z, [SLoad1; RRest HNone]) [] []
    [RCall 1 XLock; RRun 1 false; RRun 1 false; RRun 1 false; RRun 0 false; RCall 1 XUnlock; RRun 1 false; RRun 1 false]
    [Call 1 XLock; Ret 1 XLock QOk; Call 1 XUnlock; Ret 1 XUnlock QOk]
    0 SLock is_xunlock (rw_own 0) eq_refl eq_refl eq_refl (le_n 1) N) as (sched & c & tr & H1 & H2 & H3).
  exists sched, c, tr. repeat split; auto. cbn in H3. lia.
Qed.
Print Assumptions C65_reader_refuted.

(** What holds: each compare-exchange of a call beyond the first is owed to a change of the word by another thread or to a spurious failure. *)
Definition rw_attempt (t : nat) (c : rcfg) (a : ract) : bool :=
  match a with RRun u _ => Nat.eqb u t && match nth_error (snd c) t with Some XCas | Some (SCas _) => true | _ => false end | _ => false end.
Definition rw_noise (t : nat) (c : rcfg) (a : ract) (c' : rcfg) : bool :=
  match a with RRun u sp => if Nat.eqb u t then sp else negb (fst c =? fst c')%Z | _ => false end.
Definition rw_lpot (s : Z) (p : rpc) : option nat :=
  match p with
  | RRest _ | RDone _ _ _ => Some 0
  | XLoad | SLoad1 => Some 1
  | XCas => Some (if (s =? rw_unlocked)%Z then 1 else 2)
  | SLoad2 => Some (if (s =? Z.land s reader_mask)%Z then 1 else 2)
  | SCas cur => Some (if (s =? cur)%Z then 1 else 2)
  | _ => None
  end.

Theorem C65_shared_attempts : forall n sched0 c0 tr0 sched c tr t o, o = XLock \/ o = SLock ->
  exec rw_step (rw_init n) sched0 = Some (c0, tr0) -> nth_error (snd c0) t = Some (rw_entry o) ->
  exec rw_step c0 sched = Some (c, tr) -> forallb (rw_nocall t) sched = true ->
  count_along rw_step (fun c a _ => rw_attempt t c a) c0 sched <= 1 + count_along rw_step (rw_noise t) c0 sched.
Proof.
  intros n sched0 c0 tr0 sched c tr t o Ho H0 Ht H Hok.
  eapply (bounded_along rw_step (rw_nocall t) (fun c a _ => rw_attempt t c a) (rw_noise t)
    (fun c => match nth_error (snd c) t with Some p => rw_lpot (fst c) p | None => None end) (fun c => exists sched tr, exec rw_step (rw_init n) sched = Some (c, tr)));
    [| |eauto|exact H|exact Hok|rewrite Ht; destruct Ho as [-> | ->]; reflexivity].
  - intros c1 a c2 e (sc & tt & Hc) Hs. exists (sc ++ [a]), (tt ++ e). rewrite exec_app, Hc. cbn [exec]. rewrite Hs, app_nil_r. reflexivity.
  - clear. intros [s ths] a c' e k (sc & tt & Hc) H Hok Hk. cbn [fst snd] in Hk. destruct (nth_error ths t) as [p|] eqn:Et; [|discriminate].
    assert (Hv : (0 <= s <= 2 ^ 31)%Z).
    { destruct (SharedSpinProof.rw_lin _ _ _ _ Hc) as (_ & ((w & r) & xs) & _ & _ & _ & _ & Hw). cbn [fst snd] in Hw.
      destruct w; unfold rw_locked in *; lia. }
    destruct a as [u o|u b]; cbn [rw_nocall rw_attempt rw_noise] in *; unfold rw_step in H.
    + destruct (nth_error ths u) as [[m| | | | | | | | | | | ]|] eqn:Eu; try discriminate. destruct (rpre m o); [|discriminate].
      inversion H; subst. cbn [fst snd]. apply negb_true_iff, Nat.eqb_neq in Hok. rewrite nth_upd_neq by auto. rewrite Et. eexists. split; [exact Hk|]. lia.
    + destruct (Nat.eqb_spec u t) as [->|N]; cbn [snd]; rewrite ?Et; cbn [andb].
      * rewrite Et in H. destruct p; cbn [rw_lpot] in Hk; try discriminate; cbn [rw_run] in H.
        -- destruct (Z.eqb_spec s rw_unlocked) as [E|E]; inversion H; subst; inversion Hk; subst; cbn [fst snd]; erewrite nth_upd_eq by exact Et; cbn [rw_lpot];
             eexists; (split; [reflexivity|]); try lia.
           rewrite Z.eqb_refl. lia.
        -- destruct (Z.eqb_spec s rw_unlocked) as [E|E], b; cbn [andb negb] in H; inversion H; subst; inversion Hk; subst; cbn [fst snd]; erewrite nth_upd_eq by exact Et; cbn [rw_lpot];
             eexists; (split; [reflexivity|]); lia.
        -- destruct (Z.eqb_spec s rw_locked) as [E|E]; inversion H; subst; inversion Hk; subst; cbn [fst snd]; erewrite nth_upd_eq by exact Et; cbn [rw_lpot];
             eexists; (split; [reflexivity|]); try lia.
           rewrite SharedSpinProof.land_mask_small, Z.eqb_refl by (unfold rw_locked in E; lia). lia.
        -- inversion H; subst; inversion Hk; subst; cbn [fst snd]; erewrite nth_upd_eq by exact Et; cbn [rw_lpot]. eexists; (split; [reflexivity|]). lia.
        -- destruct (Z.eqb_spec s cur) as [E|E], b; cbn [andb negb] in H; inversion H; subst; inversion Hk; subst; cbn [fst snd]; erewrite nth_upd_eq by exact Et; cbn [rw_lpot];
             eexists; (split; [reflexivity|]); lia.
        -- inversion H; subst; inversion Hk; subst; cbn [fst snd]; erewrite nth_upd_eq by exact Et; cbn [rw_lpot]. eexists; (split; [reflexivity|]). lia.
      * assert (X : nth_error (snd c') t = Some p).
        { destruct (nth_error ths u) as [q|]; [|discriminate]. destruct q; try (destruct (rw_run s _ _) as [[s' p']|]; [|discriminate]);
            inversion H; subst; cbn [snd]; rewrite nth_upd_neq by auto; exact Et. }
        rewrite X. cbn [fst]. destruct (Z.eqb_spec s (fst c')) as [E|E]; cbn [negb].
        -- rewrite <- E. exists k. split; [exact Hk|lia].
        -- destruct p; cbn [rw_lpot] in *; try discriminate; inversion Hk; subst; eexists; (split; [reflexivity|]);
             repeat match goal with |- context [if ?x then _ else _] => destruct x end; lia.
Qed.
Print Assumptions C65_shared_attempts.

(** The bound is attained: thread 1 takes the lock between the load and the compare-exchange of thread 0, which needs two attempts. *)
Example C65_shared_attempts_example : exists c tr,
  let c0 := (0%Z, [XLoad; RRest HNone]) in
  let sched := [RRun 0 false; RCall 1 XTry; RRun 1 false; RRun 1 false; RRun 0 false; RCall 1 XUnlock; RRun 1 false; RRun 1 false; RRun 0 false; RRun 0 false; RRun 0 false] in
  exec rw_step c0 sched = Some (c, tr) /\ In (Ret 0 XLock QOk) tr /\
  count_along rw_step (fun c a _ => rw_attempt 0 c a) c0 sched = 2 /\ count_along rw_step (rw_noise 0) c0 sched = 2.
Proof. do 2 eexists. cbn zeta. split; [vm_compute; reflexivity|]. split; [cbn; auto 10|]. split; reflexivity. Qed.

End Shared.

(** ** auto_reset_event on Linux: the waiting thread is woken by every post, and every time the poster takes the event back first. *)
Section Futex.
Import AutoFutexModel PropsProgress.
Theorem C65_auto_futex_refuted : exists n t u, t <> u /\ forall N, exists sched c tr,
  exec auto_step (auto_init n) sched = Some (c, tr) /\ overtaken t EWait (is_post u) N tr /\ N <= count (auto_own t) sched.
Proof.
  exists 2, 0, 1. split; [discriminate|]. intros N.
  destruct (overtake auto_step (auto_init 2) [ACall 0 EWait; ARun 0 CNorm; ARun 0 CNorm; ARun 0 CNorm] (1%Z, [WSleep KWait; ARest]) [] []
    [ACall 1 EPost; ARun 1 CNorm; ARun 1 CNorm; ARun 1 (CWake 0); ARun 1 CNorm; ACall 1 ETry; ARun 1 CNorm; ARun 1 CNorm; ARun 1 CNorm; ARun 0 CNorm; ARun 0 CNorm]
    [Call 1 EPost; Ret 1 EPost EOk; Call 1 ETry; Ret 1 ETry ETrue]
    0 EWait (is_post 1) (auto_own 0) eq_refl eq_refl eq_refl (le_n 1) N) as (sched & c & tr & H1 & H2 & H3).
  exists sched, c, tr. repeat split; auto. cbn in H3. lia.
Qed.
Print Assumptions C65_auto_futex_refuted.
End Futex.

Section Sem.
Import AutoSemModel.
Theorem C65_auto_sem_refuted : exists n t u, t <> u /\ forall N, exists sched c tr,
  exec as_step (as_init n) sched = Some (c, tr) /\ overtaken t EWait (is_post u) N tr.
Proof.
  exists 2, 0, 1. split; [discriminate|]. intros N.
  destruct (overtake as_step (as_init 2) [TCall 0 EWait; TRun 0 SNorm] ((1%Z, 0%Z), [SSemWait SKWait; SRest]) [] []
    [TCall 1 EPost; TRun 1 SNorm; TRun 1 SNorm; TRun 1 SNorm; TRun 1 SNorm; TCall 1 ETry; TRun 1 SNorm; TRun 1 SNorm; TRun 1 SNorm]
    [Call 1 EPost; Ret 1 EPost EOk; Call 1 ETry; Ret 1 ETry ETrue]
    0 EWait (is_post 1) (fun _ => false) eq_refl eq_refl eq_refl (le_n 1) N) as (sched & c & tr & H1 & H2 & H3).
  exists sched, c, tr. repeat split; auto.
Qed.
Print Assumptions C65_auto_sem_refuted.
End Sem.

(** ** The emulated event, semaphore and timed mutex *)
Section Emu.
Import Monitor EmuModel.
Definition own {O C} (t : nat) (a : tact O C) : bool := match a with TRun u _ => Nat.eqb u t | _ => false end.

Definition emu_block : list (tact eop mchoice) :=
  [TCall 1 EPost; TRun 1 MNorm; TRun 1 MNorm; TRun 1 MNorm; TRun 1 (MWake 0); TRun 1 MNorm; TRun 1 MNorm;
   TCall 1 ETry; TRun 1 MNorm; TRun 1 MNorm; TRun 1 MNorm; TRun 1 MNorm; TRun 1 MNorm;
   TRun 0 MNorm; TRun 0 MNorm; TRun 0 MNorm].

Theorem C65_auto_emulated_refuted : exists n t u, t <> u /\ forall N, exists sched c tr,
  exec (are_step false) (are_init n) sched = Some (c, tr) /\ overtaken t EWait (is_post u) N tr /\ N <= count (own t) sched.
Proof.
  exists 2, 0, 1. split; [discriminate|]. intros N.
  destruct (overtake (are_step false) (are_init 2) [TCall 0 EWait; TRun 0 MNorm; TRun 0 MNorm; TRun 0 MNorm]
    ((false, 0%Z), [PSleep (SP := ev_spec 0 post_binary) tt EWait []; PRest (SP := ev_spec 0 post_binary) tt]) [] [] emu_block
    [Call 1 EPost; Ret 1 EPost EOk; Call 1 ETry; Ret 1 ETry ETrue]
    0 EWait (is_post 1) (own 0) eq_refl eq_refl eq_refl (le_n 1) N) as (sched & c & tr & H1 & H2 & H3).
  exists sched, c, tr. repeat split; auto. assert (H4 : N * 3 <= count (own 0) sched) by exact H3. lia.
Qed.
Print Assumptions C65_auto_emulated_refuted.

Theorem C65_semaphore_refuted : exists n t u, t <> u /\ forall N, exists sched c tr,
  exec (sem_step 0 false) (sem_init 0 n) sched = Some (c, tr) /\ overtaken t EWait (is_post u) N tr /\ N <= count (own t) sched.
Proof.
  exists 2, 0, 1. split; [discriminate|]. intros N.
  destruct (overtake (sem_step 0 false) (sem_init 0 2) [TCall 0 EWait; TRun 0 MNorm; TRun 0 MNorm; TRun 0 MNorm]
    ((false, 0%Z), [PSleep (SP := ev_spec 0 post_count) tt EWait []; PRest (SP := ev_spec 0 post_count) tt]) [] [] emu_block
    [Call 1 EPost; Ret 1 EPost EOk; Call 1 ETry; Ret 1 ETry ETrue]
    0 EWait (is_post 1) (own 0) eq_refl eq_refl eq_refl (le_n 1) N) as (sched & c & tr & H1 & H2 & H3).
  exists sched, c, tr. repeat split; auto. assert (H4 : N * 3 <= count (own 0) sched) by exact H3. lia.
Qed.
Print Assumptions C65_semaphore_refuted.

Theorem C65_timed_mutex_refuted : exists n t u, t <> u /\ forall N, exists sched c tr,
  exec tm_step (tm_init n) sched = Some (c, tr) /\ overtaken t MLock (is_unlock u) N tr /\ N <= count (own t) sched.
Proof.
  exists 2, 0, 1. split; [discriminate|]. intros N.
  destruct (overtake tm_step (tm_init 2)
    [TCall 1 MLock; TRun 1 MNorm; TRun 1 MNorm; TRun 1 MNorm; TRun 1 MNorm; TRun 1 MNorm; TCall 0 MLock; TRun 0 MNorm; TRun 0 MNorm; TRun 0 MNorm]
    ((false, Some 1), [PSleep (SP := mutex_spec false) false MLock []; PRest (SP := mutex_spec false) true]) [Call 1 MLock; Ret 1 MLock ROk] []
    [TCall 1 MUnlock; TRun 1 MNorm; TRun 1 MNorm; TRun 1 MNorm; TRun 1 (MWake 0); TRun 1 MNorm; TRun 1 MNorm;
     TCall 1 MLock; TRun 1 MNorm; TRun 1 MNorm; TRun 1 MNorm; TRun 1 MNorm; TRun 1 MNorm; TRun 0 MNorm; TRun 0 MNorm; TRun 0 MNorm]
    [Call 1 MUnlock; Ret 1 MUnlock ROk; Call 1 MLock; Ret 1 MLock ROk]
    0 MLock (is_unlock 1) (own 0) eq_refl eq_refl eq_refl (le_n 1) N) as (sched & c & tr & H1 & H2 & H3).
  exists sched, c, tr. repeat split; auto. assert (H4 : N * 3 <= count (own 0) sched) by exact H3. lia.
Qed.
Print Assumptions C65_timed_mutex_refuted.
End Emu.

(** ** The Windows mutex: unlock() sets the event, but the owner takes the lock back before the woken thread. *)
Section Win.
Import WinMutexModel.
Definition win_block : list (tact mop wchoice) :=
  [TCall 1 MUnlock; TRun 1 CNorm; TRun 1 CNorm; TRun 1 CNorm; TRun 1 CNorm; TRun 1 CNorm; TCall 1 MLock; TRun 1 CNorm; TRun 1 CNorm; TRun 0 CNorm; TRun 0 CNorm; TRun 0 CNorm].
Definition win_start : list (tact mop wchoice) :=
  [TCall 1 MLock; TRun 1 CNorm; TRun 1 CNorm; TCall 0 MLock; TRun 0 CNorm; TRun 0 CNorm; TRun 0 CNorm; TRun 0 CNorm; TRun 0 CNorm; TRun 0 CNorm] ++ win_block.

Definition win_cfg := Eval vm_compute in match exec wm_step (wm_init 2) win_start with Some (c, _) => c | None => wm_init 2 end.
Lemma win_start_ok : exec wm_step (wm_init 2) win_start =
  Some (win_cfg, [Call 1 MLock; Ret 1 MLock ROk] ++ Call 0 MLock :: [Call 1 MUnlock; Ret 1 MUnlock ROk; Call 1 MLock; Ret 1 MLock ROk]).
Proof. vm_compute. reflexivity. Qed.
Lemma win_block_ok : exec wm_step win_cfg win_block = Some (win_cfg, [Call 1 MUnlock; Ret 1 MUnlock ROk; Call 1 MLock; Ret 1 MLock ROk]).
Proof. vm_compute. reflexivity. Qed.

Theorem C65_windows_mutex_refuted : exists n t u, t <> u /\ forall N, exists sched c tr,
  exec wm_step (wm_init n) sched = Some (c, tr) /\ overtaken t MLock (is_unlock u) N tr /\ N <= count (own t) sched.
Proof.
  exists 2, 0, 1. split; [discriminate|]. intros N.
  destruct (overtake wm_step (wm_init 2) win_start win_cfg _ _ win_block _ 0 MLock (is_unlock 1) (own 0) win_start_ok win_block_ok eq_refl (le_n 1) N)
    as (sched & c & tr & H1 & H2 & H3).
  exists sched, c, tr. repeat split; auto. assert (H4 : N * 3 <= count (own 0) sched) by exact H3. lia.
Qed.
Print Assumptions C65_windows_mutex_refuted.
End Win.
