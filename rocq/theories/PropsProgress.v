(** Property C63: the operations that are not documented to block do not wait for other threads.  For each of them the number of steps (atomic accesses and
    system calls, the return included) of a call is bounded by a constant, plus, for the two loops around compare_exchange_weak, one per
    change made by another thread and one per spurious failure.  The bounds hold from every configuration, reachable or not, for any number of
    threads and any schedule; a call is never stuck. *)
From Coq Require Import List Bool Arith ZArith Lia.
From Verif Require Import ListSum Exec Lin Thr Word Progress MutexSpec EventSpec FlagSpec RwSpec.
From Verif Require SpinModel SharedSpinModel AutoFutexModel ManualFutexModel AutoSemModel WinMutexModel Monitor EmuModel.
Import ListNotations.
Local Open Scope nat_scope.

(** ** spin_mutex *)
Section Spin.
Import SpinModel.
Definition spin_own (t : nat) (a : sact) : bool := match a with SRun u => Nat.eqb u t | SCall _ _ => false end.
Definition spin_nocall (t : nat) (a : sact) : bool := match a with SCall u _ => negb (Nat.eqb u t) | SRun _ => true end.
Definition spin_pot (p : spc) : option nat :=
  match p with SRest _ => Some 0 | SDone _ _ _ => Some 1 | STry _ | SStore => Some 2 | SLoad | SXchg => None end.

Lemma spin_bound entry run :
  (forall s p s' p' k, run s p = Some (s', p') -> spin_pot p = Some k -> exists k', spin_pot p' = Some k' /\ k' < k) ->
  forall c0 sched c tr t p k, nth_error (snd c0) t = Some p -> spin_pot p = Some k ->
    exec (spin_step entry run) c0 sched = Some (c, tr) -> forallb (spin_nocall t) sched = true -> count (spin_own t) sched <= k.
Proof.
  intros Hr c0 sched c tr t p k Ht Hp H Hok.
  assert (G : count (spin_own t) sched <= k + count_along (spin_step entry run) (fun _ _ _ => false) c0 sched).
  { eapply (bounded_steps (spin_step entry run) (spin_own t) (spin_nocall t) (fun _ _ _ => false)
      (fun c => match nth_error (snd c) t with Some p => spin_pot p | None => None end)); [|exact H|exact Hok|cbn; rewrite Ht; exact Hp].
    clear - Hr. intros [s ths] a c' e k H Hok Hk. cbn [snd] in Hk. destruct (nth_error ths t) as [p|] eqn:Et; [|discriminate].
    destruct a as [u o|u]; cbn [spin_own spin_nocall] in *; unfold spin_step in H.
    - destruct (nth_error ths u) as [[m| | | | |]|] eqn:Eu; try discriminate. destruct (mpre m o); [|discriminate].
      destruct (entry m o) as [q|]; [|discriminate]. inversion H; subst. cbn [snd].
      apply negb_true_iff, Nat.eqb_neq in Hok. rewrite nth_upd_neq by auto. rewrite Et. eexists. split; [exact Hk|]. lia.
    - destruct (Nat.eqb_spec u t) as [->|N].
      + rewrite Et in H. destruct p; try discriminate; cbn [spin_pot] in Hk.
        1-3: destruct (run s _) as [[s' p']|] eqn:Er; [|discriminate]; inversion H; subst; cbn [snd];
          destruct (Hr _ _ _ _ _ Er Hk) as (k' & A & B); erewrite nth_upd_eq by exact Et; exists k'; split; [exact A|lia].
        inversion H; inversion Hk; subst. cbn [snd]. erewrite nth_upd_eq by exact Et. exists 0. split; [reflexivity|lia].
      + assert (X : nth_error (snd c') t = Some p).
        { destruct (nth_error ths u) as [q|]; [|discriminate]. destruct q; try (destruct (run s _) as [[s' p']|]; [|discriminate]);
            inversion H; subst; cbn [snd]; rewrite nth_upd_neq by auto; exact Et. }
        rewrite X. exists k. split; [exact Hk|lia]. }
  assert (Z0 : forall sched c, count_along (spin_step entry run) (fun _ _ _ => false) c sched = 0).
  { clear. induction sched as [|a sched IH]; intros c; cbn [count_along]; [reflexivity|]. destruct (spin_step entry run c a) as [[c1 ?]|]; [apply IH|reflexivity]. }
  rewrite Z0 in G. lia.
Qed.

(** try_lock() and unlock(), both implementations: one access and the return. *)
Theorem C63_spin : forall entry run, (entry = ttas_entry /\ run = ttas_run) \/ (entry = tas_entry /\ run = tas_run) ->
  forall c0 sched c tr t m o p, o = MTryLock \/ o = MUnlock -> entry m o = Some p -> nth_error (snd c0) t = Some p ->
    exec (spin_step entry run) c0 sched = Some (c, tr) -> forallb (spin_nocall t) sched = true -> count (spin_own t) sched <= 2.
Proof.
  intros entry run He c0 sched c tr t m o p Ho Hp Ht H Hok.
  eapply (spin_bound entry run); eauto.
  - intros s q s' q' k Hr Hk. destruct He as [(-> & ->)|(-> & ->)]; destruct q; cbn in Hk; inversion Hk; subst; cbn in Hr; try discriminate;
      repeat match type of Hr with context [if ?b then _ else _] => destruct b end; inversion Hr; subst; cbn; eexists; split; try reflexivity; lia.
  - destruct He as [(-> & ->)|(-> & ->)], Ho as [-> | ->]; cbn in Hp; inversion Hp; reflexivity.
Qed.
Print Assumptions C63_spin.

Theorem C63_spin_never_stuck : forall entry run, (entry = ttas_entry /\ run = ttas_run) \/ (entry = tas_entry /\ run = tas_run) ->
  forall s ths t p k, nth_error ths t = Some p -> spin_pot p = Some k -> (forall m, p <> SRest m) ->
    exists c' e, spin_step entry run (s, ths) (SRun t) = Some (c', e).
Proof.
  intros entry run He s ths t p k Ht Hk Hn. unfold spin_step. rewrite Ht.
  destruct He as [(-> & ->)|(-> & ->)]; destruct p; cbn in Hk; try discriminate; try (exfalso; eapply Hn; reflexivity); cbn; try (do 2 eexists; reflexivity);
    destruct s; do 2 eexists; reflexivity.
Qed.
Print Assumptions C63_spin_never_stuck.

Example C63_spin_example : exists c tr,
  exec ttas_step (negb unlocked_state, [STry false; SStore]) [SRun 0; SRun 1; SRun 0; SRun 1] = Some (c, tr) /\ tr = [Ret 0 MTryLock RFalse; Ret 1 MUnlock ROk].
Proof. eexists. eexists. split; [vm_compute; reflexivity|]. reflexivity. Qed.
End Spin.

(** ** shared_spin_mutex *)
Section Shared.
Import SharedSpinModel.
Definition rw_own (t : nat) (a : ract) : bool := match a with RRun u _ => Nat.eqb u t | RCall _ _ => false end.
Definition rw_nocall (t : nat) (a : ract) : bool := match a with RCall u _ => negb (Nat.eqb u t) | RRun _ _ => true end.
Definition rw_pot (p : rpc) : option nat :=
  match p with RRest _ => Some 0 | RDone _ _ _ => Some 1 | XTryCas | XStore | STryCas _ | SSub => Some 2 | STryLoad => Some 3 | _ => None end.

(** try_lock(), unlock(), try_lock_shared(), unlock_shared(): at most two accesses and the return, whatever the other threads do. *)
Theorem C63_shared_spin : forall c0 sched c tr t o, o = XTry \/ o = XUnlock \/ o = STry \/ o = SUnlock ->
  nth_error (snd c0) t = Some (rw_entry o) -> exec rw_step c0 sched = Some (c, tr) -> forallb (rw_nocall t) sched = true -> count (rw_own t) sched <= 3.
Proof.
  intros c0 sched c tr t o Ho Ht H Hok.
  assert (exists k, rw_pot (rw_entry o) = Some k /\ k <= 3) as (k & Hk & Lk)
    by (destruct Ho as [-> |[-> |[-> | ->]]]; cbn; eexists; split; try reflexivity; lia).
  assert (G : count (rw_own t) sched <= k + count_along rw_step (fun _ _ _ => false) c0 sched).
  { eapply (bounded_steps rw_step (rw_own t) (rw_nocall t) (fun _ _ _ => false)
      (fun c => match nth_error (snd c) t with Some p => rw_pot p | None => None end)); [|exact H|exact Hok|cbn; rewrite Ht; exact Hk].
    clear. intros [s ths] a c' e k H Hok Hk. cbn [snd] in Hk. destruct (nth_error ths t) as [p|] eqn:Et; [|discriminate].
    destruct a as [u o|u b]; cbn [rw_own rw_nocall] in *; unfold rw_step in H.
    - destruct (nth_error ths u) as [q|] eqn:Eu; [|discriminate]. destruct q; try discriminate. destruct (rpre m o); [|discriminate].
      inversion H; subst. cbn [snd]. apply negb_true_iff, Nat.eqb_neq in Hok. rewrite nth_upd_neq by auto. rewrite Et. eexists. split; [exact Hk|]. lia.
    - destruct (Nat.eqb_spec u t) as [->|N].
      + rewrite Et in H. destruct p; try discriminate; cbn [rw_pot] in Hk; inversion Hk; subst; cbn [rw_run] in H;
          repeat match type of H with context [if ?b then _ else _] => destruct b end;
          inversion H; subst; cbn [snd]; erewrite nth_upd_eq by exact Et; cbn [rw_pot]; eexists; (split; [reflexivity|lia]).
      + assert (X : nth_error (snd c') t = Some p).
        { destruct (nth_error ths u) as [q|]; [|discriminate]. destruct q; try (destruct (rw_run s _ b) as [[s' p']|]; [|discriminate]);
            inversion H; subst; cbn [snd]; rewrite nth_upd_neq by auto; exact Et. }
        rewrite X. exists k. split; [exact Hk|lia]. }
  assert (Z0 : forall sched c, count_along rw_step (fun _ _ _ => false) c sched = 0).
  { clear. induction sched as [|a sched IH]; intros c; cbn [count_along]; [reflexivity|]. destruct (rw_step c a) as [[c1 ?]|]; [apply IH|reflexivity]. }
  rewrite Z0 in G. lia.
Qed.
Print Assumptions C63_shared_spin.

Theorem C63_shared_spin_never_stuck : forall s ths t p k b, nth_error ths t = Some p -> rw_pot p = Some k -> (forall m, p <> RRest m) ->
  exists c' e, rw_step (s, ths) (RRun t b) = Some (c', e).
Proof.
  intros s ths t p k b Ht Hk Np. unfold rw_step. rewrite Ht. destruct p; cbn in Hk; try discriminate; try (exfalso; eapply Np; reflexivity); cbn [rw_run]; eauto.
  - destruct (s =? rw_unlocked)%Z; eauto.
  - destruct (s =? cur)%Z; eauto.
Qed.
Print Assumptions C63_shared_spin_never_stuck.

(** The bound is attained by a try_lock_shared() overlapping other readers. *)
Example C63_shared_spin_example : exists c tr,
  exec rw_step (0%Z, [rw_entry STry; RRest HNone]) [RRun 0 false; RCall 1 SLock; RRun 1 false; RRun 1 false; RRun 1 false; RRun 0 false; RRun 0 false] = Some (c, tr) /\
  count (rw_own 0) [RRun 0 false; RCall 1 SLock; RRun 1 false; RRun 1 false; RRun 1 false; RRun 0 false; RRun 0 false] = 3 /\ In (Ret 0 STry QFalse) tr.
Proof. eexists. eexists. split; [vm_compute; reflexivity|]. split; [reflexivity|]. cbn. auto. Qed.
End Shared.

(** ** auto_reset_event on Linux *)
Section Auto.
Import AutoFutexModel.
Definition auto_own (t : nat) (a : aact) : bool := match a with ARun u _ => Nat.eqb u t | ACall _ _ => false end.
Definition auto_nocall (t : nat) (a : aact) : bool := match a with ACall u _ => negb (Nat.eqb u t) | ARun _ _ => true end.
(** Another thread's step changes the word, or a weak compare-exchange of this thread fails spuriously. *)
Definition auto_noise (t : nat) (c : acfg) (a : aact) (c' : acfg) : bool :=
  match a with ARun u CSpur => Nat.eqb u t || negb (fst c =? fst c')%Z | ARun u _ => negb (Nat.eqb u t) && negb (fst c =? fst c')%Z | ACall _ _ => false end.
Definition auto_pot (s : Z) (p : apc) : option nat :=
  match p with
  | ARest => Some 0 | ADone _ _ => Some 1 | PSignal => Some 2
  | PCas old => Some (if (s =? old)%Z then 3 else 4)
  | PLoad => Some 4
  | TCas KTry old => Some (if (s =? old)%Z then 2 else 3)
  | TLoad KTry => Some 3
  | _ => None
  end.

Lemma auto_pot_word s s' p k : auto_pot s p = Some k -> exists k', auto_pot s' p = Some k' /\ k' <= k + (if (s =? s')%Z then 0 else 1).
Proof.
  destruct p; cbn; try discriminate; try (destruct k0; try discriminate); intros H; inversion H; subst; eexists; (split; [reflexivity|]); try lia;
    destruct (Z.eqb_spec s old), (Z.eqb_spec s' old), (Z.eqb_spec s s'); subst; try lia; congruence.
Qed.
Lemma post_try_pot s : exists k, auto_pot s (post_try s) = Some k /\ k <= 3.
Proof. unfold post_try. destruct (_ <=? _)%Z; cbn; rewrite ?Z.eqb_refl; eexists; (split; [reflexivity|lia]). Qed.
Lemma try_test_pot s ch p : try_test KTry ch s = Some p -> exists k, auto_pot s p = Some k /\ k <= 2.
Proof.
  unfold try_test. destruct (_ <? _)%Z; intros H; inversion H; subst; cbn; rewrite ?Z.eqb_refl; eexists; (split; [reflexivity|lia]).
Qed.

Lemma auto_bound c0 sched c tr t o : o = EPost \/ o = ETry ->
  nth_error (snd c0) t = Some (auto_entry o) -> exec auto_step c0 sched = Some (c, tr) -> forallb (auto_nocall t) sched = true ->
  count (auto_own t) sched <= 4 + count_along auto_step (auto_noise t) c0 sched.
Proof.
  intros Ho Ht H Hok.
  assert (exists k, auto_pot (fst c0) (auto_entry o) = Some k /\ k <= 4) as (k & Hk & Lk)
    by (destruct Ho as [-> | ->]; cbn; eexists; (split; [reflexivity|lia])).
  enough (count (auto_own t) sched <= k + count_along auto_step (auto_noise t) c0 sched) by lia.
  eapply (bounded_steps auto_step (auto_own t) (auto_nocall t) (auto_noise t)
      (fun c => match nth_error (snd c) t with Some p => auto_pot (fst c) p | None => None end)); [|exact H|exact Hok|cbn; rewrite Ht; exact Hk].
  clear. intros [s ths] a c' e k H Hok Hk. cbn [fst snd] in Hk. destruct (nth_error ths t) as [p|] eqn:Et; [|discriminate].
  destruct a as [u o|u ch]; cbn [auto_own auto_nocall auto_noise fst] in *; unfold auto_step in H.
  - destruct (nth_error ths u) as [q|] eqn:Eu; [|discriminate]. destruct q; try discriminate.
    inversion H; subst. cbn [fst snd]. apply negb_true_iff, Nat.eqb_neq in Hok. rewrite nth_upd_neq by auto. rewrite Et. eexists. split; [exact Hk|]. lia.
  - destruct (Nat.eqb_spec u t) as [->|N].
    + rewrite Et in H. cbn [orb negb andb].
      assert (X : exists s' p' k' ths', c' = (s', ths') /\ nth_error ths' t = Some p' /\ auto_pot s' p' = Some k' /\ k' + 1 <= k + (match ch with CSpur => 1 | _ => 0 end)).
      { destruct p; cbn [auto_pot] in Hk; try discriminate.
        - (* PLoad *) cbn [auto_run] in H. inversion H; inversion Hk; subst. destruct (post_try_pot s) as (k' & A & B).
          exists s, (post_try s), k'. eexists. split; [reflexivity|]. split; [eapply nth_upd_eq; eauto|]. split; [exact A|]. destruct ch; lia.
        - (* PCas *) cbn [auto_run] in H. destruct (post_try_pot s) as (k' & A & B). destruct ch; destruct (Z.eqb_spec s old) as [->|Ne]; destruct (0 <? waiters_of old)%Z; inversion H; inversion Hk; subst;
            (eexists; eexists; eexists; eexists; split; [reflexivity|split; [eapply nth_upd_eq; eauto|]]);
            first [split; [exact A|lia] | split; [reflexivity|lia]].
        - (* PSignal *) inversion Hk; subst. destruct ch as [| | | |w].
          1-4: destruct (existsb is_sleep ths); [discriminate|]; inversion H; subst; exists s, (ADone EPost EOk), 1; eexists; split; [reflexivity|];
            split; [eapply nth_upd_eq; eauto|split; [reflexivity|lia]].
          destruct (nth_error ths w) as [q|] eqn:Ew; [|discriminate]. destruct q; try discriminate. inversion H; subst.
          assert (w <> t) by (intros ->; congruence).
          exists s, (ADone EPost EOk), 1. eexists. split; [reflexivity|]. split; [eapply nth_upd_eq; rewrite nth_upd_neq by auto; exact Et|split; [reflexivity|lia]].
        - (* TLoad *) destruct k0; try discriminate. cbn [auto_run] in H. destruct (try_test KTry ch s) as [p'|] eqn:E; [|discriminate].
          inversion H; inversion Hk; subst. destruct (try_test_pot _ _ _ E) as (k' & A & B).
          exists s, p', k'. eexists. split; [reflexivity|]. split; [eapply nth_upd_eq; eauto|]. split; [exact A|]. destruct ch; lia.
        - (* TCas *) destruct k0; try discriminate. cbn [auto_run] in H.
          destruct (try_test KTry ch s) as [p'|] eqn:E; [|unfold try_test in E; destruct (0 <? posts_of s)%Z; discriminate].
          destruct (try_test_pot _ _ _ E) as (k' & A & B).
          destruct ch; destruct (Z.eqb_spec s old) as [->|Ne]; inversion H; inversion Hk; subst;
            (eexists; eexists; eexists; eexists; split; [reflexivity|split; [eapply nth_upd_eq; eauto|]]);
            first [split; [exact A|lia] | split; [reflexivity|lia]].
        - (* ADone *) inversion H; inversion Hk; subst. exists s, ARest, 0. eexists. split; [reflexivity|]. split; [eapply nth_upd_eq; eauto|]. split; [reflexivity|lia]. }
      destruct X as (s' & p' & k' & ths' & -> & T & A & B). cbn [fst snd]. rewrite T. exists k'. split; [exact A|]. destruct ch; lia.
    + assert (X : exists s' ths', c' = (s', ths') /\ nth_error ths' t = Some p).
      { destruct c' as [s' ths']. exists s', ths'. split; [reflexivity|].
        destruct (nth_error ths u) as [q|]; [|discriminate].
        assert (R : match auto_run s q ch with Some (s', p') => Some ((s', upd ths u p'), @nil (event eop eres)) | None => None end = Some ((s', ths'), e) -> nth_error ths' t = Some p).
        { destruct (auto_run s q ch) as [[s1 p1]|]; [|discriminate]. intros F. inversion F; subst. rewrite nth_upd_neq by auto. exact Et. }
        destruct q; auto.
        - destruct ch as [| | | |w]; try (destruct (existsb is_sleep ths); [discriminate|]; inversion H; subst; rewrite nth_upd_neq by auto; exact Et).
          destruct (nth_error ths w) as [q|] eqn:Ew; [|discriminate]. destruct q; try discriminate. inversion H; subst.
          rewrite nth_upd_neq by auto. rewrite nth_upd_neq; [exact Et|]. intros ->. rewrite Et in Ew. inversion Ew; subst. discriminate.
        - inversion H; subst. rewrite nth_upd_neq by auto. exact Et. }
      destruct X as (s' & ths' & -> & X). cbn [fst snd]. rewrite X. destruct (auto_pot_word s s' p k Hk) as (k' & A & B). exists k'. split; [exact A|].
      destruct ch; cbn [orb andb negb]; destruct (s =? s')%Z; cbn [negb]; lia.
Qed.

(** post() and try_wait(). *)
Theorem C63_auto : forall c0 sched c tr t o, o = EPost \/ o = ETry ->
  nth_error (snd c0) t = Some (auto_entry o) -> exec auto_step c0 sched = Some (c, tr) -> forallb (auto_nocall t) sched = true ->
  count (auto_own t) sched <= 4 + count_along auto_step (auto_noise t) c0 sched.
Proof. exact auto_bound. Qed.
Print Assumptions C63_auto.

(** A call in progress can always make a step. *)
Theorem C63_auto_never_stuck : forall s ths t p k, nth_error ths t = Some p -> auto_pot s p = Some k -> p <> ARest ->
  exists ch c' e, auto_step (s, ths) (ARun t ch) = Some (c', e).
Proof.
  intros s ths t p k Ht Hk Np. unfold auto_step. rewrite Ht.
  destruct p; cbn in Hk; try discriminate; try congruence.
  - exists CNorm. cbn. eauto.
  - exists CSpur. cbn. eauto.
  - destruct (existsb is_sleep ths) eqn:E; [|exists CNorm; eauto].
    apply existsb_exists in E as (q & Hq & Sq). destruct q; try discriminate. apply In_nth_error in Hq as (u & Hu).
    exists (CWake u). rewrite Hu. eauto.
  - destruct k0; try discriminate. exists CNorm. cbn. unfold try_test. destruct (0 <? posts_of s)%Z; eauto.
  - destruct k0; try discriminate. exists CSpur. cbn. unfold try_test. destruct (0 <? posts_of s)%Z; eauto.
  - exists CNorm. eauto.
Qed.
Print Assumptions C63_auto_never_stuck.

(** The bound is attained: thread 1's post() between the load and the compare-exchange of thread 0 costs it one more step; thread 0
    finishes after five steps, a futex wake-up of thread 2 among them. *)
Example C63_auto_example : exists c tr,
  let c0 := (1%Z, [auto_entry EPost; auto_entry EPost; WSleep KWait]) in
  let sched := [ARun 0 CNorm; ARun 1 CNorm; ARun 1 CNorm; ARun 0 CNorm; ARun 0 CNorm; ARun 0 (CWake 2); ARun 0 CNorm] in
  exec auto_step c0 sched = Some (c, tr) /\ tr = [Ret 0 EPost EOk] /\
  count (auto_own 0) sched = 5 /\ count_along auto_step (auto_noise 0) c0 sched = 1.
Proof. eexists. eexists. cbn zeta. split; [vm_compute; reflexivity|]. repeat split. Qed.
End Auto.

(** ** manual_reset_event on Linux *)
Section Manual.
Import ManualFutexModel.
Definition man_own (t : nat) (a : fact) : bool := match a with FRun u _ => Nat.eqb u t | FCall _ _ => false end.
Definition man_nocall (t : nat) (a : fact) : bool := match a with FCall u _ => negb (Nat.eqb u t) | FRun _ _ => true end.
Definition man_pot (p : fpc) : option nat :=
  match p with FRest => Some 0 | FDone _ _ => Some 1 | FBcast | FAnd | FLoad FKTry _ => Some 2 | FOr => Some 3 | _ => None end.

(** set(), reset() and try_wait(): at most two steps and the return, whatever the other threads do. *)
Theorem C63_manual : forall c0 sched c tr t o, o = FSet \/ o = FReset \/ o = FTry ->
  nth_error (snd c0) t = Some (man_entry o) -> exec man_step c0 sched = Some (c, tr) -> forallb (man_nocall t) sched = true -> count (man_own t) sched <= 3.
Proof.
  intros c0 sched c tr t o Ho Ht H Hok.
  assert (exists k, man_pot (man_entry o) = Some k /\ k <= 3) as (k & Hk & Lk)
    by (destruct Ho as [-> |[-> | ->]]; cbn; eexists; split; try reflexivity; lia).
  assert (G : count (man_own t) sched <= k + count_along man_step (fun _ _ _ => false) c0 sched).
  { eapply (bounded_steps man_step (man_own t) (man_nocall t) (fun _ _ _ => false)
      (fun c => match nth_error (snd c) t with Some p => man_pot p | None => None end)); [|exact H|exact Hok|cbn; rewrite Ht; exact Hk].
    clear. intros [s ths] a c' e k H Hok Hk. cbn [snd] in Hk. destruct (nth_error ths t) as [p|] eqn:Et; [|discriminate].
    assert (W : nth_error (map wake_all ths) t = Some p).
    { erewrite nth_map by exact Et. destruct p; try reflexivity; discriminate. }
    destruct a as [u o|u ch]; cbn [man_own man_nocall] in *; unfold man_step in H.
    - destruct (nth_error ths u) as [q|] eqn:Eu; [|discriminate]. destruct q; try discriminate.
      inversion H; subst. cbn [snd]. apply negb_true_iff, Nat.eqb_neq in Hok. rewrite nth_upd_neq by auto. rewrite Et. eexists. split; [exact Hk|]. lia.
    - destruct (Nat.eqb_spec u t) as [->|N].
      + rewrite Et in H. destruct p; try discriminate; cbn [man_pot] in Hk; try discriminate;
          try (destruct k0; try discriminate); inversion Hk; subst; cbn [man_run] in H;
          repeat match type of H with context [if ?b then _ else _] => destruct b end;
          inversion H; subst; cbn [snd]; (erewrite nth_upd_eq by (first [exact Et|exact W])); cbn [man_pot]; eexists; (split; [reflexivity|lia]).
      + assert (X : nth_error (snd c') t = Some p).
        { destruct (nth_error ths u) as [q|]; [|discriminate]. destruct q; try (destruct (man_run s _ ch) as [[s' p']|]; [|discriminate]);
            inversion H; subst; cbn [snd]; rewrite nth_upd_neq by auto; assumption. }
        rewrite X. exists k. split; [exact Hk|lia]. }
  assert (Z0 : forall sched c, count_along man_step (fun _ _ _ => false) c sched = 0).
  { clear. induction sched as [|a sched IH]; intros c; cbn [count_along]; [reflexivity|]. destruct (man_step c a) as [[c1 ?]|]; [apply IH|reflexivity]. }
  rewrite Z0 in G. lia.
Qed.
Print Assumptions C63_manual.

Theorem C63_manual_never_stuck : forall s ths t p k ch, nth_error ths t = Some p -> man_pot p = Some k -> p <> FRest ->
  exists c' e, man_step (s, ths) (FRun t ch) = Some (c', e).
Proof.
  intros s ths t p k ch Ht Hk Np. unfold man_step. rewrite Ht.
  destruct p; cbn in Hk; try discriminate; try congruence; try (destruct k0; try discriminate); cbn [man_run]; eauto.
  destruct (Z.land s mpost_bit =? 0)%Z; eauto.
Qed.
Print Assumptions C63_manual_never_stuck.
End Manual.

(** ** auto_reset_event based on a semaphore *)
Section Sem.
Import AutoSemModel.
Definition as_own (t : nat) (a : tact eop schoice) : bool := match a with TRun u _ => Nat.eqb u t | TCall _ _ => false end.
Definition as_nocall (t : nat) (a : tact eop schoice) : bool := match a with TCall u _ => negb (Nat.eqb u t) | TRun _ _ => true end.
(** Another thread changes m_state, or a weak compare-exchange of this thread fails spuriously. *)
Definition as_noise (t : nat) (c : ssh * list spc) (a : tact eop schoice) (c' : ssh * list spc) : bool :=
  match a with
  | TRun u ch => if Nat.eqb u t then (match ch with SSpur => true | _ => false end) else negb (fst (fst c) =? fst (fst c'))%Z
  | TCall _ _ => false
  end.
Definition as_pot (st : Z) (p : spc) : option nat :=
  match p with
  | SRest => Some 0 | SDone _ _ => Some 1 | SSemPost | SSub SKTry => Some 2 | SSemWait SKTry => Some 3 | SAdd SKTry | SLoad => Some 4
  | SCas old => Some (if (st =? old)%Z then 3 else 4)
  | _ => None
  end.
Lemma as_pot_word s s' p k : as_pot s p = Some k -> exists k', as_pot s' p = Some k' /\ k' <= k + (if (s =? s')%Z then 0 else 1).
Proof.
  destruct p; cbn; try discriminate; try (destruct k0; try discriminate); intros H; inversion H; subst; eexists; (split; [reflexivity|]); try lia;
    destruct (Z.eqb_spec s old), (Z.eqb_spec s' old), (Z.eqb_spec s s'); subst; try lia; congruence.
Qed.

(** post() and try_wait(). *)
Theorem C63_auto_sem : forall c0 sched c tr t o p, o = EPost \/ o = ETry -> as_call SRest o = Some p ->
  nth_error (snd c0) t = Some p -> exec as_step c0 sched = Some (c, tr) -> forallb (as_nocall t) sched = true ->
  count (as_own t) sched <= 4 + count_along as_step (as_noise t) c0 sched.
Proof.
  intros c0 sched c tr t o p Ho Hc Ht H Hok.
  assert (Hk : as_pot (fst (fst c0)) p = Some 4) by (destruct Ho as [-> | ->]; inversion Hc; reflexivity).
  eapply (bounded_steps as_step (as_own t) (as_nocall t) (as_noise t)
      (fun c => match nth_error (snd c) t with Some p => as_pot (fst (fst c)) p | None => None end)); [|exact H|exact Hok|cbn; rewrite Ht; exact Hk].
  clear. intros [[st v] ths] a c' e k H Hok Hk. cbn [fst snd] in Hk. destruct (nth_error ths t) as [p|] eqn:Et; [|discriminate].
  apply tstep_cases in H. destruct H as [(u & o & q & q' & -> & Eu & Ec & -> & ->)|[(u & ch & q & o & r & q' & -> & Eu & Er & -> & ->)|(u & ch & q & -> & Eu & Er & Ern & ->)]];
    cbn [as_own as_nocall as_noise fst snd] in *.
  - apply negb_true_iff, Nat.eqb_neq in Hok. rewrite nth_upd_neq by auto. rewrite Et. eexists. split; [exact Hk|]. lia.
  - destruct (Nat.eqb_spec u t) as [->|N].
    + rewrite Et in Eu. inversion Eu; subst. destruct q; try discriminate. cbn in Er. inversion Er; subst. cbn in Hk. inversion Hk; subst.
      erewrite nth_upd_eq by exact Et. exists 0. split; [reflexivity|]. destruct ch; lia.
    + rewrite nth_upd_neq by auto. rewrite Et. exists k. split; [exact Hk|]. lia.
  - unfold as_run in Ern. destruct (as_run1 (st, v) q ch) as [[s1 q1]|] eqn:E1; [|discriminate]. inversion Ern; subst. cbn [fst snd].
    destruct (Nat.eqb_spec u t) as [->|N].
    + rewrite Et in Eu. inversion Eu; subst. erewrite nth_upd_eq by exact Et.
      destruct q; cbn [as_pot] in Hk; try discriminate; try (destruct k0; try discriminate); cbn [as_run1] in E1; inversion Hk; subst;
        destruct ch; cbn [negb] in *; rewrite ?andb_true_r, ?andb_false_r in E1;
        repeat match type of E1 with context [if ?b then _ else _] => destruct b eqn:? end; try discriminate;
        inversion E1; subst; cbn [fst as_pot]; rewrite ?Z.eqb_refl; eexists; (split; [reflexivity|]);
        repeat match goal with H : (_ =? _)%Z = _ |- _ => rewrite H; clear H end; repeat match goal with |- context [if ?b then _ else _] => destruct b end; lia.
    + rewrite nth_upd_neq by auto. rewrite Et. destruct (as_pot_word st (fst s1) p k Hk) as (k' & A & B). exists k'. split; [exact A|].
      destruct (st =? fst s1)%Z; cbn [negb]; lia.
Qed.
Print Assumptions C63_auto_sem.

Theorem C63_auto_sem_never_stuck : forall s ths t p k ch, nth_error ths t = Some p -> as_pot (fst s) p = Some k -> p <> SRest ->
  exists c' e, as_step (s, ths) (TRun t ch) = Some (c', e).
Proof.
  intros [st v] ths t p k ch Ht Hk Np. unfold as_step, tstep. rewrite Ht.
  destruct p; cbn [fst as_pot] in Hk; try discriminate; try congruence; try (destruct k0; try discriminate); cbn [as_ret]; unfold as_run; cbn [as_run1]; eauto;
    repeat match goal with |- context [if ?b then _ else _] => destruct b end; eauto.
Qed.
Print Assumptions C63_auto_sem_never_stuck.
End Sem.

(** ** Windows mutexes *)
Section Win.
Import WinMutexModel.
Definition wm_own (t : nat) (a : tact mop wchoice) : bool := match a with TRun u _ => Nat.eqb u t | TCall _ _ => false end.
Definition wm_nocall (t : nat) (a : tact mop wchoice) : bool := match a with TCall u _ => negb (Nat.eqb u t) | TRun _ _ => true end.
Definition wm_pot (d : bool) (p : wpc) : option nat :=
  match p with
  | WRest _ => Some 0 | WDone _ _ _ => Some 1
  | WTry _ | WSet _ => Some (if d then 0 else 2)
  | WEvClose CUnlock _ _ => Some (if d then 0 else 3)
  | WEvCas CUnlock _ => Some (if d then 0 else 4)
  | WEvCreate CUnlock => Some (if d then 0 else 5)
  | WEvLoad CUnlock => Some (if d then 0 else 6)
  | WBts => Some (if d then 0 else 7)
  | WUnl => Some (if d then 0 else 8)
  | _ => None
  end.

(** try_lock() takes one step and the return, unlock() at most seven and the return, whatever the other threads do. *)
Theorem C63_windows_mutex : forall c0 sched c tr t o p, (o = MTryLock /\ (exists m, p = WTry m)) \/ (o = MUnlock /\ p = WUnl) ->
  nth_error (snd c0) t = Some p -> exec wm_step c0 sched = Some (c, tr) -> forallb (wm_nocall t) sched = true ->
  count (wm_own t) sched <= match o with MUnlock => 8 | _ => 2 end.
Proof.
  intros c0 sched c tr t o p Ho Ht H Hok.
  assert (exists k, wm_pot (dead (fst c0)) p = Some k /\ k <= match o with MUnlock => 8 | _ => 2 end) as (k & Hk & Lk).
  { destruct Ho as [(-> & m & ->)|(-> & ->)]; cbn; eexists; (split; [reflexivity|]); destruct (dead (fst c0)); lia. }
  assert (G : count (wm_own t) sched <= k + count_along wm_step (fun _ _ _ => false) c0 sched).
  { eapply (bounded_steps wm_step (wm_own t) (wm_nocall t) (fun _ _ _ => false)
      (fun c => match nth_error (snd c) t with Some p => wm_pot (dead (fst c)) p | None => None end)); [|exact H|exact Hok|cbn; rewrite Ht; exact Hk].
    clear. intros [s ths] a c' e k H Hok Hk. cbn [fst snd] in Hk. destruct (nth_error ths t) as [p|] eqn:Et; [|discriminate].
    apply tstep_cases in H. destruct H as [(u & o & q & q' & -> & Eu & Ec & -> & ->)|[(u & ch & q & o & r & q' & -> & Eu & Er & -> & ->)|(u & ch & q & -> & Eu & Er & Ern & ->)]];
      cbn [wm_own wm_nocall fst snd] in *.
    - apply negb_true_iff, Nat.eqb_neq in Hok. rewrite nth_upd_neq by auto. rewrite Et. eexists. split; [exact Hk|]. lia.
    - destruct (Nat.eqb_spec u t) as [->|N].
      + rewrite Et in Eu. inversion Eu; subst. destruct q; try discriminate. cbn in Er. inversion Er; subst. cbn in Hk. inversion Hk; subst.
        erewrite nth_upd_eq by exact Et. exists 0. split; [reflexivity|]. lia.
      + rewrite nth_upd_neq by auto. rewrite Et. exists k. split; [exact Hk|]. lia.
    - unfold wm_run in Ern. destruct (wm_run1 s q ch) as [[s1 q1]|] eqn:E1; [|discriminate]. inversion Ern; subst. cbn [fst snd].
      unfold wm_run1 in E1. destruct (dead s) eqn:Ed; [discriminate|].
      destruct (Nat.eqb_spec u t) as [->|N].
      + rewrite Et in Eu. inversion Eu; subst. erewrite nth_upd_eq by exact Et.
        destruct q; cbn [wm_pot] in Hk; try discriminate; try (destruct c; try discriminate); inversion Hk; subst;
          unfold bts in E1; cbn [got_event] in E1;
          repeat match type of E1 with
          | context [if ?b then _ else _] => destruct b
          | context [match m_event s with _ => _ end] => destruct (m_event s)
          | context [match ch with _ => _ end] => destruct ch
          end; inversion E1; subst; cbn [set_word dead wm_pot]; rewrite ?Ed; eexists; (split; [reflexivity|lia]).
      + rewrite nth_upd_neq by auto. rewrite Et.
        assert (M : exists k', wm_pot (dead s1) p = Some k' /\ k' <= k).
        { destruct p; cbn [wm_pot] in *; try discriminate; try (destruct c; try discriminate); inversion Hk; subst; eexists; (split; [reflexivity|]); destruct (dead s1); lia. }
        destruct M as (k' & A & B). exists k'. split; [exact A|lia]. }
  assert (Z0 : forall sched c, count_along wm_step (fun _ _ _ => false) c sched = 0).
  { clear. induction sched as [|a sched IH]; intros c; cbn [count_along]; [reflexivity|]. destruct (wm_step c a) as [[c1 ?]|]; [apply IH|reflexivity]. }
  rewrite Z0 in G. lia.
Qed.
Print Assumptions C63_windows_mutex.

(** Unless the program has been terminated (C51), a call in progress can always make a step. *)
Theorem C63_windows_mutex_never_stuck : forall s ths t p k ch, dead s = false -> nth_error ths t = Some p -> wm_pot (dead s) p = Some k -> (forall m, p <> WRest m) ->
  exists c' e, wm_step (s, ths) (TRun t ch) = Some (c', e).
Proof.
  intros s ths t p k ch Ed Ht Hk Np. unfold wm_step, tstep. rewrite Ht.
  destruct p; cbn [wm_pot] in Hk; try discriminate; try (exfalso; eapply Np; reflexivity); try (destruct c; try discriminate);
    cbn [wm_ret]; unfold wm_run, wm_run1, bts; rewrite ?Ed; cbn [got_event]; eauto;
    repeat match goal with
    | |- context [match m_event s with _ => _ end] => destruct (m_event s)
    | |- context [match ch with _ => _ end] => destruct ch
    end; eauto.
Qed.
Print Assumptions C63_windows_mutex_never_stuck.

(** An unlock() that has to create the event and loses the race for it takes the full eight steps: the waiter creates it first. *)
Example C63_windows_mutex_example : exists c tr,
  exec wm_step (wm_init 2)
   ([TCall 0 MLock; TRun 0 CNorm; TRun 0 CNorm; TCall 1 MLock; TRun 1 CNorm; TRun 1 CNorm; TRun 1 CNorm;
     TRun 1 CNorm; TRun 1 CNorm; TCall 0 MUnlock; TRun 0 CNorm; TRun 0 CNorm; TRun 0 CNorm; TRun 0 CNorm; TRun 1 CNorm; TRun 0 CNorm; TRun 0 CNorm; TRun 0 CNorm; TRun 0 CNorm]) = Some (c, tr) /\
  In (Ret 0 MUnlock ROk) tr /\
  count (wm_own 0) [TRun 0 CNorm; TRun 0 CNorm; TRun 0 CNorm; TRun 0 CNorm; TRun 1 CNorm; TRun 0 CNorm; TRun 0 CNorm; TRun 0 CNorm; TRun 0 CNorm] = 8.
Proof. eexists. eexists. split; [vm_compute; reflexivity|]. split; [cbn; auto 10|reflexivity]. Qed.
End Win.

(** ** The primitives emulated with a mutex and a condition variable *)
Section Emu.
Import Monitor EmuModel.
Definition mon_own {O} (t : nat) (a : tact O mchoice) : bool := match a with TRun u _ => Nat.eqb u t | TCall _ _ => false end.
Definition mon_nocall {O} (t : nat) (a : tact O mchoice) : bool := match a with TCall u _ => negb (Nat.eqb u t) | TRun _ _ => true end.

(** Steps left of a call of [o], from the program points such a call may be at if it never waits. *)
Definition mon_pot {SP} (iso : op SP -> bool) (p : mpc SP) : option nat :=
  match p with
  | PRest _ => Some 0
  | PDone _ _ _ => Some 1
  | PUnlock _ o _ => if iso o then Some 2 else None
  | PNotify _ o _ _ => if iso o then Some 3 else None
  | PComp _ o _ _ _ => if iso o then Some 4 else None
  | PRead _ o _ _ => if iso o then Some 5 else None
  | PLock _ o _ => if iso o then Some 6 else None
  | PResleep _ _ _ | PSleep _ _ _ | PWoken _ _ _ _ | PFail _ _ _ _ => None
  end.

Lemma mon_pot_wake {SP} iso (p : mpc SP) k : mon_pot iso p = Some k -> wake p = p.
Proof. destruct p; cbn; congruence. Qed.

Lemma mon_bound SP body timed inner outer (iso : op SP -> bool) :
  (forall t o b d, iso o = true -> exists d' r nt, body t o b d = BDone d' r nt) ->
  forall c0 sched c tr t p k, nth_error (snd c0) t = Some p -> mon_pot iso p = Some k ->
    exec (mon_step SP body timed inner outer nothrow) c0 sched = Some (c, tr) -> forallb (mon_nocall t) sched = true -> count (mon_own t) sched <= k.
Proof.
  intros Hb c0 sched c tr t p k Ht Hp H Hok. set (st := mon_step SP body timed inner outer nothrow) in *.
  assert (G : count (mon_own t) sched <= k + count_along st (fun _ _ _ => false) c0 sched).
  { eapply (bounded_steps st (mon_own t) (mon_nocall t) (fun _ _ _ => false)
      (fun c => match nth_error (snd c) t with Some p => mon_pot iso p | None => None end)); [|exact H|exact Hok|cbn; rewrite Ht; exact Hp].
    clear - Hb. intros [[held d] ths] a c' e k H Hok Hk. cbn [snd] in Hk. destruct (nth_error ths t) as [p|] eqn:Et; [|discriminate].
    unfold st, mon_step in H. apply tstep_cases in H.
    destruct H as [(u & o & q & q' & -> & Eu & Ec & -> & ->)|[(u & ch & q & o & r & q' & -> & Eu & Er & -> & ->)|(u & ch & q & -> & Eu & Er & Ern & ->)]];
      cbn [mon_own mon_nocall fst snd] in *.
    - apply negb_true_iff, Nat.eqb_neq in Hok. rewrite nth_upd_neq by auto. rewrite Et. eexists. split; [exact Hk|]. lia.
    - destruct (Nat.eqb_spec u t) as [->|N].
      + rewrite Et in Eu. inversion Eu; subst. destruct q; try discriminate. cbn in Er. inversion Er; subst. cbn in Hk. inversion Hk; subst.
        erewrite nth_upd_eq by exact Et. exists 0. split; [reflexivity|]. lia.
      + rewrite nth_upd_neq by auto. rewrite Et. exists k. split; [exact Hk|]. lia.
    - destruct (Nat.eqb_spec u t) as [->|N].
      + rewrite Et in Eu. inversion Eu; subst q. clear Eu.
        destruct p; cbn [mon_pot] in Hk; try discriminate; try (destruct (iso o) eqn:Io; [|discriminate]); inversion Hk; subst; cbn [mon_run] in Ern.
        * destruct held; [discriminate|]. inversion Ern; subst. cbn [snd]. erewrite nth_upd_eq by exact Et. exists 5. cbn [mon_pot]. rewrite Io. split; [reflexivity|lia].
        * inversion Ern; subst. cbn [snd]. erewrite nth_upd_eq by exact Et. exists 4. cbn [mon_pot]. rewrite Io. split; [reflexivity|lia].
        * destruct (Hb t o b d0 Io) as (d' & r & nt & Eb). rewrite Eb in Ern. inversion Ern; subst. cbn [snd]. erewrite nth_upd_eq by exact Et.
          destruct nt; cbn [mon_pot]; rewrite Io; eexists; (split; [reflexivity|lia]).
        * destruct nt.
          -- inversion Ern; subst. cbn [snd]. erewrite nth_upd_eq by exact Et. exists 2. cbn [mon_pot]. rewrite Io. split; [reflexivity|lia].
          -- destruct (existsb asleep ths).
             ++ destruct ch; try discriminate. destruct (nth_error ths u) as [[]|] eqn:Eu; try discriminate. inversion Ern; subst. cbn [snd].
                assert (Nu : u <> t) by (intros ->; congruence).
                erewrite nth_upd_eq; [|rewrite nth_upd_neq by auto; exact Et]. exists 2. cbn [mon_pot]. rewrite Io. split; [reflexivity|lia].
             ++ inversion Ern; subst. cbn [snd]. erewrite nth_upd_eq by exact Et. exists 2. cbn [mon_pot]. rewrite Io. split; [reflexivity|lia].
          -- inversion Ern; subst. cbn [snd]. erewrite nth_upd_eq; [|rewrite nth_error_map, Et; reflexivity]. exists 2. cbn [mon_pot]. rewrite Io. split; [reflexivity|lia].
        * inversion Ern; subst. cbn [snd]. erewrite nth_upd_eq by exact Et. exists 1. cbn [mon_pot]. split; [reflexivity|lia].
      + assert (X : nth_error (snd c') t = Some p).
        { assert (U : forall q', nth_error (upd ths u q') t = Some p) by (intros; rewrite nth_upd_neq by auto; exact Et).
          destruct q; cbn [mon_run] in Ern; try discriminate;
            repeat match type of Ern with
            | context [if ?b then _ else _] => destruct b
            | context [match body ?a ?b ?c ?d with _ => _ end] => destruct (body a b c d)
            | context [match timed ?o with _ => _ end] => destruct (timed o)
            | context [match ch with _ => _ end] => destruct ch
            | context [match ?n with NNone => _ | NOne => _ | NAll => _ end] => destruct n
            end; try discriminate; try (inversion Ern; subst; cbn [snd]; apply U).
          all: match goal with
            | Er0 : context [match nth_error ?l ?v with _ => _ end] |- _ =>
                destruct (nth_error l v) as [w|] eqn:Ew; try discriminate; destruct w; try discriminate; inversion Er0; subst; cbn [snd];
                rewrite nth_upd_neq by auto; destruct (Nat.eq_dec v t) as [->|Nw]; [rewrite Et in Ew; inversion Ew; subst p; discriminate|];
                rewrite nth_upd_neq by auto; exact Et
            | _ => inversion Ern; subst; cbn [snd]; rewrite nth_upd_neq by auto; rewrite nth_error_map, Et; cbn; f_equal; eapply mon_pot_wake; eauto
            end. }
        rewrite X. exists k. split; [exact Hk|lia]. }
  assert (Z0 : forall sched c, count_along st (fun _ _ _ => false) c sched = 0).
  { clear. induction sched as [|a sched IH]; intros c; cbn [count_along]; [reflexivity|]. destruct (st c a) as [[c1 ?]|]; [apply IH|reflexivity]. }
  rewrite Z0 in G. lia.
Qed.

(** Such a call can be held up only by the internal mutex. *)
Lemma mon_free SP body timed inner outer (iso : op SP -> bool) :
  (forall t o b d, iso o = true -> exists d' r nt, body t o b d = BDone d' r nt) ->
  forall held d ths t p k, nth_error ths t = Some p -> mon_pot iso p = Some k -> (forall m, p <> PRest m) ->
    held = false \/ (forall m o ob, p <> PLock m o ob) ->
    exists ch c' e, mon_step SP body timed inner outer nothrow ((held, d), ths) (TRun t ch) = Some (c', e).
Proof.
  intros Hb held d ths t p k Ht Hk Np Hh. unfold mon_step, tstep.
  destruct p; cbn [mon_pot] in Hk; try discriminate; try (destruct (iso o) eqn:Io; [|discriminate]).
  - exfalso. eapply Np. reflexivity.
  - exists MNorm. rewrite Ht. cbn [mon_ret mon_run]. destruct Hh as [-> |Hh]; [|exfalso; eapply Hh; reflexivity]. eauto.
  - exists MNorm. rewrite Ht. cbn [mon_ret mon_run]. eauto.
  - exists MNorm. rewrite Ht. cbn [mon_ret mon_run]. destruct (Hb t o b d0 Io) as (d' & r & nt & ->). eauto.
  - destruct (existsb asleep ths) eqn:E.
    + apply existsb_exists in E as (q & Hq & Sq). destruct q; try discriminate. apply In_nth_error in Hq as (u & Hu).
      exists (MWake u). rewrite Ht. cbn [mon_ret mon_run].
      assert (Ex : existsb asleep ths = true) by (apply existsb_exists; exists (PSleep m0 o0 ob); split; [eapply nth_error_In; eauto|reflexivity]).
      rewrite Ex, Hu. destruct nt; eauto.
    + exists MNorm. rewrite Ht. cbn [mon_ret mon_run]. rewrite E. destruct nt; eauto.
  - exists MNorm. rewrite Ht. cbn [mon_ret mon_run]. eauto.
  - exists MNorm. rewrite Ht. cbn [mon_ret]. eauto.
Qed.

(** The operations concerned. *)
Definition ev_nonblocking (o : eop) : bool := match o with EPost | ETry => true | _ => false end.
Definition fl_nonblocking (o : fop) : bool := match o with FSet | FReset | FTry => true | _ => false end.
Definition mu_nonblocking (o : mop) : bool := match o with MTryLock | MUnlock => true | _ => false end.

Lemma sem_nb t o b d : ev_nonblocking o = true -> exists d' r nt, sem_body t o b d = BDone d' r nt.
Proof. destruct o; try discriminate; intros _; cbn; [|destruct (d =? 0)%Z]; eauto. Qed.
Lemma are_nb t o b d : ev_nonblocking o = true -> exists d' r nt, are_body t o b d = BDone d' r nt.
Proof. destruct o; try discriminate; intros _; cbn; destruct (d =? 0)%Z; eauto. Qed.
Lemma mre_nb t o b d : fl_nonblocking o = true -> exists d' r nt, mre_body t o b d = BDone d' r nt.
Proof. destruct o; try discriminate; intros _; cbn; try (destruct d); eauto. Qed.
Lemma tm_nb t o b d : mu_nonblocking o = true -> exists d' r nt, tm_body t o b d = BDone d' r nt.
Proof. destruct o; try discriminate; intros _; cbn; try (destruct d); eauto. Qed.

(** post() and try_wait() of the emulated semaphore and event, set(), reset() and try_wait() of the manual one, try_lock() and unlock() of the emulated timed
    mutex: at most six steps (lock, read, write, notify, unlock, return), and no wait on the condition variable. *)
Theorem C63_emulated_semaphore : forall i chr c0 sched c tr t m o, o = EPost \/ o = ETry -> nth_error (snd c0) t = Some (PLock (SP := (ev_spec i post_count)) m o []) ->
  exec (sem_step i chr) c0 sched = Some (c, tr) -> forallb (mon_nocall t) sched = true -> count (mon_own t) sched <= 6.
Proof.
  intros i chr c0 sched c tr t m o Ho Ht H Hok.
  eapply (mon_bound (ev_spec i post_count) _ _ _ _ ev_nonblocking sem_nb); [exact Ht| |exact H|exact Hok]. destruct Ho as [-> | ->]; reflexivity.
Qed.
Print Assumptions C63_emulated_semaphore.

Theorem C63_emulated_auto : forall chr c0 sched c tr t m o, o = EPost \/ o = ETry -> nth_error (snd c0) t = Some (PLock (SP := (ev_spec 0 post_binary)) m o []) ->
  exec (are_step chr) c0 sched = Some (c, tr) -> forallb (mon_nocall t) sched = true -> count (mon_own t) sched <= 6.
Proof.
  intros chr c0 sched c tr t m o Ho Ht H Hok.
  eapply (mon_bound (ev_spec 0 post_binary) _ _ _ _ ev_nonblocking are_nb); [exact Ht| |exact H|exact Hok]. destruct Ho as [-> | ->]; reflexivity.
Qed.
Print Assumptions C63_emulated_auto.

Theorem C63_emulated_manual : forall chr c0 sched c tr t m o, o = FSet \/ o = FReset \/ o = FTry -> nth_error (snd c0) t = Some (PLock (SP := (flag_spec false)) m o []) ->
  exec (mre_step chr) c0 sched = Some (c, tr) -> forallb (mon_nocall t) sched = true -> count (mon_own t) sched <= 6.
Proof.
  intros chr c0 sched c tr t m o Ho Ht H Hok.
  eapply (mon_bound (flag_spec false) _ _ _ _ fl_nonblocking mre_nb); [exact Ht| |exact H|exact Hok]. destruct Ho as [-> |[-> | ->]]; reflexivity.
Qed.
Print Assumptions C63_emulated_manual.

Theorem C63_emulated_timed_mutex : forall c0 sched c tr t m o, o = MTryLock \/ o = MUnlock -> nth_error (snd c0) t = Some (PLock (SP := (mutex_spec false)) m o []) ->
  exec tm_step c0 sched = Some (c, tr) -> forallb (mon_nocall t) sched = true -> count (mon_own t) sched <= 6.
Proof.
  intros c0 sched c tr t m o Ho Ht H Hok.
  eapply (mon_bound (mutex_spec false) _ _ _ _ mu_nonblocking tm_nb); [exact Ht| |exact H|exact Hok]. destruct Ho as [-> | ->]; reflexivity.
Qed.
Print Assumptions C63_emulated_timed_mutex.

(** While the internal mutex is free, or once the call has locked it, the call can make a step. *)
Theorem C63_emulated_never_stuck : forall i chr held t k,
  (forall d ths (p : mpc (ev_spec i post_count)), nth_error ths t = Some p -> mon_pot (SP := (ev_spec i post_count)) ev_nonblocking p = Some k -> (forall m, p <> PRest m) -> held = false \/ (forall m o ob, p <> PLock m o ob) ->
    exists ch c' e, sem_step i chr ((held, d), ths) (TRun t ch) = Some (c', e)) /\
  (forall d ths (p : mpc (ev_spec 0 post_binary)), nth_error ths t = Some p -> mon_pot (SP := (ev_spec 0 post_binary)) ev_nonblocking p = Some k -> (forall m, p <> PRest m) -> held = false \/ (forall m o ob, p <> PLock m o ob) ->
    exists ch c' e, are_step chr ((held, d), ths) (TRun t ch) = Some (c', e)) /\
  (forall d ths (p : mpc (flag_spec false)), nth_error ths t = Some p -> mon_pot (SP := (flag_spec false)) fl_nonblocking p = Some k -> (forall m, p <> PRest m) -> held = false \/ (forall m o ob, p <> PLock m o ob) ->
    exists ch c' e, mre_step chr ((held, d), ths) (TRun t ch) = Some (c', e)) /\
  (forall d ths (p : mpc (mutex_spec false)), nth_error ths t = Some p -> mon_pot (SP := (mutex_spec false)) mu_nonblocking p = Some k -> (forall m, p <> PRest m) -> held = false \/ (forall m o ob, p <> PLock m o ob) ->
    exists ch c' e, tm_step ((held, d), ths) (TRun t ch) = Some (c', e)).
Proof.
  intros. split; [|split; [|split]]; intros.
  - eapply (mon_free (ev_spec i post_count) _ _ _ _ ev_nonblocking sem_nb); eauto.
  - eapply (mon_free (ev_spec 0 post_binary) _ _ _ _ ev_nonblocking are_nb); eauto.
  - eapply (mon_free (flag_spec false) _ _ _ _ fl_nonblocking mre_nb); eauto.
  - eapply (mon_free (mutex_spec false) _ _ _ _ mu_nonblocking tm_nb); eauto.
Qed.
Print Assumptions C63_emulated_never_stuck.

(** A post that releases a waiting thread takes all six steps; it contends with another post for the internal mutex. *)
Example C63_emulated_example : exists c tr,
  exec (are_step false) (are_init 3)
    ([TCall 0 EWait; TRun 0 MNorm; TRun 0 MNorm; TRun 0 MNorm; TCall 1 EPost; TCall 2 EPost] ++
     [TRun 1 MNorm; TRun 1 MNorm; TRun 1 MNorm; TRun 1 (MWake 0); TRun 1 MNorm; TRun 2 MNorm; TRun 1 MNorm]) = Some (c, tr) /\
  In (Ret 1 EPost EOk) tr /\
  count (mon_own 1) [TRun (Op := eop) 1 MNorm; TRun 1 MNorm; TRun 1 MNorm; TRun 1 (MWake 0); TRun 1 MNorm; TRun 2 MNorm; TRun 1 MNorm] = 6.
Proof. eexists. eexists. split; [vm_compute; reflexivity|]. split; [cbn; auto 10|reflexivity]. Qed.
End Emu.
