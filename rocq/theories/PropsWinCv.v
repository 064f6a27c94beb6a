(** Property theorems: Windows condition variable (C23, C24, C25, C26, C52, C53). *)
From Coq Require Import List Bool Arith ZArith Lia Permutation.
From Verif Require Import ListSum Exec WinCvModel WinCvRing WinCvProof WinCvMatch WinCvHist.
Import ListNotations.
Local Open Scope Z_scope.

(** The theorems are about up to 2^30 threads and executions in which locking the internal mutex does not throw
    ([no_mutex_failure]; allocation failures, failing waits and timeouts are included).  What happens otherwise: C26_..., C52_... below. *)

(** Waiting threads that no notification has been issued for, from the history: a thread counts from the end of initiate_wait until it
    gives up, and each notification takes away the number of waiters it released. *)
Definition unnotified (tr : list cev) : Z := sumf un tr.
(** Notifications issued and not yet received. *)
Definition undelivered (tr : list cev) : Z := sumf dn tr.

Ltac ins := repeat match goal with H : In _ [] |- _ => destruct H | H : In _ (_ :: _) |- _ => destruct H as [<-|H] end.
Ltac nin := exfalso; repeat match goal with H : In _ [] |- _ => destruct H | H : In _ (_ :: _) |- _ => destruct H as [H|H]; [discriminate H|] end.

(** ** C23 *)
(** notify_one releases exactly one un-notified waiter if there is any. *)
Theorem C23_exactly_one : forall n sched c tr tr1 t k tr2, Z.of_nat n <= 2 ^ 30 -> Forall no_mutex_failure sched ->
  exec cv_step (cv_init n) sched = Some (c, tr) -> tr = tr1 ++ ENotify t false k :: tr2 ->
  0 <= unnotified tr1 /\ k = Z.min 1 (unnotified tr1).
Proof. intros n sched c tr tr1 t k tr2 Hn Hf H E. destruct (cv_inv _ _ _ _ Hn Hf H) as (_ & _ & _ & _ & Hc). exact (Hc _ _ _ _ _ E). Qed.
Print Assumptions C23_exactly_one.

(** Every notify call that returns has taken effect during the call. *)
Theorem C23_takes_effect : forall n sched c tr tr1 t tr2, Z.of_nat n <= 2 ^ 30 -> Forall no_mutex_failure sched ->
  exec cv_step (cv_init n) sched = Some (c, tr) -> tr = tr1 ++ ENotifyRet t :: tr2 ->
  exists tr0 al k, tr1 = tr0 ++ [ENotify t al k] /\ last_event t tr0 = Some (ENotifyCall t al).
Proof.
  intros n sched c tr tr1 t tr2 Hn Hf H.
  assert (G : (CI c /\ ccap c /\ PL c tr) /\ forall tr1 tr2, tr = tr1 ++ ENotifyRet t :: tr2 -> exists tr0 al k, tr1 = tr0 ++ [ENotify t al k] /\ last_event t tr0 = Some (ENotifyCall t al)).
  { revert Hf H. apply (exec_inv_acts cv_step no_mutex_failure (fun c tr => (CI c /\ ccap c /\ PL c tr) /\ forall tr1 tr2, tr = tr1 ++ ENotifyRet t :: tr2 -> exists tr0 al k, tr1 = tr0 ++ [ENotify t al k] /\ last_event t tr0 = Some (ENotifyCall t al))).
    - split; [|intros [|] ? E; discriminate]. split; [apply CI_init|]. split; [unfold ccap; cbn; rewrite repeat_length; exact Hn|]. split; [|reflexivity]. intros u p Hp. apply nth_repeat in Hp. subst p. exact I.
    - intros c1 t1 a c2 e ((K1 & K2 & K3) & K4) Hm Hs. split.
      { split; [apply (CI_step _ _ _ _ K1 K2 Hm Hs)|]. split; [unfold ccap in *; rewrite (cv_step_length _ _ _ _ Hs); exact K2|]. eapply PL_step; eauto. }
      intros x y E. apply split_app in E. destruct E as [(y' & E)|(z & -> & E)]; [eauto|].
      assert (Hin : In (ENotifyRet t) e) by (rewrite E; apply in_or_app; right; left; reflexivity).
      assert (Hlast : forall u (al : bool) p, nth_error (snd c1) u = Some p -> (p = CNLoad al \/ p = CNSec al) -> last_event u t1 = Some (ENotifyCall u al)).
      { intros u al p Hu Hp. pose proof (proj1 K3 u p Hu) as L. destruct Hp as [-> | ->]; exact L. }
      assert (Hfin : forall u (al : bool) k, e = [ENotify u al k; ENotifyRet u] -> last_event u t1 = Some (ENotifyCall u al) -> exists tr0 al k, t1 ++ z = tr0 ++ [ENotify t al k] /\ last_event t tr0 = Some (ENotifyCall t al)).
      { intros u al k Ee Hl. rewrite Ee in E. destruct z as [|z0 z]; [discriminate|]. cbn [app] in E. inversion E as [[E1 E2]]. destruct z as [|z1 z]; cbn [app] in E2; [|inversion E2; destruct z; discriminate].
        inversion E2; subst. exists t1, al, k. auto. }
      clear E.
      destruct c1 as [s ths]. destruct a as [u k|u al|u ch]; cbn [cv_step] in Hs.
      + destruct (nth_error ths u) as [[]|]; inversion Hs; subst; destruct Hin as [Hin|[]]; discriminate.
      + destruct (nth_error ths u) as [[]|]; inversion Hs; subst; destruct Hin as [Hin|[]]; discriminate.
      + destruct (cdead s); [discriminate|]. destruct (nth_error ths u) as [p|] eqn:Hu; [|discriminate].
        destruct (cv_run s u p ch) as [[[s' q] e']|] eqn:Hr; inversion Hs; subst c2 e'. clear Hs. cbn [snd] in *.
        assert (Hno : (forall x, In x e -> exists r, x = EJoin u \/ (exists c, x = EEnd u r c) \/ x = EWaitRet u r) -> False).
        { intros Hx. destruct (Hx _ Hin) as (r & [Hy|[(b & Hy)|Hy]]); discriminate. }
        destruct p; cbn [cv_run] in Hr; try discriminate.
        * exfalso. apply Hno. intros w Hw. destruct ch; inversion Hr; subst; ins; eauto.
        * exfalso. apply Hno. intros w Hw. destruct (initiate s) as [[s1 i]|]; destruct ch; inversion Hr; subst; ins; exists RError; auto.
        * destruct ch, k; inversion Hr; subst; destruct Hin.
        * exfalso. destruct (nth_error (sts s) s0) as [w|]; [destruct (0 <? tokens w)|]; destruct ch, k; inversion Hr; subst; destruct Hin.
        * exfalso. apply Hno. intros x Hx. destruct (nth_error (sts s) s0) as [w|]; [destruct (sec_token w)|]; destruct ch; inversion Hr; subst; ins; eauto.
        * exfalso. apply Hno. intros x Hx. destruct (nth_error (sts s) s0) as [w|]; [destruct (leave s s0 w)|]; destruct ch; inversion Hr; subst; ins; eauto.
        * exfalso. apply Hno. intros x Hx. destruct (nth_error (sts s) s0) as [w|]; [destruct (leave s s0 w)|]; destruct ch; inversion Hr; subst; ins; eauto.
        * exfalso. apply Hno. intros x Hx. destruct k, r; inversion Hr; subst; ins; eauto.
        * destruct (0 <? total s); inversion Hr; subst; [destruct Hin|]. eapply Hfin; [reflexivity|]. eapply Hlast; eauto.
        * assert (Hd : (exists k, e = [ENotify u all k; ENotifyRet u]) \/ e = []).
          { destruct (total s =? 0); [destruct ch; inversion Hr; eauto|]. destruct (nstate s); [|destruct ch; inversion Hr; eauto]. destruct (wake _ _ _ _) as [[l j]|]; destruct ch; inversion Hr; eauto. }
          destruct Hd as [(k & Hd)| ->]; [|destruct Hin]. eapply Hfin; [exact Hd|]. eapply Hlast; eauto. }
  intros E. exact (proj2 G _ _ E).
Qed.
Print Assumptions C23_takes_effect.

(** Running one thread by itself. *)
Definition alone (t : nat) (k : nat) : list cact := repeat (ARun t CNorm) k.

Lemma can_finish s ths t p i w : CI (s, ths) -> nth_error ths t = Some p -> stof p = Some i -> nth_error (sts s) i = Some w -> 0 < notify w -> (0 < tokens w \/ tokof p = Some i) ->
  exists m c' r, (m <= 3)%nat /\ r <> RTimeout /\ exec cv_step (s, ths) (alone t m) = Some (c', [EEnd t r true]).
Proof.
  intros HI Ht Hp Hi Hn Htok. pose proof HI as (Hd & _).
  assert (Htk : forall s ths k w, cdead s = false -> nth_error ths t = Some (CTok k i) -> nth_error (sts s) i = Some w -> 0 < notify w ->
    exists c', exec cv_step (s, ths) (alone t 1) = Some (c', [EEnd t RNotified true])).
  { intros s1 ths1 k w1 D1 H1 H2 H3. cbn [alone repeat exec cv_step]. rewrite D1, H1. cbn [cv_run]. rewrite H2. unfold sec_token. rewrite (proj2 (Z.ltb_lt _ _) H3). eauto. }
  assert (Hblk : forall s ths k w, cdead s = false -> nth_error ths t = Some (CBlk k i) -> nth_error (sts s) i = Some w -> 0 < notify w -> 0 < tokens w ->
    exists c', exec cv_step (s, ths) (alone t 2) = Some (c', [EEnd t RNotified true])).
  { intros s1 ths1 k w1 D1 H1 H2 H3 H4.
    assert (Hs : cv_step (s1, ths1) (ARun t CNorm) = Some ((set_st s1 i (WS (waiter w1) (notify w1) (tokens w1 - 1) (nxt w1)), upd ths1 t (CTok k i)), [])).
    { cbn [cv_step]. rewrite D1, H1. cbn [cv_run]. rewrite H2, (proj2 (Z.ltb_lt _ _) H4). destruct k; reflexivity. }
    change (alone t 2) with (ARun t CNorm :: alone t 1). cbn [exec]. rewrite Hs.
    destruct (Htk (set_st s1 i (WS (waiter w1) (notify w1) (tokens w1 - 1) (nxt w1))) (upd ths1 t (CTok k i)) k (WS (waiter w1) (notify w1) (tokens w1 - 1) (nxt w1))) as (c' & Hc).
    - exact D1. - apply (nth_upd_eq _ _ _ _ H1). - apply (nth_upd_eq _ _ _ _ H2). - exact H3.
    - rewrite Hc. eauto. }
  destruct p; try discriminate; inversion Hp; subst s0.
  - destruct Htok as [Htok|Htok]; [|discriminate].
    assert (Hs : cv_step (s, ths) (ARun t CNorm) = Some ((s, upd ths t (CBlk k i)), [])) by (cbn [cv_step]; rewrite Hd, Ht; destruct k; reflexivity).
    destruct (Hblk s (upd ths t (CBlk k i)) k w Hd (nth_upd_eq _ _ _ _ Ht) Hi Hn Htok) as (c' & Hc).
    exists 3%nat, c', RNotified. split; [lia|]. split; [discriminate|]. change (alone t 3) with (ARun t CNorm :: alone t 2). cbn [exec]. rewrite Hs, Hc. reflexivity.
  - destruct Htok as [Htok|Htok]; [|discriminate]. destruct (Hblk s ths k w Hd Ht Hi Hn Htok) as (c' & Hc). exists 2%nat, c', RNotified. split; [lia|]. split; [discriminate|exact Hc].
  - destruct (Htk s ths k w Hd Ht Hi Hn) as (c' & Hc). exists 1%nat, c', RNotified. split; [lia|]. split; [discriminate|exact Hc].
  - exists 1%nat. cbn [alone repeat exec cv_step]. rewrite Hd, Ht. cbn [cv_run]. rewrite Hi. unfold leave, sec_leave. rewrite (proj2 (Z.ltb_lt _ _) Hn). eexists _, RError. split; [lia|]. split; [discriminate|reflexivity].
  - exists 1%nat. cbn [alone repeat exec cv_step]. rewrite Hd, Ht. cbn [cv_run]. rewrite Hi. unfold leave, sec_leave. rewrite (proj2 (Z.ltb_lt _ _) Hn). eexists _, RNotified. split; [lia|]. split; [discriminate|reflexivity].
Qed.

(** While a notification is undelivered in some waiter state, its semaphore has a unit or a thread that took one is about to look at the count;
    and some waiting thread, run alone, receives a notification within three steps. *)
Theorem C23_delivered : forall n sched s ths tr i w, Z.of_nat n <= 2 ^ 30 -> Forall no_mutex_failure sched ->
  exec cv_step (cv_init n) sched = Some ((s, ths), tr) -> nth_error (sts s) i = Some w -> 0 < notify w ->
  (0 < tokens w \/ exists t k, nth_error ths t = Some (CTok k i)) /\
  exists t m c' r, (m <= 3)%nat /\ r <> RTimeout /\ exec cv_step (s, ths) (alone t m) = Some (c', [EEnd t r true]).
Proof.
  intros n sched s ths tr i w Hn Hf H Hi Hw. destruct (cv_inv _ _ _ _ Hn Hf H) as (HI & _). pose proof HI as (_ & _ & _ & _ & H5 & _).
  destruct (H5 i w Hi) as (A & B & D & _).
  assert (Htok : 0 < sumf (intok i) ths -> exists t k, nth_error ths t = Some (CTok k i)).
  { intros Hp. destruct (sumf_pos_ex _ _ Hp) as (t & p & Ht & Hpp). unfold intok, oeq in Hpp. destruct p; cbn [tokof] in Hpp; try lia. destruct (Nat.eqb_spec s0 i) as [E|]; [subst s0|lia]. eauto. }
  destruct (Z_lt_le_dec 0 (sumf (intok i) ths)) as [Hp|Hp].
  - destruct (Htok Hp) as (t & k & Ht). split; [right; eauto|]. exists t. destruct (can_finish s ths t _ i w HI Ht eq_refl Hi Hw (or_intror eq_refl)) as (m & c' & r & G). eauto.
  - assert (Ht : 0 < tokens w) by lia. split; [left; exact Ht|].
    assert (Hpos : 0 < sumf (inst i) ths) by lia. destruct (sumf_pos_ex _ _ Hpos) as (t & p & Hp1 & Hp2). exists t.
    unfold inst, oeq in Hp2. destruct (stof p) as [j|] eqn:Es; [|lia]. destruct (Nat.eqb_spec j i) as [E|]; [subst j|lia].
    destruct (can_finish s ths t p i w HI Hp1 Es Hi Hw (or_introl Ht)) as (m & c' & r & G). eauto.
Qed.
Print Assumptions C23_delivered.

(** Undelivered notifications according to the history are exactly those recorded in the waiter states. *)
Theorem C23_none_forgotten : forall n sched s ths tr, Z.of_nat n <= 2 ^ 30 -> Forall no_mutex_failure sched ->
  exec cv_step (cv_init n) sched = Some ((s, ths), tr) -> 0 < undelivered tr -> exists i w, nth_error (sts s) i = Some w /\ 0 < notify w.
Proof.
  intros n sched s ths tr Hn Hf H Hp. destruct (cv_inv _ _ _ _ Hn Hf H) as (_ & _ & _ & E & _). unfold undelivered in Hp. cbn [fst] in E. rewrite <- E in Hp.
  exact (sumf_pos_ex _ _ Hp).
Qed.
Print Assumptions C23_none_forgotten.

(** Non-vacuity: threads 0 and 1 wait, 2 notifies one; thread 1 times out; thread 0 takes the unit and returns. *)
Definition r (t : nat) : cact := ARun t CNorm.
Definition cv_ex : list cact :=
  [AWait 0 KInf; r 0; r 0; AWait 1 KRel; r 1; r 1; ANotify 2 false; r 2; r 2; r 0; r 0; r 0; ARun 1 CTime; r 1; r 1].
Example C23_example : exists c, exec cv_step (cv_init 3) cv_ex =
  Some (c, [EWaitCall 0; EJoin 0; EWaitCall 1; EJoin 1; ENotifyCall 2 false; ENotify 2 false 1; ENotifyRet 2;
            EEnd 0 RNotified true; EWaitRet 0 RNotified; EEnd 1 RTimeout false; EWaitRet 1 RTimeout]) /\ Forall no_mutex_failure cv_ex.
Proof. eexists. split; [vm_compute; reflexivity|]. repeat constructor. Qed.

(** ** C24 *)
(** Every wait that received a notification is assigned a notification issued after the wait began and before it ended ([deliv_ok]); no notification
    is assigned more waits than the number of waiters it released.  Notifications not yet delivered ([pend i], in waiter state [i]) were issued after
    every thread waiting in that state began its wait, and are not assigned to anybody else: nobody who begins to wait later can take them. *)
Theorem C24_matched : forall n sched s ths tr, Z.of_nat n <= 2 ^ 30 -> Forall no_mutex_failure sched ->
  exec cv_step (cv_init n) sched = Some ((s, ths), tr) ->
  exists (M : list deliv) (pend : nat -> list nat),
    (forall e t r, nth_error tr e = Some (EEnd t r true) -> In e (map d_end M)) /\ NoDup (map d_end M) /\
    (forall d, In d M -> deliv_ok tr d) /\
    (forall p, sumf (fun i => Z.of_nat (count_occ Nat.eq_dec (pend i) p)) (seq 0 (length (sts s))) + uses M p <= units tr p) /\
    (forall i w, nth_error (sts s) i = Some w -> Z.of_nat (length (pend i)) = notify w) /\
    (forall t x i, nth_error ths t = Some x -> stof x = Some i ->
       exists b, nth_error tr b = Some (EJoin t) /\ (forall q e, (b < q)%nat -> nth_error tr q = Some e -> own t e = false) /\ forall p, In p (pend i) -> (b < p)%nat).
Proof.
  intros n sched s ths tr Hn Hf H. destruct (cv_match _ _ _ _ Hn Hf H) as (pend & beg & M & G1 & G2 & G3 & G4 & G5 & G6 & G7). cbn [fst snd] in *.
  exists M, pend. split; [exact G6|]. split; [exact G5|]. split; [exact G4|]. split; [exact G3|]. split.
  - intros i w Hi. rewrite G1. unfold nt. rewrite Hi. reflexivity.
  - intros t x i Hx Hi. exists (beg t). eauto.
Qed.
Print Assumptions C24_matched.

(** A wait that returns without timeout and without an exception has received a notification; one that returns a timeout has not. *)
Theorem C24_results : forall n sched c tr tr1 t res tr2, Z.of_nat n <= 2 ^ 30 -> Forall no_mutex_failure sched ->
  exec cv_step (cv_init n) sched = Some (c, tr) -> tr = tr1 ++ EWaitRet t res :: tr2 ->
  match res with
  | RNotified => last_event t tr1 = Some (EEnd t RNotified true)
  | RTimeout => last_event t tr1 = Some (EEnd t RTimeout false) \/ last_event t tr1 = Some (EWaitCall t)
  | RError => True
  end.
Proof.
  intros n sched c tr tr1 t res tr2 Hn Hf H.
  enough (G : (PL c tr) /\ forall tr1 tr2, tr = tr1 ++ EWaitRet t res :: tr2 -> match res with
    | RNotified => last_event t tr1 = Some (EEnd t RNotified true)
    | RTimeout => last_event t tr1 = Some (EEnd t RTimeout false) \/ last_event t tr1 = Some (EWaitCall t)
    | RError => True end) by (intros E; exact (proj2 G _ _ E)).
  revert Hf H. apply (exec_inv_acts cv_step no_mutex_failure (fun c tr => (PL c tr) /\ forall tr1 tr2, tr = tr1 ++ EWaitRet t res :: tr2 -> match res with
    | RNotified => last_event t tr1 = Some (EEnd t RNotified true)
    | RTimeout => last_event t tr1 = Some (EEnd t RTimeout false) \/ last_event t tr1 = Some (EWaitCall t)
    | RError => True end)).
  - split; [|intros [|] ? E; discriminate]. split; [|reflexivity]. intros u p Hp. apply nth_repeat in Hp. subst p. exact I.
  - intros c1 t1 a c2 e (K3 & K4) Hm Hs. split; [eapply PL_step; eauto|].
    intros x y E. apply split_app in E. destruct E as [(y' & E)|(z & -> & E)]; [exact (K4 _ _ E)|].
    assert (Hin : In (EWaitRet t res) e) by (rewrite E; apply in_or_app; right; left; reflexivity).
    destruct c1 as [s ths]. destruct a as [u k|u al|u ch]; cbn [cv_step] in Hs.
    + clear E. destruct (nth_error ths u) as [[]|]; inversion Hs; subst; destruct Hin as [Hin|[]]; discriminate.
    + clear E. destruct (nth_error ths u) as [[]|]; inversion Hs; subst; destruct Hin as [Hin|[]]; discriminate.
    + destruct (cdead s); [discriminate|]. destruct (nth_error ths u) as [p|] eqn:Hu; [|discriminate].
      destruct (cv_run s u p ch) as [[[s' q] e']|] eqn:Hr; inversion Hs; subst c2 e'. clear Hs.
      assert (HP := proj1 K3 u p Hu).
      assert (Hone : forall v, e = [EWaitRet u v] -> z = [] /\ u = t /\ res = v).
      { intros v ->. destruct Hin as [Hin|[]]. inversion Hin; subst. destruct z as [|z0 z]; [auto|]. cbn [app] in E. inversion E as [[E1 E2]]. destruct z; discriminate. }
      clear E. assert (Hno : (forall x, In x e -> forall u v, x <> EWaitRet u v) -> False) by (intros Hx; eapply Hx; [exact Hin|reflexivity]).
      destruct p; cbn [cv_run] in Hr; try discriminate.
      * destruct ch; inversion Hr; subst; try (destruct Hin; fail). destruct (Hone RTimeout eq_refl) as (-> & -> & ->). rewrite app_nil_r. cbn in HP. tauto.
      * exfalso. apply Hno. intros w Hw. destruct (initiate s) as [[s1 i]|]; destruct ch; inversion Hr; subst; ins; discriminate.
      * destruct ch, k; inversion Hr; subst; destruct Hin.
      * exfalso. destruct (nth_error (sts s) s0) as [w|]; [destruct (0 <? tokens w)|]; destruct ch, k; inversion Hr; subst; destruct Hin.
      * exfalso. apply Hno. intros x Hx. destruct (nth_error (sts s) s0) as [w|]; [destruct (sec_token w)|]; destruct ch; inversion Hr; subst; ins; discriminate.
      * exfalso. apply Hno. intros x Hx. destruct (nth_error (sts s) s0) as [w|]; [destruct (leave s s0 w)|]; destruct ch; inversion Hr; subst; ins; discriminate.
      * exfalso. apply Hno. intros x Hx. destruct (nth_error (sts s) s0) as [w|]; [destruct (leave s s0 w)|]; destruct ch; inversion Hr; subst; ins; discriminate.
      * assert (Hx : e = [] \/ e = [EWaitRet u r0]) by (destruct k, r0; inversion Hr; subst; auto). destruct Hx as [->|Hx]; [destruct Hin|].
        destruct (Hone _ Hx) as (-> & -> & ->). rewrite app_nil_r. destruct r0; cbn in HP; auto.
      * exfalso. apply Hno. intros x Hx. destruct (0 <? total s); inversion Hr; subst; [destruct Hx|]. ins; discriminate.
      * assert (Hd : (exists k, e = [ENotify u all k; ENotifyRet u]) \/ e = []).
        { destruct (total s =? 0); [destruct ch; inversion Hr; eauto|]. destruct (nstate s); [|destruct ch; inversion Hr; eauto]. destruct (wake _ _ _ _) as [[l j]|]; destruct ch; inversion Hr; eauto. }
        exfalso. apply Hno. intros x Hx. destruct Hd as [(k & ->)| ->]; ins; discriminate.
Qed.
Print Assumptions C24_results.

(** Non-vacuity: thread 0 waits and is notified; before it runs again, thread 1 starts waiting: it gets a waiter state of its own and cannot
    take the unit meant for thread 0. *)
Example C24_example : exists s ths tr,
  exec cv_step (cv_init 3) [AWait 0 KInf; r 0; r 0; ANotify 2 false; r 2; r 2; AWait 1 KInf; r 1; r 1] = Some ((s, ths), tr) /\
  ths = [CBlk KInf 0; CBlk KInf 1; CIdle] /\ map notify (sts s) = [1; 0] /\ map tokens (sts s) = [1; 0] /\
  cv_step (s, ths) (r 1) = None /\
  exists c, exec cv_step (s, ths) [r 0; r 0; r 0] = Some (c, [EEnd 0 RNotified true; EWaitRet 0 RNotified]).
Proof. eexists _, _, _. split; [vm_compute; reflexivity|]. repeat split. eexists. vm_compute. reflexivity. Qed.

(** ** C25 *)
(** notify_all releases all un-notified waiters. *)
Theorem C25_counts_all : forall n sched c tr tr1 t k tr2, Z.of_nat n <= 2 ^ 30 -> Forall no_mutex_failure sched ->
  exec cv_step (cv_init n) sched = Some (c, tr) -> tr = tr1 ++ ENotify t true k :: tr2 -> k = unnotified tr1 /\ unnotified (tr1 ++ [ENotify t true k]) = 0.
Proof.
  intros n sched c tr tr1 t k tr2 Hn Hf H E. destruct (cv_inv _ _ _ _ Hn Hf H) as (_ & _ & _ & _ & Hc). destruct (Hc _ _ _ _ _ E) as (_ & ->).
  split; [reflexivity|]. unfold unnotified. rewrite sumf_app. cbn. lia.
Qed.
Print Assumptions C25_counts_all.

(** Every thread that was waiting when notify_all took effect receives a notification: the next thing that happens to its wait is that it ends having consumed
    one, not by timeout; and until then it can do so within three steps of its own, whatever all other threads have done or do. *)
Theorem C25_all_released : forall n sched s ths tr tr1 u k tr2 t, Z.of_nat n <= 2 ^ 30 -> Forall no_mutex_failure sched ->
  exec cv_step (cv_init n) sched = Some ((s, ths), tr) -> tr = tr1 ++ ENotify u true k :: tr2 -> last_event t tr1 = Some (EJoin t) ->
  (exists a r b, tr2 = a ++ EEnd t r true :: b /\ silent t a /\ r <> RTimeout) \/
  (silent t tr2 /\ exists m c' r, (m <= 3)%nat /\ r <> RTimeout /\ exec cv_step (s, ths) (alone t m) = Some (c', [EEnd t r true])).
Proof.
  intros n sched s ths tr tr1 u k tr2 t Hn Hf H E Hl. destruct (cv_hist _ _ _ _ Hn Hf H) as (HI & _ & _ & HM).
  destruct (HM _ _ _ _ _ E Hl) as [(Hs & p & i & Hp & Hi & Hav)|G]; [right|left; exact G]. split; [exact Hs|]. cbn [fst snd] in *.
  pose proof (reg_wait _ _ _ _ HI Hp Hi) as Hw. cbn [fst] in Hw. pose proof HI as (_ & _ & _ & _ & H5 & H6 & _).
  destruct (nth_error (sts s) i) as [w|] eqn:Ew; [|apply nth_error_None in Ew; specialize (H6 _ _ _ Hp Hi); lia].
  unfold nt, av, avail in *. rewrite Ew in *. destruct (H5 i w Ew) as (A & B & D & _).
  apply (can_finish s ths t p i w HI Hp Hi Ew); [lia|].
  destruct (tokof p) as [j|] eqn:Ej; [right; destruct p; inversion Ej; subst; inversion Hi; reflexivity|left].
  assert (Hlt : sumf (intok i) ths < sumf (inst i) ths).
  { clear - Hp Hi Ej. revert t Hp. induction ths as [|x l IH]; intros [|t] Hp; try discriminate; cbn [sumf].
    - inversion Hp; subst x. assert (Hle : sumf (intok i) l <= sumf (inst i) l) by (apply sumf_le; intros y; apply intok_inst). assert (intok i p = 0) by (unfold intok; rewrite Ej; reflexivity). assert (inst i p = 1) by (unfold inst; rewrite Hi; apply oeq_same). lia.
    - specialize (IH t Hp). pose proof (intok_inst i x). lia. }
  lia.
Qed.
Print Assumptions C25_all_released.

(** The loop of wake_waiters and the search of initiate_wait terminate, and no pointer to a waiter state is null or dangling when it is used. *)
Theorem C25_terminates : forall n sched s ths tr t, Z.of_nat n <= 2 ^ 30 -> Forall no_mutex_failure sched ->
  exec cv_step (cv_init n) sched = Some ((s, ths), tr) -> nth_error ths t <> Some CHung.
Proof. intros n sched s ths tr t Hn Hf H. destruct (cv_inv _ _ _ _ Hn Hf H) as ((_ & Hh & _) & _). apply Hh. Qed.
Print Assumptions C25_terminates.

(** Non-vacuity: three waiters in two waiter states; notify_all marks the two un-notified ones; thread 3, which comes later, is not marked; thread 2's
    wait runs out of time after that and still counts as notified. *)
Definition cv_ex25 : list cact :=
  [AWait 0 KInf; r 0; r 0; ANotify 4 false; r 4; r 4; AWait 1 KInf; r 1; r 1; AWait 2 KAbs; r 2; r 2; ANotify 4 true; r 4; r 4; AWait 3 KInf; r 3; r 3;
   r 0; r 0; r 0; ARun 2 CTime; r 2; r 2].
Example C25_example : exists s ths tr, exec cv_step (cv_init 5) cv_ex25 = Some ((s, ths), tr) /\ Forall no_mutex_failure cv_ex25 /\
  In (ENotify 4 true 2) tr /\ In (EEnd 2 RNotified true) tr /\ map waiter (sts s) = [0; 1; 1] /\ map notify (sts s) = [0; 1; 0] /\
  ths = [CIdle; CBlk KInf 1; CIdle; CBlk KInf 2; CIdle].
Proof. eexists _, _, _. split; [vm_compute; reflexivity|]. split; [repeat constructor|]. vm_compute. tauto. Qed.

(** ** C26 *)
(** m_total_waiter_count is the number of waiting threads nobody has notified yet. *)
Theorem C26_exact : forall n sched s ths tr, Z.of_nat n <= 2 ^ 30 -> Forall no_mutex_failure sched ->
  exec cv_step (cv_init n) sched = Some ((s, ths), tr) -> total s = unnotified tr /\ 0 <= total s <= Z.of_nat n.
Proof.
  intros n sched s ths tr Hn Hf H. destruct (cv_inv _ _ _ _ Hn Hf H) as (HI & Hc & E & _). split; [exact E|]. split; [exact (avail_nn _ HI)|].
  assert (HL : length ths = n).
  { clear - H. enough (G : length (snd (s, ths)) = n) by exact G. revert H. apply (exec_inv_state cv_step (fun c => length (snd c) = n)); [apply repeat_length|].
    intros c1 a c2 e HL Hs. rewrite (cv_step_length _ _ _ _ Hs). exact HL. }
  destruct HI as (_ & _ & _ & _ & H5 & _ & H7). rewrite H7, <- HL. clear - H5.
  (* every state's un-notified waiters are distinct threads *)
  assert (Hle : sumf avail (sts s) <= sumf (fun i => sumf (inst i) ths) (seq 0 (length (sts s)))).
  { enough (G : forall l k, (forall i w, nth_error l i = Some w -> wok ths (k + i) w) -> sumf avail l <= sumf (fun i => sumf (inst i) ths) (seq k (length l))) by (apply (G (sts s) O); exact H5).
    induction l as [|w l IH]; intros k Hk; cbn [length seq sumf]; [lia|]. pose proof (Hk O w eq_refl) as (A & B & _). rewrite Nat.add_0_r in A.
    specialize (IH (S k)). assert (sumf avail l <= sumf (fun i => sumf (inst i) ths) (seq (S k) (length l))) by (apply IH; intros i x Hx; replace (S k + i)%nat with (k + S i)%nat by lia; apply Hk; exact Hx).
    assert (avail w <= sumf (inst k) ths) by (unfold avail; lia). lia. }
  assert (Hsum : forall N, sumf (fun i => sumf (inst i) ths) (seq 0 N) <= Z.of_nat (length ths)); [|specialize (Hsum (length (sts s))); lia].
  intros N. clear. induction ths as [|p l IH]; cbn [sumf length].
  - induction (seq 0 N) as [|x m IHm]; cbn [sumf]; lia.
  - rewrite (sumf_add (fun i => inst i p) (fun i => sumf (inst i) l)).
    assert (sumf (fun i => inst i p) (seq 0 N) <= 1); [|lia].
    clear IH. unfold inst. destruct (stof p) as [j|]; [|assert (E0 : forall m, sumf (fun i => oeq None i) m = 0) by (induction m as [|x m IHm]; [reflexivity|cbn [sumf oeq] in *; lia]); rewrite E0; lia].
    pose proof (seq_NoDup N 0) as Hnd. induction (seq 0 N) as [|x m IHm]; cbn [sumf oeq] in *; [lia|]. apply NoDup_cons_iff in Hnd. destruct Hnd as (Hx & Hnd). specialize (IHm Hnd).
    destruct (Nat.eqb_spec j x) as [Ejx|]; [|lia]. subst x.
    assert (sumf (fun i => if Nat.eqb j i then 1 else 0) m = 0); [|lia].
    rewrite (sumf_ext_in _ (fun _ => 0)); [clear; induction m as [|y m IH]; cbn [sumf]; lia|]. intros y Hy. destruct (Nat.eqb_spec j y) as [Ejy|]; [subst y; contradiction|reflexivity].
Qed.
Print Assumptions C26_exact.

(** When no thread waits: the total is 0 (the destructor's assertion holds) and no waiter state has a recorded waiter or notification. *)
Theorem C26_idle : forall n sched s ths tr, Z.of_nat n <= 2 ^ 30 -> Forall no_mutex_failure sched ->
  exec cv_step (cv_init n) sched = Some ((s, ths), tr) -> (forall t, last_event t tr <> Some (EJoin t)) ->
  total s = 0 /\ forall i w, nth_error (sts s) i = Some w -> waiter w = 0 /\ notify w = 0.
Proof.
  intros n sched s ths tr Hn Hf H Hidle. destruct (cv_hist _ _ _ _ Hn Hf H) as (HI & _ & (HP & _) & _). cbn [snd] in HP. destruct HI as (_ & Hh & _ & _ & H5 & _ & H7).
  assert (Hz : forall i, sumf (inst i) ths = 0).
  { intros i. assert (Hp : forall t p, nth_error ths t = Some p -> inst i p = 0).
    { intros t p Ht. specialize (HP t p Ht). unfold inst. destruct p; try reflexivity; exfalso; apply (Hidle t); exact HP. }
    clear - Hp. induction ths as [|p l IH]; [reflexivity|]. cbn [sumf]. rewrite (Hp O p eq_refl), IH; [reflexivity|]. intros t q Hq. exact (Hp (S t) q Hq). }
  assert (Hw : forall i w, nth_error (sts s) i = Some w -> waiter w = 0 /\ notify w = 0).
  { intros i w Hi. destruct (H5 i w Hi) as (A & B & _). rewrite Hz in A. lia. }
  split; [|exact Hw]. rewrite H7. clear - Hw. induction (sts s) as [|w l IH]; [reflexivity|]. cbn [sumf]. destruct (Hw O w eq_refl) as (A & B). unfold avail at 1. rewrite A, B, IH; [reflexivity|].
  intros i x Hx. exact (Hw (S i) x Hx).
Qed.
Print Assumptions C26_idle.

(** The destructor's loop ends and deletes every waiter state ever created exactly once. *)
Theorem C26_destructor : forall n sched s ths tr, Z.of_nat n <= 2 ^ 30 -> Forall no_mutex_failure sched ->
  exec cv_step (cv_init n) sched = Some ((s, ths), tr) -> exists d, cv_dtor s = Some d /\ Permutation d (seq 0 (length (sts s))).
Proof.
  intros n sched s ths tr Hn Hf H. destruct (cv_inv _ _ _ _ Hn Hf H) as ((_ & _ & (rg & Hr) & Hp & _) & _).
  unfold cv_dtor. unfold ptrs in Hp. destruct (nstate s) as [i|].
  - destruct (wstate s) as [j|]; [|contradiction]. destruct Hp as (Hi & _).
    destruct (ring_at _ _ i Hr Hi) as (r' & Hr'). pose proof (ring_NoDup _ _ Hr') as Hnd. apply NoDup_cons_iff in Hnd. pose proof (ring_length _ _ Hr') as HL. cbn [length] in HL.
    exists (i :: r'). split; [rewrite <- HL|exact (proj2 Hr')]. apply del_ok; [exact (proj1 Hr')|tauto|]. intros a Ha. apply (ring_In _ _ _ Hr'). exact Ha.
  - destruct (wstate s); [contradiction|]. rewrite Hp. exists []. split; [reflexivity|constructor].
Qed.
Print Assumptions C26_destructor.

(** Non-vacuity: at the end of cv_ex everybody is idle and one waiter state is deleted. *)
Example C26_example : exists s ths tr, exec cv_step (cv_init 3) cv_ex = Some ((s, ths), tr) /\ total s = 0 /\ cv_dtor s = Some [O] /\ length (sts s) = 1%nat.
Proof. eexists _, _, _. split; [vm_compute; reflexivity|]. vm_compute. auto. Qed.

(** The bookkeeping is lost when locking the internal mutex throws in the middle of a wait (it allocates an event when contended): thread 0's wait times out,
    the lock throws, the exception leaves wait - and the thread stays registered: nobody waits but the total is 1, so the destructor's
    assertion fails. *)
Theorem C26_mutex_failure_refuted : exists sched s ths tr, exec cv_step (cv_init 1) sched = Some ((s, ths), tr) /\
  tr = [EWaitCall 0; EJoin 0; EWaitRet 0 RError] /\ ths = [CIdle] /\ total s = 1.
Proof. exists [AWait 0 KRel; r 0; r 0; ARun 0 CTime; ARun 0 CMutex; r 0]. eexists _, _, _. split; [vm_compute; reflexivity|]. auto. Qed.
Print Assumptions C26_mutex_failure_refuted.

(** Worse, such a phantom waiter takes notifications: thread 0 waits in a waiter state of its own and leaves by an exception; thread 1 waits in another state;
    notify_one wakes the phantom and thread 1 stays blocked. *)
Theorem C26_phantom_refuted : exists sched s ths tr, exec cv_step (cv_init 4) sched = Some ((s, ths), tr) /\
  In (EWaitRet 0 RError) tr /\ last_event 1 tr = Some (EJoin 1) /\ last_event 0 tr = Some (EWaitRet 0 RError) /\
  (exists tr1, tr = tr1 ++ [ENotify 3 false 1; ENotifyRet 3] /\ last_event 1 tr1 = Some (EJoin 1)) /\
  forallb (fun p => match p with CIdle | CBlk _ _ => true | _ => false end) ths = true /\ nth_error ths 1 = Some (CBlk KInf 1) /\ cv_step (s, ths) (r 1) = None.
Proof.
  exists [AWait 0 KRel; r 0; r 0; AWait 2 KInf; r 2; r 2; ANotify 3 false; r 3; r 3;
          AWait 1 KInf; r 1; r 1; r 2; r 2; r 2; ARun 0 CTime; ARun 0 CMutex; r 0; ANotify 3 false; r 3; r 3].
  eexists _, _, _. split; [vm_compute; reflexivity|]. vm_compute. split; [tauto|]. repeat split. eexists [_;_;_;_;_;_;_;_;_;_;_;_;_]. split; reflexivity.
Qed.
Print Assumptions C26_phantom_refuted.

(** ** C52 *)
(** notify_one and notify_all are noexcept but lock the internal mutex, which can throw: then the program is terminated. *)
Theorem C52_notify_noexcept_refuted : exists sched s ths tr, exec cv_step (cv_init 2) sched = Some ((s, ths), tr) /\
  last_event 1 tr = Some (ENotifyCall 1 true) /\ cdead s = true.
Proof. exists [AWait 0 KInf; r 0; r 0; ANotify 1 true; r 1; ARun 1 CMutex]. eexists _, _, _. split; [vm_compute; reflexivity|]. auto. Qed.
Print Assumptions C52_notify_noexcept_refuted.

(** That is the only way: *)
Theorem C52_only_cause : forall n sched s ths tr, Z.of_nat n <= 2 ^ 30 -> exec cv_step (cv_init n) sched = Some ((s, ths), tr) -> cdead s = true -> exists t, In (ARun t CMutex) sched.
Proof.
  intros n sched s ths tr Hn H Hd.
  assert (Hdec : Forall no_mutex_failure sched \/ exists t, In (ARun t CMutex) sched).
  { clear. induction sched as [|a l IH]; [left; constructor|]. destruct IH as [IH|(t & IH)]; [|right; exists t; right; exact IH].
    destruct a as [t k|t al|t []]; try (left; constructor; [exact I|exact IH]). right. exists t. left. reflexivity. }
  destruct Hdec as [Hf|G]; [|exact G]. destruct (cv_inv _ _ _ _ Hn Hf H) as ((E & _) & _). congruence.
Qed.
Print Assumptions C52_only_cause.

(** ** C53 *)
(** A wait until a time point of another clock than the system's is several waits: when the inner wait times out early the thread leaves the condition
    variable, locks the user's mutex and registers again.  A notify_all issued in between - the notifier may hold the user's mutex - is missed: the call, begun before
    the notification and still within its deadline, blocks again. *)
Theorem C53_chrono_wait_misses_notification_refuted : exists sched s ths tr, exec cv_step (cv_init 2) sched = Some ((s, ths), tr) /\ Forall no_mutex_failure sched /\
  tr = [EWaitCall 0; EJoin 0; EEnd 0 RTimeout false; ENotifyCall 1 true; ENotify 1 true 0; ENotifyRet 1; EJoin 0] /\
  ths = [CBlk KChrono 0; CIdle] /\ cv_step (s, ths) (r 0) = None.
Proof.
  exists [AWait 0 KChrono; r 0; r 0; r 0; ARun 0 CTime; r 0; ANotify 1 true; r 1; r 0; r 0; r 0; r 0].
  eexists _, _, _. split; [vm_compute; reflexivity|]. split; [repeat constructor|]. repeat split.
Qed.
Print Assumptions C53_chrono_wait_misses_notification_refuted.

(** All other waiting functions register exactly once per call. *)
Definition no_chrono (a : cact) : Prop := match a with AWait _ KChrono => False | _ => True end.
Definition kindof (p : cpc) : option ckind :=
  match p with CClock => Some KChrono | CInit k | CUnlockU k _ | CBlk k _ | CTok k _ | CErr k _ | CTmo k _ | CRelock k _ => Some k | _ => None end.

Lemma run_kind s t p ch s' q e : cv_run s t p ch = Some (s', q, e) -> kindof q = None \/ kindof q = kindof p.
Proof.
  intros H. destruct p; cbn [cv_run] in H; try discriminate.
  - destruct ch; inversion H; subst; auto.
  - destruct (initiate s) as [[s1 i]|]; destruct ch; inversion H; subst; auto.
  - destruct ch, k; inversion H; subst; auto.
  - destruct (nth_error (sts s) s0) as [w|]; [destruct (0 <? tokens w)|]; destruct ch, k; inversion H; subst; auto.
  - destruct (nth_error (sts s) s0) as [w|]; [destruct (sec_token w)|]; destruct ch; inversion H; subst; auto.
  - destruct (nth_error (sts s) s0) as [w|]; [destruct (leave s s0 w)|]; destruct ch; inversion H; subst; auto.
  - destruct (nth_error (sts s) s0) as [w|]; [destruct (leave s s0 w)|]; destruct ch; inversion H; subst; auto.
  - destruct k, r0; inversion H; subst; auto.
  - destruct (0 <? total s); inversion H; subst; auto.
  - left. destruct (total s =? 0); [destruct ch; inversion H; subst; reflexivity|]. destruct (nstate s) as [i|]; [|destruct ch; inversion H; subst; reflexivity].
    destruct (wake _ _ _ _) as [[l j]|]; destruct ch; inversion H; subst; reflexivity.
Qed.

Theorem C53_single_registration : forall n sched c tr tr1 t tr2, Forall (fun a => no_mutex_failure a /\ no_chrono a) sched ->
  exec cv_step (cv_init n) sched = Some (c, tr) -> tr = tr1 ++ EJoin t :: tr2 -> last_event t tr1 = Some (EWaitCall t).
Proof.
  intros n sched c tr tr1 t tr2 Hf H.
  enough (G : (PL c tr /\ (forall u p, nth_error (snd c) u = Some p -> kindof p <> Some KChrono) /\
               (forall u k, nth_error (snd c) u = Some (CInit k) -> last_event u tr = Some (EWaitCall u))) /\
              forall tr1 tr2, tr = tr1 ++ EJoin t :: tr2 -> last_event t tr1 = Some (EWaitCall t)) by (intros E; exact (proj2 G _ _ E)).
  revert Hf H. apply (exec_inv_acts cv_step (fun a => no_mutex_failure a /\ no_chrono a) (fun c tr => (PL c tr /\ (forall u p, nth_error (snd c) u = Some p -> kindof p <> Some KChrono) /\
               (forall u k, nth_error (snd c) u = Some (CInit k) -> last_event u tr = Some (EWaitCall u))) /\
              forall tr1 tr2, tr = tr1 ++ EJoin t :: tr2 -> last_event t tr1 = Some (EWaitCall t))).
  - split; [|intros [|] ? E; discriminate]. split; [split; [|reflexivity]; intros u p Hp; apply nth_repeat in Hp; subst p; exact I|].
    split; intros u p Hp; apply nth_repeat in Hp; [subst p|]; discriminate.
  - intros c1 t1 a c2 e ((K1 & K2 & K3) & K4) (Hm & Hc) Hs. pose proof (PL_step _ _ _ _ _ Hm Hs K1) as K1'. destruct c1 as [s ths].
    assert (G : exists u p q, nth_error ths u = Some p /\ snd c2 = upd ths u q /\ kindof q <> Some KChrono /\ (forall k, q = CInit k -> e = [EWaitCall u]) /\
       (forall v, In (EJoin v) e -> e = [EJoin v] /\ u = v /\ exists k, p = CInit k) /\ (forall x, In x e -> evt x = u)).
    { destruct a as [u k|u al|u ch]; cbn [cv_step] in Hs.
      - destruct (nth_error ths u) as [p|] eqn:Hu; [|discriminate]. destruct p; inversion Hs; subst. exists u. eexists _, _. split; [exact Hu|]. split; [reflexivity|].
        split; [destruct k; try discriminate; contradiction|]. split; [reflexivity|]. split; [intros v [Hv|[]]; discriminate|intros x [<-|[]]; reflexivity].
      - destruct (nth_error ths u) as [p|] eqn:Hu; [|discriminate]. destruct p; inversion Hs; subst. exists u. eexists _, _. split; [exact Hu|]. split; [reflexivity|].
        split; [discriminate|]. split; [discriminate|]. split; [intros v [Hv|[]]; discriminate|intros x [<-|[]]; reflexivity].
      - destruct (cdead s); [discriminate|]. destruct (nth_error ths u) as [p|] eqn:Hu; [|discriminate]. destruct (cv_run s u p ch) as [[[s' q] e']|] eqn:Hr; inversion Hs; subst c2 e'.
        exists u, p, q. split; [exact Hu|]. split; [reflexivity|]. pose proof (K2 u p Hu) as Hk. pose proof (run_kind _ _ _ _ _ _ _ Hr) as Hk'.
        split; [destruct Hk' as [E|E]; rewrite E; [discriminate|exact Hk]|].
        assert (Hch : ch <> CMutex) by (intros ->; exact Hm). pose proof (run_last _ _ _ _ _ _ _ (last_event u t1) Hch Hr (proj1 K1 u p Hu)) as (_ & Hev). rewrite and_comm, and_assoc. split; [|split; [exact Hev|]]; clear Hs K1'.
        + intros v Hv. destruct p; cbn [cv_run] in Hr; try discriminate.
          * destruct ch; inversion Hr; subst; nin.
          * destruct (initiate s) as [[s1 i]|]; destruct ch; inversion Hr; subst; try (nin; fail); destruct Hv as [Hv|[]]; inversion Hv; subst; eauto.
          * destruct ch, k; inversion Hr; subst; nin.
          * destruct (nth_error (sts s) s0) as [w|]; [destruct (0 <? tokens w)|]; destruct ch, k; inversion Hr; subst; nin.
          * destruct (nth_error (sts s) s0) as [w|]; [destruct (sec_token w)|]; destruct ch; inversion Hr; subst; nin.
          * destruct (nth_error (sts s) s0) as [w|]; [destruct (leave s s0 w)|]; destruct ch; inversion Hr; subst; nin.
          * destruct (nth_error (sts s) s0) as [w|]; [destruct (leave s s0 w)|]; destruct ch; inversion Hr; subst; nin.
          * destruct k, r0; inversion Hr; subst; nin.
          * destruct (0 <? total s); inversion Hr; subst; [destruct Hv|destruct Hv as [Hv|[Hv|[]]]; discriminate].
          * assert (Hd : (exists k, e = [ENotify u all k; ENotifyRet u]) \/ e = []).
            { destruct (total s =? 0); [destruct ch; inversion Hr; eauto|]. destruct (nstate s); [|destruct ch; inversion Hr; eauto]. destruct (wake _ _ _ _) as [[l j]|]; destruct ch; inversion Hr; eauto. }
            destruct Hd as [(k & ->)| ->]; [destruct Hv as [Hv|[Hv|[]]]; discriminate|destruct Hv].
        + intros k ->. exfalso. destruct p; cbn [cv_run] in Hr; try discriminate.
          * apply Hk. reflexivity.
          * destruct (initiate s) as [[s1 i]|]; destruct ch; discriminate.
          * destruct ch, k0; discriminate.
          * destruct (nth_error (sts s) s0) as [w|]; [destruct (0 <? tokens w)|]; destruct ch, k0; discriminate.
          * destruct (nth_error (sts s) s0) as [w|]; [destruct (sec_token w)|]; destruct ch; discriminate.
          * destruct (nth_error (sts s) s0) as [w|]; [destruct (leave s s0 w)|]; destruct ch; discriminate.
          * destruct (nth_error (sts s) s0) as [w|]; [destruct (leave s s0 w)|]; destruct ch; discriminate.
          * destruct k0, r0; discriminate.
          * destruct (0 <? total s); discriminate.
          * destruct (total s =? 0); [destruct ch; discriminate|]. destruct (nstate s); [|destruct ch; discriminate]. destruct (wake _ _ _ _) as [[l j]|]; destruct ch; discriminate. }
    destruct G as (u & p & q & Hu & E2 & Hk & Hi & Hj & Hev). split.
    + split; [exact K1'|]. rewrite E2. split.
      * intros v x Hx. apply nth_upd_inv in Hx. destruct Hx as [(<- & <- & _)|(Hne & Hx)]; [exact Hk|exact (K2 v x Hx)].
      * intros v k Hx. rewrite last_app. apply nth_upd_inv in Hx. destruct Hx as [(<- & Hq & _)|(Hne & Hx)].
        -- rewrite (Hi k) by congruence. cbn. rewrite Nat.eqb_refl. reflexivity.
        -- rewrite lastof_other by (intros y Hy; rewrite (Hev y Hy); congruence). exact (K3 v k Hx).
    + intros x y E. apply split_app in E. destruct E as [(y' & E)|(z & -> & E)]; [exact (K4 _ _ E)|].
      assert (Hin : In (EJoin t) e) by (rewrite E; apply in_or_app; right; left; reflexivity).
      destruct (Hj t Hin) as (He & -> & k & ->). rewrite He in E. destruct z as [|z0 z]; [rewrite app_nil_r; exact (K3 t k Hu)|]. cbn [app] in E. inversion E as [[E3 E4]]. destruct z; discriminate.
Qed.
Print Assumptions C53_single_registration.
(** In the history of [cv_ex] both waits are registered once, right after their calls. *)
Example C53_example : Forall (fun a => no_mutex_failure a /\ no_chrono a) cv_ex /\
  exists c tr2, exec cv_step (cv_init 3) cv_ex = Some (c, [EWaitCall 0; EJoin 0; EWaitCall 1] ++ EJoin 1 :: tr2) /\ last_event 1 [EWaitCall 0; EJoin 0; EWaitCall 1] = Some (EWaitCall 1).
Proof. split; [repeat constructor|]. eexists. eexists. split; [vm_compute; reflexivity|reflexivity]. Qed.
