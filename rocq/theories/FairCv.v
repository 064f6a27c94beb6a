(** Proofs of progress under fair scheduling: the condition variable on Windows. *)
From Coq Require Import List Bool Arith ZArith Lia.
From Verif Require Import ListSum Exec WinCvModel WinCvRing WinCvProof WinCvMatch WinCvHist Fair.
Import ListNotations.
Local Open Scope Z_scope.

(** A step of thread [t] inside basic_condition_variable_windows.hpp 170-469. *)
Definition cv_acts (a : cact) (t : nat) : Prop := match a with ARun u _ => u = t | _ => False end.
(** Thread [t] can go on in basic_condition_variable_windows.hpp 170-469.  Taking m_internal_mutex counts as possible; taking the user's lock
    (118-122) does not: nothing is assumed of the user's lock. *)
Definition cv_enabled (c : cv_st) (t : nat) : Prop :=
  (exists c' e, cv_step c (ARun t CNorm) = Some (c', e)) /\ forall k r, nth_error (snd c) t <> Some (CRelock k r).
(** Thread [t] is registered as a waiter: between initiate_wait (basic_condition_variable_windows.hpp 284-325) and the section that ends its wait (336-462). *)
Definition waits (c : cv_st) (t : nat) : Prop := exists p i, nth_error (snd c) t = Some p /\ stof p = Some i.
(** The step ends the wait of thread [t] by a notification; basic_condition_variable_windows.hpp 336-462. *)
Definition notified (c : cv_st) (a : cact) (c' : cv_st) (t : nat) : Prop := exists ch r, a = ARun t ch /\ cv_step c a = Some (c', [EEnd t r true]) /\ r <> RTimeout.

(** Ranks for the proofs: steps of basic_condition_variable_windows.hpp 200-225 and 327-469 before the section that ends the wait. *)
Definition crank (p : cpc) : nat := match p with CUnlockU _ _ => 2 | CBlk _ _ => 1 | _ => 0 end%nat.
(** The rank of thread [t]; basic_condition_variable_windows.hpp 327-469. *)
Definition crankt (t : nat) (c : cv_st) : nat := match nth_error (snd c) t with Some p => crank p | None => 0%nat end.

(** What happens to a waiter of a state that has a notification. *)
Lemma cv_track s ths a s' ths' e t p i : CI (s, ths) -> no_mutex_failure a -> cv_step (s, ths) a = Some ((s', ths'), e) -> 0 < nt s i -> nth_error ths t = Some p -> stof p = Some i ->
  notified (s, ths) a (s', ths') t \/ (~ cv_acts a t /\ nth_error ths' t = Some p) \/
  (cv_acts a t /\ exists q, nth_error ths' t = Some q /\ stof q = Some i /\ (crank q < crank p \/ tokof q = Some i /\ tokof p = None)%nat).
Proof.
  intros HI Hmf H Hn Ht Hp. pose proof HI as (H1 & _ & _ & _ & H5 & H6 & _). pose proof H as Hstep.
  destruct (nth_error (sts s) i) as [w|] eqn:Ew; [|unfold nt in Hn; rewrite Ew in Hn; lia]. unfold nt in Hn. rewrite Ew in Hn.
  destruct a as [u k|u al|u ch]; cbn [cv_step] in H; cbn [cv_acts].
  - destruct (nth_error ths u) as [p1|] eqn:Hu; [|discriminate]. destruct p1; inversion H; subst. right; left. split; [auto|]. rewrite nth_upd_neq; [exact Ht|]. intros ->. rewrite Hu in Ht. inversion Ht; subst. discriminate.
  - destruct (nth_error ths u) as [p1|] eqn:Hu; [|discriminate]. destruct p1; inversion H; subst. right; left. split; [auto|]. rewrite nth_upd_neq; [exact Ht|]. intros ->. rewrite Hu in Ht. inversion Ht; subst. discriminate.
  - rewrite H1 in H. destruct (nth_error ths u) as [p1|] eqn:Hu; [|discriminate]. destruct (cv_run s u p1 ch) as [[[s1 q] e1]|] eqn:Hr; [|discriminate]. inversion H; subst s1 ths' e1.
    destruct (Nat.eq_dec u t) as [->|Hne]; [|right; left; split; [auto|]; rewrite nth_upd_neq; auto].
    rewrite Hu in Ht. inversion Ht; subst p1. rewrite (nth_upd_eq _ _ _ _ Hu).
    assert (Hfin : forall r, e = [EEnd t r true] -> r <> RTimeout -> notified (s, ths) (ARun t ch) (s', upd ths t q) t) by (intros r -> Hr'; exists ch, r; auto).
    destruct p; try discriminate; inversion Hp; subst s0; cbn [cv_run] in Hr.
    + right; right. split; [reflexivity|]. inversion Hr; subst. eexists. split; [reflexivity|]. destruct ch, k; cbn; auto.
    + right; right. split; [reflexivity|]. exists q. split; [reflexivity|]. rewrite Ew in Hr. destruct (0 <? tokens w); destruct ch, k; inversion Hr; subst; cbn; auto.
    + left. rewrite Ew in Hr. unfold sec_token in Hr. rewrite (proj2 (Z.ltb_lt _ _) Hn) in Hr. destruct ch; try (exfalso; exact (Hmf eq_refl)); try (inversion Hr; subst; eapply Hfin; [reflexivity|discriminate]).
      all: cbn in Hmf; contradiction.
    + left. rewrite Ew in Hr. unfold leave, sec_leave in Hr. rewrite (proj2 (Z.ltb_lt _ _) Hn) in Hr. destruct ch; try (inversion Hr; subst; eapply Hfin; [reflexivity|discriminate]).
      all: cbn in Hmf; contradiction.
    + left. rewrite Ew in Hr. unfold leave, sec_leave in Hr. rewrite (proj2 (Z.ltb_lt _ _) Hn) in Hr. destruct ch; try (inversion Hr; subst; eapply Hfin; [reflexivity|discriminate]).
      all: cbn in Hmf; contradiction.
Qed.

(** A waiter of a state that has a notification can go on if the semaphore has a unit or it is past the semaphore. *)
Lemma cv_can s ths t p i w : CI (s, ths) -> nth_error ths t = Some p -> stof p = Some i -> nth_error (sts s) i = Some w -> 0 < tokens w \/ tokof p = Some i -> cv_enabled (s, ths) t.
Proof.
  intros HI Ht Hp Hi Htok. pose proof HI as (Hd & _). split; [|cbn [snd]; intros k r E; rewrite Ht in E; inversion E; subst; discriminate].
  cbn [cv_step]. rewrite Hd, Ht. destruct p; try discriminate; inversion Hp; subst s0; cbn [cv_run]; try rewrite Hi.
  - eexists _, _. reflexivity.
  - destruct Htok as [Htok|Htok]; [|discriminate]. rewrite (proj2 (Z.ltb_lt _ _) Htok). destruct k; eexists _, _; reflexivity.
  - destruct (sec_token w); eexists _, _; reflexivity.
  - destruct (leave s i w). eexists _, _. reflexivity.
  - destruct (leave s i w). eexists _, _. reflexivity.
Qed.

(** If all waiters of a state are notified, every one of them has a unit of the semaphore waiting for it or is past the semaphore. *)
Lemma cv_unit s ths t p i w : CI (s, ths) -> nth_error ths t = Some p -> stof p = Some i -> nth_error (sts s) i = Some w -> avail w = 0 -> 0 < notify w /\ (0 < tokens w \/ tokof p = Some i).
Proof.
  intros HI Ht Hp Ew Hav. pose proof HI as (_ & _ & _ & _ & H5 & _). destruct (H5 i w Ew) as (A & B & D & _). unfold avail in Hav.
  pose proof (sumf_elem (inst i) ths t p (fun x => inst_nn i x) Ht) as Hle. assert (E1 : inst i p = 1) by (unfold inst; rewrite Hp; apply oeq_same).
  split; [lia|]. destruct (tokof p) as [j|] eqn:Ej; [right; destruct p; inversion Ej; subst; inversion Hp; reflexivity|left].
  assert (Hlt : sumf (intok i) ths < sumf (inst i) ths).
  { clear - Ht Hp Ej E1. revert t Ht. induction ths as [|x l IH]; intros [|t] Ht; try discriminate; cbn [sumf].
    - inversion Ht; subst x. assert (Hle : sumf (intok i) l <= sumf (inst i) l) by (apply sumf_le; intros y; apply intok_inst). assert (intok i p = 0) by (unfold intok; rewrite Ej; reflexivity). lia.
    - specialize (IH t Ht). pose proof (intok_inst i x). lia. }
  lia.
Qed.

Lemma end_actor c a c' t r b : cv_step c a = Some (c', [EEnd t r b]) -> exists ch, a = ARun t ch.
Proof.
  destruct c as [s ths]. intros H. destruct a as [u k|u al|u ch]; cbn [cv_step] in H.
  - destruct (nth_error ths u) as [[]|]; discriminate.
  - destruct (nth_error ths u) as [[]|]; discriminate.
  - exists ch. f_equal. destruct (cdead s); [discriminate|]. destruct (nth_error ths u) as [p|]; [|discriminate].
    destruct (cv_run s u p ch) as [[[s1 q] e1]|] eqn:Hr; [|discriminate]. inversion H; subst. clear H.
    destruct p; cbn [cv_run] in Hr; try discriminate;
      repeat match type of Hr with context [match ?x with _ => _ end] => destruct x; try discriminate end; inversion Hr; reflexivity.
Qed.

Lemma tok_st p k : tokof p = Some k -> stof p = Some k.
Proof. destruct p; cbn; intros H; inversion H; reflexivity. Qed.

Section Run.
  Variables (n : nat) (cf : nat -> cv_st) (ac : nat -> option cact).
  Hypothesis Hn : Z.of_nat n <= 2 ^ 30.
  Hypothesis Hinf : infinite cv_step (cv_init n) cf ac.
  Hypothesis Hmf : forall i a, ac i = Some a -> no_mutex_failure a.
  Hypothesis HF : fair cv_acts cv_enabled cf ac.

  Lemma cf_ok i : CI (cf i) /\ ccap (cf i).
  Proof.
    induction i as [|i (IH1 & IH2)].
    - rewrite (proj1 Hinf). split; [apply CI_init|]. unfold ccap. cbn. rewrite repeat_length. exact Hn.
    - pose proof (proj2 Hinf i) as Hh. unfold happens in Hh. destruct (ac i) as [a|] eqn:Ea; [|rewrite Hh; auto]. destruct Hh as (e & He).
      split; [apply (CI_step _ _ _ _ IH1 IH2 (Hmf _ _ Ea) He)|]. unfold ccap in *. rewrite (cv_step_length _ _ _ _ He). exact IH2.
  Qed.

  (** All waiters of a state that are notified come to the end of their waits. *)
  Lemma all_of_state i t p k : nth_error (snd (cf i)) t = Some p -> stof p = Some k -> av (fst (cf i)) k = 0 ->
    exists j a, (i <= j)%nat /\ ac j = Some a /\ notified (cf j) a (cf (S j)) t.
  Proof.
    intros Ht Hp Hav.
    apply (countdown_step cv_step cv_acts cv_enabled cf ac CI (fun c => exists p, nth_error (snd c) t = Some p /\ stof p = Some k /\ av (fst c) k = 0)
      (fun c a c' => notified c a c' t) (fun c => crankt t c + match nth_error (snd c) t with Some p => match tokof p with Some _ => 0 | None => 1 end | None => 0 end)%nat t i (proj2 Hinf) HF).
    - intros j _. apply cf_ok.
    - intros [s ths] HI (q & Hq & Hs & Ha). cbn [fst snd] in *. pose proof HI as (_ & _ & _ & _ & _ & H6 & _).
      destruct (nth_error (sts s) k) as [w|] eqn:Ew; [|apply nth_error_None in Ew; specialize (H6 _ _ _ Hq Hs); lia].
      unfold av in Ha. rewrite Ew in Ha. destruct (cv_unit _ _ _ _ _ _ HI Hq Hs Ew Ha). eapply cv_can; eauto.
    - intros j a e Hj Ea (q & Hq & Hs & Ha) Hst. destruct (cf_ok j) as (HI & Hcap). pose proof (Hmf _ _ Ea) as Hm.
      remember (cf (S j)) as c' eqn:E'. clear E'. destruct (cf j) as [s ths]. destruct c' as [s' ths']. cbn [fst snd] in *.
      pose proof (reg_wait _ _ _ _ HI Hq Hs) as Hw. cbn [fst] in Hw.
      assert (Hav' : av s' k = 0).
      { destruct (cv_eff _ _ _ _ _ HI Hcap Hm Hst) as (t' & p1 & q1 & Ht' & _ & He). cbn [fst] in He.
        destruct He as [(E1 & E2 & E3 & E4)|[(x & E1 & E2 & E3 & E3' & E4 & E5 & _)|[(x & r & b & E1 & E2 & E3 & E3' & (E4 & E4') & E5 & _ & E6 & _)|(al & k' & E1 & E2 & E3 & E4 & _)]]].
        - rewrite (proj2 (E3 k)). exact Ha.
        - assert (k <> x) by (intros ->; lia). rewrite (proj2 (E5 k H)). exact Ha.
        - destruct (Nat.eq_dec k x) as [->|Hx]; [|rewrite (proj2 (E5 k Hx)); exact Ha]. assert (b = true) as -> by (apply E6; lia). cbn [Z.b2z] in E4'. lia.
        - specialize (E4 k). lia. }
      assert (Hpos : 0 < nt s k) by lia.
      destruct (cv_track _ _ _ _ _ _ _ _ _ HI Hm Hst Hpos Hq Hs) as [Hdone|[(Hna & Hq')|(Hact & q' & Hq' & Hs' & Hr)]]; [left; exact Hdone| |]; right.
      + split; [eauto|]. unfold crankt. cbn [snd]. rewrite Hq, Hq'. split; [lia|tauto].
      + split; [eauto|]. unfold crankt. cbn [snd]. rewrite Hq, Hq'.
        assert (L : (crank q' + match tokof q' with Some _ => 0 | None => 1 end < crank q + match tokof q with Some _ => 0 | None => 1 end)%nat).
        { destruct Hr as [Hr|(R1 & R2)]; destruct q, q'; cbn in *; try discriminate; lia. }
        split; [lia|auto].
    - apply le_n.
    - eauto.
  Qed.

  (** A notification stays, or a thread's wait ends by it. *)
  Lemma nt_keep j a e k : ac j = Some a -> cv_step (cf j) a = Some (cf (S j), e) -> 0 < nt (fst (cf j)) k -> 0 < nt (fst (cf (S j))) k \/ exists u, notified (cf j) a (cf (S j)) u.
  Proof.
    intros Ea Hst Hk. destruct (cf_ok j) as (HI & Hcap). pose proof (Hmf _ _ Ea) as Hm.
    remember (cf (S j)) as c' eqn:E'. clear E'. destruct (cf j) as [s ths]. destruct c' as [s' ths']. cbn [fst snd] in *.
    destruct (cv_eff _ _ _ _ _ HI Hcap Hm Hst) as (t' & p1 & q1 & Ht' & _ & He). cbn [fst] in He.
    destruct He as [(E1 & E2 & E3 & E4)|[(x & E1 & E2 & E3 & E3' & E4 & E5 & _)|[(x & r & b & E1 & E2 & E3 & E3' & (E4 & E4') & E5 & E5' & E6 & E7 & E8)|(al & k' & E1 & E2 & E3 & E4 & _)]]].
    - left. rewrite (proj1 (E3 k)). exact Hk.
    - left. assert (k <> x) by (intros ->; lia). rewrite (proj1 (E5 k H)). exact Hk.
    - destruct (Nat.eq_dec k x) as [->|Hx]; [|left; rewrite (proj1 (E5 k Hx)); exact Hk]. right. assert (b = true) as -> by (apply E6; lia). subst e.
      exists t'. destruct (end_actor _ _ _ _ _ _ Hst) as (ch & ->). exists ch, r. split; [reflexivity|]. split; [exact Hst|]. intros ->. specialize (E8 eq_refl). discriminate.
    - left. specialize (E4 k). lia.
  Qed.

  (** A thread past the semaphore ends its wait, or another one takes the notification first. *)
  Lemma past_sem i t p k : nth_error (snd (cf i)) t = Some p -> tokof p = Some k -> 0 < nt (fst (cf i)) k ->
    exists j a, (i <= j)%nat /\ ac j = Some a /\ exists u, notified (cf j) a (cf (S j)) u.
  Proof.
    intros Ht Hp Hk.
    apply (countdown_step cv_step cv_acts cv_enabled cf ac CI (fun c => exists p, nth_error (snd c) t = Some p /\ tokof p = Some k /\ 0 < nt (fst c) k)
      (fun c a c' => exists u, notified c a c' u) (fun _ => 0%nat) t i (proj2 Hinf) HF).
    - intros j _. apply cf_ok.
    - intros [s ths] HI (q & Hq & Hs & Ha). cbn [fst snd] in *. pose proof (tok_st _ _ Hs) as Hs'.
      destruct (nth_error (sts s) k) as [w|] eqn:Ew; [|unfold nt in Ha; rewrite Ew in Ha; lia]. eapply cv_can; eauto.
    - intros j a e Hj Ea (q & Hq & Hs & Ha) Hst. destruct (nt_keep _ _ _ _ Ea Hst Ha) as [Hk'|Hd]; [|left; exact Hd].
      destruct (cf_ok j) as (HI & Hcap). pose proof (Hmf _ _ Ea) as Hm. remember (cf (S j)) as c' eqn:E'. clear E'. destruct (cf j) as [s ths]. destruct c' as [s' ths']. cbn [fst snd] in *.
      destruct (cv_track _ _ _ _ _ _ _ _ _ HI Hm Hst Ha Hq (tok_st _ _ Hs)) as [Hdone|[(Hna & Hq')|(Hact & q' & Hq' & Hs' & Hr)]]; [left; eauto| |].
      + right. split; [eauto|]. split; [apply le_n|tauto].
      + exfalso. destruct Hr as [Hr|(R1 & R2)]; [|congruence]. destruct q; try discriminate. cbn in Hr. lia.
    - apply le_n.
    - eauto.
  Qed.

  (** While a state has a notification, the wait of some thread ends by a notification. *)
  Lemma one_of_state i k : 0 < nt (fst (cf i)) k -> exists j a, (i <= j)%nat /\ ac j = Some a /\ exists u, notified (cf j) a (cf (S j)) u.
  Proof.
    intros Hk.
    assert (Hdec : forall l, (exists t p, nth_error l t = Some p /\ tokof p = Some k) \/ sumf (intok k) l = 0).
    { intros l. destruct (Z_lt_le_dec 0 (sumf (intok k) l)) as [Hp|Hz].
      - left. destruct (sumf_pos_ex _ _ Hp) as (t & p & Ht & Hp'). exists t, p. split; [exact Ht|]. unfold intok, oeq in Hp'. destruct (tokof p) as [j|]; [|lia]. destruct (Nat.eqb_spec j k); [subst; reflexivity|lia].
      - right. pose proof (sumf_nonneg (intok k) l (intok_nn k)). lia. }
    destruct (Hdec (snd (cf i))) as [(t & p & Ht & Hp)|Hz]; [eapply past_sem; eauto|].
    destruct (cf_ok i) as (HI0 & _).
    assert (Hex : exists t p, nth_error (snd (cf i)) t = Some p /\ stof p = Some k).
    { destruct (cf i) as [s ths]. cbn [fst snd] in *. pose proof HI0 as (_ & _ & _ & _ & H5 & _). unfold nt in Hk. destruct (nth_error (sts s) k) as [w|] eqn:Ew; [|lia].
      destruct (H5 k w Ew) as (A & B & _). assert (Hp : 0 < sumf (inst k) ths) by lia. destruct (sumf_pos_ex _ _ Hp) as (t & p & Ht & Hp'). exists t, p. split; [exact Ht|].
      unfold inst, oeq in Hp'. destruct (stof p) as [j|]; [|lia]. destruct (Nat.eqb_spec j k); [subst; reflexivity|lia]. }
    destruct Hex as (t & p & Ht & Hp).
    enough (G : exists j a, (i <= j)%nat /\ ac j = Some a /\ ((exists u, notified (cf j) a (cf (S j)) u) \/ 0 < nt (fst (cf (S j))) k /\ exists u q, nth_error (snd (cf (S j))) u = Some q /\ tokof q = Some k)).
    { destruct G as (j & a & Hj & Ea & [Hd|(Hk' & u & q & Hu & Hq)]); [eauto|]. destruct (past_sem _ _ _ _ Hu Hq Hk') as (j' & a' & Hj' & Ea' & Hd). exists j', a'. split; [lia|auto]. }
    apply (countdown_step cv_step cv_acts cv_enabled cf ac CI (fun c => 0 < nt (fst c) k /\ sumf (intok k) (snd c) = 0 /\ exists p, nth_error (snd c) t = Some p /\ stof p = Some k)
      (fun c a c' => (exists u, notified c a c' u) \/ 0 < nt (fst c') k /\ exists u q, nth_error (snd c') u = Some q /\ tokof q = Some k) (crankt t) t i (proj2 Hinf) HF).
    - intros j _. apply cf_ok.
    - intros [s ths] HI (Ha & Hz' & q & Hq & Hs). cbn [fst snd] in *. pose proof HI as (_ & _ & _ & _ & H5 & _).
      unfold nt in Ha. destruct (nth_error (sts s) k) as [w|] eqn:Ew; [|lia]. destruct (H5 k w Ew) as (A & B & D & _). eapply cv_can; eauto. left. lia.
    - intros j a e Hj Ea (Ha & Hz' & q & Hq & Hs) Hst. destruct (nt_keep _ _ _ _ Ea Hst Ha) as [Hk'|Hd]; [|left; left; exact Hd].
      destruct (Hdec (snd (cf (S j)))) as [(u & q' & Hu & Hq')|Hz'']; [left; right; eauto 6|].
      destruct (cf_ok j) as (HI & Hcap). pose proof (Hmf _ _ Ea) as Hm. remember (cf (S j)) as c' eqn:E'. clear E'. destruct (cf j) as [s ths]. destruct c' as [s' ths']. cbn [fst snd] in *.
      destruct (cv_track _ _ _ _ _ _ _ _ _ HI Hm Hst Ha Hq Hs) as [Hdone|[(Hna & Hq')|(Hact & q' & Hq' & Hs' & Hr)]]; [left; left; eauto| |].
      + right. split; [eauto|]. unfold crankt. cbn [snd]. rewrite Hq, Hq'. split; [lia|tauto].
      + destruct Hr as [Hr|(R1 & R2)]; [|left; right; eauto 6]. right. split; [eauto|]. unfold crankt. cbn [snd]. rewrite Hq, Hq'. split; [lia|auto].
    - apply le_n.
    - eauto.
  Qed.

  (** From notify_all taking effect. *)
  Lemma after_notify_all i a e u k t : ac i = Some a -> cv_step (cf i) a = Some (cf (S i), e) -> In (ENotify u true k) e -> waits (cf i) t ->
    exists j b, (i < j)%nat /\ ac j = Some b /\ notified (cf j) b (cf (S j)) t.
  Proof.
    intros Ea Hst Hin (p & x & Ht & Hp). destruct (cf_ok i) as (HI & Hcap). pose proof (Hmf _ _ Ea) as Hm.
    enough (G : nth_error (snd (cf (S i))) t = Some p /\ av (fst (cf (S i))) x = 0).
    { destruct G as (G1 & G2). destruct (all_of_state _ _ _ _ G1 Hp G2) as (j & b & Hj & Hb). exists j, b. split; [lia|exact Hb]. }
    remember (cf (S i)) as c' eqn:E'. clear E'. destruct (cf i) as [s ths]. destruct c' as [s' ths']. cbn [fst snd] in *.
    destruct (cv_eff _ _ _ _ _ HI Hcap Hm Hst) as (t' & p1 & q1 & Ht' & Hq' & He). cbn [fst snd] in *.
    destruct He as [(E1 & E2 & E3 & E4)|[(y & E1 & E2 & E3 & E3' & E4 & E5 & ->)|[(y & r & b & E1 & E2 & E3 & E3' & (E4 & E4') & E5 & -> & _)|(al & k' & E1 & E2 & E3 & E4 & E5 & E6 & ->)]]].
    - exfalso. apply (proj1 (forallb_forall _ _) E4) in Hin. discriminate.
    - exfalso. destruct Hin as [Hin|[]]. discriminate.
    - exfalso. destruct Hin as [Hin|[]]. discriminate.
    - destruct Hin as [Hin|[Hin|[]]]; [|discriminate]. inversion Hin; subst. split; [|apply E6; reflexivity].
      rewrite nth_upd_neq; [exact Ht|]. intros ->. rewrite Ht' in Ht. inversion Ht; subst. congruence.
  Qed.

  (** From notify_one or notify_all taking effect. *)
  Lemma after_notify i a e u al k : ac i = Some a -> cv_step (cf i) a = Some (cf (S i), e) -> In (ENotify u al k) e -> 0 < k ->
    exists j b v, (i < j)%nat /\ ac j = Some b /\ notified (cf j) b (cf (S j)) v.
  Proof.
    intros Ea Hst Hin Hk. destruct (cf_ok i) as (HI & Hcap). pose proof (Hmf _ _ Ea) as Hm.
    enough (G : exists x, 0 < nt (fst (cf (S i))) x).
    { destruct G as (x & G). destruct (one_of_state _ _ G) as (j & b & Hj & Hb & v & Hv). exists j, b, v. split; [lia|auto]. }
    remember (cf (S i)) as c' eqn:E'. clear E'. pose proof (CI_step _ _ _ _ HI Hcap Hm Hst) as HI'. destruct (cf i) as [s ths]. destruct c' as [s' ths']. cbn [fst snd] in *.
    destruct (cv_eff _ _ _ _ _ HI Hcap Hm Hst) as (t' & p1 & q1 & Ht' & Hq' & He). cbn [fst snd] in *.
    destruct He as [(E1 & E2 & E3 & E4)|[(y & E1 & E2 & E3 & E3' & E4 & E5 & ->)|[(y & r & b & E1 & E2 & E3 & E3' & (E4 & E4') & E5 & -> & _)|(al' & k' & E1 & E2 & E3 & E4 & E5 & E6 & ->)]]].
    - exfalso. apply (proj1 (forallb_forall _ _) E4) in Hin. discriminate.
    - exfalso. destruct Hin as [Hin|[]]. discriminate.
    - exfalso. destruct Hin as [Hin|[]]. discriminate.
    - destruct Hin as [Hin|[Hin|[]]]; [|discriminate]. inversion Hin as [[I1 I2 I3]]. rewrite <- I3, <- E5 in Hk. destruct (sumf_pos_ex _ _ Hk) as (j & x & _ & Hx). exists x.
      pose proof HI as (_ & _ & _ & _ & H5 & _). unfold nt at 2 in Hx. destruct (nth_error (sts s) x) as [w|] eqn:Ew; [|lia]. destruct (H5 x w Ew) as (_ & B & _). lia.
  Qed.
End Run.
