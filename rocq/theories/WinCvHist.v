(** Windows condition variable: where each thread is, according to the history; threads marked by notify_all. *)
From Coq Require Import List Bool Arith ZArith Lia Permutation.
From Verif Require Import ListSum Exec WinCvModel WinCvRing WinCvProof WinCvMatch.
Import ListNotations.
Local Open Scope Z_scope.

(** The thread an event is about, and the last event of a thread. *)
Definition evt (e : cev) : nat :=
  match e with EJoin t | EEnd t _ _ | ENotify t _ _ | EWaitCall t | EWaitRet t _ | ENotifyCall t _ | ENotifyRet t => t end.
Definition lastof (t : nat) (o : option cev) (tr : list cev) : option cev := fold_left (fun o e => if Nat.eqb (evt e) t then Some e else o) tr o.
Definition last_event (t : nat) (tr : list cev) : option cev := lastof t None tr.

Lemma last_app t tr e : last_event t (tr ++ e) = lastof t (last_event t tr) e.
Proof. unfold last_event, lastof. apply fold_left_app. Qed.
Lemma lastof_other t o e : (forall x, In x e -> evt x <> t) -> lastof t o e = o.
Proof.
  revert o. induction e as [|x e IH]; intros o H; [reflexivity|]. cbn. rewrite (proj2 (Nat.eqb_neq (evt x) t)) by (apply H; left; reflexivity).
  apply IH. intros y Hy. apply H. right; exact Hy.
Qed.

Definition lastok (t : nat) (p : cpc) (o : option cev) : Prop :=
  match p with
  | CIdle => match o with None | Some (EWaitRet _ _) | Some (ENotifyRet _) => True | _ => False end
  | CClock | CInit _ => o = Some (EWaitCall t) \/ o = Some (EEnd t RTimeout false)
  | CUnlockU _ _ | CBlk _ _ | CTok _ _ | CErr _ _ | CTmo _ _ => o = Some (EJoin t)
  | CRelock _ RNotified => o = Some (EEnd t RNotified true)
  | CRelock _ RTimeout => o = Some (EEnd t RTimeout false)
  | CRelock _ RError => (exists c, o = Some (EEnd t RError c)) \/ o = Some (EWaitCall t) \/ o = Some (EEnd t RTimeout false)
  | CNLoad al | CNSec al => o = Some (ENotifyCall t al)
  | CHung => True
  end.

Lemma run_last s t p ch s' q e o : ch <> CMutex -> cv_run s t p ch = Some (s', q, e) -> lastok t p o -> lastok t q (lastof t o e) /\ (forall x, In x e -> evt x = t).
Proof.
  intros Hm H Ho.
  assert (Hnil : e = [] -> lastok t q o -> lastok t q (lastof t o e) /\ (forall x, In x e -> evt x = t)) by (intros -> G; split; [exact G|intros x []]).
  assert (Hone : forall x, e = [x] -> evt x = t -> lastok t q (Some x) -> lastok t q (lastof t o e) /\ (forall x, In x e -> evt x = t)).
  { intros x -> Ex G. split; [cbn; rewrite Ex, Nat.eqb_refl; exact G|intros y [<-|[]]; exact Ex]. }
  destruct p; cbn [cv_run] in H; try discriminate; cbn [lastok] in Ho.
  - destruct ch; try contradiction; inversion H; subst; try (apply Hnil; [reflexivity|exact Ho]). eapply Hone; reflexivity || exact I.
  - destruct (initiate s) as [[s1 i]|]; destruct ch; try contradiction; inversion H; subst;
      try (apply Hnil; [reflexivity|]; cbn; solve [exact I | destruct Ho as [->| ->]; auto]); eapply Hone; reflexivity.
  - destruct ch, k; try contradiction; inversion H; subst; apply Hnil; solve [reflexivity | exact Ho].
  - destruct (nth_error (sts s) s0) as [w|]; [destruct (0 <? tokens w)|]; destruct ch, k; try contradiction; try discriminate; inversion H; subst; apply Hnil; solve [reflexivity | exact Ho | exact I].
  - destruct (nth_error (sts s) s0) as [w|]; [destruct (sec_token w)|]; destruct ch; try contradiction; inversion H; subst;
      solve [apply Hnil; solve [reflexivity | exact Ho | exact I] | eapply Hone; reflexivity].
  - destruct (nth_error (sts s) s0) as [w|]; [destruct (leave s s0 w) as [s1 c]|]; destruct ch; try contradiction; inversion H; subst;
      solve [apply Hnil; solve [reflexivity | exact Ho | exact I] | eapply Hone; try reflexivity; cbn; left; eauto].
  - destruct (nth_error (sts s) s0) as [w|]; [destruct (leave s s0 w) as [s1 []]|]; destruct ch; try contradiction; inversion H; subst;
      solve [apply Hnil; solve [reflexivity | exact Ho | exact I] | eapply Hone; reflexivity].
  - destruct k, r; inversion H; subst; try (apply Hnil; [reflexivity|right; reflexivity]); (eapply Hone; [reflexivity|reflexivity|exact I]).
  - destruct (0 <? total s); inversion H; subst; [apply Hnil; [reflexivity|reflexivity]|]. split; [cbn; rewrite Nat.eqb_refl; exact I|intros x [<-|[<-|[]]]; reflexivity].
  - assert (Hx : (if total s =? 0 then Some (s, CIdle, [ENotify t all 0; ENotifyRet t]) else
      match nstate s with None => Some (s, CHung, []) | Some i => match wake (length (sts s)) (sts s) i (if all then total s else 1) with
        | Some (l, j) => Some (CS l (Some j) (wstate s) (total s - (if all then total s else 1)) (cdead s), CIdle, [ENotify t all (if all then total s else 1); ENotifyRet t]) | None => Some (s, CHung, []) end end) = Some (s', q, e)).
    { destruct ch; try contradiction; exact H. }
    clear H. destruct (total s =? 0); [inversion Hx; subst; split; [cbn; rewrite Nat.eqb_refl; exact I|intros x [<-|[<-|[]]]; reflexivity]|].
    destruct (nstate s) as [i|]; [|inversion Hx; subst; apply Hnil; [reflexivity|exact I]].
    destruct (wake _ _ _ _) as [[l j]|]; inversion Hx; subst; [|apply Hnil; [reflexivity|exact I]]. split; [cbn; rewrite Nat.eqb_refl; exact I|intros x [<-|[<-|[]]]; reflexivity].
Qed.

Definition PL (c : cv_st) (tr : list cev) : Prop :=
  (forall t p, nth_error (snd c) t = Some p -> lastok t p (last_event t tr)) /\ (forall t, nth_error (snd c) t = None -> last_event t tr = None).

Lemma PL_step c tr a c' e : no_mutex_failure a -> cv_step c a = Some (c', e) -> PL c tr -> PL c' (tr ++ e).
Proof.
  intros Hm Hs (H1 & H2). destruct c as [s ths].
  assert (G : exists t p q, nth_error ths t = Some p /\ snd c' = upd ths t q /\ lastok t q (lastof t (last_event t tr) e) /\ (forall x, In x e -> evt x = t)).
  { destruct a as [t k|t al|t ch]; cbn [cv_step] in Hs.
    - destruct (nth_error ths t) as [p|] eqn:Ht; [|discriminate]. destruct p; inversion Hs; subst. exists t. eexists _, _. split; [exact Ht|]. split; [reflexivity|].
      split; [cbn; rewrite Nat.eqb_refl; destruct k; left; reflexivity|intros x [<-|[]]; reflexivity].
    - destruct (nth_error ths t) as [p|] eqn:Ht; [|discriminate]. destruct p; inversion Hs; subst. exists t. eexists _, _. split; [exact Ht|]. split; [reflexivity|].
      split; [cbn; rewrite Nat.eqb_refl; reflexivity|intros x [<-|[]]; reflexivity].
    - destruct (cdead s); [discriminate|]. destruct (nth_error ths t) as [p|] eqn:Ht; [|discriminate]. destruct (cv_run s t p ch) as [[[s' q] e']|] eqn:Hr; inversion Hs; subst.
      exists t, p, q. split; [exact Ht|]. split; [reflexivity|]. eapply run_last; eauto. intros ->. exact Hm. }
  destruct G as (t & p & q & Ht & E & G1 & G2). split.
  - intros u x Hu. rewrite E in Hu. rewrite last_app. apply nth_upd_inv in Hu. destruct Hu as [(<- & <- & _)|(Hne & Hu)]; [exact G1|].
    rewrite lastof_other by (intros y Hy; rewrite (G2 y Hy); congruence). apply H1. exact Hu.
  - intros u Hu. rewrite E in Hu. rewrite last_app. apply nth_error_None in Hu. rewrite upd_length in Hu.
    assert (u <> t) by (intros ->; assert (t < length ths)%nat by (apply nth_error_Some; congruence); lia).
    rewrite lastof_other by (intros y Hy; rewrite (G2 y Hy); congruence). apply H2. apply nth_error_None. exact Hu.
Qed.

Lemma PL_join c tr t : CI c -> PL c tr -> last_event t tr = Some (EJoin t) -> exists p i, nth_error (snd c) t = Some p /\ stof p = Some i.
Proof.
  destruct c as [s ths]. intros (_ & Hh & _) (H1 & H2) Hl. cbn [snd] in *. destruct (nth_error ths t) as [p|] eqn:Ht; [|rewrite (H2 t Ht) in Hl; discriminate].
  specialize (H1 t p Ht). rewrite Hl in H1. exists p. destruct p; cbn in *; try contradiction; try (destruct H1; discriminate); try discriminate; eauto.
  - destruct r; try discriminate. destruct H1 as [(c & H1)|[H1|H1]]; discriminate.
  - exfalso. apply (Hh t Ht).
Qed.

(** ** notify_all *)
Definition silent (t : nat) (l : list cev) : Prop := forall e, In e l -> own t e = false.

Definition MK (c : cv_st) (tr : list cev) : Prop :=
  forall tr1 u k tr2 t, tr = tr1 ++ ENotify u true k :: tr2 -> last_event t tr1 = Some (EJoin t) ->
    (silent t tr2 /\ exists p i, nth_error (snd c) t = Some p /\ stof p = Some i /\ av (fst c) i = 0) \/
    (exists a r b, tr2 = a ++ EEnd t r true :: b /\ silent t a /\ r <> RTimeout).

Lemma reg_wait c t p i : CI c -> nth_error (snd c) t = Some p -> stof p = Some i -> 1 <= nt (fst c) i + av (fst c) i.
Proof.
  destruct c as [s ths]. intros (_ & _ & _ & _ & H5 & H6 & _) Ht Hp. cbn [fst snd] in *.
  destruct (nth_error (sts s) i) as [w|] eqn:E; [|apply nth_error_None in E; specialize (H6 _ _ _ Ht Hp); lia].
  unfold nt, av, avail. rewrite E. destruct (H5 i w E) as (A & _). pose proof (sumf_elem (inst i) ths t p (fun x => inst_nn i x) Ht) as Hle. unfold inst at 1 in Hle. rewrite Hp, oeq_same in Hle. lia.
Qed.

Lemma MK_step c tr a c' e : CI c -> ccap c -> PL c tr -> no_mutex_failure a -> cv_step c a = Some (c', e) -> MK c tr -> MK c' (tr ++ e).
Proof.
  intros HI Hcap HP Hmf Hs HM tr1 u k tr2 t Etr Hl. destruct c as [s ths].
  destruct (cv_eff _ _ _ _ _ HI Hcap Hmf Hs) as (t' & p & q & Ht & Hths & He). destruct c' as [s' ths']. cbn [fst snd] in *. subst ths'.
  pose proof (split_app _ _ _ _ _ Etr) as [(tr2' & E)|(c & Ec & E)].
  - (* notified before *)
    assert (Ee : tr2 = tr2' ++ e).
    { rewrite E in Etr. rewrite <- app_assoc in Etr. cbn [app] in Etr. apply app_inv_head in Etr. inversion Etr. reflexivity. }
    subst tr2. destruct (HM _ _ _ _ _ E Hl) as [(Hsil & p0 & i & Hp0 & Hi & Hav)|(x & r & y & -> & Hsil & Hr)];
      [|right; exists x, r, (y ++ e); rewrite <- app_assoc; auto].
    cbn [fst snd] in *. pose proof (reg_wait _ _ _ _ HI Hp0 Hi) as Hw. cbn [fst] in Hw.
    assert (Hkeep : forall av', av' = 0 -> silent t e -> (t' = t -> stof q = Some i) -> av s' i = av' ->
      (silent t (tr2' ++ e) /\ exists p i, nth_error (upd ths t' q) t = Some p /\ stof p = Some i /\ av s' i = 0) \/
      (exists a r b, tr2' ++ e = a ++ EEnd t r true :: b /\ silent t a /\ r <> RTimeout)).
    { intros av' Ha Hse Hq Hav'. left. split; [intros z Hz; apply in_app_or in Hz; destruct Hz; auto|].
      destruct (Nat.eq_dec t' t) as [->|Hne]; [exists q, i; rewrite (nth_upd_eq _ _ _ _ Ht)|exists p0, i; rewrite nth_upd_neq by exact Hne]; repeat split; auto; congruence. }
    destruct He as [(E1 & E2 & E3 & E4)|[(j & E1 & E2 & E3 & E3' & E4 & E5 & ->)|[(j & r & c & E1 & E2 & E3 & E3' & (E4 & E4') & E5 & -> & E6 & E7 & E8)|(al & k' & E1 & E2 & E3 & E4 & E5 & E6 & ->)]]].
    + apply (Hkeep (av s i) Hav); [|intros ->; congruence|apply E3]. intros z Hz. rewrite forallb_forall in E4. specialize (E4 z Hz). destruct z; try discriminate; reflexivity.
    + assert (t' <> t) by (intros ->; congruence). assert (j <> i) by (intros ->; lia).
      apply (Hkeep (av s i) Hav); [|contradiction|apply E5; congruence]. intros z [<-|[]]. cbn. apply Nat.eqb_neq. assumption.
    + destruct (Nat.eq_dec t' t) as [->|Hne].
      * right. assert (j = i) as -> by congruence. assert (c = true) as -> by (apply E6; lia). exists tr2', r, []. split; [reflexivity|]. split; [exact Hsil|]. intros ->. discriminate (E8 eq_refl).
      * apply (Hkeep 0 eq_refl); [intros z [<-|[]]; cbn; apply Nat.eqb_neq; assumption|contradiction|].
        destruct (Nat.eq_dec i j) as [->|Hn]; [|rewrite (proj2 (E5 i Hn)); exact Hav]. rewrite E4'. assert (c = true) as -> by (apply E6; lia). cbn [Z.b2z]. lia.
    + assert (t' <> t) by (intros ->; congruence). apply (Hkeep 0 eq_refl); [intros z [<-|[<-|[]]]; reflexivity|contradiction|]. specialize (E4 i). lia.
  - (* notified now *)
    assert (Hin : In (ENotify u true k) e) by (rewrite E; apply in_or_app; right; left; reflexivity).
    destruct He as [(E1 & E2 & E3 & E4)|[(j & E1 & E2 & E3 & E3' & E4 & E5 & ->)|[(j & r & b & E1 & E2 & E3 & E3' & E4 & E5 & -> & E6 & E7 & E8)|(al & k' & E1 & E2 & E3 & E4 & E5 & E6 & ->)]]].
    + rewrite forallb_forall in E4. discriminate (E4 _ Hin).
    + destruct Hin as [Hin|[]]. discriminate.
    + destruct Hin as [Hin|[]]. discriminate.
    + destruct c as [|x c]; cbn [app] in E; [|inversion E as [[Ex Ey]]; destruct c as [|y c]; cbn [app] in Ey; [discriminate|inversion Ey as [[Ey1 Ey2]]; destruct c; discriminate]].
      inversion E; subst. rewrite app_nil_r in *. left. split; [intros z [<-|[]]; reflexivity|].
      destruct (PL_join _ _ _ HI HP Hl) as (p0 & i & Hp0 & Hi). cbn [fst snd] in *. exists p0, i.
      rewrite nth_upd_neq by (intros ->; congruence). auto.
Qed.

Theorem cv_hist n sched c tr : Z.of_nat n <= 2 ^ 30 -> Forall no_mutex_failure sched -> exec cv_step (cv_init n) sched = Some (c, tr) ->
  CI c /\ ccap c /\ PL c tr /\ MK c tr.
Proof.
  intros Hn. apply (exec_inv_acts cv_step no_mutex_failure (fun c tr => CI c /\ ccap c /\ PL c tr /\ MK c tr)).
  - split; [apply CI_init|]. split; [unfold ccap; cbn; rewrite repeat_length; exact Hn|]. split.
    + split; [|reflexivity]. intros t p Hp. apply nth_repeat in Hp. subst p. exact I.
    + intros tr1 u k tr2 t E. destruct tr1; discriminate.
  - intros c1 t1 a c2 e (K1 & K2 & K3 & K4) Hm Hs. split; [apply (CI_step _ _ _ _ K1 K2 Hm Hs)|]. split; [unfold ccap in *; rewrite (cv_step_length _ _ _ _ Hs); exact K2|].
    split; [eapply PL_step; eauto|]. eapply MK_step; eauto.
Qed.
