(** Windows condition variable: every delivered notification is one issued after the wait began. *)
From Coq Require Import List Bool Arith ZArith Lia Permutation.
From Verif Require Import ListSum Exec WinCvModel WinCvRing WinCvProof.
Import ListNotations.
Local Open Scope Z_scope.

Definition nt (s : csh) (i : nat) : Z := match nth_error (sts s) i with Some w => notify w | None => 0 end.
(** [own t e]: [e] starts or ends a wait of thread [t]. *)
Definition own (t : nat) (e : cev) : bool := match e with EJoin u | EEnd u _ _ => Nat.eqb u t | _ => false end.
Definition quiet (e : cev) : bool := match e with EJoin _ | EEnd _ _ _ | ENotify _ _ _ => false | _ => true end.

Definition av (s : csh) (i : nat) : Z := match nth_error (sts s) i with Some w => avail w | None => 0 end.

(** What a step does, in terms of notifications and of un-notified waiters. *)
Definition eff (s : csh) (s' : csh) (t : nat) (p q : cpc) (e : list cev) : Prop :=
  (stof q = stof p /\ length (sts s') = length (sts s) /\ (forall i, nt s' i = nt s i /\ av s' i = av s i) /\ forallb quiet e = true) \/
  (exists i, stof p = None /\ stof q = Some i /\ nt s' i = 0 /\ nt s i = 0 /\ (length (sts s) <= length (sts s'))%nat /\
     (forall j, j <> i -> nt s' j = nt s j /\ av s' j = av s j) /\ e = [EJoin t]) \/
  (exists i r c, stof p = Some i /\ stof q = None /\ length (sts s') = length (sts s) /\ (i < length (sts s))%nat /\
     (nt s' i = nt s i - Z.b2z c /\ av s' i = av s i - (1 - Z.b2z c)) /\
     (forall j, j <> i -> nt s' j = nt s j /\ av s' j = av s j) /\ e = [EEnd t r c] /\ (c = true <-> 0 < nt s i) /\ (r = RNotified -> c = true) /\ (r = RTimeout -> c = false)) \/
  (exists al k, stof p = None /\ stof q = None /\ length (sts s') = length (sts s) /\ (forall j, nt s j <= nt s' j /\ 0 <= av s' j <= av s j) /\
     sumf (fun j => nt s' j - nt s j) (seq 0 (length (sts s))) = k /\ (al = true -> forall j, av s' j = 0) /\ e = [ENotify t al k; ENotifyRet t]).

Lemma nt_upd s i w w' ns ws tot d : nth_error (sts s) i = Some w -> forall j, nt (CS (upd (sts s) i w') ns ws tot d) j = if Nat.eqb j i then notify w' else nt s j.
Proof.
  intros Hi j. unfold nt. cbn [sts]. destruct (Nat.eqb_spec j i) as [->|Hn]; [rewrite (nth_upd_eq _ _ w' _ Hi)|rewrite nth_upd_neq by congruence]; reflexivity.
Qed.

Lemma sum_nt l : sumf (fun j => match nth_error l j with Some w => notify w | None => 0 end) (seq 0 (length l)) = sumf notify l.
Proof.
  enough (G : forall l0 l, (forall k, nth_error l0 (length l0 - length l + k) = nth_error l k) -> (length l <= length l0)%nat ->
            sumf (fun j => match nth_error l0 j with Some w => notify w | None => 0 end) (seq (length l0 - length l) (length l)) = sumf notify l).
  { specialize (G l l). replace (length l - length l)%nat with O in G by lia. apply G; [reflexivity|lia]. }
  intros l0. clear l. induction l as [|w l IH]; intros Hk Hl; cbn [length seq sumf] in *; [reflexivity|].
  pose proof (Hk O) as H0. rewrite Nat.add_0_r in H0. rewrite H0. cbn [nth_error]. f_equal.
  replace (S (length l0 - S (length l))) with (length l0 - length l)%nat by lia. apply IH; [|lia].
  intros k. specialize (Hk (S k)). cbn [nth_error] in Hk. rewrite <- Hk. f_equal. lia.
Qed.
Lemma sumf_sub {A} (f g : A -> Z) l : sumf (fun a => f a - g a) l = sumf f l - sumf g l.
Proof. induction l as [|a l IH]; cbn [sumf]; lia. Qed.

Lemma av_upd s i w w' ns ws tot d : nth_error (sts s) i = Some w -> forall j, av (CS (upd (sts s) i w') ns ws tot d) j = if Nat.eqb j i then avail w' else av s j.
Proof.
  intros Hi j. unfold av. cbn [sts]. destruct (Nat.eqb_spec j i) as [->|Hn]; [rewrite (nth_upd_eq _ _ w' _ Hi)|rewrite nth_upd_neq by congruence]; reflexivity.
Qed.

Lemma eff_end s t p q i w w' ns ws tot d r c : nth_error (sts s) i = Some w -> stof p = Some i -> stof q = None ->
  notify w' = notify w - Z.b2z c -> avail w' = avail w - (1 - Z.b2z c) -> (c = true <-> 0 < notify w) -> (r = RNotified -> c = true) -> (r = RTimeout -> c = false) ->
  eff s (CS (upd (sts s) i w') ns ws tot d) t p q [EEnd t r c].
Proof.
  intros Hi Hp Hq Hn Ha Hc Hr1 Hr2. right; right; left. exists i, r, c.
  assert (Hlt : (i < length (sts s))%nat) by (apply nth_error_Some; congruence).
  assert (E1 : nt s i = notify w) by (unfold nt; rewrite Hi; reflexivity). assert (E2 : av s i = avail w) by (unfold av; rewrite Hi; reflexivity).
  split; [exact Hp|]. split; [exact Hq|]. split; [apply upd_length|]. split; [exact Hlt|].
  rewrite (nt_upd _ _ _ _ _ _ _ _ Hi), (av_upd _ _ _ _ _ _ _ _ Hi), Nat.eqb_refl, E1, E2. split; [auto|].
  split; [|split; [reflexivity|auto]]. intros j Hj. rewrite (nt_upd _ _ _ _ _ _ _ _ Hi), (av_upd _ _ _ _ _ _ _ _ Hi), (proj2 (Nat.eqb_neq j i) Hj). auto.
Qed.

Lemma init_av s s' i : initiate s = Some (s', i) -> forall j, j <> i -> av s' j = av s j.
Proof.
  intros H j Hj. unfold initiate in H. destruct (wstate s) as [e|].
  - destruct (find (length (sts s)) (sts s) e e) as [x| |]; [| |discriminate].
    + destruct (nth_error (sts s) x) as [w|] eqn:E; [|discriminate]. inversion H; subst. rewrite (av_upd _ _ _ _ _ _ _ _ E), (proj2 (Nat.eqb_neq j i) Hj). reflexivity.
    + destruct (nth_error (sts s) e) as [w|] eqn:E; [|discriminate]. cbv zeta in H. inversion H; subst. unfold av. cbn [sts].
      destruct (le_lt_dec (length (sts s)) j) as [Hge|Hlt].
      * rewrite nth_error_app2 by (rewrite upd_length; lia). rewrite upd_length. replace (nth_error (sts s) j) with (@None wst) by (symmetry; apply nth_error_None; lia).
        destruct (j - length (sts s))%nat as [|m] eqn:Em; [lia|]. cbn. destruct m; reflexivity.
      * rewrite nth_error_app1 by (rewrite upd_length; lia). destruct (Nat.eq_dec e j) as [<-|Hn]; [rewrite (nth_upd_eq _ _ _ _ E), E; reflexivity|rewrite nth_upd_neq by exact Hn; reflexivity].
  - inversion H; subst. unfold av. cbn [sts]. destruct (le_lt_dec (length (sts s)) j) as [Hge|Hlt].
    + rewrite nth_error_app2 by lia. replace (nth_error (sts s) j) with (@None wst) by (symmetry; apply nth_error_None; lia).
      destruct (j - length (sts s))%nat as [|m] eqn:Em; [lia|]. cbn. destruct m; reflexivity.
    + rewrite nth_error_app1 by lia. reflexivity.
Qed.

Lemma cv_eff s ths a c' e : CI (s, ths) -> ccap (s, ths) -> no_mutex_failure a -> cv_step (s, ths) a = Some (c', e) ->
  exists t p q, nth_error ths t = Some p /\ snd c' = upd ths t q /\ eff s (fst c') t p q e.
Proof.
  intros HI Hcap Hmf H. pose proof HI as (H1 & H2 & H3 & H4 & H5 & H6 & H7). pose proof (avail_nn _ HI) as Hnn. cbn [fst] in Hnn.
  assert (Hav : forall j, 0 <= av s j).
  { intros j. unfold av. destruct (nth_error (sts s) j) as [w|] eqn:E; [|lia]. destruct (H5 _ _ E) as (_ & B & _). unfold avail. lia. }
  assert (Hq : forall t p q e0, stof q = stof p -> forallb quiet e0 = true -> eff s s t p q e0) by (intros; left; auto).
  assert (Hz : forall t al p q, stof p = None -> stof q = None -> total s = 0 -> eff s s t p q [ENotify t al 0; ENotifyRet t]).
  { intros t al p q Hp Hq' Hz. right; right; right. exists al, 0. split; [exact Hp|]. split; [exact Hq'|]. split; [reflexivity|].
    split; [intros j; specialize (Hav j); lia|]. split; [induction (seq 0 (length (sts s))) as [|x l IH]; cbn [sumf]; lia|]. split; [|reflexivity]. intros _ j.
    unfold av. destruct (nth_error (sts s) j) as [w|] eqn:E; [|reflexivity].
    assert (Hnn2 : forall k w, nth_error (sts s) k = Some w -> 0 <= avail w) by (intros k x Hx; specialize (Hav k); unfold av in Hav; rewrite Hx in Hav; exact Hav).
    assert (Hge : forall l, (forall k w, nth_error l k = Some w -> 0 <= avail w) -> 0 <= sumf avail l).
    { induction l as [|y l IH]; intros Hl; cbn [sumf]; [lia|]. specialize (IH (fun k => Hl (S k))). specialize (Hl O y eq_refl). lia. }
    rewrite Hz in H7. clear - H7 E Hnn2 Hge. revert j E H7 Hnn2. induction (sts s) as [|y l IH]; intros [|j] E H7 Hnn2; try discriminate; cbn [sumf] in H7;
      pose proof (Hnn2 O y eq_refl); pose proof (Hge l (fun k => Hnn2 (S k))).
    - inversion E; subst. lia.
    - apply (IH j E); [lia|]. intros k. apply (Hnn2 (S k)). }
  assert (Hst : forall t p i, nth_error ths t = Some p -> stof p = Some i -> exists w, nth_error (sts s) i = Some w).
  { intros t p i Ht Hp. destruct (nth_error (sts s) i) as [w|] eqn:E; [eauto|]. apply nth_error_None in E. specialize (H6 _ _ _ Ht Hp). lia. }
  destruct a as [t k|t al|t ch]; cbn [cv_step] in H.
  - destruct (nth_error ths t) as [p|] eqn:Ht; [|discriminate]. destruct p; inversion H; subst. exists t. eexists _, _. split; [exact Ht|]. split; [reflexivity|]. apply Hq; [destruct k|]; reflexivity.
  - destruct (nth_error ths t) as [p|] eqn:Ht; [|discriminate]. destruct p; inversion H; subst. exists t. eexists _, _. split; [exact Ht|]. split; [reflexivity|]. apply Hq; reflexivity.
  - rewrite H1 in H. destruct (nth_error ths t) as [p|] eqn:Ht; [|discriminate]. destruct (cv_run s t p ch) as [[[s' q] e']|] eqn:Hr; [|discriminate].
    inversion H; subst c' e'. clear H. exists t, p, q. split; [exact Ht|]. split; [reflexivity|]. cbn [fst].
    assert (Hnil : stof q = stof p -> s' = s -> forallb quiet e = true -> eff s s' t p q e) by (intros A -> B; apply Hq; auto).
    destruct p; cbn [cv_run] in Hr; try discriminate.
    + destruct ch; inversion Hr; subst; apply Hnil; reflexivity.
    + destruct (init_ok s ths t k HI Hcap Ht) as (s1 & i & E & G1 & G2 & G3 & (w & Hw & Hw0) & G5 & G6). rewrite E in Hr.
      pose proof (init_av _ _ _ E) as Hiav.
      assert (Hj : eff s s1 t (CInit k) (CUnlockU k i) [EJoin t]).
      { right; left; exists i; split; [reflexivity|]; split; [reflexivity|]; split; [unfold nt; rewrite Hw; exact Hw0|]; split;
         [unfold nt; destruct (nth_error (sts s) i) as [x|] eqn:Hx; [destruct (G6 _ _ Hx) as (y & Hy & Ey); rewrite Hw in Hy; inversion Hy; subst y; lia|reflexivity]|].
        split; [|split; [|reflexivity]].
        - destruct (le_lt_dec (length (sts s)) (length (sts s1))) as [|Hlt]; [assumption|exfalso].
          destruct (nth_error (sts s) (length (sts s1))) as [x|] eqn:Hx; [|apply nth_error_None in Hx; lia].
          destruct (G6 _ _ Hx) as (y & Hy & _); assert (nth_error (sts s1) (length (sts s1)) = None) by (apply nth_error_None; lia); congruence.
        - intros j Hj. split; [|apply Hiav; exact Hj]. unfold nt; destruct (nth_error (sts s1) j) as [y|] eqn:Hy; [destruct (G5 j y Hj Hy) as (x & -> & ->); reflexivity|].
          destruct (nth_error (sts s) j) as [x|] eqn:Hx; [destruct (G6 _ _ Hx) as (y & Hy' & _); congruence|reflexivity]. }
      destruct ch; try contradiction; inversion Hr; subst; try (apply Hnil; reflexivity); exact Hj.
    + destruct ch, k; inversion Hr; subst; apply Hnil; reflexivity.
    + destruct (Hst _ _ _ Ht eq_refl) as (w & Hi). rewrite Hi in Hr.
      assert (Htake : (if 0 <? tokens w then Some (set_st s s0 (WS (waiter w) (notify w) (tokens w - 1) (nxt w)), CTok k s0, []) else None) = Some (s', q, e) -> eff s s' t (CBlk k s0) q e).
      { intros Hx. destruct (Z.ltb_spec 0 (tokens w)) as [Hpos|]; [|discriminate]. inversion Hx; subst s' q e. left. split; [reflexivity|].
        split; [apply upd_length|]. split; [|reflexivity]. intros i. unfold set_st. rewrite (nt_upd _ _ _ _ _ _ _ _ Hi), (av_upd _ _ _ _ _ _ _ _ Hi). destruct (Nat.eqb_spec i s0) as [->|]; [|auto].
        unfold nt, av. rewrite Hi. split; reflexivity. }
      destruct ch; try contradiction; [destruct k; auto|inversion Hr; subst; destruct k; apply Hnil; reflexivity|].
      destruct k; try discriminate; inversion Hr; subst; apply Hnil; reflexivity.
    + destruct (Hst _ _ _ Ht eq_refl) as (w & Hi). rewrite Hi in Hr.
      assert (Hx : match sec_token w with Some w' => Some (set_st s s0 w', CRelock k RNotified, [EEnd t RNotified true]) | None => Some (s, CBlk k s0, []) end = Some (s', q, e)).
      { destruct ch; try contradiction; exact Hr. }
      clear Hr. unfold sec_token in Hx. destruct (Z.ltb_spec 0 (notify w)) as [Hn|Hn]; inversion Hx; subst s' q e; clear Hx; [|apply Hnil; reflexivity].
      eapply eff_end; eauto; try reflexivity; try discriminate; [unfold avail; cbn; lia|]. split; auto.
    + destruct (Hst _ _ _ Ht eq_refl) as (w & Hi). rewrite Hi in Hr. unfold leave, sec_leave in Hr.
      destruct (Z.ltb_spec 0 (notify w)) as [Hn|Hn].
      * assert (Hx : Some (CS (upd (sts s) s0 (WS (waiter w - 1) (notify w - 1) (tokens w) (nxt w))) (nstate s) (wstate s) (total s) (cdead s), CRelock k RError, [EEnd t RError true]) = Some (s', q, e)) by (destruct ch; try contradiction; exact Hr).
        inversion Hx; subst s' q e. eapply eff_end; eauto; try reflexivity; try discriminate; [unfold avail; cbn; lia|]. split; auto.
      * assert (Hx : Some (CS (upd (sts s) s0 (WS (waiter w - 1) (notify w) (tokens w) (nxt w))) (nstate s) (wstate s) (total s - 1) (cdead s), CRelock k RError, [EEnd t RError false]) = Some (s', q, e)) by (destruct ch; try contradiction; exact Hr).
        inversion Hx; subst s' q e. eapply eff_end; eauto; try reflexivity; try discriminate; [cbn; lia|unfold avail; cbn; lia|]. split; [discriminate|lia].
    + destruct (Hst _ _ _ Ht eq_refl) as (w & Hi). rewrite Hi in Hr. unfold leave, sec_leave in Hr.
      destruct (Z.ltb_spec 0 (notify w)) as [Hn|Hn].
      * assert (Hx : Some (CS (upd (sts s) s0 (WS (waiter w - 1) (notify w - 1) (tokens w) (nxt w))) (nstate s) (wstate s) (total s) (cdead s), CRelock k RNotified, [EEnd t RNotified true]) = Some (s', q, e)) by (destruct ch; try contradiction; exact Hr).
        inversion Hx; subst s' q e. eapply eff_end; eauto; try reflexivity; try discriminate; [unfold avail; cbn; lia|]. split; auto.
      * assert (Hx : Some (CS (upd (sts s) s0 (WS (waiter w - 1) (notify w) (tokens w) (nxt w))) (nstate s) (wstate s) (total s - 1) (cdead s), CRelock k RTimeout, [EEnd t RTimeout false]) = Some (s', q, e)) by (destruct ch; try contradiction; exact Hr).
        inversion Hx; subst s' q e. eapply eff_end; eauto; try reflexivity; try discriminate; [cbn; lia|unfold avail; cbn; lia|]. split; [discriminate|lia].
    + destruct k, r; inversion Hr; subst; apply Hnil; reflexivity.
    + destruct (Z.ltb_spec 0 (total s)) as [Hpos|Hzero]; inversion Hr; subst; [apply Hnil; reflexivity|]. apply Hz; try reflexivity. lia.
    + destruct (Z.eqb_spec (total s) 0) as [Hzero|Hnz].
      * assert (Hx : Some (s, CIdle, [ENotify t all 0; ENotifyRet t]) = Some (s', q, e)) by (destruct ch; try contradiction; exact Hr).
        inversion Hx; subst s' q e. apply Hz; try reflexivity. exact Hzero.
      * destruct (nstate s) as [i|] eqn:Hns.
        -- destruct (wake_step s ths t all i HI Hcap Ht Hnz Hns) as (l & j & Hw & G1 & G2 & G3 & G4). cbv zeta in Hw, G1, G2. rewrite Hw in Hr.
           assert (Hx : Some (CS l (Some j) (wstate s) (total s - (if all then total s else 1)) (cdead s), CIdle, [ENotify t all (if all then total s else 1); ENotifyRet t]) = Some (s', q, e)) by (destruct ch; try contradiction; exact Hr).
           inversion Hx; subst s' q e. right; right; right. exists all, (if all then total s else 1). split; [reflexivity|]. split; [reflexivity|]. split; [exact G3|].
           assert (Hdec : forall a, nt s a <= nt (CS l (Some j) (wstate s) (total s - (if all then total s else 1)) (cdead s)) a /\
             0 <= av (CS l (Some j) (wstate s) (total s - (if all then total s else 1)) (cdead s)) a <= av s a).
           { intros a. unfold nt, av. cbn [sts]. destruct (nth_error (sts s) a) as [w|] eqn:Ha.
             - destruct (H5 _ _ Ha) as (_ & B & _). destruct (G4 a w Ha) as (w' & -> & W & _ & [(E & _)|(E & _)]); unfold avail; lia.
             - apply nth_error_None in Ha. rewrite <- G3 in Ha. apply nth_error_None in Ha. rewrite Ha. lia. }
           split; [exact Hdec|]. split; [|split; [|reflexivity]].
           ++ rewrite sumf_sub. unfold nt. cbn [sts]. rewrite sum_nt, <- G3, sum_nt. lia.
           ++ intros ->. destruct G1 as (_ & _ & _ & _ & _ & _ & G7). cbn [total sts] in G7. replace (total s - total s) with 0 in G7 by lia.
              intros a. specialize (Hdec a). unfold av in *. cbn [sts] in *. destruct (nth_error l a) as [w|] eqn:Ha; [|reflexivity].
              assert (Hnn2 : forall b x, nth_error l b = Some x -> 0 <= avail x).
              { intros b x Hb. destruct (nth_error (sts s) b) as [y|] eqn:Hy; [|apply nth_error_None in Hy; assert (b < length l)%nat by (apply nth_error_Some; congruence); lia].
                destruct (H5 _ _ Hy) as (_ & B & _). destruct (G4 b y Hy) as (y' & Hy' & W & _ & [(E & _)|(E & _)]); rewrite Hb in Hy'; inversion Hy'; subst y'; unfold avail; lia. }
              clear - G7 Ha Hnn2. revert a Ha. induction l as [|y l IH]; intros [|a] Ha; try discriminate; cbn [sumf] in G7;
                pose proof (Hnn2 O y eq_refl) as Hy; (assert (Hl : 0 <= sumf avail l); [clear - Hnn2; assert (Hn : forall b x, nth_error l b = Some x -> 0 <= avail x) by (intros b; apply (Hnn2 (S b))); clear Hnn2;
                  induction l as [|z l IH]; cbn [sumf]; [lia|]; pose proof (Hn O z eq_refl); specialize (IH (fun b => Hn (S b))); lia|]).
              ** inversion Ha; subst. lia.
              ** apply (IH ltac:(lia) (fun b => Hnn2 (S b)) a Ha).
        -- exfalso. unfold ptrs in H4. rewrite Hns in H4. destruct (wstate s); [contradiction|]. rewrite H4 in H7. cbn in H7. lia.
Qed.

(** ** Matching *)
(** A delivery: where the wait began, where it ended, and the notification it is due to (positions in the history). *)
Record deliv := Dv { d_begin : nat; d_end : nat; d_note : nat }.
(** How many waiters the event at position [p] releases. *)
Definition units (tr : list cev) (p : nat) : Z := match nth_error tr p with Some (ENotify _ _ k) => k | _ => 0 end.
Definition uses (M : list deliv) (p : nat) : Z := Z.of_nat (count_occ Nat.eq_dec (map d_note M) p).
Definition deliv_ok (tr : list cev) (d : deliv) : Prop :=
  (d_begin d < d_note d < d_end d)%nat /\
  exists t r, nth_error tr (d_begin d) = Some (EJoin t) /\ nth_error tr (d_end d) = Some (EEnd t r true) /\
    forall q e, (d_begin d < q < d_end d)%nat -> nth_error tr q = Some e -> own t e = false.

Definition pcount (pend : nat -> list nat) (N p : nat) : Z := sumf (fun i => Z.of_nat (count_occ Nat.eq_dec (pend i) p)) (seq 0 N).

Definition MG (c : cv_st) (tr : list cev) (pend : nat -> list nat) (beg : nat -> nat) (M : list deliv) : Prop :=
  (forall i, Z.of_nat (length (pend i)) = nt (fst c) i) /\
  (forall i p, In p (pend i) -> (p < length tr)%nat) /\
  (forall p, pcount pend (length (sts (fst c))) p + uses M p <= units tr p) /\
  (forall d, In d M -> deliv_ok tr d) /\
  NoDup (map d_end M) /\
  (forall e t r, nth_error tr e = Some (EEnd t r true) -> In e (map d_end M)) /\
  (forall t x i, nth_error (snd c) t = Some x -> stof x = Some i ->
     nth_error tr (beg t) = Some (EJoin t) /\ (forall q e, (beg t < q)%nat -> nth_error tr q = Some e -> own t e = false) /\ forall p, In p (pend i) -> (beg t < p)%nat).

Lemma nth_app_l {A} (l l' : list A) q x : nth_error l q = Some x -> nth_error (l ++ l') q = Some x.
Proof. intros H. rewrite nth_error_app1; [exact H|]. apply nth_error_Some. congruence. Qed.
Lemma nth_app_inv {A} (l l' : list A) q x : nth_error (l ++ l') q = Some x -> nth_error l q = Some x \/ ((length l <= q)%nat /\ nth_error l' (q - length l) = Some x).
Proof.
  intros H. destruct (le_lt_dec (length l) q) as [Hge|Hlt]; [rewrite nth_error_app2 in H by exact Hge; auto|rewrite nth_error_app1 in H by exact Hlt; auto].
Qed.
Lemma nth_len {A} (l : list A) q x : nth_error l q = Some x -> (q < length l)%nat.
Proof. intros H. apply nth_error_Some. congruence. Qed.

Lemma deliv_app tr e d : deliv_ok tr d -> deliv_ok (tr ++ e) d.
Proof.
  intros (H1 & t & r & H2 & H3 & H4). split; [exact H1|]. exists t, r. split; [apply nth_app_l; exact H2|]. split; [apply nth_app_l; exact H3|].
  intros q x Hq Hx. pose proof (nth_len _ _ _ H3). rewrite nth_error_app1 in Hx by lia. eauto.
Qed.
Lemma units_app tr e p : (forall t al k, ~ In (ENotify t al k) e) -> units (tr ++ e) p = units tr p.
Proof.
  intros H. unfold units. destruct (le_lt_dec (length tr) p) as [Hge|Hlt].
  - rewrite nth_error_app2 by exact Hge. replace (nth_error tr p) with (@None cev) by (symmetry; apply nth_error_None; exact Hge).
    destruct (nth_error e (p - length tr)) as [[]|] eqn:E; try reflexivity. apply nth_error_In in E. exfalso. eapply H; eauto.
  - rewrite nth_error_app1 by exact Hlt. reflexivity.
Qed.
Lemma sumf_ext_in {A} (f g : A -> Z) l : (forall a, In a l -> f a = g a) -> sumf f l = sumf g l.
Proof. induction l as [|a l IH]; cbn [sumf]; intros H; [reflexivity|]. rewrite H by (left; reflexivity). rewrite IH by (intros b Hb; apply H; right; exact Hb). reflexivity. Qed.

Lemma MG_step c tr a c' e pend beg M : CI c -> ccap c -> no_mutex_failure a -> cv_step c a = Some (c', e) ->
  MG c tr pend beg M -> exists pend' beg' M', MG c' (tr ++ e) pend' beg' M'.
Proof.
  intros HI Hcap Hmf Hs (G1 & G2 & G3 & G4 & G5 & G6 & G7). destruct c as [s ths].
  destruct (cv_eff _ _ _ _ _ HI Hcap Hmf Hs) as (t & p & q & Ht & Hths & He). destruct c' as [s' ths']. cbn [fst snd] in *. subst ths'.
  destruct He as [(E1 & E2 & E3 & E4)|[(i & E1 & E2 & E3 & E3' & E4 & E5 & ->)|[(i & r & c & E1 & E2 & E3 & E3' & (E4 & _) & E5 & -> & E6 & E7 & _)|(al & k & E1 & E2 & E3 & E4 & E5 & _ & ->)]]].
  - (* nothing happens *)
    assert (Hown : forall u x n, nth_error e n = Some x -> own u x = false /\ (forall v al k, x <> ENotify v al k) /\ (forall v r, x <> EEnd v r true)).
    { intros u x n Hx. apply nth_error_In in Hx. rewrite forallb_forall in E4. specialize (E4 x Hx). destruct x; try discriminate; repeat split; discriminate. }
    exists pend, beg, M. split; [|split; [|split; [|split; [|split; [|split]]]]]; cbn [fst snd].
    + intros i. rewrite G1. symmetry. apply (E3 i).
    + intros i x Hx. rewrite app_length. specialize (G2 i x Hx). lia.
    + intros x. rewrite E2, units_app; [apply G3|]. intros v al k Hin. apply In_nth_error in Hin. destruct Hin as (n & Hn). destruct (Hown O _ _ Hn) as (_ & Hx & _). eapply Hx; reflexivity.
    + intros d Hd. apply deliv_app. auto.
    + exact G5.
    + intros x v r Hx. apply nth_app_inv in Hx. destruct Hx as [Hx|(_ & Hx)]; [eauto|]. destruct (Hown O _ _ Hx) as (_ & _ & Hy). exfalso. eapply Hy; reflexivity.
    + intros u x i Hu Hx. assert (Hold : exists y, nth_error ths u = Some y /\ stof y = Some i).
      { apply nth_upd_inv in Hu. destruct Hu as [(<- & -> & _)|(_ & Hu)]; [exists p; rewrite <- E1; auto|eauto]. }
      destruct Hold as (y & Hy & Hyi). destruct (G7 u y i Hy Hyi) as (K1 & K2 & K3). split; [apply nth_app_l; exact K1|]. split; [|exact K3].
      intros n z Hn Hz. apply nth_app_inv in Hz. destruct Hz as [Hz|(_ & Hz)]; [eauto|]. apply (Hown u _ _ Hz).
  - (* a thread joins: no notification is pending on its state *)
    exists (fun j => if Nat.eqb j i then [] else pend j), (fun u => if Nat.eqb u t then length tr else beg u), M.
    assert (Hpi : pend i = []) by (specialize (G1 i); rewrite E3' in G1; destruct (pend i); [reflexivity|cbn in G1; lia]).
    assert (Hp : forall j, (if Nat.eqb j i then [] else pend j) = pend j) by (intros j; destruct (Nat.eqb_spec j i) as [->|]; congruence).
    split; [|split; [|split; [|split; [|split; [|split]]]]]; cbn [fst snd].
    + intros j. rewrite Hp, G1. destruct (Nat.eq_dec j i) as [->|Hn]; [lia|symmetry; apply (E5 j); exact Hn].
    + intros j x Hx. rewrite Hp in Hx. rewrite app_length. specialize (G2 j x Hx). lia.
    + intros x. rewrite units_app by (intros v al k [Hv|[]]; discriminate).
      replace (pcount (fun j => if Nat.eqb j i then [] else pend j) (length (sts s')) x) with (pcount pend (length (sts s)) x); [apply G3|].
      unfold pcount. replace (length (sts s')) with (length (sts s) + (length (sts s') - length (sts s)))%nat by lia. rewrite seq_app, sumf_app.
      rewrite (sumf_ext_in (fun i0 => Z.of_nat (count_occ Nat.eq_dec (if Nat.eqb i0 i then [] else pend i0) x)) (fun i0 => Z.of_nat (count_occ Nat.eq_dec (pend i0) x)) (seq 0 (length (sts s)))) by (intros j _; rewrite Hp; reflexivity).
      assert (Hzero : sumf (fun i0 => Z.of_nat (count_occ Nat.eq_dec (if Nat.eqb i0 i then [] else pend i0) x)) (seq (0 + length (sts s)) (length (sts s') - length (sts s))) = 0).
      { rewrite (sumf_ext_in _ (fun _ => 0)); [induction (seq (0 + length (sts s)) (length (sts s') - length (sts s))) as [|y l IH]; cbn [sumf]; lia|].
        intros j Hj. rewrite Hp. apply in_seq in Hj. specialize (G1 j). unfold nt in G1. replace (nth_error (sts s) j) with (@None wst) in G1 by (symmetry; apply nth_error_None; lia).
        destruct (pend j); [reflexivity|cbn in G1; lia]. }
      lia.
    + intros d Hd. apply deliv_app. auto.
    + exact G5.
    + intros x v r Hx. apply nth_app_inv in Hx. destruct Hx as [Hx|(_ & Hx)]; [eauto|]. apply nth_error_In in Hx. destruct Hx as [Hx|[]]. discriminate.
    + intros u x j Hu Hx. rewrite Hp. apply nth_upd_inv in Hu. destruct Hu as [(<- & -> & _)|(Hne & Hu)].
      * rewrite Nat.eqb_refl. assert (j = i) as -> by congruence. split; [rewrite nth_error_app2, Nat.sub_diag by lia; reflexivity|].
        split; [|rewrite Hpi; intros y []]. intros n z Hn Hz. apply nth_len in Hz. rewrite app_length in Hz. cbn in Hz. lia.
      * rewrite (proj2 (Nat.eqb_neq u t)) by congruence. destruct (G7 u x j Hu Hx) as (K1 & K2 & K3). split; [apply nth_app_l; exact K1|]. split; [|exact K3].
        intros n z Hn Hz. apply nth_app_inv in Hz. destruct Hz as [Hz|(_ & Hz)]; [eauto|]. apply nth_error_In in Hz. destruct Hz as [<-|[]]. cbn. apply Nat.eqb_neq. congruence.
  - (* a wait ends *)
    destruct (G7 t p i Ht E1) as (K1 & K2 & K3).
    assert (HL : length (tr ++ [EEnd t r c]) = S (length tr)) by (rewrite app_length; cbn; lia).
    assert (Hlast : nth_error (tr ++ [EEnd t r c]) (length tr) = Some (EEnd t r c)) by (rewrite nth_error_app2, Nat.sub_diag by lia; reflexivity).
    assert (Hthr : forall u x j (P : nat -> list nat), (forall m y, In y (P m) -> In y (pend m)) -> nth_error (upd ths t q) u = Some x -> stof x = Some j ->
      nth_error (tr ++ [EEnd t r c]) (beg u) = Some (EJoin u) /\ (forall n e, (beg u < n)%nat -> nth_error (tr ++ [EEnd t r c]) n = Some e -> own u e = false) /\ forall y, In y (P j) -> (beg u < y)%nat).
    { intros u x j P HP Hu Hx. apply nth_upd_inv in Hu. destruct Hu as [(<- & -> & _)|(Hne & Hu)]; [congruence|].
      destruct (G7 u x j Hu Hx) as (L1 & L2 & L3). split; [apply nth_app_l; exact L1|]. split; [|intros y Hy; apply L3; auto].
      intros n z Hn Hz. apply nth_app_inv in Hz. destruct Hz as [Hz|(_ & Hz)]; [eauto|]. apply nth_error_In in Hz. destruct Hz as [<-|[]]. cbn. apply Nat.eqb_neq. congruence. }
    destruct c.
    + (* it consumes a notification *)
      pose proof (proj1 E6 eq_refl) as E6'. destruct (pend i) as [|note rest] eqn:Hpi; [specialize (G1 i); rewrite Hpi in G1; cbn in G1; lia|].
      assert (Hnote : (beg t < note)%nat) by (apply K3; left; reflexivity).
      assert (Hlt : (note < length tr)%nat) by (apply (G2 i); rewrite Hpi; left; reflexivity).
      exists (fun j => if Nat.eqb j i then rest else pend j), beg, (Dv (beg t) (length tr) note :: M).
      split; [|split; [|split; [|split; [|split; [|split]]]]]; cbn [fst snd].
      * intros j. destruct (Nat.eqb_spec j i) as [->|Hn]; [specialize (G1 i); rewrite Hpi in G1; cbn [length] in G1; cbn [Z.b2z] in E4; lia|rewrite G1; symmetry; apply (E5 j); exact Hn].
      * intros j x Hx. rewrite HL. destruct (Nat.eqb_spec j i) as [->|Hn]; [assert (x < length tr)%nat by (apply (G2 i); rewrite Hpi; right; exact Hx); lia|specialize (G2 j x Hx); lia].
      * intros x. rewrite units_app by (intros v al k [Hv|[]]; discriminate). specialize (G3 x). rewrite E3.
        assert (Hcnt : pcount (fun j => if Nat.eqb j i then rest else pend j) (length (sts s)) x = pcount pend (length (sts s)) x - (if Nat.eq_dec note x then 1 else 0)).
        { unfold pcount. clear - Hpi E3'. assert (Hin : In i (seq 0 (length (sts s)))) by (apply in_seq; lia). pose proof (seq_NoDup (length (sts s)) 0) as Hnd.
          apply in_split in Hin. destruct Hin as (l1 & l2 & Hl). rewrite Hl in *. apply NoDup_remove_2 in Hnd. rewrite !sumf_app. cbn [sumf]. rewrite Nat.eqb_refl, Hpi. cbn [count_occ].
          rewrite (sumf_ext_in _ (fun i0 => Z.of_nat (count_occ Nat.eq_dec (pend i0) x)) l1), (sumf_ext_in _ (fun i0 => Z.of_nat (count_occ Nat.eq_dec (pend i0) x)) l2).
          - destruct (Nat.eq_dec note x); lia.
          - intros j Hj. destruct (Nat.eqb_spec j i) as [->|]; [exfalso; apply Hnd; apply in_or_app; auto|reflexivity].
          - intros j Hj. destruct (Nat.eqb_spec j i) as [->|]; [exfalso; apply Hnd; apply in_or_app; auto|reflexivity]. }
        rewrite Hcnt. unfold uses in *. cbn [map count_occ d_note]. destruct (Nat.eq_dec note x); lia.
      * intros d [<-|Hd]; [|apply deliv_app; auto]. split; cbn [d_begin d_end d_note]; [lia|]. exists t, r. split; [apply nth_app_l; exact K1|]. split; [exact Hlast|].
        intros n z Hn Hz. rewrite nth_error_app1 in Hz by lia. eapply K2; [|exact Hz]. lia.
      * cbn [map d_end]. constructor; [|exact G5]. intros Hin. apply in_map_iff in Hin. destruct Hin as (d & Hd & Hin). destruct (G4 d Hin) as (_ & v & w & _ & Hx & _). apply nth_len in Hx. lia.
      * intros x v w Hx. apply nth_app_inv in Hx. cbn [map d_end]. destruct Hx as [Hx|(Hge & Hx)]; [right; eauto|left]. apply nth_len in Hx. cbn in Hx. lia.
      * intros u x j Hu Hx. apply (Hthr u x j (fun m => if Nat.eqb m i then rest else pend m)); auto.
        intros m y. destruct (Nat.eqb_spec m i) as [->|]; [rewrite Hpi; right; assumption|auto].
    + exists pend, beg, M. split; [|split; [|split; [|split; [|split; [|split]]]]]; cbn [fst snd].
      * intros j. rewrite G1. destruct (Nat.eq_dec j i) as [->|Hn]; [cbn [Z.b2z] in E4; lia|symmetry; apply (E5 j); exact Hn].
      * intros j x Hx. rewrite HL. specialize (G2 j x Hx). lia.
      * intros x. rewrite E3, units_app by (intros v al k [Hv|[]]; discriminate). apply G3.
      * intros d Hd. apply deliv_app. auto.
      * exact G5.
      * intros x v w Hx. apply nth_app_inv in Hx. destruct Hx as [Hx|(Hge & Hx)]; [eauto|]. apply nth_error_In in Hx. destruct Hx as [Hx|[]]. discriminate.
      * intros u x j Hu Hx. apply (Hthr u x j pend); auto.
  - (* a notification *)
    set (P := length tr). set (d := fun j => Z.to_nat (nt s' j - nt s j)).
    assert (Hfresh : forall j, ~ In P (pend j)) by (intros j Hj; specialize (G2 j P Hj); unfold P in G2; lia).
    assert (HMf : uses M P = 0).
    { unfold uses. replace (count_occ Nat.eq_dec (map d_note M) P) with O; [reflexivity|]. symmetry. apply count_occ_not_In. intros Hin. apply in_map_iff in Hin.
      destruct Hin as (x & Hx & Hin). destruct (G4 x Hin) as (Hlt & v & w & _ & Hy & _). apply nth_len in Hy. unfold P in Hx. lia. }
    assert (Hrep : forall n x, count_occ Nat.eq_dec (repeat P n) x = if Nat.eq_dec P x then n else O).
    { intros n x. induction n as [|n IH]; cbn [repeat count_occ]; [destruct (Nat.eq_dec P x); reflexivity|]. rewrite IH. destruct (Nat.eq_dec P x); reflexivity. }
    assert (Hnew : forall n z u, nth_error [ENotify t al k; ENotifyRet t] n = Some z -> own u z = false).
    { intros n z u Hz. apply nth_error_In in Hz. destruct Hz as [<-|[<-|[]]]; reflexivity. }
    exists (fun j => pend j ++ repeat P (d j)), beg, M. split; [|split; [|split; [|split; [|split; [|split]]]]]; cbn [fst snd].
    + intros j. rewrite app_length, repeat_length. specialize (G1 j). specialize (E4 j). unfold d. lia.
    + intros j x Hx. rewrite app_length. cbn [length]. apply in_app_or in Hx. destruct Hx as [Hx|Hx]; [specialize (G2 j x Hx); lia|]. apply repeat_spec in Hx. subst x. unfold P. lia.
    + intros x. rewrite E3. specialize (G3 x).
      assert (Hc : pcount (fun j => pend j ++ repeat P (d j)) (length (sts s)) x = pcount pend (length (sts s)) x + (if Nat.eq_dec P x then k else 0)).
      { unfold pcount. rewrite <- E5.
        rewrite (sumf_ext_in _ (fun j => Z.of_nat (count_occ Nat.eq_dec (pend j) x) + (if Nat.eq_dec P x then nt s' j - nt s j else 0))).
        - rewrite sumf_add. f_equal. destruct (Nat.eq_dec P x); [reflexivity|]. clear. induction (seq 0 (length (sts s))) as [|y l IH]; cbn [sumf]; lia.
        - intros j _. rewrite count_occ_app, Hrep. specialize (E4 j). unfold d. destruct (Nat.eq_dec P x); lia. }
      rewrite Hc. destruct (Nat.eq_dec P x) as [<-|Hn].
      * unfold units at 1. rewrite nth_error_app2, Nat.sub_diag by (unfold P; lia). cbn [nth_error]. unfold units in G3. unfold P in G3 at 3. rewrite (proj2 (nth_error_None tr (length tr))) in G3 by lia. lia.
      * assert (Hu : units (tr ++ [ENotify t al k; ENotifyRet t]) x = units tr x).
        { unfold units. destruct (le_lt_dec (length tr) x) as [Hge|Hlt].
          - rewrite nth_error_app2 by exact Hge. replace (nth_error tr x) with (@None cev) by (symmetry; apply nth_error_None; exact Hge).
            destruct (x - length tr)%nat as [|[|m]] eqn:Ex; [unfold P in Hn; lia|reflexivity|]. cbn. destruct m; reflexivity.
          - rewrite nth_error_app1 by exact Hlt. reflexivity. }
        rewrite Hu. lia.
    + intros x Hx. apply deliv_app. auto.
    + exact G5.
    + intros x v w Hx. apply nth_app_inv in Hx. destruct Hx as [Hx|(Hge & Hx)]; [eauto|]. apply nth_error_In in Hx. destruct Hx as [Hx|[Hx|[]]]; discriminate.
    + intros u x j Hu Hx. apply nth_upd_inv in Hu. destruct Hu as [(<- & -> & _)|(Hne & Hu)]; [congruence|]. destruct (G7 u x j Hu Hx) as (K1 & K2 & K3).
      split; [apply nth_app_l; exact K1|]. split.
      * intros n z Hn Hz. apply nth_app_inv in Hz. destruct Hz as [Hz|(_ & Hz)]; [eauto|]. eapply Hnew; eauto.
      * intros y Hy. apply in_app_or in Hy. destruct Hy as [Hy|Hy]; [auto|]. apply repeat_spec in Hy. subst y. apply nth_len in K1. unfold P. lia.
Qed.

Theorem cv_match n sched c tr : Z.of_nat n <= 2 ^ 30 -> Forall no_mutex_failure sched -> exec cv_step (cv_init n) sched = Some (c, tr) ->
  exists pend beg M, MG c tr pend beg M.
Proof.
  intros Hn Hf H.
  assert (HH : CI c /\ ccap c /\ exists pend beg M, MG c tr pend beg M).
  { revert Hf H. apply (exec_inv_acts cv_step no_mutex_failure (fun c tr => CI c /\ ccap c /\ exists pend beg M, MG c tr pend beg M)).
    - split; [apply CI_init|]. split; [unfold ccap; cbn; rewrite repeat_length; exact Hn|]. exists (fun _ => []), (fun _ => O), [].
      split; [|split; [|split; [|split; [|split; [|split]]]]]; cbn [fst snd cv_init sts].
      + intros i. unfold nt. cbn. destruct i; reflexivity.
      + intros i p [].
      + intros p. unfold units. destruct p; cbn; lia.
      + intros d [].
      + constructor.
      + intros e t r He. destruct e; discriminate.
      + intros t x i Hx Hi. apply nth_repeat in Hx. subst. discriminate.
    - intros c1 t1 a c2 e (K1 & K2 & pend & beg & M & K3) Hm Hs. destruct (CI_step _ _ _ _ K1 K2 Hm Hs) as (L1 & _).
      split; [exact L1|]. split; [unfold ccap in *; rewrite (cv_step_length _ _ _ _ Hs); exact K2|]. exact (MG_step _ _ _ _ _ _ _ _ K1 K2 Hm Hs K3). }
  apply HH.
Qed.
