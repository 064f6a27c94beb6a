(** Invariants of the Windows condition variable. *)
From Coq Require Import List Bool Arith ZArith Lia Permutation.
From Verif Require Import ListSum Exec WinCvModel WinCvRing.
Import ListNotations.
Local Open Scope Z_scope.

Definition stof (p : cpc) : option nat :=
  match p with CUnlockU _ i | CBlk _ i | CTok _ i | CErr _ i | CTmo _ i => Some i | _ => None end.
Definition oeq (o : option nat) (i : nat) : Z := match o with Some j => if Nat.eqb j i then 1 else 0 | None => 0 end.
Definition inst (i : nat) (p : cpc) : Z := oeq (stof p) i.
Definition tokof (p : cpc) : option nat := match p with CTok _ i => Some i | _ => None end.
Definition intok (i : nat) (p : cpc) : Z := oeq (tokof p) i.

Lemma oeq_nn o i : 0 <= oeq o i <= 1. Proof. destruct o as [j|]; cbn; [destruct (Nat.eqb j i)|]; lia. Qed.
Lemma oeq_same i : oeq (Some i) i = 1. Proof. cbn. rewrite Nat.eqb_refl. reflexivity. Qed.
Lemma oeq_other i j : j <> i -> oeq (Some j) i = 0. Proof. intros H. cbn. rewrite (proj2 (Nat.eqb_neq j i) H). reflexivity. Qed.
Lemma inst_nn i p : 0 <= inst i p. Proof. apply oeq_nn. Qed.
Lemma intok_nn i p : 0 <= intok i p. Proof. apply oeq_nn. Qed.
Lemma intok_inst i p : intok i p <= inst i p.
Proof. unfold intok, inst. destruct p; cbn [tokof stof]; try apply oeq_nn; lia. Qed.

Definition wok (ths : list cpc) (i : nat) (w : wst) : Prop :=
  waiter w = sumf (inst i) ths /\ 0 <= notify w <= waiter w /\ notify w <= tokens w + sumf (intok i) ths /\ 0 <= tokens w <= long_max.

Definition ptrs (s : csh) : Prop :=
  match nstate s, wstate s with
  | None, None => sts s = []
  | Some i, Some j => (i < length (sts s))%nat /\ (j < length (sts s))%nat
  | _, _ => False
  end.

Definition CI (c : cv_st) : Prop :=
  let (s, ths) := c in
  cdead s = false /\ (forall t, nth_error ths t <> Some CHung) /\ (exists r, ring (sts s) r) /\ ptrs s /\
  (forall i w, nth_error (sts s) i = Some w -> wok ths i w) /\
  (forall t p i, nth_error ths t = Some p -> stof p = Some i -> (i < length (sts s))%nat) /\
  total s = sumf avail (sts s).

Definition ccap (c : cv_st) : Prop := Z.of_nat (length (snd c)) <= 2 ^ 30.

Lemma nothung_upd ths t q : (forall u, nth_error ths u <> Some CHung) -> q <> CHung -> forall u, nth_error (upd ths t q) u <> Some CHung.
Proof. intros H Hq u Hu. apply nth_upd_inv in Hu. destruct Hu as [(_ & <- & _)|(_ & Hu)]; [congruence|]. exact (H u Hu). Qed.

Lemma CI_quiet s ths t p q : CI (s, ths) -> nth_error ths t = Some p -> q <> CHung -> stof q = stof p -> tokof q = tokof p -> CI (s, upd ths t q).
Proof.
  intros (H1 & H2 & H3 & H4 & H5 & H6 & H7) Ht Hq Hs Hk. split; [exact H1|]. split; [apply nothung_upd; assumption|]. split; [exact H3|]. split; [exact H4|].
  split; [|split; [|exact H7]].
  - intros i w Hi. specialize (H5 i w Hi). unfold wok in *. rewrite !(sumf_upd _ _ _ _ _ Ht).
    unfold inst at 2 3, intok at 2 3. rewrite Hs, Hk. destruct H5 as (A & B & C & D). repeat split; lia.
  - intros u x i Hu Hx. apply nth_upd_inv in Hu. destruct Hu as [(_ & -> & _)|(_ & Hu)]; [rewrite Hs in Hx|]; eauto.
Qed.

Lemma CI_one s ths t p q i w w' tot ws' : CI (s, ths) -> nth_error ths t = Some p -> nth_error (sts s) i = Some w ->
  nxt w' = nxt w -> q <> CHung -> (stof q = None \/ stof q = Some i) -> (stof p = None \/ stof p = Some i) ->
  waiter w' = waiter w - inst i p + inst i q -> 0 <= notify w' <= waiter w' ->
  notify w' <= tokens w' + (sumf (intok i) ths - intok i p + intok i q) -> 0 <= tokens w' <= long_max ->
  tot = total s + avail w' - avail w -> (ws' = wstate s \/ ws' = Some i) ->
  CI (CS (upd (sts s) i w') (nstate s) ws' tot (cdead s), upd ths t q).
Proof.
  intros (H1 & H2 & (r & H3) & H4 & H5 & H6 & H7) Ht Hi Hx Hq Hsq Hsp Hw Hn Hk Htk Htot Hws.
  assert (Hlt : (i < length (sts s))%nat) by (apply nth_error_Some; congruence).
  split; [exact H1|]. split; [apply nothung_upd; assumption|]. cbn [sts nstate wstate total].
  split; [exists r|split; [|split; [|split]]].
  - eapply ring_same; [apply upd_length| |exact H3]. intros a x Ha. destruct (Nat.eq_dec i a) as [<-|Hne].
    + exists w'. rewrite Hi in Ha. inversion Ha; subst x. split; [eapply nth_upd_eq; eauto|exact Hx].
    + exists x. rewrite nth_upd_neq by exact Hne. auto.
  - unfold ptrs in *. cbn [nstate wstate sts]. rewrite upd_length. destruct (nstate s) as [a|], (wstate s) as [b|]; try contradiction; [destruct Hws; subst ws'; tauto|].
    rewrite H4 in Hi. destruct i; discriminate.
  - intros a x Ha. apply nth_upd_inv in Ha. unfold wok. rewrite !(sumf_upd _ _ _ _ _ Ht). destruct Ha as [(<- & -> & _)|(Hne & Ha)].
    + destruct (H5 _ _ Hi) as (A & B & C & D). repeat split; lia.
    + destruct (H5 _ _ Ha) as (A & B & C & D).
      assert (Hz : forall x, stof x = None \/ stof x = Some i -> inst a x = 0).
      { intros y [E|E]; unfold inst; rewrite E; [reflexivity|apply oeq_other; exact Hne]. }
      rewrite (Hz p Hsp), (Hz q Hsq). pose proof (intok_nn a p). pose proof (intok_inst a p). pose proof (intok_nn a q). pose proof (intok_inst a q).
      rewrite (Hz p Hsp) in *. rewrite (Hz q Hsq) in *. repeat split; lia.
  - intros u x j Hu Hj. rewrite upd_length. apply nth_upd_inv in Hu. destruct Hu as [(_ & -> & _)|(_ & Hu)]; [|eauto].
    destruct Hsq as [E|E]; rewrite E in Hj; inversion Hj; subst; exact Hlt.
  - rewrite (sumf_upd _ _ _ _ _ Hi). lia.
Qed.

(** ** History *)
(** Un-notified waiters, and undelivered notifications, according to the history. *)
Definition un (e : cev) : Z := match e with EJoin _ => 1 | EEnd _ _ false => -1 | ENotify _ _ k => - k | _ => 0 end.
Definition dn (e : cev) : Z := match e with EEnd _ _ true => -1 | ENotify _ _ k => k | _ => 0 end.
Definition nok (tot : Z) (e : list cev) : Prop :=
  forall e1 t al k e2, e = e1 ++ ENotify t al k :: e2 -> e1 = [] /\ 0 <= tot /\ k = if al then tot else Z.min 1 tot.

Lemma nok_none tot e : (forall t al k, ~ In (ENotify t al k) e) -> nok tot e.
Proof. intros H e1 t al k e2 ->. exfalso. apply (H t al k). apply in_or_app. right; left; reflexivity. Qed.
Lemma nok_one tot t (al : bool) k u : 0 <= tot -> k = (if al then tot else Z.min 1 tot) -> nok tot [ENotify t al k; ENotifyRet u].
Proof.
  intros H0 Hk e1 t' al' k' e2 E. destruct e1 as [|x e1]; [inversion E; subst; auto|]. destruct e1 as [|y e1]; [discriminate|]. destruct e1; discriminate.
Qed.

Definition no_mutex_failure (a : cact) : Prop := match a with ARun _ CMutex => False | _ => True end.

Lemma sum_notify_upd l i w w' : nth_error l i = Some w -> sumf notify (upd l i w') = sumf notify l - notify w + notify w'.
Proof. apply sumf_upd. Qed.

Lemma inst_cap ths i : Z.of_nat (length ths) <= 2 ^ 30 -> sumf (inst i) ths <= 2 ^ 30.
Proof. intros H. assert (E : forall a, inst i a <= 1) by (intros a; apply oeq_nn). pose proof (sumf_bound (inst i) ths 1 E). lia. Qed.

Lemma avail_nn c : CI c -> 0 <= total (fst c).
Proof.
  destruct c as [s ths]. intros (H1 & H2 & H3 & H4 & H5 & H6 & H7). cbn [fst]. rewrite H7. clear - H5.
  assert (H : forall l k, (forall i w, nth_error l i = Some w -> wok ths (k + i) w) -> 0 <= sumf avail l).
  { induction l as [|w l IH]; intros k Hk; cbn [sumf]; [lia|]. pose proof (Hk O w eq_refl) as (A & B & _).
    specialize (IH (S k)). assert (0 <= sumf avail l) by (apply IH; intros i x Hi; replace (S k + i)%nat with (k + S i)%nat by lia; apply Hk; exact Hi).
    unfold avail at 1. lia. }
  apply (H _ O). exact H5.
Qed.

(** The state after a successful initiate_wait. *)
Lemma init_ok s ths t k : CI (s, ths) -> ccap (s, ths) -> nth_error ths t = Some (CInit k) ->
  exists s' i, initiate s = Some (s', i) /\ CI (s', upd ths t (CUnlockU k i)) /\ total s' = total s + 1 /\ sumf notify (sts s') = sumf notify (sts s) /\
    (exists w, nth_error (sts s') i = Some w /\ notify w = 0) /\
    (forall j w, j <> i -> nth_error (sts s') j = Some w -> exists w0, nth_error (sts s) j = Some w0 /\ notify w0 = notify w) /\
    (forall j w, nth_error (sts s) j = Some w -> exists w0, nth_error (sts s') j = Some w0 /\ notify w0 = notify w).
Proof.
  intros HI Hcap Ht. pose proof HI as (H1 & H2 & (r & H3) & H4 & H5 & H6 & H7). unfold ccap in Hcap. cbn [snd] in Hcap.
  assert (Hfresh : sumf (inst (length (sts s))) ths = 0 /\ sumf (intok (length (sts s))) ths = 0).
  { clear - H6. set (N := length (sts s)) in *. clearbody N. clear - H6. induction ths as [|p l IH]; [split; reflexivity|].
    destruct IH as (IH1 & IH2); [intros u x j Hu; apply (H6 (S u) x j Hu)|]. cbn [sumf]. rewrite IH1, IH2.
    assert (Hp : inst N p = 0).
    { unfold inst, oeq. destruct (stof p) as [j|] eqn:E; [|reflexivity]. specialize (H6 O p j eq_refl E). destruct (Nat.eqb_spec j N); [lia|reflexivity]. }
    pose proof (intok_nn N p). pose proof (intok_inst N p). lia. }
  destruct Hfresh as (Hf1 & Hf2).
  assert (Hinst : forall j, inst j (CUnlockU k j) = 1) by (intros j; apply oeq_same).
  unfold initiate. destruct (wstate s) as [e|] eqn:Hws.
  - destruct (nstate s) as [ns|] eqn:Hns; unfold ptrs in H4; rewrite Hws, Hns in H4; [|contradiction]. destruct H4 as (Hlt1 & Hlt2).
    destruct (ring_at _ _ _ H3 Hlt2) as (r' & HR).
    assert (Hlen : length (sts s) = S (length r')) by (rewrite <- (ring_length _ _ HR); reflexivity).
    pose proof (ring_NoDup _ _ HR) as Hnd. apply NoDup_cons_iff in Hnd. destruct Hnd as (Hne & Hnd).
    assert (Hlk : linked (nx (sts s)) (e :: r') e) by (exact (proj1 HR)).
    assert (HIn : forall a, In a (e :: r') -> (a < length (sts s))%nat) by (intros a Ha; apply (ring_In _ _ _ HR); exact Ha).
    pose proof (find_ok r' (sts s) e e Hlk Hne HIn) as Hfind. rewrite <- Hlen in Hfind.
    destruct (find (length (sts s)) (sts s) e e) as [i| |]; [| |contradiction].
    + destruct Hfind as (_ & w & Hi & Hw1 & Hw2). rewrite Hi. eexists _, i. split; [reflexivity|]. destruct (H5 _ _ Hi) as (A & B & C & D). split; [|split; [|split; [|split; [|split]]]].
      * rewrite <- Hns. eapply (CI_one s ths t (CInit k) (CUnlockU k i) i w (WS (waiter w + 1) (notify w) (tokens w) (nxt w))); eauto; cbn [waiter notify tokens nxt stof]; try lia; try discriminate; auto.
        -- rewrite Hinst. change (inst i (CInit k)) with 0. lia.
        -- change (intok i (CInit k)) with 0. change (intok i (CUnlockU k i)) with 0. lia.
        -- unfold avail. cbn [waiter notify]. lia.
      * reflexivity.
      * cbn [sts]. rewrite (sum_notify_upd _ _ _ _ Hi). cbn [notify]. lia.
      * eexists. split; [eapply nth_upd_eq; eauto|exact Hw1].
      * intros j x Hj Hx. cbn [sts] in Hx. rewrite nth_upd_neq in Hx by congruence. eauto.
      * intros j x Hx. cbn [sts]. destruct (Nat.eq_dec i j) as [<-|Hn]; [rewrite Hi in Hx; inversion Hx; subst x; eexists; split; [eapply nth_upd_eq; eauto|reflexivity]|].
        exists x. rewrite nth_upd_neq by exact Hn. auto.
    + destruct (nth_error (sts s) e) as [w|] eqn:He; [|apply nth_error_None in He; lia]. cbv zeta. eexists _, _. split; [reflexivity|].
      destruct (ring_end _ _ _ H3 Hlt2) as (r2 & HR2). pose proof (ring_insert _ _ _ w (WS 1 0 0 0) HR2 He) as HR3. cbn [waiter notify tokens] in HR3.
      set (l' := upd (sts s) e (WS (waiter w) (notify w) (tokens w) (length (sts s))) ++ [WS 1 0 0 (nxt w)]) in *.
      assert (Hl' : length l' = S (length (sts s))) by (unfold l'; rewrite app_length, upd_length; cbn [length]; lia).
      assert (Hnew : nth_error l' (length (sts s)) = Some (WS 1 0 0 (nxt w))).
      { unfold l'. rewrite nth_error_app2 by (rewrite upd_length; lia). rewrite upd_length, Nat.sub_diag. reflexivity. }
      assert (Hold : forall a x, nth_error l' a = Some x -> a <> length (sts s) -> exists x0, nth_error (sts s) a = Some x0 /\ waiter x = waiter x0 /\ notify x = notify x0 /\ tokens x = tokens x0).
      { intros a x Ha Hn. assert (a < S (length (sts s)))%nat by (rewrite <- Hl'; apply nth_error_Some; congruence). unfold l' in Ha.
        rewrite nth_error_app1 in Ha by (rewrite upd_length; lia). apply nth_upd_inv in Ha. destruct Ha as [(<- & -> & _)|(_ & Ha)]; [exists w|exists x]; auto. }
      split; [|split; [|split; [|split; [|split]]]].
      * split; [exact H1|]. split; [apply nothung_upd; [exact H2|discriminate]|]. cbn [sts nstate wstate total].
        split; [eexists; exact HR3|]. split; [unfold ptrs; cbn [nstate wstate sts]; lia|]. split; [|split].
        -- intros a x Ha. unfold wok. rewrite !(sumf_upd _ _ _ _ _ Ht). change (inst a (CInit k)) with 0. change (intok a (CInit k)) with 0.
           change (intok a (CUnlockU k (length (sts s)))) with 0.
           destruct (Nat.eq_dec a (length (sts s))) as [->|Hn].
           ++ rewrite Hnew in Ha. inversion Ha; subst x. rewrite Hinst, Hf1, Hf2. cbn [waiter notify tokens]. unfold long_max. lia.
           ++ destruct (Hold a x Ha Hn) as (x0 & Hx0 & E1 & E2 & E3). destruct (H5 _ _ Hx0) as (A & B & C & D).
              assert (inst a (CUnlockU k (length (sts s))) = 0) as -> by (apply oeq_other; congruence). repeat split; lia.
        -- intros u x j Hu Hj. rewrite Hl'. apply nth_upd_inv in Hu. destruct Hu as [(_ & -> & _)|(_ & Hu)]; [inversion Hj; subst; lia|]. specialize (H6 _ _ _ Hu Hj). lia.
        -- unfold l'. rewrite sumf_app, (sumf_upd _ _ _ _ _ He). cbn [sumf]. unfold avail at 2 3 4. cbn [waiter notify]. lia.
      * reflexivity.
      * cbn [sts]. unfold l'. rewrite sumf_app, (sum_notify_upd _ _ _ _ He). cbn [sumf notify]. lia.
      * eexists. split; [exact Hnew|reflexivity].
      * intros j x Hj Hx. destruct (Hold j x Hx Hj) as (x0 & Hx0 & _ & E & _). exists x0. auto.
      * intros j x Hx. cbn [sts]. assert (Hj : (j < length (sts s))%nat) by (apply nth_error_Some; congruence). unfold l'. rewrite nth_error_app1 by (rewrite upd_length; lia).
        destruct (Nat.eq_dec e j) as [<-|Hn]; [rewrite He in Hx; inversion Hx; subst x; eexists; split; [eapply nth_upd_eq; eauto|reflexivity]|].
        exists x. rewrite nth_upd_neq by exact Hn. auto.
  - destruct (nstate s) as [ns|] eqn:Hns; unfold ptrs in H4; rewrite Hws, Hns in H4; [contradiction|]. rewrite H4 in *. cbn [length app].
    eexists _, _. split; [reflexivity|]. split; [|split; [|split; [|split; [|split]]]].
    + split; [exact H1|]. split; [apply nothung_upd; [exact H2|discriminate]|]. cbn [sts nstate wstate total]. split; [|split; [|split; [|split]]].
      * exists [0%nat]. split; [cbn; auto|reflexivity].
      * cbn. lia.
      * intros [|a] x Ha; [|destruct a; discriminate]. cbn in Ha. inversion Ha; subst x. unfold wok. rewrite !(sumf_upd _ _ _ _ _ Ht). cbn [length] in Hf1, Hf2.
        rewrite Hf1, Hf2, Hinst. cbn. unfold long_max. lia.
      * intros u x j Hu Hj. cbn [length]. apply nth_upd_inv in Hu. destruct Hu as [(_ & -> & _)|(_ & Hu)]; [inversion Hj; subst; lia|]. specialize (H6 _ _ _ Hu Hj). cbn in H6. lia.
      * reflexivity.
    + cbn [total]. rewrite H7. reflexivity.
    + reflexivity.
    + eexists. split; reflexivity.
    + intros [|j] x Hj Hx; [congruence|]. destruct j; discriminate.
    + intros j x Hx. destruct j; discriminate.
Qed.

Lemma sumf_pointwise {A} (f : A -> Z) (l l' : list A) : length l' = length l ->
  (forall a w, nth_error l a = Some w -> exists w', nth_error l' a = Some w' /\ f w' = f w) -> sumf f l' = sumf f l.
Proof.
  revert l'. induction l as [|w l IH]; intros [|w' l'] HL H; try discriminate; [reflexivity|]. cbn [sumf].
  destruct (H O w eq_refl) as (x & Hx & E). cbn in Hx. inversion Hx; subst x. rewrite E. f_equal. apply IH; [cbn in HL; lia|].
  intros a y Ha. exact (H (S a) y Ha).
Qed.

(** The state after wake_waiters. *)
Lemma wake_step s ths t al i : CI (s, ths) -> ccap (s, ths) -> nth_error ths t = Some (CNSec al) -> total s <> 0 -> nstate s = Some i ->
  let k := if al then total s else 1 in
  exists l j, wake (length (sts s)) (sts s) i k = Some (l, j) /\ CI (CS l (Some j) (wstate s) (total s - k) (cdead s), upd ths t CIdle) /\
    sumf notify l = sumf notify (sts s) + k /\ length l = length (sts s) /\
    (forall a w, nth_error (sts s) a = Some w -> exists w', nth_error l a = Some w' /\ woken1 w w').
Proof.
  intros HI Hcap Ht Hz Hns k. pose proof (avail_nn _ HI) as Hnn. cbn [fst] in Hnn. pose proof HI as (H1 & H2 & (r & H3) & H4 & H5 & H6 & H7).
  unfold ccap in Hcap. cbn [snd] in Hcap. unfold ptrs in H4. rewrite Hns in H4. destruct (wstate s) as [e|] eqn:Hws; [|contradiction]. destruct H4 as (Hlt1 & Hlt2).
  destruct (ring_at _ _ _ H3 Hlt1) as (r' & HR). pose proof (ring_length _ _ HR) as HL. cbn [length] in HL.
  destruct (wake_ok r' (sts s) i i k) as (l & j & Hw & Hj & (HL' & HW) & HS).
  - exact (proj1 HR).
  - exact (ring_NoDup _ _ HR).
  - intros a Ha. apply (ring_In _ _ _ HR). exact Ha.
  - intros a w Ha. destruct (H5 _ _ Ha) as (_ & B & _). lia.
  - rewrite (sumf_seq _ _ HR), <- H7. unfold k. destruct al; lia.
  - rewrite HL in Hw. exists l, j. split; [exact Hw|].
    assert (HW' : forall a w, nth_error (sts s) a = Some w -> exists w', nth_error l a = Some w' /\ woken1 w w').
    { intros a w Ha. destruct (HW a w Ha) as (w' & A & B & _). eauto. }
    assert (Hback : forall a w', nth_error l a = Some w' -> exists w, nth_error (sts s) a = Some w /\ woken1 w w').
    { intros a w' Ha. destruct (nth_error (sts s) a) as [w|] eqn:E.
      - destruct (HW' a w E) as (x & Hx & Hy). rewrite Ha in Hx. inversion Hx; subst x. eauto.
      - apply nth_error_None in E. assert (a < length l)%nat by (apply nth_error_Some; congruence). lia. }
    split; [|split; [|split; [exact HL'|exact HW']]].
    + split; [exact H1|]. split; [apply nothung_upd; [exact H2|discriminate]|]. cbn [sts nstate wstate total]. split; [|split; [|split; [|split]]].
      * exists (i :: r'). eapply ring_same; [exact HL'| |exact HR]. intros a w Ha. destruct (HW' a w Ha) as (w' & A & B & C & _). eauto.
      * unfold ptrs. cbn [nstate wstate sts]. rewrite HL'. split; [|exact Hlt2]. apply (ring_In _ _ _ HR). exact Hj.
      * intros a w' Ha. destruct (Hback a w' Ha) as (w & Hw0 & W1 & W2 & W3). destruct (H5 _ _ Hw0) as (A & B & C & D).
        unfold wok. rewrite !(sumf_upd _ _ _ _ _ Ht). change (inst a (CNSec al)) with 0. change (inst a CIdle) with 0. change (intok a (CNSec al)) with 0. change (intok a CIdle) with 0.
        pose proof (inst_cap ths a Hcap) as Hc. pose proof (sumf_nonneg (intok a) ths (intok_nn a)) as Hi.
        destruct W3 as [(W3 & W4)|(W3 & W4)]; [repeat split; lia|]. rewrite W4. unfold sem_release, long_max in *.
        destruct (Z.leb_spec (tokens w + (notify w' - notify w)) (2 ^ 31 - 1)); repeat split; lia.
      * intros u x a Hu Ha. rewrite HL'. apply nth_upd_inv in Hu. destruct Hu as [(_ & -> & _)|(_ & Hu)]; [discriminate|]. eauto.
      * lia.
    + assert (Hwt : sumf waiter l = sumf waiter (sts s)).
      { apply sumf_pointwise; [exact HL'|]. intros a w Ha. destruct (HW' a w Ha) as (w' & A & B & _). eauto. }
      assert (Hav : forall q, sumf avail q = sumf waiter q - sumf notify q).
      { induction q as [|x q IH]; [reflexivity|]. cbn [sumf]. rewrite IH. unfold avail. lia. }
      rewrite !Hav in HS. lia.
Qed.

(** The section on timeout or failure. *)
Lemma leave_ok s ths t p i w k r : CI (s, ths) -> nth_error ths t = Some p -> stof p = Some i -> tokof p = None -> nth_error (sts s) i = Some w ->
  let c := snd (leave s i w) in
  CI (fst (leave s i w), upd ths t (CRelock k r)) /\
  total (fst (leave s i w)) = (if c then total s else total s - 1) /\
  sumf notify (sts (fst (leave s i w))) = (if c then sumf notify (sts s) - 1 else sumf notify (sts s)) /\
  c = (0 <? notify w).
Proof.
  intros HI Ht Hp Hk Hi. pose proof HI as (_ & _ & _ & _ & H5 & _ & H7). destruct (H5 _ _ Hi) as (A & B & C & D).
  assert (E1 : inst i p = 1) by (unfold inst; rewrite Hp; apply oeq_same).
  pose proof (sumf_elem (inst i) ths t p (inst_nn i) Ht) as Hel. rewrite E1 in Hel.
  assert (E2 : intok i p = 0) by (unfold intok; rewrite Hk; reflexivity).
  unfold leave, sec_leave. destruct (Z.ltb_spec 0 (notify w)) as [Hn|Hn]; cbn [fst snd total sts].
  - split; [|split; [reflexivity|split; [|reflexivity]]].
    + eapply (CI_one s ths t p (CRelock k r) i w (WS (waiter w - 1) (notify w - 1) (tokens w) (nxt w))); eauto; cbn [waiter notify tokens nxt stof]; try lia; try discriminate; auto;
        rewrite ?E1, ?E2; change (inst i (CRelock k r)) with 0; change (intok i (CRelock k r)) with 0; try lia. unfold avail; cbn [waiter notify]; lia.
    + rewrite (sum_notify_upd _ _ _ _ Hi). cbn [notify]. lia.
  - split; [|split; [reflexivity|split; [|reflexivity]]].
    + eapply (CI_one s ths t p (CRelock k r) i w (WS (waiter w - 1) (notify w) (tokens w) (nxt w))); eauto; cbn [waiter notify tokens nxt stof]; try lia; try discriminate; auto;
        rewrite ?E1, ?E2; change (inst i (CRelock k r)) with 0; change (intok i (CRelock k r)) with 0; try lia. unfold avail; cbn [waiter notify]; lia.
    + rewrite (sum_notify_upd _ _ _ _ Hi). cbn [notify]. lia.
Qed.

Lemma CI_step c a c' e : CI c -> ccap c -> no_mutex_failure a -> cv_step c a = Some (c', e) ->
  CI c' /\ total (fst c') = total (fst c) + sumf un e /\ sumf notify (sts (fst c')) = sumf notify (sts (fst c)) + sumf dn e /\ nok (total (fst c)) e.
Proof.
  intros HI Hcap Hmf H. destruct c as [s ths]. pose proof (avail_nn _ HI) as Hnn. cbn [fst] in Hnn.
  pose proof HI as (H1 & H2 & H3 & H4 & H5 & H6 & H7).
  assert (Hq : forall t p q e0, nth_error ths t = Some p -> q <> CHung -> stof q = stof p -> tokof q = tokof p ->
     (sumf un e0 = 0 /\ sumf dn e0 = 0 /\ forall u al k, ~ In (ENotify u al k) e0) ->
     CI (s, upd ths t q) /\ total s = total s + sumf un e0 /\ sumf notify (sts s) = sumf notify (sts s) + sumf dn e0 /\ nok (total s) e0).
  { intros t p q e0 Ht Hh Hs Hk (E1 & E2 & E3). split; [eapply CI_quiet; eauto|]. split; [lia|]. split; [lia|]. apply nok_none. exact E3. }
  assert (Hst : forall t p i, nth_error ths t = Some p -> stof p = Some i -> exists w, nth_error (sts s) i = Some w).
  { intros t p i Ht Hp. destruct (nth_error (sts s) i) as [w|] eqn:E; [eauto|]. apply nth_error_None in E. specialize (H6 _ _ _ Ht Hp). lia. }
  destruct a as [t k|t al|t ch]; cbn [cv_step] in H.
  - destruct (nth_error ths t) as [p|] eqn:Ht; [|discriminate]. destruct p; inversion H; subst. apply Hq with (p := CIdle); auto; try (destruct k; (discriminate || reflexivity)).
    split; [reflexivity|]. split; [reflexivity|]. intros u al k0 [Hx|[]]. discriminate.
  - destruct (nth_error ths t) as [p|] eqn:Ht; [|discriminate]. destruct p; inversion H; subst. apply Hq with (p := CIdle); auto; try discriminate.
    split; [reflexivity|]. split; [reflexivity|]. intros u al0 k0 [Hx|[]]. discriminate.
  - rewrite H1 in H. destruct (nth_error ths t) as [p|] eqn:Ht; [|discriminate]. destruct (cv_run s t p ch) as [[[s' q] e']|] eqn:Hr; [|discriminate].
    inversion H; subst c' e'. clear H. cbn [fst].
    assert (Hnil : forall q0 : cpc, q0 <> CHung -> stof q0 = stof p -> tokof q0 = tokof p -> s' = s -> q = q0 -> e = [] ->
      CI (s', upd ths t q) /\ total s' = total s + sumf un e /\ sumf notify (sts s') = sumf notify (sts s) + sumf dn e /\ nok (total s) e).
    { intros q0 A B C -> -> ->. apply Hq with (p := p); auto. }
    destruct p; cbn [cv_run] in Hr; try discriminate.
    + (* the clock *)
      destruct ch; inversion Hr; subst; try contradiction; try (eapply Hnil; [| | |reflexivity|reflexivity|reflexivity]; solve [discriminate | reflexivity]).
      apply Hq with (p := CClock); auto; try discriminate. split; [reflexivity|]. split; [reflexivity|]. intros u al k0 [Hx|[]]. discriminate.
    + (* initiate_wait *)
      destruct (init_ok s ths t k HI Hcap Ht) as (s1 & i & E & G1 & G2 & G3 & _). rewrite E in Hr.
      destruct ch; try contradiction; inversion Hr; subst; try ((eapply Hnil; [| | |reflexivity|reflexivity|reflexivity]; solve [discriminate | reflexivity]));
        (split; [exact G1|]; split; [cbn; lia|]; split; [cbn; lia|]; apply nok_none; intros u al k0 [Hx|[]]; discriminate).
    + destruct ch, k; inversion Hr; subst; (eapply Hnil; [| | |reflexivity|reflexivity|reflexivity]; solve [discriminate | reflexivity]).
    + (* blocked *)
      destruct (Hst _ _ _ Ht eq_refl) as (w & Hi). rewrite Hi in Hr. destruct (H5 _ _ Hi) as (A & B & C & D).
      assert (Htake : (if 0 <? tokens w then Some (set_st s s0 (WS (waiter w) (notify w) (tokens w - 1) (nxt w)), CTok k s0, []) else None) = Some (s', q, e) ->
         CI (s', upd ths t q) /\ total s' = total s + sumf un e /\ sumf notify (sts s') = sumf notify (sts s) + sumf dn e /\ nok (total s) e).
      { intros Hx. destruct (Z.ltb_spec 0 (tokens w)) as [Hpos|]; [|discriminate]. inversion Hx; subst s' q e. unfold set_st. cbn [sts total fst].
        split; [|split; [cbn; lia|split; [rewrite (sum_notify_upd _ _ _ _ Hi); cbn; lia|apply nok_none; intros u al k0 []]]].
        eapply (CI_one s ths t (CBlk k s0) (CTok k s0) s0 w (WS (waiter w) (notify w) (tokens w - 1) (nxt w))); eauto; cbn [waiter notify tokens nxt stof]; try lia; try discriminate; auto.
        - change (inst s0 (CBlk k s0)) with (oeq (Some s0) s0). change (inst s0 (CTok k s0)) with (oeq (Some s0) s0). lia.
        - change (intok s0 (CBlk k s0)) with 0. change (intok s0 (CTok k s0)) with (oeq (Some s0) s0). rewrite oeq_same. lia.
        - unfold avail; cbn [waiter notify]; lia. }
      destruct ch; try contradiction; [destruct k; auto|inversion Hr; subst; destruct k; (eapply Hnil; [| | |reflexivity|reflexivity|reflexivity]; solve [discriminate | reflexivity])|].
      destruct k; try discriminate; inversion Hr; subst; (eapply Hnil; [| | |reflexivity|reflexivity|reflexivity]; solve [discriminate | reflexivity]).
    + (* took a token *)
      destruct (Hst _ _ _ Ht eq_refl) as (w & Hi). rewrite Hi in Hr. destruct (H5 _ _ Hi) as (A & B & C & D).
      assert (E1 : inst s0 (CTok k s0) = 1) by apply oeq_same. assert (E2 : intok s0 (CTok k s0) = 1) by apply oeq_same.
      pose proof (sumf_elem (inst s0) ths t _ (inst_nn s0) Ht) as Hel. rewrite E1 in Hel.
      assert (Hx : match sec_token w with Some w' => Some (set_st s s0 w', CRelock k RNotified, [EEnd t RNotified true]) | None => Some (s, CBlk k s0, []) end = Some (s', q, e)).
      { destruct ch; try contradiction; exact Hr. }
      clear Hr. unfold sec_token in Hx. destruct (Z.ltb_spec 0 (notify w)) as [Hn|Hn]; inversion Hx; subst s' q e; clear Hx.
      * unfold set_st. cbn [sts total fst].
        split; [|split; [cbn; lia|split; [rewrite (sum_notify_upd _ _ _ _ Hi); cbn; lia|apply nok_none; intros u al k0 [Hx|[]]; discriminate]]].
        eapply (CI_one s ths t (CTok k s0) (CRelock k RNotified) s0 w (WS (waiter w - 1) (notify w - 1) (tokens w) (nxt w))); eauto; cbn [waiter notify tokens nxt stof]; try lia; try discriminate; auto;
          rewrite ?E1, ?E2; change (inst s0 (CRelock k RNotified)) with 0; change (intok s0 (CRelock k RNotified)) with 0; try lia.
        unfold avail; cbn [waiter notify]; lia.
      * split; [|split; [cbn; lia|split; [cbn; lia|apply nok_none; intros u al k0 []]]].
        assert (Hs : s = CS (upd (sts s) s0 w) (nstate s) (wstate s) (total s) (cdead s)) by (rewrite upd_same by exact Hi; destruct s; reflexivity).
        rewrite Hs. eapply (CI_one s ths t (CTok k s0) (CBlk k s0) s0 w w); eauto; try discriminate; try lia; try (cbn [stof]; auto; fail);
          rewrite ?E1, ?E2; change (inst s0 (CBlk k s0)) with (oeq (Some s0) s0); change (intok s0 (CBlk k s0)) with 0; rewrite ?oeq_same; try lia.
        pose proof (sumf_elem (intok s0) ths t _ (intok_nn s0) Ht) as Hek. rewrite E2 in Hek. lia.
    + (* failure *)
      destruct (Hst _ _ _ Ht eq_refl) as (w & Hi). rewrite Hi in Hr.
      destruct (leave_ok s ths t _ _ w k RError HI Ht eq_refl eq_refl Hi) as (G1 & G2 & G3 & G4). destruct (leave s s0 w) as [s1 cc]. cbn [fst snd] in *.
      assert (Hx : Some (s1, CRelock k RError, [EEnd t RError cc]) = Some (s', q, e)) by (destruct ch; try contradiction; exact Hr).
      inversion Hx; subst s' q e. split; [exact G1|]. split; [rewrite G2; destruct cc; cbn; lia|]. split; [rewrite G3; destruct cc; cbn; lia|]. apply nok_none. intros u al k0 [Hy|[]]. discriminate.
    + (* timeout *)
      destruct (Hst _ _ _ Ht eq_refl) as (w & Hi). rewrite Hi in Hr.
      destruct (leave_ok s ths t _ _ w k (if snd (leave s s0 w) then RNotified else RTimeout) HI Ht eq_refl eq_refl Hi) as (G1 & G2 & G3 & G4). destruct (leave s s0 w) as [s1 cc]. cbn [fst snd] in *.
      assert (Hx : Some (s1, CRelock k (if cc then RNotified else RTimeout), [EEnd t (if cc then RNotified else RTimeout) cc]) = Some (s', q, e)) by (destruct ch; try contradiction; exact Hr).
      inversion Hx; subst s' q e. split; [exact G1|]. split; [rewrite G2; destruct cc; cbn; lia|]. split; [rewrite G3; destruct cc; cbn; lia|]. apply nok_none. intros u al k9 [Hy|[]]. discriminate.
    + (* re-locked *)
      assert (Hret : forall q0, stof q0 = None -> tokof q0 = None -> q0 <> CHung -> s' = s -> q = q0 -> (e = [] \/ exists r0, e = [EWaitRet t r0]) ->
        CI (s', upd ths t q) /\ total s' = total s + sumf un e /\ sumf notify (sts s') = sumf notify (sts s) + sumf dn e /\ nok (total s) e).
      { intros q0 A B C -> -> D. apply Hq with (p := CRelock k r); auto. destruct D as [->|(r0 & ->)]; split; try reflexivity; split; try reflexivity;
          intros u al k0 Hy; cbn in Hy; intuition discriminate. }
      destruct k, r; inversion Hr; subst; eapply Hret; try reflexivity; try discriminate; eauto.
    + destruct (Z.ltb_spec 0 (total s)) as [Hpos|Hzero]; inversion Hr; subst.
      * (eapply Hnil; [| | |reflexivity|reflexivity|reflexivity]; solve [discriminate | reflexivity]).
      * split; [eapply CI_quiet; eauto; discriminate|]. split; [cbn; lia|]. split; [cbn; lia|]. apply nok_one; [lia|]. destruct all; lia.
    + destruct (Z.eqb_spec (total s) 0) as [Hzero|Hnz].
      * assert (Hx : Some (s, CIdle, [ENotify t all 0; ENotifyRet t]) = Some (s', q, e)) by (destruct ch; try contradiction; exact Hr).
        inversion Hx; subst s' q e. split; [eapply CI_quiet; eauto; discriminate|]. split; [cbn; lia|]. split; [cbn; lia|]. apply nok_one; [lia|]. destruct all; lia.
      * destruct (nstate s) as [i|] eqn:Hns.
        -- destruct (wake_step s ths t all i HI Hcap Ht Hnz Hns) as (l & j & Hw & G1 & G2 & _). cbv zeta in Hw, G1. rewrite Hw in Hr.
           assert (Hx : Some (CS l (Some j) (wstate s) (total s - (if all then total s else 1)) (cdead s), CIdle, [ENotify t all (if all then total s else 1); ENotifyRet t]) = Some (s', q, e)) by (destruct ch; try contradiction; exact Hr).
           inversion Hx; subst s' q e. split; [exact G1|]. cbn [total sts sumf un dn]. split; [lia|]. split; [lia|]. apply nok_one; [lia|]. destruct all; lia.
        -- exfalso. unfold ptrs in H4. rewrite Hns in H4. destruct (wstate s); [contradiction|]. rewrite H4 in H7. cbn in H7. lia.
Qed.

Lemma CI_init n : CI (cv_init n).
Proof.
  split; [reflexivity|]. split; [intros t H; apply nth_repeat in H; discriminate|]. split; [exists []; split; [exact I|reflexivity]|]. split; [reflexivity|].
  split; [intros i w H; destruct i; discriminate|]. split; [|reflexivity]. intros t p i H Hp. apply nth_repeat in H. subst. discriminate.
Qed.

Lemma cv_step_length c a c' e : cv_step c a = Some (c', e) -> length (snd c') = length (snd c).
Proof.
  destruct c as [s ths]. destruct a as [t k|t al|t ch]; cbn [cv_step]; intros H.
  - destruct (nth_error ths t) as [[]|]; inversion H; subst. apply upd_length.
  - destruct (nth_error ths t) as [[]|]; inversion H; subst. apply upd_length.
  - destruct (cdead s); [discriminate|]. destruct (nth_error ths t); [|discriminate]. destruct (cv_run _ _ _ _) as [[[s' q] e']|]; inversion H; subst. apply upd_length.
Qed.

(** Every notification in the history released the right number of waiters. *)
Definition counted (tr : list cev) : Prop :=
  forall tr1 t al k tr2, tr = tr1 ++ ENotify t al k :: tr2 -> 0 <= sumf un tr1 /\ k = if al then sumf un tr1 else Z.min 1 (sumf un tr1).

Lemma split_app {A} (l1 l2 a b : list A) (x : A) : l1 ++ l2 = a ++ x :: b -> (exists c, l1 = a ++ x :: c) \/ (exists c, a = l1 ++ c /\ l2 = c ++ x :: b).
Proof.
  revert a. induction l1 as [|y l1 IH]; intros a H; cbn [app] in H.
  - right. exists a. auto.
  - destruct a as [|z a]; cbn [app] in H; inversion H; subst.
    + left. exists l1. reflexivity.
    + destruct (IH a) as [(c & ->)|(c & -> & E)]; [assumption|left; exists c; reflexivity|right; exists c; auto].
Qed.

Theorem cv_inv n sched c tr : Z.of_nat n <= 2 ^ 30 -> Forall no_mutex_failure sched -> exec cv_step (cv_init n) sched = Some (c, tr) ->
  CI c /\ ccap c /\ total (fst c) = sumf un tr /\ sumf notify (sts (fst c)) = sumf dn tr /\ counted tr.
Proof.
  intros Hn. apply (exec_inv_acts cv_step no_mutex_failure (fun c tr => CI c /\ ccap c /\ total (fst c) = sumf un tr /\ sumf notify (sts (fst c)) = sumf dn tr /\ counted tr)).
  - split; [apply CI_init|]. split; [unfold ccap; cbn; rewrite repeat_length; exact Hn|]. split; [reflexivity|]. split; [reflexivity|]. intros tr1 t al k tr2 E. destruct tr1; discriminate.
  - intros c1 t1 a c2 e (G1 & G2 & G3 & G4 & G5) Hm Hs. destruct (CI_step _ _ _ _ G1 G2 Hm Hs) as (K1 & K2 & K3 & K4).
    split; [exact K1|]. split; [unfold ccap in *; rewrite (cv_step_length _ _ _ _ Hs); exact G2|]. rewrite !sumf_app. split; [lia|]. split; [lia|].
    intros tr1 t al k tr2 E. apply split_app in E. destruct E as [(cc & ->)|(cc & -> & E)].
    + apply (G5 tr1 t al k cc). reflexivity.
    + destruct (K4 cc t al k tr2 E) as (-> & Hk). rewrite app_nil_r, <- G3. exact Hk.
Qed.
