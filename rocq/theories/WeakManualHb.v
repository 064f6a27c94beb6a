(** What set() and reset() publish on weak memory: manual_reset_event on Linux, over WeakManual.v. *)
From Coq Require Import List Bool Arith ZArith Lia.
From Verif Require Import ListSum Exec Events Lin Word FlagSpec ManualFutexModel ManualFutexProof Hb HbSpin HbManual Weak WeakAuto WeakAutoHb WeakManual.
Import ListNotations.
Local Open Scope Z_scope.

Lemma mf_old racq w ths t p w' ths' v q : mfeff racq w ths t p w' ths' -> nth_error ths' v = Some q -> v <> t ->
  nth_error ths v = Some q \/ exists k, nth_error ths v = Some (FSleep k) /\ q = FReload k.
Proof.
  intros He Hv Hn. destruct He as [p' _ -> _ _ _ _ _ _ _ _|_ _ ->|p' h m x _ _ _ _ _ -> _ _ _ _ _ _ _ _ _].
  - rewrite nth_upd_neq in Hv by auto. auto.
  - destruct (wake_inv _ _ _ _ _ Hv) as [(-> & ->)|(q0 & H1 & ->)]; [congruence|]. destruct q0; cbn; eauto.
  - rewrite nth_upd_neq in Hv by auto. auto.
Qed.
Lemma mf_keep racq w ths t p w' ths' v q : mfeff racq w ths t p w' ths' -> nth_error ths v = Some q -> v <> t -> (forall k, q <> FSleep k) -> nth_error ths' v = Some q.
Proof.
  intros He Hv Hn Hq. destruct He as [p' _ -> _ _ _ _ _ _ _ _|_ _ ->|p' h m x _ _ _ _ _ -> _ _ _ _ _ _ _ _ _]; rewrite nth_upd_neq by auto; try exact Hv.
  rewrite nth_error_map, Hv. destruct q; cbn; try reflexivity. destruct (Hq _ eq_refl).
Qed.
Lemma mcase_ret racq w ths w' ths' es d t o r K b : mcase racq w ths w' ths' es -> es = d ++ HEv (Ret t o r) K :: b ->
  d = [] /\ b = [] /\ nth_error ths t = Some (FDone o r) /\ K = wkn w t /\ w' = w /\ ths' = upd ths t FRest.
Proof.
  intros Hc E. destruct Hc as [t1 o1 Ht -> -> ->|t1 o1 r1 Ht -> -> ->|t1 p Ht Hd _ He ->|Eh -> Ee].
  - destruct d as [|? [|]]; discriminate E.
  - destruct d as [|? [|]]; try discriminate E. injection E as <- <- <- <- <-. auto 10.
  - destruct d; discriminate E.
  - rewrite E, flat_map_app in Ee. cbn in Ee. destruct (flat_map base_ev d); discriminate Ee.
Qed.
Lemma mcase_call racq w ths w' ths' es d t o K b : mcase racq w ths w' ths' es -> es = d ++ HEv (Call t o) K :: b ->
  d = [] /\ b = [] /\ nth_error ths t = Some FRest /\ K = wkn w t /\ w' = w /\ ths' = upd ths t (man_entry o).
Proof.
  intros Hc E. destruct Hc as [t1 o1 Ht -> -> ->|t1 o1 r1 Ht -> -> ->|t1 p Ht Hd _ He ->|Eh -> Ee].
  - destruct d as [|? [|]]; try discriminate E. injection E as <- <- <- <-. auto 10.
  - destruct d as [|? [|]]; discriminate E.
  - destruct d; discriminate E.
  - rewrite E, flat_map_app in Ee. cbn in Ee. destruct (flat_map base_ev d); discriminate Ee.
Qed.
Lemma else_in (e : list mev) x K : flat_map base_ev e = [] -> ~ In (HEv x K) e.
Proof. intros H Hin. assert (F : In x (flat_map base_ev e)) by (apply in_flat_map; exists (HEv x K); split; [exact Hin|left; reflexivity]). rewrite H in F. exact F. Qed.

(** * Knowledge of sets *)
Definition someset (tr : list mev) (L : list nat) : Prop := exists u K, In (HEv (Call u FSet) K) tr /\ incl K L.
Lemma someset_mono tr e L L' : someset tr L -> incl L L' -> someset (tr ++ e) L'.
Proof. intros (u & K & H1 & H2) H. exists u, K. split; [apply in_or_app; auto|exact (incl_tran H2 H)]. Qed.

Definition FC (c : wmem * list fpc) (tr : list mev) : Prop := forall u, nth_error (snd c) u = Some FOr -> exists K, In (HEv (Call u FSet) K) tr /\ incl K (wkn (fst c) u).
Definition PB (c : wmem * list fpc) (tr : list mev) : Prop := forall u K, In (HEv (Call u FSet) K) tr -> incl K (nrel (fst c)) \/ (nth_error (snd c) u = Some FOr /\ incl K (wkn (fst c) u)).
Definition KS (c : wmem * list fpc) (tr : list mev) : Prop :=
  (forall m, In m (hist (fst c) 0) -> incl (mrel m) (nrel (fst c))) /\
  (forall m, In m (hist (fst c) 0) -> posted m = true -> someset tr (mrel m)) /\
  (forall t k, nth_error (snd c) t = Some (FSub k) -> someset tr (nrel (fst c))) /\
  (forall t o r, nth_error (snd c) t = Some (FDone o r) -> fseen o r = true -> someset tr (wkn (fst c) t)).

Lemma FC_step racq n w ths tr a w' ths' e : Z.of_nat n < 2 ^ 31 -> MW n (w, ths) -> FC (w, ths) tr -> wman_step racq (w, ths) a = Some ((w', ths'), e) -> FC (w', ths') (tr ++ e).
Proof.
  intros Hn HW HC Hs. destruct (wman_case _ _ _ _ _ _ _ _ Hn HW Hs) as (_ & HM & Hc). intros u Hu. cbn [fst snd] in *.
  assert (Old : nth_error ths u = Some FOr -> exists K, In (HEv (Call u FSet) K) (tr ++ e) /\ incl K (wkn w' u)).
  { intros Ho. destruct (HC _ Ho) as (K & H1 & H2). exists K. split; [apply in_or_app; auto|]. exact (incl_tran H2 (HM u)). }
  destruct Hc as [t o Ht -> -> ->|t o r Ht -> -> ->|t p Ht Hd Hr He ->|Eh -> Ee].
  - destruct (nth_upd_inv _ _ _ _ _ Hu) as [(<- & Eo & _)|(_ & Hu')]; [|auto]. destruct o; try discriminate Eo. exists (wkn w t). split; [apply in_or_app; right; left; reflexivity|apply incl_refl].
  - destruct (nth_upd_inv _ _ _ _ _ Hu) as [(<- & Eo & _)|(_ & Hu')]; [discriminate Eo|auto].
  - destruct (Nat.eq_dec u t) as [->|Hne].
    + destruct He as [p' _ -> _ _ Q _ _ _ _ _|_ _ ->|p' h m x _ _ _ _ _ -> Q _ _ _ _ _ _ _ _].
      * rewrite (nth_upd_eq _ _ _ _ Ht) in Hu. congruence.
      * destruct (wake_inv _ _ _ _ _ Hu) as [(_ & F)|(q0 & H1 & F)]; [discriminate|]. destruct q0; try discriminate F. auto.
      * rewrite (nth_upd_eq _ _ _ _ Ht) in Hu. congruence.
    + destruct (mf_old _ _ _ _ _ _ _ _ _ He Hu Hne) as [F|(k & _ & F)]; [auto|discriminate F].
  - auto.
Qed.

Lemma PB_step racq n w ths tr a w' ths' e : Z.of_nat n < 2 ^ 31 -> MW n (w, ths) -> PB (w, ths) tr -> wman_step racq (w, ths) a = Some ((w', ths'), e) -> PB (w', ths') (tr ++ e).
Proof.
  intros Hn HW HC Hs. destruct (wman_case _ _ _ _ _ _ _ _ Hn HW Hs) as (_ & HM & Hc). intros u K Hin. cbn [fst snd] in *. unfold PB in HC. cbn [fst snd] in HC.
  destruct Hc as [t o Ht -> -> ->|t o r Ht -> -> ->|t p Ht Hd Hr He ->|Eh -> Ee].
  - apply in_app_or in Hin. destruct Hin as [Hin|[F|[]]].
    + destruct (HC _ _ Hin) as [F|(F & G)]; [auto|]. right. split; [|exact G]. rewrite nth_upd_neq; [exact F|]. intros ->. congruence.
    + injection F as -> -> ->. right. split; [|apply incl_refl]. apply (nth_upd_eq _ _ _ _ Ht).
  - apply in_app_or in Hin. destruct Hin as [Hin|[F|[]]]; [|discriminate F].
    destruct (HC _ _ Hin) as [F|(F & G)]; [auto|]. right. split; [|exact G]. rewrite nth_upd_neq; [exact F|]. intros ->. congruence.
  - rewrite app_nil_r in Hin. specialize (HC _ _ Hin).
    destruct (Nat.eq_dec u t) as [->|Hne].
    + destruct He as [p' Eh -> (Q0 & _) _ Q _ _ _ _ _| -> -> ->|p' h m x E1 E2 _ G _ -> Q _ Q1 _ _ _ _ _ _].
      * rewrite (nrel_same _ _ Eh). destruct HC as [F|(F & _)]; [auto|congruence].
      * destruct HC as [F|(F & _)]; [auto|congruence].
      * left. rewrite two_end in E2. rewrite (nrel_end _ _ _ E2). rewrite (nrel_end _ _ _ E1) in HC. destruct HC as [F|(F & F2)]; [exact (incl_tran F G)|].
        assert (p = FOr) by congruence. destruct (Q1 H) as (Q2 & _). exact (incl_tran F2 Q2).
    + assert (HR : incl (nrel w) (nrel w')).
      { destruct He as [p' Eh _ _ _ _ _ _ _ _ _| -> _ _|p' h m x E1 E2 _ G _ _ _ _ _ _ _ _ _ _ _]; [rewrite (nrel_same _ _ Eh); apply incl_refl|apply incl_refl|].
        rewrite two_end in E2. rewrite (nrel_end _ _ _ E1), (nrel_end _ _ _ E2). exact G. }
      destruct HC as [F|(F & F2)]; [left; exact (incl_tran F HR)|right]. split; [|exact (incl_tran F2 (HM u))]. eapply mf_keep; eauto. discriminate.
  - rewrite (nrel_same _ _ Eh). apply in_app_or in Hin. destruct Hin as [Hin|Hin]; [|destruct (else_in _ _ _ Ee Hin)].
    destruct (HC _ _ Hin) as [F|(F & F2)]; [auto|right]. split; [exact F|exact (incl_tran F2 (HM u))].
Qed.

Lemma KS_step racq n w ths tr a w' ths' e : Z.of_nat n < 2 ^ 31 -> MW n (w, ths) -> FC (w, ths) tr -> KS (w, ths) tr -> wman_step racq (w, ths) a = Some ((w', ths'), e) -> KS (w', ths') (tr ++ e).
Proof.
  intros Hn HW HF (K1 & K2 & K3 & K4) Hs. destruct (wman_case _ _ _ _ _ _ _ _ Hn HW Hs) as (_ & HM & Hc). unfold KS. cbn [fst snd] in *.
  assert (O4 : forall t o r, nth_error ths t = Some (FDone o r) -> fseen o r = true -> someset (tr ++ e) (wkn w' t)).
  { intros t o r F G. eapply someset_mono; [eapply K4; eauto|apply HM]. }
  assert (Same : hist w' 0 = hist w 0 -> (forall m, In m (hist w' 0) -> incl (mrel m) (nrel w')) /\ (forall m, In m (hist w' 0) -> posted m = true -> someset (tr ++ e) (mrel m))).
  { intros Eh. rewrite Eh, (nrel_same _ _ Eh). split; [exact K1|]. intros m Hm Hp. eapply someset_mono; [eauto|apply incl_refl]. }
  destruct Hc as [t o Ht -> -> ->|t o r Ht -> -> ->|t p Ht Hd Hr He ->|Eh -> Ee].
  - destruct (Same eq_refl) as (S1 & S2). split; [exact S1|]. split; [exact S2|]. split.
    + intros v k Hv. destruct (nth_upd_inv _ _ _ _ _ Hv) as [(<- & F & _)|(_ & Hv')]; [destruct o; discriminate F|]. eapply someset_mono; [eauto|apply incl_refl].
    + intros v o1 r1 Hv Hse. destruct (nth_upd_inv _ _ _ _ _ Hv) as [(<- & F & _)|(_ & Hv')]; [destruct o; discriminate F|eauto].
  - destruct (Same eq_refl) as (S1 & S2). split; [exact S1|]. split; [exact S2|]. split.
    + intros v k Hv. destruct (nth_upd_inv _ _ _ _ _ Hv) as [(<- & F & _)|(_ & Hv')]; [discriminate F|]. eapply someset_mono; [eauto|apply incl_refl].
    + intros v o1 r1 Hv Hse. destruct (nth_upd_inv _ _ _ _ _ Hv) as [(<- & F & _)|(_ & Hv')]; [discriminate F|eauto].
  - rewrite app_nil_r in *.
    assert (HR : incl (nrel w) (nrel w')).
    { destruct He as [p' Eh _ _ _ _ _ _ _ _ _| -> _ _|p' h m x E1 E2 _ G _ _ _ _ _ _ _ _ _ _ _]; [rewrite (nrel_same _ _ Eh); apply incl_refl|apply incl_refl|].
      rewrite two_end in E2. rewrite (nrel_end _ _ _ E1), (nrel_end _ _ _ E2). exact G. }
    assert (Sm : forall L L', someset tr L -> incl L L' -> someset tr L') by (intros L L' A B; rewrite <- (app_nil_r tr); eapply someset_mono; eauto).
    assert (H12 : (forall m, In m (hist w' 0) -> incl (mrel m) (nrel w')) /\ (forall m, In m (hist w' 0) -> posted m = true -> someset tr (mrel m))).
    { destruct He as [p' Eh _ _ _ _ _ _ _ _ _| -> _ _|p' h m x E1 E2 _ G _ _ _ _ Q1 Q2 Q3 _ _ _ _]; [auto|auto|].
      rewrite two_end in E2. rewrite (nrel_end _ _ _ E1), (nrel_end _ _ _ E2) in *. rewrite E2. rewrite <- E1. split; intros m' Hin.
      - apply in_app_or in Hin. destruct Hin as [Hin|[<-|[]]]; [|apply incl_refl]. exact (incl_tran (K1 _ Hin) G).
      - apply in_app_or in Hin. destruct Hin as [Hin|[<-|[]]]; [auto|]. intros Hp.
        assert (Dp : p = FOr \/ p = FAnd \/ (p <> FOr /\ p <> FAnd)) by (destruct p; auto; right; right; split; discriminate).
        destruct Dp as [->|[->|(D1 & D2)]].
        + destruct (HF _ Ht) as (K & F1 & F2). exists t, K. split; [exact F1|]. exact (incl_tran F2 (proj1 (Q1 eq_refl))).
        + destruct (Q3 eq_refl) as (F & _). congruence.
        + rewrite (Q2 D1 D2) in Hp. eapply Sm; [eapply K2; [|exact Hp]; rewrite E1; apply in_or_app; right; left; reflexivity|exact G]. }
    destruct H12 as (H1 & H2). split; [exact H1|]. split; [exact H2|]. split.
    + intros v k Hv. destruct (Nat.eq_dec v t) as [->|Hne].
      2:{ destruct (mf_old _ _ _ _ _ _ _ _ _ He Hv Hne) as [F|(k0 & _ & F)]; [eauto|discriminate F]. }
      destruct He as [p' Eh -> _ _ _ _ _ Q _ _| -> -> ->|p' h m x E1 E2 _ G _ -> _ _ _ _ _ _ Q _ _].
      * rewrite (nth_upd_eq _ _ _ _ Ht) in Hv. injection Hv as ->. destruct (Q _ eq_refl) as (i & m & F1 & _ & F2). apply nth_error_In in F1. rewrite (nrel_same _ _ Eh). eauto.
      * destruct (wake_inv _ _ _ _ _ Hv) as [(_ & F)|(q0 & F1 & F)]; [discriminate|]. destruct q0; try discriminate F; eauto.
      * rewrite (nth_upd_eq _ _ _ _ Ht) in Hv. injection Hv as ->. rewrite two_end in E2. rewrite (nrel_end _ _ _ E2). apply H2; [rewrite E2; apply in_or_app; right; left; reflexivity|eauto].
    + intros v o r Hv Hse. destruct (Nat.eq_dec v t) as [->|Hne].
      2:{ destruct (mf_old _ _ _ _ _ _ _ _ _ He Hv Hne) as [F|(k0 & _ & F)]; [eauto|discriminate F]. }
      destruct He as [p' Eh -> _ _ _ _ _ _ Q _| -> -> ->|p' h m x E1 E2 _ G _ -> _ _ _ _ _ Q _ _ _].
      * rewrite (nth_upd_eq _ _ _ _ Ht) in Hv. injection Hv as ->. destruct (Q _ _ eq_refl Hse) as (i & m & F1 & _ & F2 & F3). eapply Sm; [eapply K2; [eapply nth_error_In; eauto|exact F2]|exact F3].
      * destruct (wake_inv _ _ _ _ _ Hv) as [(_ & F)|(q0 & F1 & F)]; [injection F as -> ->; discriminate Hse|]. destruct q0; try discriminate F. injection F as -> ->. eauto.
      * rewrite (nth_upd_eq _ _ _ _ Ht) in Hv. injection Hv as ->. destruct (Q _ _ eq_refl Hse) as ((k & ->) & F). eapply Sm; [eapply K3; eauto|]. rewrite (nrel_end _ _ _ E1). exact F.
  - destruct (Same Eh) as (S1 & S2). split; [exact S1|]. split; [exact S2|]. split; [|eauto].
    intros v k Hv. rewrite (nrel_same _ _ Eh). eapply someset_mono; [eauto|apply incl_refl].
Qed.

Definition MK n (c : wmem * list fpc) (tr : list mev) : Prop := MW n c /\ FC c tr /\ PB c tr /\ KS c tr.
Lemma MK_step racq n : Z.of_nat n < 2 ^ 31 -> forall c tr a c' e, MK n c tr -> wman_step racq c a = Some (c', e) -> MK n c' (tr ++ e).
Proof.
  intros Hn [w ths] tr a [w' ths'] e (H1 & H2 & H3 & H4) Hs. split; [eapply wman_case; eauto|]. split; [eapply FC_step; eauto|]. split; [eapply PB_step; eauto|eapply KS_step; eauto].
Qed.
Lemma MK_init n : MK n (wman_init n) [].
Proof.
  split; [apply MW_init|]. unfold FC, PB, KS, wman_init. cbn [fst snd wm0 hist]. repeat split.
  - intros u Hu. apply nth_repeat in Hu. discriminate.
  - intros u K [].
  - intros m [<-|[]]. unfold nrel. cbn. apply incl_refl.
  - intros m [<-|[]] Hp. discriminate Hp.
  - intros t k Ht. apply nth_repeat in Ht. discriminate.
  - intros t o r Ht. apply nth_repeat in Ht. discriminate.
Qed.
Lemma MK_exec racq n sched c tr : Z.of_nat n < 2 ^ 31 -> exec (wman_step racq) (wman_init n) sched = Some (c, tr) -> MK n c tr.
Proof. intros Hn. apply (exec_inv (wman_step racq) (MK n)); [apply MK_init|apply MK_step; exact Hn]. Qed.

Lemma wman_some racq n sched c tr a t o r K' d : Z.of_nat n < 2 ^ 31 -> exec (wman_step racq) (wman_init n) sched = Some (c, tr) -> tr = a ++ HEv (Ret t o r) K' :: d -> fseen o r = true -> someset a K'.
Proof.
  intros Hn H E0 Hg.
  refine (exec_events (wman_step racq) (MK n) (fun a x => match x with HEv (Ret t o r) K' => fseen o r = true -> someset a K' | _ => True end) _ (MK_init n) (MK_step racq n Hn) _ sched c tr a (HEv (Ret t o r) K') d H E0 Hg).
  clear. intros [w ths] tr a [w' ths'] es d x b (HW & _ & _ & _ & _ & _ & K4) Hs Ees. destruct x as [|[|t o r] K']; try exact I. intros Hse.
  apply wstep_cases in Hs. destruct Hs as [(t1 & o1 & p & p' & -> & Ht & Hc & E & ->)|[(t1 & ch & p & o1 & r1 & p' & -> & Ht & Hr & E & ->)|[(t1 & ch & p & -> & Ht & Hr & E & ->)|[(t1 & -> & E & ->)|(t1 & l & o1 & i & v & w1 & -> & Hl & Hc & E & ->)]]]];
    try (destruct d as [|? [|]]; discriminate Ees).
  destruct d as [|? [|]]; try discriminate Ees. injection Ees as <- <- <- <- <-. destruct p; try discriminate Hr. injection Hr as <- <- <-. cbn [fst snd] in *. rewrite app_nil_r. eauto.
Qed.

(** * A message known to a thread bounds what it can read *)
Definition mark (Q : msg -> Prop) (w : wmem) (K : list nat) : Prop := exists h1 x h2, hist w 0 = h1 ++ x :: h2 /\ In (mid x) K /\ forall m, In m (x :: h2) -> Q m.
Lemma mark_read Q w K i m : mark Q w K -> nth_error (hist w 0) i = Some m -> readable K (hist w 0) i = true -> Q m.
Proof.
  intros (h1 & x & h2 & E & Hx & HQ) Hi Hr. destruct (le_lt_dec (length h1) i) as [Hle|Hlt].
  - apply HQ. rewrite E, nth_error_app2 in Hi by exact Hle. eapply nth_error_In; eauto.
  - exfalso. unfold readable in Hr. apply negb_true_iff in Hr. assert (F : existsb (known K) (skipn (S i) (hist w 0)) = true); [|congruence].
    apply existsb_exists. exists x. split; [|apply known_In; exact Hx]. rewrite E, skipn_app. apply in_or_app. right. replace (S i - length h1)%nat with 0%nat by lia. left. reflexivity.
Qed.
Lemma mark_same Q w w' K : hist w' 0 = hist w 0 -> mark Q w K -> mark Q w' K. Proof. intros E H. unfold mark in *. rewrite E. exact H. Qed.
Lemma mark_know Q w K K' : incl K K' -> mark Q w K -> mark Q w K'. Proof. intros E (h1 & x & h2 & H1 & H2 & H3). exists h1, x, h2. auto. Qed.
Lemma mark_impl (Q Q' : msg -> Prop) w K : (forall m, Q m -> Q' m) -> mark Q w K -> mark Q' w K. Proof. intros E (h1 & x & h2 & H1 & H2 & H3). exists h1, x, h2. auto. Qed.
Lemma mark_push (Q : msg -> Prop) w w' h m y K : hist w 0 = h ++ [m] -> hist w' 0 = h ++ [m; y] -> (Q m -> Q y) -> mark Q w K -> mark Q w' K.
Proof.
  intros E E' HQ (h1 & x & h2 & H1 & H2 & H3). exists h1, x, (h2 ++ [y]). rewrite E', two_end, <- E, H1, <- app_assoc. split; [reflexivity|]. split; [exact H2|].
  intros m' Hm. change (x :: h2 ++ [y]) with ((x :: h2) ++ [y]) in Hm. apply in_app_or in Hm. destruct Hm as [Hm|[<-|[]]]; [auto|]. apply HQ, H3.
  rewrite E in H1. destruct (exists_last (l := x :: h2) ltac:(discriminate)) as (l & z & El). rewrite El in *. rewrite app_assoc in H1. apply app_inj_tail in H1. destruct H1 as (_ & <-). apply in_or_app; right; left; reflexivity.
Qed.
Lemma mark_last Q w K : mark Q w K -> forall h m, hist w 0 = h ++ [m] -> Q m.
Proof.
  intros (h1 & x & h2 & H1 & H2 & H3) h m E. apply H3. rewrite E in H1. destruct (exists_last (l := x :: h2) ltac:(discriminate)) as (l & z & El). rewrite El in *. rewrite app_assoc in H1.
  apply app_inj_tail in H1. destruct H1 as (_ & <-). apply in_or_app; right; left; reflexivity.
Qed.

Section Marker.
  Variables (racq : bool) (n : nat) (Q : list mev -> msg -> Prop) (G : wmem * list fpc -> list mev -> Prop) (op0 : fop).
  Hypothesis Hn : Z.of_nat n < 2 ^ 31.
  Hypothesis Hop : op0 = FSet \/ op0 = FReset.
  Hypothesis Gmw : forall c tr, G c tr -> MW n c.
  Hypothesis Gstep : forall c tr a c' e, G c tr -> wman_step racq c a = Some (c', e) -> G c' (tr ++ e).
  Hypothesis Qmono : forall tr e m, Q tr m -> Q (tr ++ e) m.
  Hypothesis Qpush : forall w ths tr t p m x, G (w, ths) tr -> nth_error ths t = Some p -> incl (mrel m) (mrel x) ->
    (p = FOr -> incl (wkn w t) (mrel x) /\ posted x = true) -> (p <> FOr -> p <> FAnd -> posted x = posted m) -> (p = FAnd -> posted x = false) ->
    (Q tr m -> Q tr x) /\ (p = man_entry op0 -> Q tr x).

  Lemma mark_step w ths tr a w' ths' e K : G (w, ths) tr -> wman_step racq (w, ths) a = Some ((w', ths'), e) -> mark (Q tr) w K -> mark (Q (tr ++ e)) w' K.
  Proof.
    intros HG Hs HM. apply (mark_impl (Q tr)); [auto|]. destruct (wman_case _ _ _ _ _ _ _ _ Hn (Gmw _ _ HG) Hs) as (_ & _ & Hc).
    destruct Hc as [t o Ht -> -> ->|t o r Ht -> -> ->|t p Ht Hd Hr He ->|Eh -> Ee]; auto; [|eapply mark_same; eauto].
    destruct He as [p' Eh -> _ _ _ _ _ _ _ _| -> -> ->|p' h m x E1 E2 _ Gi _ -> _ _ Q1 Q2 Q3 _ _ _ _]; [eapply mark_same; eauto|auto|].
    eapply mark_push; eauto. refine (proj1 (Qpush _ _ _ _ _ _ _ HG Ht Gi Q1 Q2 (fun F => proj1 (Q3 F)))).
  Qed.

  Definition MJ (v : nat) (c : wmem * list fpc) (tr : list mev) : Prop :=
    G c tr /\ (forall q, nth_error (snd c) v = Some q -> after op0 q -> mark (Q tr) (fst c) (wkn (fst c) v)) /\
    (forall r K, In (HEv (Ret v op0 r) K) tr -> mark (Q tr) (fst c) K).

  Lemma MJ_step v c tr a c' e : MJ v c tr -> wman_step racq c a = Some (c', e) -> MJ v c' (tr ++ e).
  Proof.
    destruct c as [w ths], c' as [w' ths']. intros (HG & J1 & J2) Hs. pose proof (Gstep _ _ _ _ _ HG Hs) as HG'. cbn [fst snd] in *.
    assert (MS : forall K, mark (Q tr) w K -> mark (Q (tr ++ e)) w' K) by (intros K; eapply mark_step; eauto).
    destruct (wman_case _ _ _ _ _ _ _ _ Hn (Gmw _ _ HG) Hs) as (_ & HM & Hc).
    assert (MO : forall q, nth_error ths v = Some q -> after op0 q -> mark (Q (tr ++ e)) w' (wkn w' v)).
    { intros q F1 F2. eapply mark_know; [apply HM|]. apply MS. eauto. }
    split; [exact HG'|]. cbn [fst snd]. split.
    - intros q Hq Ha. destruct Hc as [t o Ht -> -> ->|t o r Ht -> -> ->|t p Ht Hd Hr He ->|Eh -> Ee].
      + destruct (nth_upd_inv _ _ _ _ _ Hq) as [(<- & -> & _)|(_ & Hq')]; [destruct o; destruct Ha|eauto].
      + destruct (nth_upd_inv _ _ _ _ _ Hq) as [(<- & -> & _)|(_ & Hq')]; [destruct Ha|eauto].
      + destruct (Nat.eq_dec v t) as [->|Hne].
        2:{ destruct (mf_old _ _ _ _ _ _ _ _ _ He Hq Hne) as [F|(k0 & _ & ->)]; [eauto|destruct Ha]. }
        destruct He as [p' Eh -> _ _ _ _ F _ _ _| -> -> ->|p' h m x E1 E2 _ Gi Ix -> _ _ Q1 Q2 Q3 _ _ _ F].
        * rewrite (nth_upd_eq _ _ _ _ Ht) in Hq. injection Hq as <-. destruct (F _ Hop Ha).
        * destruct (wake_inv _ _ _ _ _ Hq) as [(_ & ->)|(q0 & H1 & ->)].
          -- cbn in Ha. subst op0. eapply MO; [exact Ht|reflexivity].
          -- eapply MO; [exact H1|]. destruct q0; cbn in *; auto.
        * rewrite (nth_upd_eq _ _ _ _ Ht) in Hq. injection Hq as <-. apply (F _ Hop) in Ha. rename F into F00; rename Ha into F. apply (mark_impl (Q tr)); [auto|].
          exists (h ++ [m]), x, []. rewrite two_end in E2. split; [exact E2|]. split; [exact Ix|]. intros m' [<-|[]].
          exact (proj2 (Qpush _ _ _ _ _ _ _ HG Ht Gi Q1 Q2 (fun F0 => proj1 (Q3 F0))) F).
      + eauto.
    - intros r K Hin. apply in_app_or in Hin. destruct Hin as [Hin|Hin]; [apply MS; eauto|].
      destruct (in_split _ _ Hin) as (d & b & E). destruct (mcase_ret _ _ _ _ _ _ _ _ _ _ _ _ Hc E) as (_ & _ & Ht & -> & _). apply MS. eapply J1; [exact Ht|reflexivity].
  Qed.

  Lemma MJ_init v w ths : G (w, ths) [] -> nth_error ths v = Some FRest -> MJ v (w, ths) [].
  Proof. intros HG Hv. split; [exact HG|]. cbn [fst snd]. split; [intros q Hq Ha; rewrite Hv in Hq; injection Hq as <-; destruct Ha|intros r K []]. Qed.

  (** A thread called with the knowledge of a return of [op0] reads no message before the one of that call. *)
  Lemma MJ_call v w0 ths0 sched c tr a r Kr b t o Kc d :
    G (w0, ths0) [] -> nth_error ths0 v = Some FRest -> exec (wman_step racq) (w0, ths0) sched = Some (c, tr) ->
    tr = (a ++ HEv (Ret v op0 r) Kr :: b) ++ HEv (Call t o) Kc :: d -> incl Kr Kc ->
    exists w ths s2, nth_error ths t = Some FRest /\ G (w, upd ths t (man_entry o)) ((a ++ HEv (Ret v op0 r) Kr :: b) ++ [HEv (Call t o) Kc]) /\
      mark (Q ((a ++ HEv (Ret v op0 r) Kr :: b) ++ [HEv (Call t o) Kc])) w (wkn w t) /\ exec (wman_step racq) (w, upd ths t (man_entry o)) s2 = Some (c, d).
  Proof.
    intros HG Hv H E0 HK. destruct (exec_cut _ _ _ _ _ _ _ _ H E0) as (s1 & act & s2 & [w1 ths1] & [w2 ths2] & x1 & dd & es & d' & y1 & H1 & H2 & H3 & H4 & H5 & H6).
    assert (HJ : MJ v (w1, ths1) x1).
    { revert H1. apply (exec_inv (wman_step racq) (MJ v)); [apply MJ_init; auto|]. intros. eapply MJ_step; eauto. }
    destruct HJ as (HG1 & J1 & J2). destruct (wman_case _ _ _ _ _ _ _ _ Hn (Gmw _ _ HG1) H2) as (_ & _ & Hc).
    destruct (mcase_call _ _ _ _ _ _ _ _ _ _ _ Hc H4) as (-> & -> & Ht & -> & -> & ->). rewrite app_nil_r in H5. subst x1. cbn [app] in *. subst y1 es.
    exists w1, ths1, s2. split; [exact Ht|]. split; [eapply Gstep; eauto|]. split; [|exact H3].
    eapply mark_step; eauto. eapply mark_know; [exact HK|]. eapply J2. apply in_or_app. right. left. reflexivity.
  Qed.
End Marker.

(** * A set() that happens before a wait *)
Definition noreset (tr : list mev) : Prop := forall u K, ~ In (HEv (Call u FReset) K) tr.
Lemma noreset_app a b : noreset (a ++ b) -> noreset a /\ noreset b.
Proof. intros H. split; intros u K Hin; apply (H u K); apply in_or_app; auto. Qed.
Definition VQ (tr : list mev) (m : msg) : Prop := noreset tr -> posted m = true.
Definition VG n (c : wmem * list fpc) (tr : list mev) : Prop := MW n c /\ (noreset tr -> forall u, nth_error (snd c) u <> Some FAnd).

Lemma VG_step racq n : Z.of_nat n < 2 ^ 31 -> forall c tr a c' e, VG n c tr -> wman_step racq c a = Some (c', e) -> VG n c' (tr ++ e).
Proof.
  intros Hn [w ths] tr a [w' ths'] e (HW & HA) Hs. destruct (wman_case _ _ _ _ _ _ _ _ Hn HW Hs) as (HW' & _ & Hc). split; [exact HW'|]. intros Hnr u Hu. cbn [fst snd] in *.
  destruct (noreset_app _ _ Hnr) as (N1 & N2). specialize (HA N1).
  destruct Hc as [t o Ht -> -> ->|t o r Ht -> -> ->|t p Ht Hd Hr He ->|Eh -> Ee].
  - destruct (nth_upd_inv _ _ _ _ _ Hu) as [(<- & F & _)|(_ & Hu')]; [|eapply HA; eauto]. destruct o; try discriminate F. apply (N2 t (wkn w t)). left. reflexivity.
  - destruct (nth_upd_inv _ _ _ _ _ Hu) as [(<- & F & _)|(_ & Hu')]; [discriminate F|eapply HA; eauto].
  - destruct (Nat.eq_dec u t) as [->|Hne].
    2:{ destruct (mf_old _ _ _ _ _ _ _ _ _ He Hu Hne) as [F|(k0 & _ & F)]; [eapply HA; eauto|discriminate F]. }
    destruct He as [p' Eh -> _ _ _ F _ _ _ _| -> -> ->|p' h m x E1 E2 _ Gi _ -> _ F _ _ _ _ _ _ _].
    + rewrite (nth_upd_eq _ _ _ _ Ht) in Hu. congruence.
    + destruct (wake_inv _ _ _ _ _ Hu) as [(_ & F)|(q0 & H1 & F)]; [discriminate F|]. destruct q0; try discriminate F. eapply HA; eauto.
    + rewrite (nth_upd_eq _ _ _ _ Ht) in Hu. congruence.
  - eapply HA; eauto.
Qed.
Lemma VQ_push n w ths tr t p m x : VG n (w, ths) tr -> nth_error ths t = Some p -> incl (mrel m) (mrel x) ->
  (p = FOr -> incl (wkn w t) (mrel x) /\ posted x = true) -> (p <> FOr -> p <> FAnd -> posted x = posted m) -> (p = FAnd -> posted x = false) ->
  (VQ tr m -> VQ tr x) /\ (p = man_entry FSet -> VQ tr x).
Proof.
  intros (_ & HA) Ht _ Q1 Q2 _. unfold VQ. split.
  - intros HQ Hnr. assert (Hp : p <> FAnd) by (intros ->; exact (HA Hnr _ Ht)). assert (D : p = FOr \/ p <> FOr) by (destruct p; auto; right; discriminate).
    destruct D as [D|D]; [apply Q1; exact D|]. rewrite Q2 by auto. auto.
  - intros F _. apply Q1. exact F.
Qed.
Lemma VQ_mono tr e m : VQ tr m -> VQ (tr ++ e) m. Proof. unfold VQ. intros H Hnr. apply H. apply (proj1 (noreset_app _ _ Hnr)). Qed.

Definition waitop (o : fop) : Prop := o = FWait \/ o = FTry \/ o = FTimed.
Definition gpc (q : fpc) : Prop := match q with FRest | FOr | FBcast | FLoad _ _ => True | FDone o r => waitop o -> fseen o r = true | _ => False end.

Lemma VR_step racq n t T0 : Z.of_nat n < 2 ^ 31 ->
  let P := fun (c : wmem * list fpc) tr => VG n c (T0 ++ tr) /\ mark (VQ (T0 ++ tr)) (fst c) (wkn (fst c) t) /\ (noreset (T0 ++ tr) -> forall q, nth_error (snd c) t = Some q -> gpc q) in
  forall c tr a c' e, P c tr -> wman_step racq c a = Some (c', e) -> P c' (tr ++ e).
Proof.
  intros Hn P [w ths] tr a [w' ths'] e (HG & HM & HR) Hs. unfold P. cbn [fst snd] in *. rewrite app_assoc.
  destruct (wman_case _ _ _ _ _ _ _ _ Hn (proj1 HG) Hs) as (_ & HK & Hc).
  split; [eapply VG_step; eauto|]. split.
  { eapply mark_know; [apply HK|]. eapply (mark_step racq n VQ (VG n) FSet); eauto; [intros ? ? F; apply F|apply VQ_mono|]. intros. eapply VQ_push; eauto. }
  intros Hnr q Hq. destruct (noreset_app _ _ Hnr) as (N1 & N2). specialize (HR N1).
  destruct Hc as [v o Ht -> -> ->|v o r Ht -> -> ->|v p Ht Hd Hr He ->|Eh -> Ee].
  - destruct (nth_upd_inv _ _ _ _ _ Hq) as [(<- & -> & _)|(_ & Hq')]; [|auto]. destruct o; try exact I. destruct (N2 v (wkn w v)). left. reflexivity.
  - destruct (nth_upd_inv _ _ _ _ _ Hq) as [(<- & -> & _)|(_ & Hq')]; [exact I|auto].
  - destruct (Nat.eq_dec t v) as [<-|Hne].
    2:{ destruct (mf_old _ _ _ _ _ _ _ _ _ He Hq Hne) as [F|(k0 & F & _)]; [auto|destruct (HR _ F)]. }
    specialize (HR _ Ht). pose proof (proj2 HG N1 t) as HA. cbn [snd] in HA.
    destruct He as [p' Eh -> D1 D2 _ _ _ _ _ F| -> -> ->|p' h m x E1 E2 _ Gi _ -> _ _ _ _ _ _ _ F1 F].
    + rewrite (nth_upd_eq _ _ _ _ Ht) in Hq. injection Hq as <-. destruct D1 as (D1 & D3). destruct p; try contradiction; try congruence.
      * destruct (F _ _ eq_refl) as (i & m & F1 & F2 & F3). rewrite (F3 (mark_read _ _ _ _ _ HM F1 F2 N1)). intros _. apply fkres_seen.
    + destruct (wake_inv _ _ _ _ _ Hq) as [(_ & ->)|(q0 & H1 & ->)]; [intros [F|[F|F]]; discriminate F|]. rewrite Ht in H1. injection H1 as <-. exact I.
    + rewrite (nth_upd_eq _ _ _ _ Ht) in Hq. injection Hq as <-. destruct F1 as (F1 & F2). destruct p; try contradiction; try congruence.
      * assert (A : after FSet p') by (apply (F FSet); auto). destruct p'; try contradiction; [exact I|]. cbn in A. subst. intros [E|[E|E]]; discriminate E.
  - auto.
Qed.

Lemma wman_visible racq n w0 ths0 sched c tr u a r Kr b t o Kc b2 r' K' d : Z.of_nat n < 2 ^ 31 -> MW n (w0, ths0) ->
  (forall v, nth_error ths0 v <> Some FAnd) -> nth_error ths0 u = Some FRest ->
  exec (wman_step racq) (w0, ths0) sched = Some (c, tr) ->
  tr = (a ++ HEv (Ret u FSet r) Kr :: b) ++ HEv (Call t o) Kc :: b2 ++ HEv (Ret t o r') K' :: d ->
  noreset ((a ++ HEv (Ret u FSet r) Kr :: b) ++ HEv (Call t o) Kc :: b2) -> incl Kr Kc -> waitop o -> fseen o r' = true.
Proof.
  intros Hn HW HA Hu H E0 Hnr HK Ho.
  destruct (MJ_call racq n VQ (VG n) FSet Hn (or_introl eq_refl) (fun c tr F => proj1 F) (VG_step racq n Hn) VQ_mono (VQ_push n) u w0 ths0 sched c tr a r Kr b t o Kc _ (conj HW (fun _ => HA)) Hu H E0 HK) as (w & ths & s2 & Ht & G1 & G2 & G3).
  set (T0 := (a ++ HEv (Ret u FSet r) Kr :: b) ++ [HEv (Call t o) Kc]) in *.
  assert (Hnr' : noreset (T0 ++ b2)). { unfold T0. rewrite <- app_assoc. exact Hnr. }
  refine (exec_events (wman_step racq) _ (fun b2 x => match x with HEv (Ret t0 o r') _ => t0 = t -> noreset (T0 ++ b2) -> waitop o -> fseen o r' = true | _ => True end) _ _ (VR_step racq n t T0 Hn) _ s2 c _ b2 (HEv (Ret t o r') K') d G3 eq_refl eq_refl Hnr' Ho).
  - cbn [fst snd]. rewrite app_nil_r. split; [exact G1|]. split; [exact G2|]. intros _ q Hq. rewrite (nth_upd_eq _ _ _ _ Ht) in Hq. injection Hq as <-. destruct Ho as [-> |[-> | ->]]; exact I.
  - intros [w1 ths1] tr1 act1 [w2 ths2] es d1 x b1 (HG & HM & HR) Hs Ees. destruct x as [|[|t1 o1 r1] K1]; try exact I. intros -> N Hw.
    destruct (wman_case _ _ _ _ _ _ _ _ Hn (proj1 HG) Hs) as (_ & _ & Hc). destruct (mcase_ret _ _ _ _ _ _ _ _ _ _ _ _ Hc Ees) as (-> & _ & Ht1 & _). rewrite app_nil_r in N. exact (HR N _ Ht1 Hw).
Qed.

Lemma wman_visible_pc racq n w0 ths0 sched w1 ths1 tr u a r Kr b t o Kc b2 q : Z.of_nat n < 2 ^ 31 -> MW n (w0, ths0) ->
  (forall v, nth_error ths0 v <> Some FAnd) -> nth_error ths0 u = Some FRest ->
  exec (wman_step racq) (w0, ths0) sched = Some ((w1, ths1), tr) ->
  tr = (a ++ HEv (Ret u FSet r) Kr :: b) ++ HEv (Call t o) Kc :: b2 ->
  noreset tr -> incl Kr Kc -> waitop o -> nth_error ths1 t = Some q -> gpc q.
Proof.
  intros Hn HW HA Hu H E0 Hnr HK Ho Hq.
  destruct (MJ_call racq n VQ (VG n) FSet Hn (or_introl eq_refl) (fun c tr F => proj1 F) (VG_step racq n Hn) VQ_mono (VQ_push n) u w0 ths0 sched (w1, ths1) tr a r Kr b t o Kc _ (conj HW (fun _ => HA)) Hu H E0 HK) as (w & ths & s2 & Ht & G1 & G2 & G3).
  set (T0 := (a ++ HEv (Ret u FSet r) Kr :: b) ++ [HEv (Call t o) Kc]) in *.
  assert (Hnr' : noreset (T0 ++ b2)). { unfold T0. rewrite <- app_assoc. rewrite E0 in Hnr. exact Hnr. }
  assert (G : VG n (w1, ths1) (T0 ++ b2) /\ mark (VQ (T0 ++ b2)) w1 (wkn w1 t) /\ (noreset (T0 ++ b2) -> forall q, nth_error ths1 t = Some q -> gpc q)).
  { refine (exec_inv (wman_step racq) (fun c tr => VG n c (T0 ++ tr) /\ mark (VQ (T0 ++ tr)) (fst c) (wkn (fst c) t) /\ (noreset (T0 ++ tr) -> forall q, nth_error (snd c) t = Some q -> gpc q)) _ s2 (w1, ths1) b2 _ (VR_step racq n t T0 Hn) G3).
    cbn [fst snd]. rewrite app_nil_r. split; [exact G1|]. split; [exact G2|]. intros _ q0 Hq0. rewrite (nth_upd_eq _ _ _ _ Ht) in Hq0. injection Hq0 as <-. destruct Ho as [-> |[-> | ->]]; exact I. }
  exact (proj2 (proj2 G) Hnr' _ Hq).
Qed.

(** * A reset() that happens before a wait *)
Definition RM (c : wmem * list fpc) : Prop := forall m, In m (hist (fst c) 0) -> incl (mrel m) (nrel (fst c)).
Lemma RM_step racq n w ths a w' ths' e : Z.of_nat n < 2 ^ 31 -> MW n (w, ths) -> RM (w, ths) -> wman_step racq (w, ths) a = Some ((w', ths'), e) -> RM (w', ths').
Proof.
  intros Hn HW HR Hs. destruct (wman_case _ _ _ _ _ _ _ _ Hn HW Hs) as (_ & _ & Hc). unfold RM in *. cbn [fst snd] in *.
  assert (Same : hist w' 0 = hist w 0 -> forall m, In m (hist w' 0) -> incl (mrel m) (nrel w')) by (intros Eh; rewrite Eh, (nrel_same _ _ Eh); exact HR).
  destruct Hc as [t o Ht -> -> ->|t o r Ht -> -> ->|t p Ht Hd Hr He ->|Eh -> Ee]; auto.
  destruct He as [p' Eh _ _ _ _ _ _ _ _ _| -> _ _|p' h m x E1 E2 _ G _ _ _ _ _ _ _ _ _ _ _]; auto.
  rewrite two_end in E2. rewrite (nrel_end _ _ _ E1) in HR. rewrite (nrel_end _ _ _ E2), E2, <- E1. intros m' Hin.
  apply in_app_or in Hin. destruct Hin as [Hin|[<-|[]]]; [|apply incl_refl]. exact (incl_tran (HR _ Hin) G).
Qed.
Definition NG n (c : wmem * list fpc) (tr : list mev) : Prop := MW n c /\ FC c tr /\ RM c.
Definition NQ (tr : list mev) (m : msg) : Prop := posted m = true -> someset tr (mrel m).
Lemma NG_step racq n : Z.of_nat n < 2 ^ 31 -> forall c tr a c' e, NG n c tr -> wman_step racq c a = Some (c', e) -> NG n c' (tr ++ e).
Proof. intros Hn [w ths] tr a [w' ths'] e (HW & HF & HR) Hs. split; [eapply wman_case; eauto|]. split; [eapply FC_step; eauto|eapply RM_step; eauto]. Qed.
Lemma NQ_mono tr e m : NQ tr m -> NQ (tr ++ e) m. Proof. unfold NQ. intros H Hp. eapply someset_mono; [exact (H Hp)|apply incl_refl]. Qed.
Lemma someset_incl tr L L' : someset tr L -> incl L L' -> someset tr L'. Proof. intros H1 H2. rewrite <- (app_nil_r tr). eapply someset_mono; eauto. Qed.
Lemma NQ_push n w ths tr t p m x : NG n (w, ths) tr -> nth_error ths t = Some p -> incl (mrel m) (mrel x) ->
  (p = FOr -> incl (wkn w t) (mrel x) /\ posted x = true) -> (p <> FOr -> p <> FAnd -> posted x = posted m) -> (p = FAnd -> posted x = false) ->
  (NQ tr m -> NQ tr x) /\ (p = man_entry FReset -> NQ tr x).
Proof.
  intros (_ & HF & _) Ht Gi Q1 Q2 Q3. unfold NQ. split.
  - intros HQ Hp. assert (D : p = FOr \/ p = FAnd \/ (p <> FOr /\ p <> FAnd)) by (destruct p; auto; right; right; split; discriminate). destruct D as [->|[D|(D1 & D2)]].
    + destruct (HF _ Ht) as (K & F1 & F2). exists t, K. split; [exact F1|exact (incl_tran F2 (proj1 (Q1 eq_refl)))].
    + rewrite (Q3 D) in Hp. discriminate.
    + rewrite (Q2 D1 D2) in Hp. exact (someset_incl _ _ _ (HQ Hp) Gi).
  - intros F Hp. rewrite (Q3 F) in Hp. discriminate.
Qed.

Definition npc (tr : list mev) (w : wmem) (t : nat) (q : fpc) : Prop :=
  match q with FSub _ => someset tr (nrel w) | FDone o r => fseen o r = true -> someset tr (wkn w t) | _ => True end.

Lemma NR_step racq n t T0 : Z.of_nat n < 2 ^ 31 ->
  let P := fun (c : wmem * list fpc) tr => NG n c (T0 ++ tr) /\ mark (NQ (T0 ++ tr)) (fst c) (wkn (fst c) t) /\ (forall q, nth_error (snd c) t = Some q -> npc (T0 ++ tr) (fst c) t q) in
  forall c tr a c' e, P c tr -> wman_step racq c a = Some (c', e) -> P c' (tr ++ e).
Proof.
  intros Hn P [w ths] tr a [w' ths'] e (HG & HM & HR) Hs. unfold P. cbn [fst snd] in *. rewrite app_assoc.
  destruct (wman_case _ _ _ _ _ _ _ _ Hn (proj1 HG) Hs) as (_ & HK & Hc).
  assert (HM' : mark (NQ ((T0 ++ tr) ++ e)) w' (wkn w' t)).
  { eapply mark_know; [apply HK|]. eapply (mark_step racq n NQ (NG n) FReset); eauto; [intros ? ? F; apply F|apply NQ_mono|]. intros. eapply NQ_push; eauto. }
  split; [eapply NG_step; eauto|]. split; [exact HM'|].
  assert (HN : incl (nrel w) (nrel w')).
  { destruct Hc as [v o Ht -> -> ->|v o r Ht -> -> ->|v p Ht Hd Hr He ->|Eh -> Ee]; try apply incl_refl; [|rewrite (nrel_same _ _ Eh); apply incl_refl].
    destruct He as [p' Eh _ _ _ _ _ _ _ _ _| -> _ _|p' h m x E1 E2 _ G _ _ _ _ _ _ _ _ _ _ _]; [rewrite (nrel_same _ _ Eh); apply incl_refl|apply incl_refl|].
    rewrite two_end in E2. rewrite (nrel_end _ _ _ E1), (nrel_end _ _ _ E2). exact G. }
  assert (Old : forall q, nth_error ths t = Some q -> npc ((T0 ++ tr) ++ e) w' t q).
  { intros q Hq. specialize (HR _ Hq). destruct q; cbn in *; auto; [eapply someset_mono; eauto|]. intros Hse. eapply someset_mono; [exact (HR Hse)|apply HK]. }
  intros q Hq.
  destruct Hc as [v o Ht -> -> ->|v o r Ht -> -> ->|v p Ht Hd Hr He ->|Eh -> Ee].
  - destruct (nth_upd_inv _ _ _ _ _ Hq) as [(<- & -> & _)|(_ & Hq')]; [|auto]. destruct o; exact I.
  - destruct (nth_upd_inv _ _ _ _ _ Hq) as [(<- & -> & _)|(_ & Hq')]; [exact I|auto].
  - destruct (Nat.eq_dec t v) as [<-|Hne].
    2:{ destruct (mf_old _ _ _ _ _ _ _ _ _ He Hq Hne) as [F|(k0 & F & ->)]; [auto|exact I]. }
    rewrite app_nil_r in *.
    destruct He as [p' Eh -> _ _ _ _ _ F1 F2 _| -> -> ->|p' h m x E1 E2 _ Gi _ -> _ _ _ _ _ F1 F2 _ _].
    + rewrite (nth_upd_eq _ _ _ _ Ht) in Hq. injection Hq as <-. destruct p'; cbn; auto.
      * destruct (F1 _ eq_refl) as (i & m & A1 & A2 & A3). rewrite (nrel_same _ _ Eh). exact (someset_incl _ _ _ (mark_read _ _ _ _ _ HM A1 A2 A3) (proj2 (proj2 HG) _ (nth_error_In _ _ A1))).
      * intros Hse. destruct (F2 _ _ eq_refl Hse) as (i & m & A1 & A2 & A3 & A4). exact (someset_incl _ _ _ (mark_read _ _ _ _ _ HM A1 A2 A3) A4).
    + destruct (wake_inv _ _ _ _ _ Hq) as [(_ & ->)|(q0 & H1 & ->)]; [intros F; discriminate F|]. rewrite Ht in H1. injection H1 as <-. exact I.
    + rewrite (nth_upd_eq _ _ _ _ Ht) in Hq. injection Hq as <-. destruct p'; cbn; auto.
      * rewrite two_end in E2. rewrite (nrel_end _ _ _ E2). exact (mark_last _ _ _ HM' _ _ E2 (F2 _ eq_refl)).
      * intros Hse. destruct (F1 _ _ eq_refl Hse) as ((k & ->) & A). specialize (HR _ Ht). cbn in HR. rewrite (nrel_end _ _ _ E1) in HR. exact (someset_incl _ _ _ HR A).
  - auto.
Qed.

Lemma wman_nostale racq n w0 ths0 sched c tr u a r Kr b t o Kc b2 r' K' d : Z.of_nat n < 2 ^ 31 -> MW n (w0, ths0) -> RM (w0, ths0) ->
  (forall v, nth_error ths0 v <> Some FOr) -> nth_error ths0 u = Some FRest ->
  exec (wman_step racq) (w0, ths0) sched = Some (c, tr) ->
  tr = (a ++ HEv (Ret u FReset r) Kr :: b) ++ HEv (Call t o) Kc :: b2 ++ HEv (Ret t o r') K' :: d ->
  incl Kr Kc -> waitop o -> fseen o r' = true -> someset ((a ++ HEv (Ret u FReset r) Kr :: b) ++ HEv (Call t o) Kc :: b2) K'.
Proof.
  intros Hn HW HM0 HA Hu H E0 HK Ho Hse.
  assert (HG0 : NG n (w0, ths0) []). { split; [exact HW|]. split; [|exact HM0]. intros v Hv. destruct (HA _ Hv). }
  destruct (MJ_call racq n NQ (NG n) FReset Hn (or_intror eq_refl) (fun c tr F => proj1 F) (NG_step racq n Hn) NQ_mono (NQ_push n) u w0 ths0 sched c tr a r Kr b t o Kc _ HG0 Hu H E0 HK) as (w & ths & s2 & Ht & G1 & G2 & G3).
  set (T0 := (a ++ HEv (Ret u FReset r) Kr :: b) ++ [HEv (Call t o) Kc]) in *.
  replace ((a ++ HEv (Ret u FReset r) Kr :: b) ++ HEv (Call t o) Kc :: b2) with (T0 ++ b2) by (unfold T0; rewrite <- app_assoc; reflexivity).
  refine (exec_events (wman_step racq) _ (fun b2 x => match x with HEv (Ret t0 o r') K' => t0 = t -> fseen o r' = true -> someset (T0 ++ b2) K' | _ => True end) _ _ (NR_step racq n t T0 Hn) _ s2 c _ b2 (HEv (Ret t o r') K') d G3 eq_refl eq_refl Hse).
  - cbn [fst snd]. rewrite app_nil_r. split; [exact G1|]. split; [exact G2|]. intros q Hq. rewrite (nth_upd_eq _ _ _ _ Ht) in Hq. injection Hq as <-. destruct Ho as [-> |[-> | ->]]; exact I.
  - intros [w1 ths1] tr1 act1 [w2 ths2] es d1 x b1 (HG & HM & HR) Hs Ees. destruct x as [|[|t1 o1 r1] K1]; try exact I. intros -> Hw.
    destruct (wman_case _ _ _ _ _ _ _ _ Hn (proj1 HG) Hs) as (_ & _ & Hc). destruct (mcase_ret _ _ _ _ _ _ _ _ _ _ _ _ Hc Ees) as (-> & _ & Ht1 & -> & _). rewrite app_nil_r. exact (HR _ Ht1 Hw).
Qed.

(** * Sets and later resets, when reset() acquires *)
Lemma wman_pubreset n w0 ths0 sched c tr K t a K' r d : Z.of_nat n < 2 ^ 31 -> MW n (w0, ths0) -> exec (wman_step true) (w0, ths0) sched = Some (c, tr) ->
  incl K (nrel w0) -> (forall r, nth_error ths0 t <> Some (FDone FReset r)) -> tr = a ++ HEv (Ret t FReset r) K' :: d -> incl K K'.
Proof.
  intros Hn HW0 H HK0 Hd0 E0.
  set (PJ := fun (c : wmem * list fpc) (tr : list mev) => MW n c /\ incl K (nrel (fst c)) /\ forall r, nth_error (snd c) t = Some (FDone FReset r) -> incl K (wkn (fst c) t)).
  refine (exec_events (wman_step true) PJ (fun a x => match x with HEv (Ret t1 FReset r) K' => t1 = t -> incl K K' | _ => True end) (w0, ths0) _ _ _ sched c tr a (HEv (Ret t FReset r) K') d H E0 eq_refl); clear H E0 a r K' d c tr sched.
  - split; [exact HW0|]. split; [exact HK0|]. cbn [snd]. intros r Hr. destruct (Hd0 _ Hr).
  - intros [w ths] tr a [w' ths'] e (HW & H1 & H2) Hs. destruct (wman_case _ _ _ _ _ _ _ _ Hn HW Hs) as (HW' & HM & Hc). split; [exact HW'|]. cbn [fst snd] in *.
    assert (Old : forall r, nth_error ths t = Some (FDone FReset r) -> incl K (wkn w' t)) by (intros r Hr; eapply incl_tran; [eapply H2; eauto|apply HM]).
    destruct Hc as [v o Ht -> -> ->|v o r Ht -> -> ->|v p Ht Hd Hr He ->|Eh -> Ee].
    + split; [exact H1|]. intros r Hr. destruct (nth_upd_inv _ _ _ _ _ Hr) as [(<- & F & _)|(_ & F)]; [destruct o; discriminate F|eauto].
    + split; [exact H1|]. intros r1 Hr. destruct (nth_upd_inv _ _ _ _ _ Hr) as [(<- & F & _)|(_ & F)]; [discriminate F|eauto].
    + destruct (Nat.eq_dec t v) as [<-|Hne].
      * destruct He as [p' Eh -> _ _ _ _ F _ _ _| -> -> ->|p' h m x E1 E2 _ Gi _ -> _ _ _ _ Q3 _ _ _ F].
        -- rewrite (nrel_same _ _ Eh). split; [exact H1|]. intros r Hq. rewrite (nth_upd_eq _ _ _ _ Ht) in Hq. injection Hq as ->. destruct (F FReset); cbn; auto.
        -- split; [exact H1|]. intros r Hq. destruct (wake_inv _ _ _ _ _ Hq) as [(_ & F)|(q0 & F1 & F)]; [discriminate F|]. rewrite Ht in F1. injection F1 as <-. discriminate F.
        -- rewrite two_end in E2. rewrite (nrel_end _ _ _ E1) in H1. rewrite (nrel_end _ _ _ E2). split; [exact (incl_tran H1 Gi)|]. intros r Hq. rewrite (nth_upd_eq _ _ _ _ Ht) in Hq. injection Hq as ->.
           assert (A : p = FAnd) by (apply (F FReset); cbn; auto). exact (incl_tran H1 (proj2 (Q3 A) eq_refl)).
      * split.
        -- destruct He as [p' Eh _ _ _ _ _ _ _ _ _| -> _ _|p' h m x E1 E2 _ Gi _ _ _ _ _ _ _ _ _ _ _]; [rewrite (nrel_same _ _ Eh); exact H1|exact H1|].
           rewrite two_end in E2. rewrite (nrel_end _ _ _ E1) in H1. rewrite (nrel_end _ _ _ E2). exact (incl_tran H1 Gi).
        -- intros r Hq. destruct (mf_old _ _ _ _ _ _ _ _ _ He Hq Hne) as [F|(k & _ & F)]; [eauto|discriminate F].
    + rewrite (nrel_same _ _ Eh). split; [exact H1|eauto].
  - intros [w ths] tr a [w' ths'] es d x b (HW & H1 & H2) Hs Ees. destruct x as [|[|t1 o1 r1] K1]; try exact I. destruct o1; try exact I. intros ->.
    destruct (wman_case _ _ _ _ _ _ _ _ Hn HW Hs) as (_ & _ & Hc). destruct (mcase_ret _ _ _ _ _ _ _ _ _ _ _ _ Hc Ees) as (_ & _ & Ht1 & -> & _). exact (H2 _ Ht1).
Qed.
