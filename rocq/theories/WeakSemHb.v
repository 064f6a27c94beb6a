(** What calls of the semaphore-based auto_reset_event learn from each other on weak memory (over WeakSem.v). *)
From Coq Require Import List Bool Arith ZArith Lia.
From Verif Require Import ListSum Exec Events Lin Word EventSpec AutoSemModel AutoSemProof Hb HbSpin HbTokens HbAutoSem Weak WeakAuto WeakAutoHb WeakSem.
Import ListNotations.
Local Open Scope Z_scope.

Lemma took_sk k : took (skop k) (skres k) = 1. Proof. destruct k; reflexivity. Qed.

(** Who comes to have a post in hand. *)
Lemma seff_new w t p w' p' ths v q : nth_error ths t = Some p -> seff w t p w' p' -> nth_error (upd ths t p') v = Some q -> sdtake q = 1 ->
  nth_error ths v = Some q \/ (v = t /\ incl (trel w 1) (wkn w' t) /\ 0 < top w 1).
Proof.
  intros Ht He Hv Hq. destruct (nth_upd_inv _ _ _ _ _ Hv) as [(<- & -> & _)|(_ & Hv')]; [|left; exact Hv'].
  destruct He as [E0 E1 S1 S2 S3 S4 S5 S6 S7|x E0 E1 X1 X2 X3 S1 S2 S3 S4 Y1 Y2 Y3 Y4|x E0 E1 X1 -> -> X2 X3 X4|k x E0 E1 X1 -> -> X2 X3 X4 X5]; try lia; [discriminate Hq|auto].
Qed.
Lemma seff_trel w t p w' p' : seff w t p w' p' -> incl (trel w 1) (trel w' 1).
Proof.
  intros [E0 E1 S1 S2 S3 S4 S5 S6 S7|x E0 E1 X1 X2 X3 S1 S2 S3 S4 Y1 Y2 Y3 Y4|x E0 E1 X1 _ _ X2 X3 X4|k x E0 E1 X1 _ _ X2 X3 X4 X5];
    rewrite ?(trel_same _ _ _ E1), ?(trel_end _ _ _ _ E1); auto using incl_refl.
Qed.
Lemma seff_inpost w t p w' p' : seff w t p w' p' -> sinpost p' <= sinpost p.
Proof.
  intros [E0 E1 S1 S2 S3 S4 S5 S6 S7|x E0 E1 X1 X2 X3 S1 S2 S3 S4 Y1 Y2 Y3 Y4|x E0 E1 X1 -> -> X2 X3 X4|k x E0 E1 X1 -> -> X2 X3 X4 X5]; cbn [sinpost]; lia.
Qed.

Lemma scase_ret w ths w' ths' es d t o r K b : scase w ths w' ths' es -> es = d ++ HEv (Ret t o r) K :: b ->
  d = [] /\ nth_error ths t = Some (SDone o r) /\ K = wkn w t.
Proof.
  intros Hc E. destruct Hc as [t1 o1 Ht -> -> ->|t1 o1 r1 Ht -> -> ->|t1 p p' Ht Hd -> He ->|E0 E1 -> Ee].
  - destruct d as [|? [|]]; discriminate E.
  - destruct d as [|? [|]]; try discriminate E. injection E as <- <- <- <- <-. auto.
  - destruct d; discriminate E.
  - rewrite E, flat_map_app in Ee. cbn in Ee. destruct (flat_map base_ev d); discriminate Ee.
Qed.

(** ** Some post *)
Definition SK (c : wmem * list spc) (tr : list wev) : Prop :=
  (0 < top (fst c) 1 -> some_post tr (trel (fst c) 1)) /\ (forall v q, nth_error (snd c) v = Some q -> sdtake q = 1 \/ sinpost q = 1 -> some_post tr (wkn (fst c) v)).
Lemma SK_step n : Z.of_nat n < 2 ^ 31 - 1 -> forall c tr a c' e, WSK n c tr /\ SK c tr -> wsem_step c a = Some (c', e) -> WSK n c' (tr ++ e) /\ SK c' (tr ++ e).
Proof.
  intros Hn [w ths] tr a [w' ths'] e (HW & K1 & K2) Hs. split; [eapply WSK_step; eauto|]. destruct HW as (HW & _). destruct (wsem_case _ _ _ _ _ _ _ Hn HW Hs) as (_ & HM & Hc). unfold SK in *. cbn [fst snd] in *.
  assert (K2' : forall v q, nth_error ths v = Some q -> sdtake q = 1 \/ sinpost q = 1 -> some_post (tr ++ e) (wkn w' v)) by (intros v q Hv Hq; eapply some_post_mono; [eapply K2; eauto|apply HM]).
  assert (M : forall S, some_post tr S -> some_post (tr ++ e) S) by (intros S HS; eapply some_post_mono; [exact HS|apply incl_refl]).
  destruct Hc as [t o Ht -> -> ->|t o r Ht -> -> ->|t p p' Ht Hd -> He ->|E0 E1 -> Ee].
  - split; [auto|]. intros v q Hv Hq. destruct (nth_upd_inv _ _ _ _ _ Hv) as [(<- & -> & _)|(_ & Hv')]; [|eauto].
    destruct o; cbn in Hq; destruct Hq as [Hq|Hq]; try discriminate Hq. exists t, (wkn w t). split; [apply in_or_app; right; left; reflexivity|apply incl_refl].
  - split; [auto|]. intros v q Hv Hq. destruct (nth_upd_inv _ _ _ _ _ Hv) as [(<- & -> & _)|(_ & Hv')]; [|eauto]. destruct Hq as [Hq|Hq]; discriminate Hq.
  - split.
    + destruct He as [E0 E1 S1 S2 S3 S4 S5 S6 S7|x E0 E1 X1 X2 X3 S1 S2 S3 S4 Y1 Y2 Y3 Y4|x E0 E1 X1 -> -> X2 X3 X4|k x E0 E1 X1 -> -> X2 X3 X4 X5].
      * rewrite (top_same _ _ _ E1), (trel_same _ _ _ E1). auto.
      * rewrite (top_same _ _ _ E1), (trel_same _ _ _ E1). auto.
      * intros _. rewrite (trel_end _ _ _ _ E1). eapply some_post_mono; [eapply K2; [exact Ht|right; reflexivity]|exact X4].
      * intros _. rewrite (trel_end _ _ _ _ E1). eapply some_post_mono; [apply K1; exact X3|exact X4].
    + intros v q Hv [Hq|Hq].
      * destruct (seff_new _ _ _ _ _ _ _ _ Ht He Hv Hq) as [Hv'|(-> & Hi & Hp)]; [eauto|]. eapply some_post_mono; [apply K1; exact Hp|exact Hi].
      * destruct (nth_upd_inv _ _ _ _ _ Hv) as [(<- & -> & _)|(_ & Hv')]; [|eauto]. pose proof (seff_inpost _ _ _ _ _ He). pose proof (sinpost01 p). eapply K2'; [exact Ht|right; lia].
  - rewrite (top_same _ _ _ E1), (trel_same _ _ _ E1). split; [auto|eauto].
Qed.
Lemma SK_init n : WSK n (wsem_init n) [] /\ SK (wsem_init n) [].
Proof. split; [apply WSK_init|]. split; cbn; [lia|]. intros v q Hv. apply nth_repeat in Hv. subst. intros [F|F]; discriminate F. Qed.

Lemma wsem_some n sched c tr a t o r K' d : Z.of_nat n < 2 ^ 31 - 1 -> exec wsem_step (wsem_init n) sched = Some (c, tr) -> tr = a ++ HEv (Ret t o r) K' :: d -> took o r = 1 -> some_post a K'.
Proof.
  intros Hn H E0 Hg.
  refine (exec_events wsem_step (fun c tr => WSK n c tr /\ SK c tr) (fun a x => match x with HEv (Ret t o r) K' => took o r = 1 -> some_post a K' | _ => True end) (wsem_init n) (SK_init n) (SK_step n Hn) _ sched c tr a _ d H E0 Hg).
  clear H E0 Hg a t o r K' d c tr. intros [w ths] tr a [w' ths'] es d x b ((HW & _) & _ & HK) Hs Ees. destruct x as [|[|t o r] K']; try exact I. intros Hg.
  destruct (wsem_case _ _ _ _ _ _ _ Hn HW Hs) as (_ & _ & Hc). destruct (scase_ret _ _ _ _ _ _ _ _ _ _ _ Hc Ees) as (-> & Ht & ->). rewrite app_nil_r. apply (HK _ _ Ht). left. exact Hg.
Qed.

(** ** What the semaphore publishes reaches every wait that does not have its result yet *)
Lemma wsem_pub n w0 ths0 sched c tr K t : Z.of_nat n < 2 ^ 31 - 1 -> WS n (w0, ths0) -> exec wsem_step (w0, ths0) sched = Some (c, tr) ->
  incl K (trel w0 1) -> (forall p, nth_error ths0 t = Some p -> sdtake p = 0) ->
  forall a o r K' d, tr = a ++ HEv (Ret t o r) K' :: d -> took o r = 1 -> incl K K'.
Proof.
  intros Hn HW0 H HK0 Hd0 a o r K' d E0 Hg.
  set (PJ := fun (c : wmem * list spc) (tr : list wev) => WS n c /\ incl K (trel (fst c) 1) /\ forall p, nth_error (snd c) t = Some p -> sdtake p = 1 -> incl K (wkn (fst c) t)).
  refine (exec_events wsem_step PJ (fun a x => match x with HEv (Ret t1 o r) K' => t1 = t -> took o r = 1 -> incl K K' | _ => True end) (w0, ths0) _ _ _ sched c tr a (HEv (Ret t o r) K') d H E0 eq_refl Hg); clear H E0 Hg a o r K' d c tr sched.
  - split; [exact HW0|]. split; [exact HK0|]. cbn [snd]. intros p Hp Hq. rewrite (Hd0 _ Hp) in Hq. discriminate.
  - intros [w ths] tr a [w' ths'] e (HW & H1 & H2) Hs. destruct (wsem_case _ _ _ _ _ _ _ Hn HW Hs) as (HW' & HM & Hc). split; [exact HW'|]. cbn [fst snd] in *.
    assert (Hkn : forall p, nth_error ths t = Some p -> sdtake p = 1 -> incl K (wkn w' t)) by (intros p Hp Hq; eapply incl_tran; [eapply H2; eauto|apply HM]).
    destruct Hc as [v o Ht -> -> ->|v o r Ht -> -> ->|v p p' Ht Hd -> He ->|E0 E1 -> Ee].
    + split; [exact H1|]. intros q Hv Hq. destruct (nth_upd_inv _ _ _ _ _ Hv) as [(<- & -> & _)|(_ & Hv')]; [destruct o; discriminate Hq|eauto].
    + split; [exact H1|]. intros q Hv Hq. destruct (nth_upd_inv _ _ _ _ _ Hv) as [(<- & -> & _)|(_ & Hv')]; [discriminate Hq|eauto].
    + split; [eapply incl_tran; [exact H1|eapply seff_trel; eauto]|].
      intros q Hv Hq. destruct (seff_new _ _ _ _ _ _ _ _ Ht He Hv Hq) as [Hv'|(-> & Hi & _)]; [eauto|]. eapply incl_tran; eauto.
    + split; [rewrite (trel_same _ _ _ E1); exact H1|eauto].
  - intros [w ths] tr a [w' ths'] es d x b (HW & H1 & H2) Hs Ees. destruct x as [|[|t1 o r] K']; try exact I. intros -> Hg.
    destruct (wsem_case _ _ _ _ _ _ _ Hn HW Hs) as (_ & _ & Hc). destruct (scase_ret _ _ _ _ _ _ _ _ _ _ _ Hc Ees) as (_ & Ht & ->). exact (H2 _ Ht Hg).
Qed.

(** ** What m_state publishes reaches every wait that registers later *)
Lemma wsem_reg n w0 ths0 sched c tr K t : Z.of_nat n < 2 ^ 31 - 1 -> WS n (w0, ths0) -> exec wsem_step (w0, ths0) sched = Some (c, tr) ->
  incl K (trel w0 0) -> (forall p, nth_error ths0 t = Some p -> sreg p = 0 /\ sdone p = false) ->
  forall a o r K' d, tr = a ++ HEv (Ret t o r) K' :: d -> o <> EPost -> incl K K'.
Proof.
  intros Hn HW0 H HK0 Hd0 a o r K' d E0 Hg.
  set (PJ := fun (c : wmem * list spc) (tr : list wev) => WS n c /\ incl K (trel (fst c) 0) /\ forall p, nth_error (snd c) t = Some p -> sreg p = 1 \/ sdone p = true -> incl K (wkn (fst c) t)).
  refine (exec_events wsem_step PJ (fun a x => match x with HEv (Ret t1 o r) K' => t1 = t -> o <> EPost -> incl K K' | _ => True end) (w0, ths0) _ _ _ sched c tr a (HEv (Ret t o r) K') d H E0 eq_refl Hg); clear H E0 Hg a o r K' d c tr sched.
  - split; [exact HW0|]. split; [exact HK0|]. cbn [snd]. intros p Hp Hq. destruct (Hd0 _ Hp) as (F1 & F2). rewrite F1, F2 in Hq. destruct Hq; discriminate.
  - intros [w ths] tr a [w' ths'] e (HW & H1 & H2) Hs. destruct (wsem_case _ _ _ _ _ _ _ Hn HW Hs) as (HW' & HM & Hc). split; [exact HW'|]. cbn [fst snd] in *.
    assert (Hkn : forall p, nth_error ths t = Some p -> sreg p = 1 \/ sdone p = true -> incl K (wkn w' t)) by (intros p Hp Hq; eapply incl_tran; [eapply H2; eauto|apply HM]).
    destruct Hc as [v o Ht -> -> ->|v o r Ht -> -> ->|v p p' Ht Hd -> He ->|E0 E1 -> Ee].
    + split; [exact H1|]. intros q Hv Hq. destruct (nth_upd_inv _ _ _ _ _ Hv) as [(<- & -> & _)|(_ & Hv')]; [destruct o; cbn in Hq; destruct Hq; discriminate|eauto].
    + split; [exact H1|]. intros q Hv Hq. destruct (nth_upd_inv _ _ _ _ _ Hv) as [(<- & -> & _)|(_ & Hv')]; [destruct Hq; discriminate|eauto].
    + split.
      * destruct He as [E0 E1 S1 S2 S3 S4 S5 S6 S7|x E0 E1 X1 X2 X3 S1 S2 S3 S4 Y1 Y2 Y3 Y4|x E0 E1 X1 -> -> X2 X3 X4|k x E0 E1 X1 -> -> X2 X3 X4 X5];
          rewrite ?(trel_same _ _ _ E0), ?(trel_end _ _ _ _ E0); auto. eapply incl_tran; eauto.
      * intros q Hv Hq. destruct (nth_upd_inv _ _ _ _ _ Hv) as [(<- & -> & _)|(_ & Hv')]; [|eauto].
        destruct He as [E0 E1 S1 S2 S3 S4 S5 S6 S7|x E0 E1 X1 X2 X3 S1 S2 S3 S4 Y1 Y2 Y3 Y4|x E0 E1 X1 -> -> X2 X3 X4|k x E0 E1 X1 -> -> X2 X3 X4 X5]; auto.
        -- apply (Hkn _ Ht). left. destruct Hq; [lia|congruence].
        -- destruct Hq as [Hq|Hq]; [|apply (Hkn _ Ht); left; auto]. pose proof (sreg_nn p). pose proof (sreg_le p). destruct (Z.eq_dec (sreg p) 1) as [F|F]; [apply (Hkn _ Ht); auto|]. eapply incl_tran; [exact H1|apply Y3; lia].
        -- destruct Hq; discriminate.
        -- apply (Hkn _ Ht). left. reflexivity.
    + split; [rewrite (trel_same _ _ _ E0); exact H1|eauto].
  - intros [w ths] tr a [w' ths'] es d x b (HW & H1 & H2) Hs Ees. destruct x as [|[|t1 o r] K']; try exact I. intros -> Hg.
    destruct (wsem_case _ _ _ _ _ _ _ Hn HW Hs) as (_ & _ & Hc). destruct (scase_ret _ _ _ _ _ _ _ _ _ _ _ Hc Ees) as (_ & Ht & ->). apply (H2 _ Ht). right. destruct o; try reflexivity. congruence.
Qed.

(** ** Whoever knows all consumptions *)
Definition sknows (w : wmem) (ths : list spc) (tr : list wev) (u : nat) : Prop :=
  (forall v q, nth_error ths v = Some q -> sdtake q = 0) /\ forall v o r K, In (HEv (Ret v o r) K) tr -> took o r = 1 -> incl K (wkn w u).
Lemma sknows_readable n w ths tr u i m : WSK n (w, ths) tr -> sknows w ths tr u -> nth_error (hist w 0%nat) i = Some m -> readable (wkn w u) (hist w 0%nat) i = true ->
  - mval m <= top w 1 + sumf spst ths.
Proof.
  intros ((_ & _ & (_ & Hst & _)) & _ & HL) (H1 & H2) Hi Hr. cbn [fst snd] in *. specialize (HL _ _ Hi). cbn [fst snd] in HL.
  assert (T0 : tlate (hist w 0%nat) i tr <= 0).
  { unfold tlate. revert H2. clear - Hr. induction tr as [|e tr IH]; intros H2; cbn [sumf]; [lia|]. specialize (IH (fun v o r K Hin => H2 v o r K (or_intror Hin))).
    destruct e as [|[|v o r] K]; try lia. pose proof (stook_nn o r). destruct (Z.eq_dec (took o r) 1) as [E|E]; [|replace (took o r) with 0 by lia; lia].
    assert (F : late (hist w 0%nat) i K = 0); [|rewrite F; lia]. unfold late. rewrite (readable_mono K (wkn w u) _ [] i); [reflexivity|apply (H2 v o r K); [left; reflexivity|exact E]|]. rewrite app_nil_r. exact Hr. }
  assert (P0 : isum (plate w i) 0 ths <= sumf sreg ths).
  { rewrite <- (isum_sumf sreg ths 0). apply isum_le. intros j p Hj. unfold plate. rewrite (H1 _ _ Hj). pose proof (late01 (hist w 0%nat) i (wkn w (0 + j))). pose proof (sreg_nn p). nia. }
  lia.
Qed.

Lemma sabsorbed n w ths tr u p ch w' ths' e : Z.of_nat n < 2 ^ 31 - 1 -> WSK n (w, ths) tr -> nth_error ths u = Some p -> p = SLoad \/ (exists old, p = SCas old) ->
  wsem_step (w, ths) (WRun u ch) = Some ((w', ths'), e) -> nth_error ths' u = Some (SDone EPost EOk) -> sknows w ths tr u -> 0 < top w 1 + sumf spst ths.
Proof.
  intros Hn HWK Hu Hp Hs Hd HT. pose proof HWK as (HW & _). unfold wsem_step in Hs. cbn [wstep] in Hs. rewrite Hu in Hs.
  assert (Hr : as_ret p = None /\ sinpost p = 1) by (destruct Hp as [->|(old & ->)]; auto). destruct Hr as (Hr & Hi1). rewrite Hr in Hs.
  destruct (wsem_run u w ths p ch) as [c1|] eqn:E; [|discriminate Hs]. injection Hs as -> _.
  destruct (wsem_eff _ _ _ _ _ _ _ _ Hn HW Hu E) as (p' & -> & He & _). rewrite (nth_upd_eq _ _ _ _ Hu) in Hd. injection Hd as ->.
  destruct He as [E0 E1 S1 S2 S3 S4 S5 S6 S7|x E0 E1 X1 X2 X3 S1 S2 S3 S4 Y1 Y2 Y3 Y4|x E0 E1 X1 -> _ X2 X3 X4|k x E0 E1 X1 -> _ X2 X3 X4 X5].
  - destruct (S6 Hi1) as [F|(i & m & H1 & H2 & H3)]; [discriminate F|]. pose proof (sknows_readable _ _ _ _ _ _ _ HWK HT H1 H2). lia.
  - cbn [sinpost] in S3. lia.
  - destruct Hp as [F|(? & F)]; discriminate F.
  - discriminate Hi1.
Qed.

(** ** Hand-off *)
Definition SJ n (K : list nat) (u : nat) (c : wmem * list spc) (b : list wev) : Prop :=
  WS n c /\ (nopost b ->
  ((top (fst c) 1 = 0 /\ (forall v q, nth_error (snd c) v = Some q -> sdtake q = 0) /\ (forall v q, nth_error (snd c) v = Some q -> sinpost q = 1 -> v = u) /\
    incl K (wkn (fst c) u) /\ exists p, nth_error (snd c) u = Some p /\ sinpost p = 1 /\
     (p = SSemPost \/ forall i m, nth_error (hist (fst c) 0%nat) i = Some m -> readable (wkn (fst c) u) (hist (fst c) 0%nat) i = true -> 0 <= mval m))
  \/ (incl K (trel (fst c) 1) /\ forall v q, nth_error (snd c) v = Some q -> sdtake q = 1 -> incl K (wkn (fst c) v)))).

Lemma SJ_step n K u : Z.of_nat n < 2 ^ 31 - 1 -> forall c b a c' e, SJ n K u c b -> wsem_step c a = Some (c', e) -> SJ n K u c' (b ++ e).
Proof.
  intros Hn [w ths] b a [w' ths'] e (HW & HJ1) Hs. destruct (wsem_case _ _ _ _ _ _ _ Hn HW Hs) as (HW' & HM & Hc). split; [exact HW'|]. intros Hnp.
  assert (Hnb : nopost b) by (intros v L Hin; apply (Hnp v L); apply in_or_app; auto).
  assert (Hne : nopost e) by (intros v L Hin; apply (Hnp v L); apply in_or_app; auto). specialize (HJ1 Hnb). cbn [fst snd] in *.
  destruct HJ1 as [(A1 & A2 & A3 & A4 & pu & Hu & Hpu & A5)|(B1 & B2)].
  - assert (A4' : incl K (wkn w' u)) by (eapply incl_tran; [exact A4|apply HM]).
    assert (A5' : hist w' 0%nat = hist w 0%nat -> pu = SSemPost \/ forall i m, nth_error (hist w' 0%nat) i = Some m -> readable (wkn w' u) (hist w' 0%nat) i = true -> 0 <= mval m).
    { intros Eh. destruct A5 as [A5|A5]; [left; exact A5|right]. intros i m Hi Hr. rewrite Eh in *. apply (A5 i m Hi). apply (readable_mono _ (wkn w' u) _ []); [apply HM|]. rewrite app_nil_r. exact Hr. }
    destruct Hc as [t o Ht -> -> ->|t o r Ht -> -> ->|t p p' Ht Hd -> He ->|E0 E1 -> Ee].
    + left. assert (o <> EPost) by (intros ->; apply (Hne t (wkn w t)); left; reflexivity).
      assert (Htu : t <> u) by (intros ->; rewrite Hu in Ht; injection Ht as ->; discriminate Hpu).
      split; [exact A1|]. split; [|split; [|split; [exact A4|exists pu; rewrite nth_upd_neq by auto; auto]]].
      * intros v q Hv. destruct (nth_upd_inv _ _ _ _ _ Hv) as [(<- & -> & _)|(_ & Hv')]; [destruct o; reflexivity|eauto].
      * intros v q Hv Hq. destruct (nth_upd_inv _ _ _ _ _ Hv) as [(<- & -> & _)|(_ & Hv')]; [destruct o; try discriminate Hq; congruence|eauto].
    + left. assert (Htu : t <> u) by (intros ->; rewrite Hu in Ht; injection Ht as ->; discriminate Hpu).
      split; [exact A1|]. split; [|split; [|split; [exact A4|exists pu; rewrite nth_upd_neq by auto; auto]]].
      * intros v q Hv. destruct (nth_upd_inv _ _ _ _ _ Hv) as [(<- & -> & _)|(_ & Hv')]; [reflexivity|eauto].
      * intros v q Hv Hq. destruct (nth_upd_inv _ _ _ _ _ Hv) as [(<- & -> & _)|(_ & Hv')]; [discriminate Hq|eauto].
    + assert (A2' : forall v q, nth_error (upd ths t p') v = Some q -> sdtake q = 0).
      { intros v q Hv. pose proof (sdtake01 q). destruct (Z.eq_dec (sdtake q) 1) as [E|]; [|lia]. destruct (seff_new _ _ _ _ _ _ _ _ Ht He Hv E) as [Hv'|(_ & _ & F)]; [eauto|lia]. }
      assert (A3' : forall v q, nth_error (upd ths t p') v = Some q -> sinpost q = 1 -> v = u).
      { intros v q Hv Hq. destruct (nth_upd_inv _ _ _ _ _ Hv) as [(<- & -> & _)|(_ & Hv')]; [|eauto]. pose proof (seff_inpost _ _ _ _ _ He). pose proof (sinpost01 p). apply (A3 t p Ht). lia. }
      destruct (Nat.eq_dec t u) as [->|Htu].
      * (* the poster *) rewrite Hu in Ht. injection Ht as <-.
        destruct He as [E0 E1 S1 S2 S3 S4 S5 S6 S7|x E0 E1 X1 X2 X3 S1 S2 S3 S4 Y1 Y2 Y3 Y4|x E0 E1 X1 -> -> X2 X3 X4|k x E0 E1 X1 -> -> X2 X3 X4 X5]; [| | |discriminate Hpu].
        -- left. rewrite (top_same _ _ _ E1). split; [exact A1|]. split; [exact A2'|]. split; [exact A3'|]. split; [exact A4'|]. exists p'. rewrite (nth_upd_eq _ _ _ _ Hu).
           assert (A6 : forall i m, nth_error (hist w 0%nat) i = Some m -> readable (wkn w u) (hist w 0%nat) i = true -> 0 <= mval m) by (destruct A5 as [->|A5]; [discriminate S2|exact A5]).
           split; [reflexivity|]. split; [|destruct (A5' E0) as [->|G]; [discriminate S2|right; exact G]].
           destruct (S6 Hpu) as [|(i & m & H1 & H2 & H3)]; [assumption|]. specialize (A6 _ _ H1 H2). lia.
        -- left. rewrite (top_same _ _ _ E1). split; [exact A1|]. split; [exact A2'|]. split; [exact A3'|]. split; [exact A4'|]. exists p'. rewrite (nth_upd_eq _ _ _ _ Hu).
           split; [reflexivity|]. split; [lia|]. destruct A5 as [->|A5]; [discriminate S1|]. destruct p'; cbn in S3; try lia; auto.
           ++ right. intros i m Hi Hr. rewrite E0 in *. destruct (lt_dec i (length (hist w 0%nat))) as [Hlt|Hge].
              ** rewrite nth_error_app1 in Hi by exact Hlt. apply (A5 i m Hi). eapply readable_mono; [apply HM|exact Hr].
              ** rewrite nth_error_app2 in Hi by lia. destruct (i - length (hist w 0%nat))%nat as [|[|]]; cbn in Hi; try discriminate Hi. injection Hi as <-. destruct HW' as (_ & _ & (_ & Hst & _)). cbn [fst snd] in Hst. rewrite (top_end _ _ _ _ E0), (top_same _ _ _ E1), A1 in Hst.
                 rewrite Hst. pose proof (sumf_nonneg sreg (upd ths u SLoad) sreg_nn).
                 assert (G : sumf spst (upd ths u SLoad) <= 0); [|lia]. apply Z.le_ngt. intros G. destruct (sumf_pos_ex spst _ G) as (v & q & Hv & Hq).
                 assert (sinpost q = 1) by (destruct q; cbn in Hq |- *; lia). pose proof (A3' _ _ Hv H0) as ->. rewrite (nth_upd_eq _ _ _ _ Hu) in Hv. injection Hv as <-. cbn in Hq. lia.
           ++ right. intros i m Hi Hr. rewrite E0 in *. destruct (lt_dec i (length (hist w 0%nat))) as [Hlt|Hge].
              ** rewrite nth_error_app1 in Hi by exact Hlt. apply (A5 i m Hi). eapply readable_mono; [apply HM|exact Hr].
              ** rewrite nth_error_app2 in Hi by lia. destruct (i - length (hist w 0%nat))%nat as [|[|]]; cbn in Hi; try discriminate Hi. injection Hi as <-. destruct HW' as (_ & _ & (_ & Hst & _)). cbn [fst snd] in Hst. rewrite (top_end _ _ _ _ E0), (top_same _ _ _ E1), A1 in Hst.
                 rewrite Hst. pose proof (sumf_nonneg sreg (upd ths u (SCas old)) sreg_nn).
                 assert (G : sumf spst (upd ths u (SCas old)) <= 0); [|lia]. apply Z.le_ngt. intros G. destruct (sumf_pos_ex spst _ G) as (v & q & Hv & Hq).
                 assert (sinpost q = 1) by (destruct q; cbn in Hq |- *; lia). pose proof (A3' _ _ Hv H0) as ->. rewrite (nth_upd_eq _ _ _ _ Hu) in Hv. injection Hv as <-. cbn in Hq. lia.
        -- right. rewrite (trel_end _ _ _ _ E1). split; [exact (incl_tran A4 X4)|]. intros v q Hv Hq. rewrite (A2' _ _ Hv) in Hq. discriminate.
      * (* another thread: it waits *)
        assert (Hp0 : sinpost p = 0). { pose proof (sinpost01 p). destruct (Z.eq_dec (sinpost p) 1) as [F|]; [|lia]. destruct (Htu (A3 _ _ Ht F)). }
        left. destruct He as [E0 E1 S1 S2 S3 S4 S5 S6 S7|x E0 E1 X1 X2 X3 S1 S2 S3 S4 Y1 Y2 Y3 Y4|x E0 E1 X1 -> -> X2 X3 X4|k x E0 E1 X1 -> -> X2 X3 X4 X5]; [| |discriminate Hp0|lia].
        -- rewrite (top_same _ _ _ E1). split; [exact A1|]. split; [exact A2'|]. split; [exact A3'|]. split; [exact A4'|]. exists pu. rewrite nth_upd_neq by auto. auto.
        -- rewrite (top_same _ _ _ E1). split; [exact A1|]. split; [exact A2'|]. split; [exact A3'|]. split; [exact A4'|]. exists pu. rewrite nth_upd_neq by auto.
           split; [exact Hu|]. split; [exact Hpu|]. destruct A5 as [A5|A5]; [left; exact A5|].
           assert (Dp : pu = SSemPost \/ pu <> SSemPost) by (destruct pu; auto; right; discriminate). destruct Dp as [Dp|Dp]; [left; exact Dp|right].
           intros i m Hi Hr. rewrite E0 in *. destruct (lt_dec i (length (hist w 0%nat))) as [Hlt|Hge].
           ++ rewrite nth_error_app1 in Hi by exact Hlt. apply (A5 i m Hi). eapply readable_mono; [apply HM|exact Hr].
           ++ rewrite nth_error_app2 in Hi by lia. destruct (i - length (hist w 0%nat))%nat as [|[|]]; cbn in Hi; try discriminate Hi. injection Hi as <-.
              destruct HW' as (_ & _ & (_ & Hst & _)). cbn [fst snd] in Hst. rewrite (top_end _ _ _ _ E0), (top_same _ _ _ E1), A1 in Hst.
              rewrite Hst. pose proof (sumf_nonneg sreg (upd ths t p') sreg_nn).
              assert (G : sumf spst (upd ths t p') <= 0); [|lia]. apply Z.le_ngt. intros G. destruct (sumf_pos_ex spst _ G) as (v & q & Hv & Hq).
              assert (F : sinpost q = 1) by (destruct q; cbn in Hq |- *; lia). pose proof (A3' _ _ Hv F) as ->. rewrite nth_upd_neq, Hu in Hv by auto. injection Hv as <-. destruct pu; cbn in Hq; try lia. congruence.
    + left. rewrite (top_same _ _ _ E1). split; [exact A1|]. split; [exact A2|]. split; [exact A3|]. split; [exact A4'|]. exists pu. auto.
  - right. assert (B2' : forall v q, nth_error ths v = Some q -> sdtake q = 1 -> incl K (wkn w' v)) by (intros v q Hv Hq; eapply incl_tran; [eapply B2; eauto|apply HM]).
    destruct Hc as [t o Ht -> -> ->|t o r Ht -> -> ->|t p p' Ht Hd -> He ->|E0 E1 -> Ee].
    + split; [exact B1|]. intros v q Hv Hq. destruct (nth_upd_inv _ _ _ _ _ Hv) as [(<- & -> & _)|(_ & Hv')]; [destruct o; discriminate Hq|eauto].
    + split; [exact B1|]. intros v q Hv Hq. destruct (nth_upd_inv _ _ _ _ _ Hv) as [(<- & -> & _)|(_ & Hv')]; [discriminate Hq|eauto].
    + split; [eapply incl_tran; [exact B1|eapply seff_trel; eauto]|].
      intros v q Hv Hq. destruct (seff_new _ _ _ _ _ _ _ _ Ht He Hv Hq) as [Hv'|(-> & Hi & _)]; [eauto|]. eapply incl_tran; eauto.
    + split; [rewrite (trel_same _ _ _ E1); exact B1|eauto].
Qed.
