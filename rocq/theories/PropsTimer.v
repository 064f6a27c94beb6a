(** C80: timed waits of a thread share one timer but not their time-outs.  The model is TimerModel. *)
From Coq Require Import List Bool Arith ZArith Lia Sorting.Sorted.
From Verif Require Import ListSum Exec Events TimerModel.
Import ListNotations.
Local Open Scope Z_scope.

(** No SetWaitableTimer in this part of a history. *)
Definition noset (a : list tev) : Prop := forall i d, ~ In (TSet i d) a.

(** The timer: signalled only because the time point it was last set to has come since; running only for that time point. *)
Definition TT (s : tstate) (tr : list tev) : Prop :=
  (noset tr -> due s = None /\ sgn s = false) /\
  (forall a i d b, tr = a ++ TSet i d :: b -> noset b -> (sgn s = true -> exists c, In (TTick c) b /\ d <= c) /\ (forall x, due s = Some x -> x = d)) /\
  (due s <> None -> sgn s = false).
(** The last setting of the timer. *)
Definition lastset (tr : list tev) (i : nat) (d : Z) : Prop := exists a b, tr = a ++ TSet i d :: b /\ noset b.
(** The calls in progress have the numbers of their calls, decreasing from the innermost; all but the innermost are condition variables unlocking the user's lock; a call beyond [FSet] has set the timer to its
    time point, after it only calls within it, none unless it is a condition variable; as long as its setting is the last, the timer is running or signalled. *)
Definition own (tr : list tev) (f : frame) : Prop :=
  fat f <> FSet -> (exists a b, tr = a ++ TSet (fid f) (fd f) :: b /\ (fk f <> KCv -> noset b)) /\ forall i d, lastset tr i d -> (fid f <= i)%nat.
Definition TF (s : tstate) (tr : list tev) : Prop :=
  (forall f, In f (stk s) -> (fid f < calls s)%nat /\ In (TCall (fid f) (fk f) (fd f)) tr /\ own tr f /\ (fat f = FUnlock -> fk f = KCv)) /\
  (forall f l, stk s = f :: l -> forall g, In g l -> fk g = KCv /\ fat g = FUnlock /\ (fid g < fid f)%nat) /\
  StronglySorted (fun x y => (y < x)%nat) (map fid (stk s)) /\
  (forall i d, In (TSet i d) tr -> exists k, In (TCall i k d) tr) /\ (forall i k d, In (TCall i k d) tr -> (i < calls s)%nat) /\
  (forall i k d k' d', In (TCall i k d) tr -> In (TCall i k' d') tr -> k = k' /\ d = d') /\
  (forall f d, In f (stk s) -> lastset tr (fid f) d -> sgn s = true \/ due s = Some d).

Lemma noset_app a b : noset a -> noset b -> noset (a ++ b).
Proof. intros H1 H2 i d Hi. apply in_app_or in Hi. destruct Hi as [Hi|Hi]; [eapply H1|eapply H2]; exact Hi. Qed.
Lemma noset_l a b : noset (a ++ b) -> noset a.
Proof. intros H i d Hi. eapply H, in_or_app. left. exact Hi. Qed.
(** Appending events that set no timer: where the last setting is does not change. *)
Lemma last_app tr e a i d b : noset e -> tr ++ e = a ++ TSet i d :: b -> noset b -> exists b', tr = a ++ TSet i d :: b' /\ b = b' ++ e /\ noset b'.
Proof.
  revert e a. induction tr as [|x tr IH]; intros e a He E Hb.
  - exfalso. eapply (He i d). cbn in E. rewrite E. apply in_or_app. right. left. reflexivity.
  - destruct a as [|y a]; cbn in E; inversion E; subst.
    + exists tr. split; [reflexivity|]. split; [reflexivity|eapply noset_l; exact Hb].
    + destruct (IH e a He H1 Hb) as (b' & -> & -> & Hb'). exists b'. repeat split; auto.
Qed.
Lemma TT_keep s tr s' e : TT s tr -> noset e -> (due s' = due s \/ due s' = None) -> (sgn s' = true -> sgn s = true \/ exists c x, In (TTick c) e /\ due s = Some x /\ x <= c) -> (due s' <> None -> sgn s' = false) -> TT s' (tr ++ e).
Proof.
  intros (T1 & T2 & T3) He Hd Hg H3. split; [|split; [|exact H3]].
  - intros Hn. destruct (T1 (noset_l _ _ Hn)) as (D & G). split; [destruct Hd; congruence|]. destruct (sgn s') eqn:E; [|reflexivity]. destruct (Hg eq_refl) as [?|(c & x & _ & ? & _)]; congruence.
  - intros a i d b E Hb. destruct (last_app _ _ _ _ _ _ He E Hb) as (b' & -> & -> & Hb'). destruct (T2 _ _ _ _ eq_refl Hb') as (G1 & G2). split.
    + intros G. destruct (Hg G) as [G'|(c & x & C1 & C2 & C3)].
      * destruct (G1 G') as (c & C1 & C2). exists c. split; [apply in_or_app; left; exact C1|exact C2].
      * exists c. split; [apply in_or_app; right; exact C1|]. rewrite <- (G2 _ C2). exact C3.
    + intros x Hx. destruct Hd as [Hd|Hd]; [apply G2; congruence|congruence].
Qed.
Lemma app_last_inv {A} (tr a b : list A) x y : tr ++ [x] = a ++ y :: b -> (tr = a /\ x = y /\ b = []) \/ exists b', b = b' ++ [x] /\ tr = a ++ y :: b'.
Proof.
  intros E. destruct (@exists_last _ (y :: b)) as (l & z & El); [discriminate|]. rewrite El, app_assoc in E. apply app_inj_tail in E. destruct E as (E1 & ->).
  destruct l as [|w l]; cbn in El; inversion El; subst; [left; rewrite app_nil_r; auto|]. right. exists l. auto.
Qed.

Lemma TT_step s tr a s' e : TT s tr -> t_step s a = Some (s', e) -> TT s' (tr ++ e).
Proof.
  intros HT Hs. pose proof HT as (T1 & T2 & T3). destruct a as [k d|ok| |w|c]; cbn [t_step] in Hs.
  - assert (s' = TS (FR (calls s) k d FSet :: stk s) (due s) (sgn s) (S (calls s)) /\ e = [TCall (calls s) k d]) as (-> & ->) by (destruct (stk s) as [|[i' [] d' []] l]; inversion Hs; auto).
    (eapply TT_keep; [exact HT|..]); cbn; auto. intros i x [Hx|[]]. discriminate.
  - destruct (stk s) as [|[i k d []] l]; try discriminate. destruct ok; inversion Hs; subst; clear Hs.
    + split; [intros Hn; exfalso; eapply (Hn i d), in_or_app; right; left; reflexivity|]. split; [|reflexivity]. intros a j x b E Hb. cbn. apply app_last_inv in E. destruct E as [(-> & E & ->)|(b' & -> & _)].
      * inversion E; subst. split; [discriminate|]. intros y Hy. congruence.
      * exfalso. eapply (Hb i d), in_or_app. right. left. reflexivity.
    + (eapply TT_keep; [exact HT|..]); cbn; auto. intros j x [Hx|[]]. discriminate.
  - destruct (stk s) as [|[i k d []] l]; inversion Hs; subst. (eapply TT_keep; [exact HT|..]); cbn; auto. intros j x [].
  - destruct (stk s) as [|[i k d []] l] eqn:El; try discriminate. destruct w as [got|nt|].
    + destruct (ends k got); inversion Hs; subst; (eapply TT_keep; [exact HT|..]); cbn; auto; intros j x Hx; cbn in Hx; intuition discriminate.
    + destruct (sgn s) eqn:Eg; inversion Hs; subst. (eapply TT_keep; [exact HT|..]); cbn; auto; intros j x [Hx|[]]; discriminate.
    + inversion Hs; subst. (eapply TT_keep; [exact HT|..]); cbn; auto. intros j x [Hx|[]]. discriminate.
  - destruct (due s) as [d|] eqn:Ed.
    + destruct (Z.leb_spec d c); inversion Hs; subst; (eapply TT_keep; [exact HT|..]); cbn; auto; try (intros j x [Hx|[]]; discriminate).
      * intros _. right. exists c, d. auto.
      * congruence.
      * rewrite Ed in *. auto.
    + inversion Hs; subst. (eapply TT_keep; [exact HT|..]); cbn; auto. intros j x [Hx|[]]. discriminate.
Qed.

Lemma last_in tr i d : lastset tr i d -> In (TSet i d) tr.
Proof. intros (a & b & -> & _). apply in_or_app. right. left. reflexivity. Qed.
Lemma last_keep tr e i d : noset e -> lastset (tr ++ e) i d -> lastset tr i d.
Proof. intros He (a & b & E & Hb). destruct (last_app _ _ _ _ _ _ He E Hb) as (b' & -> & _ & Hb'). exists a, b'. auto. Qed.
Lemma last_snoc tr i d j x : lastset (tr ++ [TSet i d]) j x -> j = i /\ x = d.
Proof. intros (a & b & E & Hb). apply app_last_inv in E. destruct E as [(_ & E & _)|(b' & -> & _)]; [inversion E; auto|]. exfalso. eapply (Hb i d), in_or_app. right. left. reflexivity. Qed.
Lemma own_keep tr e f : noset e -> own tr f -> own (tr ++ e) f.
Proof.
  intros He Ho Hf. destruct (Ho Hf) as ((a & b & -> & Hb) & Hl). split.
  - exists a, (b ++ e). rewrite <- app_assoc. split; [reflexivity|]. intros Hk. apply noset_app; auto.
  - intros i d Hd. apply (Hl i d). eapply last_keep; eauto.
Qed.
(** The calls when the innermost ends or goes on, and no timer is set. *)
Lemma TF_keep s tr s' e : TF s tr -> noset e -> calls s' = calls s -> (forall i k d, ~ In (TCall i k d) e) ->
  (stk s' = stk s \/ (exists f, stk s = f :: stk s') \/ exists i k d l, stk s = FR i k d FUnlock :: l /\ stk s' = FR i k d FWait :: l) ->
  (forall f d, In f (stk s') -> lastset tr (fid f) d -> sgn s = true \/ due s = Some d -> sgn s' = true \/ due s' = Some d) -> TF s' (tr ++ e).
Proof.
  intros (F1 & F2 & F3 & F4 & F5 & F6 & F7) He Hc Hn Hk Hp.
  assert (Fr : forall f, In f (stk s') -> exists g, In g (stk s) /\ fid g = fid f /\ fk g = fk f /\ fd g = fd f /\ (fat f <> FSet -> fat g <> FSet) /\ (fat f = FUnlock -> fat g = FUnlock)).
  { intros f Hf. destruct Hk as [E|[(g & E)|(i & k & d & l & E & E')]].
    - exists f. rewrite E in Hf. repeat split; auto.
    - exists f. rewrite E. split; [right; exact Hf|repeat split; auto].
    - rewrite E' in Hf. destruct Hf as [<-|Hf]; [exists (FR i k d FUnlock)|exists f]; rewrite E; cbn; repeat split; auto; try discriminate. }
  split; [|split; [|split; [|split; [|split; [|split]]]]].
  - intros f Hf. destruct (Fr _ Hf) as (g & G1 & G2 & G3 & G4 & G5 & G6). destruct (F1 _ G1) as (A & B & C & D). rewrite Hc, <- G2, <- G3, <- G4. split; [exact A|]. split; [apply in_or_app; left; exact B|]. split.
    + apply own_keep; [exact He|]. intros Hf'. unfold own in C. rewrite G2, G3, G4 in C. apply C. auto.
    + auto.
  - intros f l E g Hg. destruct Hk as [E1|[(h & E1)|(i & k & d & l' & E1 & E2)]].
    + eapply F2; [rewrite <- E1; exact E|exact Hg].
    + rewrite E in E1. destruct (F2 _ _ E1 g) as (A & B & _); [right; exact Hg|]. repeat split; auto. rewrite E1 in F3. cbn in F3. inversion F3 as [|? ? S1 _]; subst. inversion S1 as [|? ? _ S2]; subst. rewrite Forall_forall in S2. apply S2, in_map. exact Hg.
    + rewrite E in E2. inversion E2; subst. eapply (F2 _ _ E1); exact Hg.
  - destruct Hk as [->|[(h & E1)|(i & k & d & l' & E1 & ->)]]; [exact F3| |rewrite E1 in F3; exact F3]. rewrite E1 in F3. cbn in F3. inversion F3; assumption.
  - intros i d Hi. apply in_app_or in Hi. destruct Hi as [Hi|Hi]; [|exfalso; eapply He; exact Hi]. destruct (F4 _ _ Hi) as (k & K). exists k. apply in_or_app. left. exact K.
  - intros i k d Hi. apply in_app_or in Hi. destruct Hi as [Hi|Hi]; [|exfalso; eapply Hn; exact Hi]. rewrite Hc. eauto.
  - intros i k d k' d' Hi Hi'. apply in_app_or in Hi, Hi'. destruct Hi as [Hi|Hi]; [|exfalso; eapply Hn; exact Hi]. destruct Hi' as [Hi'|Hi']; [|exfalso; eapply Hn; exact Hi']. eauto.
  - intros f d Hf Hl. destruct (Fr _ Hf) as (g & G1 & G2 & _). apply last_keep in Hl; [|exact He]. apply (Hp f d Hf Hl). rewrite <- G2 in Hl. eapply F7; eauto.
Qed.
Lemma TF_step s tr a s' e : TT s tr -> TF s tr -> t_step s a = Some (s', e) -> TF s' (tr ++ e).
Proof.
  intros HT HF Hs. pose proof HF as (F1 & F2 & F3 & F4 & F5 & F6 & F7). destruct a as [k d|ok| |w|c]; cbn [t_step] in Hs.
  - assert (s' = TS (FR (calls s) k d FSet :: stk s) (due s) (sgn s) (S (calls s)) /\ e = [TCall (calls s) k d] /\ forall f, In f (stk s) -> fk f = KCv /\ fat f = FUnlock) as (-> & -> & Hcv).
    { destruct (stk s) as [|[i' k' d' p'] l] eqn:El; [inversion Hs; repeat split; destruct H|]. destruct k', p'; inversion Hs. repeat split; destruct H as [<-|H]; try reflexivity; apply (F2 _ _ eq_refl _ H). }
    assert (He : noset [TCall (calls s) k d]) by (intros i x [Hx|[]]; discriminate).
    split; [|split; [|split; [|split; [|split; [|split]]]]]; cbn [stk due sgn calls].
    + intros f [<-|Hf]; cbn.
      * split; [lia|]. split; [apply in_or_app; right; left; reflexivity|]. split; [intros Hx; exfalso; apply Hx; reflexivity|discriminate].
      * destruct (F1 _ Hf) as (A & B & C & D). split; [lia|]. split; [apply in_or_app; left; exact B|]. split; [apply own_keep; assumption|exact D].
    + intros f l E g Hg. inversion E; subst. cbn. destruct (Hcv _ Hg). destruct (F1 _ Hg) as (A & _). auto.
    + cbn. constructor; [exact F3|]. apply Forall_forall. intros x Hx. apply in_map_iff in Hx. destruct Hx as (f & <- & Hf). apply (F1 _ Hf).
    + intros i x Hi. apply in_app_or in Hi. destruct Hi as [Hi|Hi]; [|exfalso; eapply He; exact Hi]. destruct (F4 _ _ Hi) as (k' & K). exists k'. apply in_or_app. left. exact K.
    + intros i k' x Hi. apply in_app_or in Hi. destruct Hi as [Hi|[Hi|[]]]; [specialize (F5 _ _ _ Hi)|inversion Hi]; lia.
    + intros i k1 d1 k2 d2 H1 H2. apply in_app_or in H1, H2. destruct H1 as [H1|[H1|[]]], H2 as [H2|[H2|[]]]; [eauto| | |]; try (inversion H1; subst); try (inversion H2; subst); auto; [specialize (F5 _ _ _ H1)|specialize (F5 _ _ _ H2)]; lia.
    + intros f x [<-|Hf] Hl; apply last_keep in Hl; try exact He; [|eauto]. cbn in Hl. apply last_in in Hl. destruct (F4 _ _ Hl) as (k' & K). specialize (F5 _ _ _ K). lia.
  - destruct (stk s) as [|[i k d p] l] eqn:El; [discriminate|]. destruct p; try discriminate. destruct ok; inversion Hs; subst; clear Hs.
    + destruct (F1 (FR i k d FSet) (or_introl eq_refl)) as (A & B & _). cbn in A, B.
      assert (Hle : forall g, In g l -> fk g = KCv /\ fat g = FUnlock /\ (fid g < i)%nat) by (intros g Hg; apply (F2 _ _ eq_refl _ Hg)).
      split; [|split; [|split; [|split; [|split; [|split]]]]]; cbn [stk due sgn calls].
      * intros f [<-|Hf]; cbn.
        -- split; [exact A|]. split; [apply in_or_app; left; exact B|]. split; [|destruct k; congruence]. intros _. cbn. split; [exists tr, []; split; [reflexivity|intros _ ? ? []]|]. intros j x Hl. apply last_snoc in Hl. lia.
        -- destruct (F1 f (or_intror Hf)) as (A' & B' & C' & D'). destruct (Hle _ Hf) as (K1 & K2 & K3). split; [exact A'|]. split; [apply in_or_app; left; exact B'|]. split; [|exact D']. intros Hx. destruct (C' Hx) as ((a & b & -> & _) & _). split; [exists a, (b ++ [TSet i d]); rewrite <- app_assoc; split; [reflexivity|congruence]|]. intros j x Hl. apply last_snoc in Hl. lia.
      * intros f l' E g Hg. inversion E; subst. cbn. apply Hle. exact Hg.
      * exact F3.
      * intros j x Hi. apply in_app_or in Hi. destruct Hi as [Hi|[Hi|[]]]; [destruct (F4 _ _ Hi) as (k' & K); exists k'|inversion Hi; subst; exists k]; apply in_or_app; left; assumption.
      * intros j k' x Hi. apply in_app_or in Hi. destruct Hi as [Hi|[Hi|[]]]; [eauto|discriminate].
      * intros j k1 d1 k2 d2 H1 H2. apply in_app_or in H1, H2. destruct H1 as [H1|[H1|[]]]; [|discriminate]. destruct H2 as [H2|[H2|[]]]; [eauto|discriminate].
      * intros f x Hf Hl. apply last_snoc in Hl. right. f_equal. symmetry. apply Hl.
    + apply (TF_keep s); cbn; auto; try (intros j x [Hx|[]]; discriminate); try (intros j k' x [Hx|[]]; discriminate). rewrite El. eauto.
  - destruct (stk s) as [|[i k d p] l] eqn:El; [discriminate|]. destruct p; inversion Hs; subst; clear Hs. apply (TF_keep s); cbn; auto; try (intros j x []); rewrite El; right; right; eauto 6.
  - destruct (stk s) as [|[i k d p] l] eqn:El; [discriminate|]. destruct p; try discriminate. destruct w as [got|nt|].
    + destruct (ends k got); inversion Hs; subst; apply (TF_keep _ tr _ _ HF); cbn; auto; try (intros j x [Hx|[]]; discriminate); try (intros j k' x [Hx|[]]; discriminate); try (intros j x []). rewrite El. eauto.
    + destruct (sgn s) eqn:Eg; inversion Hs; subst; clear Hs. apply (TF_keep s); cbn; auto; try (intros j x [Hx|[]]; discriminate); try (intros j k' x [Hx|[]]; discriminate); [rewrite El; eauto|].
      intros f x Hf Hl _. exfalso. destruct (F1 (FR i k d FWait) (or_introl eq_refl)) as (_ & _ & C & _). assert (Hx : fat (FR i k d FWait) <> FSet) by discriminate. destruct (C Hx) as (_ & C2). specialize (C2 _ _ Hl). cbn in C2. destruct (F2 _ _ eq_refl _ Hf) as (_ & _ & G). cbn in G. lia.
    + inversion Hs; subst. apply (TF_keep s); cbn; auto; try (intros j x [Hx|[]]; discriminate); try (intros j k' x [Hx|[]]; discriminate). rewrite El. eauto.
  - destruct (due s) as [d|] eqn:Ed; [destruct (Z.leb_spec d c)|]; inversion Hs; subst; clear Hs; apply (TF_keep _ tr _ _ HF); cbn; auto; try (intros j x [Hx|[]]; discriminate); intros j k' x [Hx|[]]; discriminate.
Qed.
Lemma TT_init : TT t_init [].
Proof. split; [auto|]. split; [|cbn; congruence]. intros [|] ? ? ? E; discriminate. Qed.
Lemma TF_init : TF t_init [].
Proof. split; [intros f []|]. split; [discriminate|]. split; [constructor|]. repeat split; intros; contradiction. Qed.
Lemma t_inv sched s tr : exec t_step t_init sched = Some (s, tr) -> TT s tr /\ TF s tr.
Proof.
  intros H. apply (exec_inv t_step (fun s tr => TT s tr /\ TF s tr) _ _ _ _) in H; [exact H|exact (conj TT_init TF_init)|].
  intros c t a c' e (HT & HF) Hs. split; [eapply TT_step; eauto|eapply TF_step; eauto].
Qed.

Lemma single {A} (y x : A) d b : [y] = d ++ x :: b -> d = [] /\ x = y.
Proof. destruct d as [|z [|]]; intros E; inversion E; auto. Qed.
(** A time-out was preceded by a moment at which the clock showed the time point the timer was last set to; this is the call's own, unless it is a call of a condition variable. *)
Lemma timeout_ev sched s tr a i b : exec t_step t_init sched = Some (s, tr) -> tr = a ++ TRet i TTimeout :: b ->
  exists k d, In (TCall i k d) a /\ exists a1 j x a2 c, a = a1 ++ TSet j x :: a2 /\ noset a2 /\ In (TTick c) a2 /\ x <= c /\ (k <> KCv -> j = i /\ x = d).
Proof.
  intros H E. revert i E. intros i E.
  enough (Q : forall i', TRet i TTimeout = TRet i' TTimeout -> exists k d, In (TCall i' k d) a /\ exists a1 j x a2 c, a = a1 ++ TSet j x :: a2 /\ noset a2 /\ In (TTick c) a2 /\ x <= c /\ (k <> KCv -> j = i' /\ x = d)) by (apply Q; reflexivity).
  apply (exec_events t_step (fun s tr => TT s tr /\ TF s tr) (fun a x => forall i', x = TRet i' TTimeout -> exists k d, In (TCall i' k d) a /\ exists a1 j x a2 c, a = a1 ++ TSet j x :: a2 /\ noset a2 /\ In (TTick c) a2 /\ x <= c /\ (k <> KCv -> j = i' /\ x = d)) t_init) with (sched := sched) (c := s) (tr := tr) (b := b); auto.
  - exact (conj TT_init TF_init).
  - intros c t a0 c' e (HT & HF) Hs. split; [eapply TT_step; eauto|eapply TF_step; eauto].
  - clear. intros s tr a s' es d x b (HT & HF) Hs Ees i ->.
    assert (exists k dd l nt, stk s = FR i k dd FWait :: l /\ sgn s = true /\ a = TaWait (WTimer nt) /\ d = []) as (k & dd & l & nt & El & Eg & -> & ->).
    { destruct a as [k dd|ok| |w|c]; cbn [t_step] in Hs.
      - destruct (stk s) as [|[i' [] d' []] l]; try discriminate; injection Hs as _ <-; apply single in Ees; destruct Ees; discriminate.
      - destruct (stk s) as [|[i' k' d' []] l]; try discriminate. destruct ok; injection Hs as _ <-; apply single in Ees; destruct Ees; discriminate.
      - destruct (stk s) as [|[i' k' d' []] l]; try discriminate. injection Hs as _ <-. destruct d; discriminate.
      - destruct (stk s) as [|[i' k' d' []] l]; try discriminate. destruct w as [got|nt|].
        + destruct (ends k' got); injection Hs as _ <-; [apply single in Ees; destruct Ees; discriminate|destruct d; discriminate].
        + destruct (sgn s); [|discriminate]. injection Hs as _ <-. apply single in Ees. destruct Ees as (-> & E). inversion E; subst. exists k', d', l, nt. auto.
        + injection Hs as _ <-. apply single in Ees. destruct Ees; discriminate.
      - destruct (due s) as [y|]; [destruct (y <=? c)|]; injection Hs as _ <-; apply single in Ees; destruct Ees; discriminate. }
    rewrite app_nil_r. destruct HF as (F1 & _). destruct (F1 (FR i k dd FWait)) as (_ & B & C & _); [rewrite El; left; reflexivity|]. cbn in B. exists k, dd. split; [exact B|].
    assert (Hx : fat (FR i k dd FWait) <> FSet) by discriminate. destruct (C Hx) as ((a1 & a2 & Ea & Hn) & _). cbn in Ea, Hn. destruct HT as (T1 & T2 & _).
    assert (L : exists a1 j y a2, tr = a1 ++ TSet j y :: a2 /\ noset a2 /\ (k <> KCv -> j = i /\ y = dd)).
    { destruct k; try (exists a1, i, dd, a2; split; [exact Ea|]; split; [apply Hn; discriminate|auto]).
      clear -Ea. assert (forall t, In (TSet i dd) t -> exists a1 j y a2, t = a1 ++ TSet j y :: a2 /\ noset a2) as G.
      { induction t as [|z t IH] using rev_ind; [intros []|]. intros Hi. destruct z as [ | j y | | ]; try (apply in_app_or in Hi; destruct Hi as [Hi|[Hi|[]]]; [|discriminate]; destruct (IH Hi) as (b1 & j & y & b2 & -> & Hb); exists b1, j, y; eexists; split; [rewrite <- app_assoc; reflexivity|]; apply noset_app; [exact Hb|]; intros ? ? [Hq|[]]; discriminate).
        exists t, j, y, []. split; [reflexivity|intros ? ? []]. }
      destruct (G tr) as (b1 & j & y & b2 & E & Hb); [rewrite Ea; apply in_or_app; right; left; reflexivity|]. exists b1, j, y, b2. split; [exact E|]. split; [exact Hb|congruence]. }
    destruct L as (b1 & j & y & b2 & E & Hb & Hj). destruct (T2 _ _ _ _ E Hb) as (G & _). destruct (G Eg) as (c & C1 & C2). exists b1, j, y, b2, c. auto.
Qed.

(** A wait on an event or semaphore, or timed_lock, reports a time-out only after its own time point: at some moment since it set the timer, the clock showed that time or later,
    whatever the thread waited for before, and also if the call is made while a condition variable unlocks the user's lock. *)
Theorem C80_own_deadline sched s tr a b i k d : exec t_step t_init sched = Some (s, tr) -> tr = a ++ TRet i TTimeout :: b -> In (TCall i k d) tr -> k <> KCv ->
  exists a1 a2 c, a = a1 ++ TSet i d :: a2 /\ In (TTick c) a2 /\ d <= c.
Proof.
  intros H E Hi Hk. destruct (timeout_ev _ _ _ _ _ _ H E) as (k' & d' & Hc & a1 & j & x & a2 & c & E1 & Hn & Ht & Hx & Hj).
  destruct (t_inv _ _ _ H) as (_ & _ & _ & _ & _ & _ & F6 & _). destruct (F6 i k d k' d') as (<- & <-); [exact Hi|rewrite E; apply in_or_app; left; exact Hc|]. destruct (Hj Hk) as (-> & ->). exists a1, a2, c. auto.
Qed.
Print Assumptions C80_own_deadline.
(** The same of a wait on a condition variable, if no other wait of the thread set the timer in between, that is, if unlocking the user's lock does not wait for another time point. *)
Theorem C80_cv_partial sched s tr a1 a2 b i d : exec t_step t_init sched = Some (s, tr) -> tr = a1 ++ TSet i d :: a2 ++ TRet i TTimeout :: b -> noset a2 -> exists c, In (TTick c) a2 /\ d <= c.
Proof.
  intros H E Hn. rewrite app_comm_cons, app_assoc in E. destruct (timeout_ev _ _ _ _ _ _ H E) as (k' & d' & _ & b1 & j & x & b2 & c & E1 & Hn' & Ht & Hx & _).
  assert (Q : forall (p q p' q' : list tev) i d j x, p ++ TSet i d :: q = p' ++ TSet j x :: q' -> noset q -> noset q' -> q = q' /\ d = x).
  { clear. induction p as [|z p IH]; intros q [|z' p'] q' i d j x E Hq Hq'; cbn in E; inversion E; subst; auto.
    - exfalso. eapply Hq, in_or_app. right. left. reflexivity.
    - exfalso. eapply Hq', in_or_app. right. left. reflexivity.
    - eapply IH; eauto. }
  destruct (Q _ _ _ _ _ _ _ _ E1 Hn Hn') as (<- & <-). exists c. auto.
Qed.
Print Assumptions C80_cv_partial.

(** A waiting call is released by its own time point: if the clock shows it, the wait can end with a time-out at once - as long as its own setting is the last, which is always so for calls that are not of condition variables. *)
Theorem C80_prompt sched s tr i k d l c : exec t_step t_init sched = Some (s, tr) -> stk s = FR i k d FWait :: l -> d <= c -> (k <> KCv \/ lastset tr i d) ->
  exists s', exec t_step s [TaTick c; TaWait (WTimer false)] = Some (s', [TTick c; TRet i TTimeout]).
Proof.
  intros H El Hc Hk. destruct (t_inv _ _ _ H) as ((_ & T2 & T3) & F1 & _ & _ & _ & _ & _ & F7). destruct (F1 (FR i k d FWait)) as (_ & _ & C & _); [rewrite El; left; reflexivity|]. assert (Hx : fat (FR i k d FWait) <> FSet) by discriminate.
  assert (L : lastset tr i d). { destruct Hk as [Hk|Hk]; [|exact Hk]. destruct (C Hx) as ((a1 & a2 & Ea & Hn) & _). exists a1, a2. split; [exact Ea|apply Hn; exact Hk]. }
  assert (R : match k with KCv => if false then TGot else TTimeout | _ => TTimeout end = TTimeout) by (destruct k; reflexivity).
  destruct (F7 (FR i k d FWait) d) as [G|G]; [rewrite El; left; reflexivity|exact L| |].
  - assert (Ed : due s = None) by (destruct (due s) eqn:Ed; [exfalso|reflexivity]; assert (sgn s = false) by (apply T3; discriminate); congruence). eexists. cbn [exec t_step]. rewrite Ed, El, G, R. reflexivity.
  - eexists. cbn [exec t_step]. rewrite G. destruct (Z.leb_spec d c); [|lia]. cbn [stk sgn due]. rewrite El, R. reflexivity.
Qed.
Print Assumptions C80_prompt.

(** The condition variable sets the timer before it unlocks the user's lock.  If unlocking waits for another time point, the timer of the thread is set anew, and the wait on the condition variable
    ends with a time-out before its time (the other wait got what it waited for) ... *)
Theorem C80_cv_early_refuted : exists sched s a i d, exec t_step t_init sched = Some (s, a ++ [TRet i TTimeout]) /\ In (TCall i KCv d) a /\ forall c, In (TTick c) a -> c < d.
Proof.
  exists [TaCall KCv 100; TaSet true; TaCall KEvent 50; TaSet true; TaWait (WObj true); TaUnlocked; TaTick 50; TaWait (WTimer false)].
  eexists _, [TCall 0 KCv 100; TSet 0 100; TCall 1 KEvent 50; TSet 1 50; TRet 1 TGot; TTick 50], _, _. split; [cbn; reflexivity|]. split; [left; reflexivity|]. intros c Hc. cbn in Hc. intuition (try discriminate). inversion H0. lia.
Qed.
Print Assumptions C80_cv_early_refuted.
(** ... or does not time out at all, whatever the clock shows (the other wait timed out, so the timer is not running any more). *)
Theorem C80_cv_never_refuted : exists sched s tr i d l, exec t_step t_init sched = Some (s, tr) /\ stk s = FR i KCv d FWait :: l /\
  forall cs s' tr' nt, exec t_step s (map TaTick cs) = Some (s', tr') -> t_step s' (TaWait (WTimer nt)) = None.
Proof.
  exists [TaCall KCv 100; TaSet true; TaCall KEvent 50; TaSet true; TaTick 50; TaWait (WTimer false); TaUnlocked]. eexists _, _, _, _, _. split; [cbn; reflexivity|]. split; [reflexivity|].
  assert (G : forall cs l s' tr', exec t_step (TS l None false 2) (map TaTick cs) = Some (s', tr') -> s' = TS l None false 2).
  { induction cs as [|c cs IH]; intros l s' tr' H; [inversion H; reflexivity|]. cbn [map exec t_step due] in H. destruct (exec t_step (TS l None false 2) (map TaTick cs)) as [[s1 t1]|] eqn:E; [|discriminate]. inversion H; subst. eapply IH; exact E. }
  intros cs s' tr' nt H. rewrite (G _ _ _ _ H). reflexivity.
Qed.
Print Assumptions C80_cv_never_refuted.

(** A first wait gets its object just before its time; the timer still expires; the second wait does not end because of it. *)
Example C80_example : exists s, exec t_step t_init [TaCall KSem 10; TaSet true; TaTick 5; TaWait (WObj true); TaTick 10; TaCall KMut 30; TaSet true; TaTick 20; TaWait (WObj false); TaTick 31; TaWait (WTimer false)] =
  Some (s, [TCall 0 KSem 10; TSet 0 10; TTick 5; TRet 0 TGot; TTick 10; TCall 1 KMut 30; TSet 1 30; TTick 20; TTick 31; TRet 1 TTimeout]) /\
  exec t_step t_init [TaCall KSem 10; TaSet true; TaTick 5; TaWait (WObj true); TaTick 10; TaCall KMut 30; TaSet true; TaTick 20; TaWait (WTimer false)] = None.
Proof. eexists. split; reflexivity. Qed.
