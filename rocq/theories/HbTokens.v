(** What posts publish to the waits they release, for any event or semaphore whose steps are of five kinds: call, return, internal, a post that takes
    effect (a release operation on object [l]), a wait that takes effect (an acquire operation on [l]).  Support library; nothing here models code of /repo. *)
From Coq Require Import List Bool Arith ZArith Lia.
From Verif Require Import ListSum Exec Events Lin EventSpec Hb HbSpin.
Import ListNotations.
Local Open Scope Z_scope.

Section Tok.
  Context {C A T : Type}.
  Variable step : C -> A -> option (C * list (event eop eres)).
  Variable who : A -> nat.
  Variable acts : C -> A -> list mact.
  Variable ths : C -> list T.
  Variable cnt : C -> Z.               (* posts that took effect and are not yet consumed *)
  Variable inpost dtake : T -> Z.      (* 1: inside a post that has not taken effect / about to return from a successful wait *)
  Variable l : nat.
  Variable c0 : C.

  Record mv (c : C) (t : nat) (p : T) (c' : C) (p' : T) : Prop := {
    mv_old : nth_error (ths c) t = Some p;
    mv_new : nth_error (ths c') t = Some p';
    mv_others : forall u q', u <> t -> nth_error (ths c') u = Some q' -> exists q, nth_error (ths c) u = Some q /\ inpost q' = inpost q /\ dtake q' = dtake q;
    mv_fwd : forall u q, u <> t -> nth_error (ths c) u = Some q -> exists q', nth_error (ths c') u = Some q' /\ inpost q' = inpost q /\ dtake q' = dtake q;
    mv_inpost : sumf inpost (ths c') = sumf inpost (ths c) - inpost p + inpost p';
    mv_dtake : sumf dtake (ths c') = sumf dtake (ths c) - dtake p + dtake p' }.

  Inductive teff (c : C) (a : A) (c' : C) (e : list (event eop eres)) : Prop :=
  | te_call t p p' o : who a = t -> mv c t p c' p' -> inpost p = 0 -> dtake p = 0 -> inpost p' = (match o with EPost => 1 | _ => 0 end) -> dtake p' = 0 ->
      cnt c' = cnt c -> acts c a = [] -> e = [Call t o] -> teff c a c' e
  | te_ret t p p' o r : who a = t -> mv c t p c' p' -> inpost p = 0 -> dtake p = took o r -> inpost p' = 0 -> dtake p' = 0 ->
      cnt c' = cnt c -> acts c a = [] -> e = [Ret t o r] -> teff c a c' e
  | te_neut t p p' : who a = t -> mv c t p c' p' -> inpost p' <= inpost p -> dtake p = 0 -> dtake p' = 0 ->
      (inpost p = 1 -> inpost p' = 1 \/ 2 <= cnt c + sumf inpost (ths c)) ->
      cnt c' = cnt c -> forallb nostore (acts c a) = true -> e = [] -> teff c a c' e
  | te_post t p p' : who a = t -> mv c t p c' p' -> inpost p = 1 -> dtake p = 0 -> inpost p' = 0 -> dtake p' = 0 ->
      cnt c' = cnt c + 1 -> acts c a = [MRmw false true l] -> e = [] -> teff c a c' e
  | te_take t p p' : who a = t -> mv c t p c' p' -> inpost p = 0 -> dtake p = 0 -> inpost p' = 0 -> dtake p' = 1 ->
      cnt c' = cnt c - 1 -> 0 < cnt c -> acts c a = [MRmw true false l] -> e = [] -> teff c a c' e.

  Hypothesis eff : forall c a c' e, hreach step c0 c -> step c a = Some (c', e) -> teff c a c' e.
  Hypothesis inpost01 : forall p, 0 <= inpost p <= 1.
  Hypothesis dtake01 : forall p, 0 <= dtake p <= 1.
  Hypothesis cnt_nn : forall c, hreach step c0 c -> 0 <= cnt c.
  Hypothesis cnt0 : cnt c0 = 0.
  Hypothesis init0 : forall t p, nth_error (ths c0) t = Some p -> inpost p = 0 /\ dtake p = 0.
  Hypothesis sum0 : sumf inpost (ths c0) = 0 /\ sumf dtake (ths c0) = 0.

  Local Notation hs := (hstep step who acts).
  Local Notation ev := (hev (event eop eres)).
  Definition called (tr : list ev) : Z := posts_called (flat_map base_ev tr).
  Definition taken (tr : list ev) : Z := takes (flat_map base_ev tr).
  Definition nopost (tr : list ev) : Prop := forall u K, ~ In (HEv (Call u EPost) K) tr.

  Lemma called_app x y : called (x ++ y) = called x + called y.
  Proof. unfold called, posts_called. rewrite flat_map_app, sumf_app. reflexivity. Qed.
  Lemma taken_app x y : taken (x ++ y) = taken x + taken y.
  Proof. unfold taken, takes. rewrite flat_map_app, sumf_app. reflexivity. Qed.
  Lemma taken_nn x : 0 <= taken x.
  Proof. apply sumf_nonneg. intros []; [lia|]. destruct o, r; cbn; lia. Qed.
  Lemma called_nopost x : nopost x -> called x = 0.
  Proof.
    induction x as [|y x IH]; intros Hn; [reflexivity|]. change (y :: x) with ([y] ++ x). rewrite called_app, IH by (intros u K F; eapply (Hn u K); right; exact F).
    destruct y as [|[t []|t o r] K]; try reflexivity. exfalso. eapply (Hn t K). left. reflexivity.
  Qed.

  (** Counting. *)
  Definition cj (c : C) (tr : list ev) : Prop := cnt c + sumf inpost (ths c) + sumf dtake (ths c) + taken tr <= called tr.
  (** Where the knowledge is. *)
  Definition from (tr : list ev) (x : list nat) : Prop := exists u K, In (HEv (Call u EPost) K) tr /\ incl K x.
  Definition kj (c : C) (h : hst) (tr : list ev) : Prop :=
    (0 < cnt c -> from tr (mem h l)) /\
    (forall t p, nth_error (ths c) t = Some p -> inpost p = 1 -> from tr (kn h t)) /\
    (forall t p, nth_error (ths c) t = Some p -> dtake p = 1 -> from tr (kn h t)).
  (** After the call of a post that finds everything consumed, until the next call of a post. *)
  Definition pubd (c : C) (h : hst) (K : list nat) : Prop := incl K (mem h l) /\ forall t p, nth_error (ths c) t = Some p -> dtake p = 1 -> incl K (kn h t).
  Definition oj (c : C) (h : hst) (tr : list ev) : Prop := forall a u K b, tr = a ++ HEv (Call u EPost) K :: b -> taken a = called a -> nopost b ->
    (exists p, nth_error (ths c) u = Some p /\ inpost p = 1 /\ incl K (kn h u)) \/ pubd c h K.
  Definition TJ (ch : C * hst) (tr : list ev) : Prop := cj (fst ch) tr /\ kj (fst ch) (snd ch) tr /\ oj (fst ch) (snd ch) tr.

  Lemma from_app tr e x : from tr x -> from (tr ++ e) x.
  Proof. intros (u & K & H1 & H2). exists u, K. split; [apply in_or_app; auto|auto]. Qed.
  Lemma from_mono tr x y : from tr x -> incl x y -> from tr y.
  Proof. intros (u & K & H1 & H2) H. exists u, K. split; [auto|eapply incl_tran; eauto]. Qed.
  Lemma hwork_mono t k h u : incl (kn h u) (kn (work t k h) u).
  Proof. cbn. destruct (Nat.eq_dec t u) as [->|Hn]; [rewrite fset_eq; apply incl_tl, incl_refl|rewrite fset_neq by auto; apply incl_refl]. Qed.
  Lemma sum_in p u (c : C) : nth_error (ths c) u = Some p -> inpost p <= sumf inpost (ths c).
  Proof. apply sumf_elem. intros; apply inpost01. Qed.
  Lemma sum_dt p u (c : C) : nth_error (ths c) u = Some p -> dtake p <= sumf dtake (ths c).
  Proof. apply sumf_elem. intros; apply dtake01. Qed.

  Lemma TJ_work c h tr t k : TJ (c, h) tr -> TJ (c, work t k h) (tr ++ [HWork t k]).
  Proof.
    intros (H1 & (H2 & H3 & H4) & H5). cbn [fst snd] in *. split; [|split]; cbn [fst snd].
    - unfold cj in *. rewrite called_app, taken_app. cbn. lia.
    - split; [|split].
      + intros H. apply from_app. auto.
      + intros u p Hu Hp. apply from_app. eapply from_mono; [eapply H3; eauto|apply hwork_mono].
      + intros u p Hu Hp. apply from_app. eapply from_mono; [eapply H4; eauto|apply hwork_mono].
    - intros a u K b E0 Ha Hb. apply app_cut in E0. destruct E0 as [(b' & -> & ->)|(a' & -> & E0)]; [|destruct a' as [|? [|]]; discriminate].
      destruct (H5 a u K b' eq_refl Ha) as [(p & G1 & G2 & G3)|(G1 & G2)].
      + intros v L F. eapply (Hb v L). apply in_or_app. left. exact F.
      + left. exists p. repeat split; auto. eapply incl_tran; [exact G3|apply hwork_mono].
      + right. split; [exact G1|]. intros v p Hv Hp. eapply incl_tran; [eapply G2; eauto|apply hwork_mono].
  Qed.

  Lemma TJ_step c h tr a c' es : hreach step c0 c -> TJ (c, h) tr -> step c a = Some (c', es) ->
    let h' := performs (who a) (acts c a) h in TJ (c', h') (tr ++ map (fun e => HEv e (kn h' (who a))) es).
  Proof.
    intros HR (H1 & (H2 & H3 & H4) & H5) Hs. cbn [fst snd] in *. pose proof (cnt_nn _ HR) as Hnn.
    assert (HR' : hreach step c0 c').
    { destruct HR as (sc & x & HR). exists (sc ++ [a]), (x ++ es). rewrite exec_app, HR. cbn [exec]. rewrite Hs, app_nil_r. reflexivity. }
    pose proof (cnt_nn _ HR') as Hnn'.
    assert (Hmono : forall v, incl (kn h v) (kn (performs (who a) (acts c a) h) v)) by (intros; apply performs_mono).
    (* cutting the extended trace when no post is called in this step *)
    assert (Hcut : forall es', (forall u, ~ In (Call u EPost) es') -> forall f x u K b, tr ++ map (fun e => HEv e f) es' = x ++ HEv (Call u EPost) K :: b -> nopost b -> exists b', tr = x ++ HEv (Call u EPost) K :: b' /\ nopost b').
    { intros es' Hn f x u K b E0 Hb. apply app_cut in E0. destruct E0 as [(b' & -> & ->)|(a' & -> & E0)].
      - exists b'. split; [reflexivity|]. intros v L F. eapply (Hb v L). apply in_or_app. left. exact F.
      - exfalso. assert (F : In (HEv (Call u EPost) K) (map (fun e => HEv e f) es')) by (rewrite E0; apply in_or_app; right; left; reflexivity).
        apply in_map_iff in F. destruct F as (e1 & F1 & F2). injection F1 as -> _. eapply Hn; eauto. }
    destruct (eff _ _ _ _ HR Hs) as [t p p' o Hw HM Hp1 Hp2 Hp3 Hp4 Hc Ha He|t p p' o r Hw HM Hp1 Hp2 Hp3 Hp4 Hc Ha He|t p p' Hw HM Hp1 Hp2 Hp3 Hp4 Hc Ha He|t p p' Hw HM Hp1 Hp2 Hp3 Hp4 Hc Ha He|t p p' Hw HM Hp1 Hp2 Hp3 Hp4 Hc Hpos Ha He];
      destruct HM as [M1 M2 M3 M6 M4 M5]; subst es; cbn [map].
    - (* call *)
      rewrite Ha, Hw. cbn [performs fold_left]. unfold TJ. cbn [fst snd].
      split; [|split].
      + unfold cj in *. rewrite M4, M5, Hc, called_app, taken_app, Hp1, Hp2, Hp3, Hp4. destruct o; cbn; lia.
      + split; [|split].
        * rewrite Hc. intros H. apply from_app. auto.
        * intros v q Hv Hq. destruct (Nat.eq_dec v t) as [->|Hn].
          -- assert (q = p') as -> by congruence. rewrite Hp3 in Hq. destruct o; try discriminate. exists t, (kn h t). split; [apply in_or_app; right; left; reflexivity|apply incl_refl].
          -- destruct (M3 _ _ Hn Hv) as (q0 & Q1 & Q2 & Q3). apply from_app. eapply H3; eauto. congruence.
        * intros v q Hv Hq. destruct (Nat.eq_dec v t) as [->|Hn].
          -- assert (q = p') as -> by congruence. lia.
          -- destruct (M3 _ _ Hn Hv) as (q0 & Q1 & Q2 & Q3). apply from_app. eapply H4; eauto. congruence.
      + intros x u K b E0 Hx Hb. apply app_cut in E0. destruct E0 as [(b' & -> & ->)|(a' & -> & E0)].
        * destruct (H5 x u K b' eq_refl Hx) as [(q & G1 & G2 & G3)|(G1 & G2)].
          -- intros v L F. eapply (Hb v L). apply in_or_app. left. exact F.
          -- assert (Hne : u <> t) by (intros ->; assert (q = p) by congruence; subst; lia).
             left. destruct (M6 _ _ Hne G1) as (q' & Q1 & Q2 & Q3). exists q'. repeat split; auto. congruence.
          -- right. split; [exact G1|]. intros v q Hv Hq. destruct (Nat.eq_dec v t) as [->|Hn]; [assert (q = p') by congruence; subst; lia|].
             destruct (M3 _ _ Hn Hv) as (q0 & Q1 & Q2 & Q3). eapply G2; eauto. congruence.
        * destruct a' as [|? [|]]; [|discriminate|discriminate]. cbn in E0. injection E0 as -> -> <- <-. left. exists p'. repeat split; auto. apply incl_refl.

    - (* return *)
      rewrite Ha, Hw. cbn [performs fold_left]. unfold TJ. cbn [fst snd].
      split; [|split].
      + unfold cj in *. rewrite M4, M5, Hc, called_app, taken_app, Hp1, Hp2, Hp3, Hp4. unfold called at 2, taken at 2. cbn. unfold posts_called, takes. cbn. lia.
      + split; [|split].
        * rewrite Hc. intros H. apply from_app. auto.
        * intros v q Hv Hq. destruct (Nat.eq_dec v t) as [->|Hn]; [assert (q = p') by congruence; subst; lia|].
          destruct (M3 _ _ Hn Hv) as (q0 & Q1 & Q2 & Q3). apply from_app. eapply H3; eauto. congruence.
        * intros v q Hv Hq. destruct (Nat.eq_dec v t) as [->|Hn]; [assert (q = p') by congruence; subst; lia|].
          destruct (M3 _ _ Hn Hv) as (q0 & Q1 & Q2 & Q3). apply from_app. eapply H4; eauto. congruence.
      + intros x u K b E0 Hx Hb. change [HEv (Ret t o r) (kn h t)] with (map (fun e => HEv e (kn h t)) [Ret t o r]) in E0.
        apply Hcut in E0; [|intros v [F|[]]; discriminate|exact Hb]. destruct E0 as (b' & E0 & Hb').
        destruct (H5 x u K b' E0 Hx Hb') as [(q & G1 & G2 & G3)|(G1 & G2)].
        * assert (Hne : u <> t) by (intros ->; assert (q = p) by congruence; subst; lia).
          left. destruct (M6 _ _ Hne G1) as (q' & Q1 & Q2 & Q3). exists q'. repeat split; auto. congruence.
        * right. split; [exact G1|]. intros v q Hv Hq. destruct (Nat.eq_dec v t) as [->|Hn]; [assert (q = p') by congruence; subst; lia|].
          destruct (M3 _ _ Hn Hv) as (q0 & Q1 & Q2 & Q3). eapply G2; eauto. congruence.
    - (* internal *)
      rewrite app_nil_r. unfold TJ. cbn [fst snd].
      split; [|split].
      + unfold cj in *. rewrite M4, M5, Hc, Hp2, Hp3. lia.
      + split; [|split].
        * rewrite Hc. intros H. eapply from_mono; [auto|]. apply performs_mem. exact Ha.
        * intros v q Hv Hq. eapply from_mono; [|apply Hmono]. destruct (Nat.eq_dec v t) as [->|Hn]; [assert (q = p') by congruence; subst; eapply H3; eauto; pose proof (inpost01 p); lia|].
          destruct (M3 _ _ Hn Hv) as (q0 & Q1 & Q2 & Q3). eapply H3; eauto. congruence.
        * intros v q Hv Hq. eapply from_mono; [|apply Hmono]. destruct (Nat.eq_dec v t) as [->|Hn]; [assert (q = p') by congruence; subst; lia|].
          destruct (M3 _ _ Hn Hv) as (q0 & Q1 & Q2 & Q3). eapply H4; eauto. congruence.
      + intros x u K b E0 Hx Hb. destruct (H5 x u K b E0 Hx Hb) as [(q & G1 & G2 & G3)|(G1 & G2)].
        * left. destruct (Nat.eq_dec u t) as [->|Hne].
          -- assert (q = p) as -> by congruence. exists p'. split; [exact M2|]. split; [|eapply incl_tran; [exact G3|apply Hmono]].
             destruct (Hp4 G2) as [|Hbad]; [auto|exfalso].
             (* everything before was consumed *)
             unfold cj in H1. subst tr. rewrite called_app, taken_app in H1. change (HEv (Call t EPost) K :: b) with ([HEv (Call t EPost) K] ++ b) in H1.
             rewrite called_app, taken_app, (called_nopost b Hb) in H1. unfold called at 2, taken at 2 in H1. cbn in H1. unfold posts_called, takes in H1. cbn in H1.
             pose proof (taken_nn b). pose proof (sumf_nonneg dtake (ths c) (fun q => proj1 (dtake01 q))). lia.
          -- destruct (M6 _ _ Hne G1) as (q' & Q1 & Q2 & Q3). exists q'. split; [auto|]. split; [congruence|]. eapply incl_tran; [exact G3|apply Hmono].
        * right. split; [eapply incl_tran; [exact G1|apply performs_mem; exact Ha]|]. intros v q Hv Hq. eapply incl_tran; [|apply Hmono].
          destruct (Nat.eq_dec v t) as [->|Hn]; [assert (q = p') by congruence; subst; lia|].
          destruct (M3 _ _ Hn Hv) as (q0 & Q1 & Q2 & Q3). eapply G2; eauto. congruence.
    - (* a post takes effect *)
      rewrite app_nil_r. unfold TJ. cbn [fst snd].
      assert (Hmem : incl (kn h t) (mem (performs (who a) (acts c a) h) l)) by (rewrite Ha, Hw; cbn; rewrite fset_eq; apply incl_appl, incl_refl).
      assert (Hmm : incl (mem h l) (mem (performs (who a) (acts c a) h) l)) by (apply performs_mem; rewrite Ha; reflexivity).
      split; [|split].
      + unfold cj in *. rewrite M4, M5, Hc, Hp1, Hp2, Hp3, Hp4. lia.
      + split; [|split].
        * intros _. eapply from_mono; [exact (H3 _ _ M1 Hp1)|exact Hmem].
        * intros v q Hv Hq. eapply from_mono; [|apply Hmono]. destruct (Nat.eq_dec v t) as [->|Hn]; [assert (q = p') by congruence; subst; lia|].
          destruct (M3 _ _ Hn Hv) as (q0 & Q1 & Q2 & Q3). eapply H3; eauto. congruence.
        * intros v q Hv Hq. eapply from_mono; [|apply Hmono]. destruct (Nat.eq_dec v t) as [->|Hn]; [assert (q = p') by congruence; subst; lia|].
          destruct (M3 _ _ Hn Hv) as (q0 & Q1 & Q2 & Q3). eapply H4; eauto. congruence.
      + intros x u K b E0 Hx Hb. destruct (H5 x u K b E0 Hx Hb) as [(q & G1 & G2 & G3)|(G1 & G2)].
        * destruct (Nat.eq_dec u t) as [->|Hne].
          -- right. split; [eapply incl_tran; [exact G3|exact Hmem]|]. intros v q1 Hv Hq1. exfalso.
             unfold cj in H1. subst tr. rewrite called_app, taken_app in H1. change (HEv (Call t EPost) K :: b) with ([HEv (Call t EPost) K] ++ b) in H1.
             rewrite called_app, taken_app, (called_nopost b Hb) in H1. unfold called at 2, taken at 2 in H1. cbn in H1. unfold posts_called, takes in H1. cbn in H1.
             pose proof (taken_nn b). pose proof (sum_in _ _ _ M1).
             destruct (Nat.eq_dec v t) as [->|Hn]; [assert (q1 = p') by congruence; subst; lia|].
             destruct (M3 _ _ Hn Hv) as (q0 & Q1 & Q2 & Q3). pose proof (sum_dt _ _ _ Q1). lia.
          -- left. destruct (M6 _ _ Hne G1) as (q' & Q1 & Q2 & Q3). exists q'. split; [auto|]. split; [congruence|]. eapply incl_tran; [exact G3|apply Hmono].
        * right. split; [eapply incl_tran; [exact G1|exact Hmm]|]. intros v q Hv Hq. eapply incl_tran; [|apply Hmono].
          destruct (Nat.eq_dec v t) as [->|Hn]; [assert (q = p') by congruence; subst; lia|].
          destruct (M3 _ _ Hn Hv) as (q0 & Q1 & Q2 & Q3). eapply G2; eauto. congruence.
    - (* a wait takes effect *)
      rewrite app_nil_r. unfold TJ. cbn [fst snd].
      assert (Hacq : incl (mem h l) (kn (performs (who a) (acts c a) h) t)) by (rewrite Ha, Hw; cbn; rewrite fset_eq; apply incl_appl, incl_refl).
      assert (Hmm : incl (mem h l) (mem (performs (who a) (acts c a) h) l)) by (apply performs_mem; rewrite Ha; reflexivity).
      split; [|split].
      + unfold cj in *. rewrite M4, M5, Hc, Hp1, Hp2, Hp3, Hp4. lia.
      + split; [|split].
        * intros _. eapply from_mono; [auto|exact Hmm].
        * intros v q Hv Hq. eapply from_mono; [|apply Hmono]. destruct (Nat.eq_dec v t) as [->|Hn]; [assert (q = p') by congruence; subst; lia|].
          destruct (M3 _ _ Hn Hv) as (q0 & Q1 & Q2 & Q3). eapply H3; eauto. congruence.
        * intros v q Hv Hq. destruct (Nat.eq_dec v t) as [->|Hn]; [eapply from_mono; [auto|exact Hacq]|]. eapply from_mono; [|apply Hmono].
          destruct (M3 _ _ Hn Hv) as (q0 & Q1 & Q2 & Q3). eapply H4; eauto. congruence.
      + intros x u K b E0 Hx Hb. destruct (H5 x u K b E0 Hx Hb) as [(q & G1 & G2 & G3)|(G1 & G2)].
        * exfalso. unfold cj in H1. subst tr. rewrite called_app, taken_app in H1. change (HEv (Call u EPost) K :: b) with ([HEv (Call u EPost) K] ++ b) in H1.
          rewrite called_app, taken_app, (called_nopost b Hb) in H1. unfold called at 2, taken at 2 in H1. cbn in H1. unfold posts_called, takes in H1. cbn in H1.
          pose proof (taken_nn b). pose proof (sum_in _ _ _ G1). pose proof (sumf_nonneg dtake (ths c) (fun q => proj1 (dtake01 q))). lia.
        * right. split; [eapply incl_tran; [exact G1|exact Hmm]|]. intros v q Hv Hq.
          destruct (Nat.eq_dec v t) as [->|Hn]; [eapply incl_tran; [exact G1|exact Hacq]|]. eapply incl_tran; [|apply Hmono].
          destruct (M3 _ _ Hn Hv) as (q0 & Q1 & Q2 & Q3). eapply G2; eauto. congruence.
  Qed.

  Lemma TJ_init : TJ (c0, hst0) [].
  Proof.
    split; [|split]; cbn [fst snd].
    - unfold cj. rewrite cnt0, (proj1 sum0), (proj2 sum0). reflexivity.
    - split; [rewrite cnt0; lia|]. split; intros t p Ht Hp; destruct (init0 _ _ Ht); lia.
    - intros a u K b E0. destruct a; discriminate.
  Qed.

  (** Every successful wait knows what happened before some earlier call of post(); and if every earlier post had been consumed by a returned wait when
      post() was called by [u] and no other post was called since, then it is that one. *)
  Lemma tok_hb sched c tr : exec hs (c0, hst0) sched = Some (c, tr) ->
    forall x t o r K' y, tr = x ++ HEv (Ret t o r) K' :: y -> took o r = 1 ->
    from x K' /\ forall a u K b, x = a ++ HEv (Call u EPost) K :: b -> taken a = called a -> nopost b -> incl K K'.
  Proof.
    intros H x t o r K' y E0 Hg.
    refine (proj2 (hb_events step who acts TJ (fun x e K' => match e with Ret t o r => took o r = 1 ->
        from x K' /\ (forall a u K b, x = a ++ HEv (Call u EPost) K :: b -> taken a = called a -> nopost b -> incl K K') | _ => True end) c0 TJ_init _ _ _ sched c tr H) x (Ret t o r) K' y E0 Hg); clear H E0 Hg x t o r K' y.
    - intros c1 h1 tr1 t k _ HJ. apply TJ_work. exact HJ.
    - intros c1 h1 tr1 a c2 es HR HJ Hs. apply TJ_step; auto.
    - intros c1 h1 tr1 a c2 es d e b HR HJ Hs Hes. cbv zeta. destruct e as [|t o r]; [exact I|]. intros Hg.
      destruct HJ as (H1 & (_ & _ & H4) & H5). cbn [fst snd] in *.
      destruct (eff _ _ _ _ HR Hs) as [t0 p p' o0 Hw HM Hp1 Hp2 Hp3 Hp4 Hc Ha He|t0 p p' o0 r0 Hw HM Hp1 Hp2 Hp3 Hp4 Hc Ha He|t0 p p' Hw HM Hp1 Hp2 Hp3 Hp4 Hc Ha He|t0 p p' Hw HM Hp1 Hp2 Hp3 Hp4 Hc Ha He|t0 p p' Hw HM Hp1 Hp2 Hp3 Hp4 Hc Hpos Ha He];
        rewrite He in Hes; try (destruct d as [|? [|]]; discriminate).
      destruct d as [|? [|]]; [|discriminate|discriminate]. cbn in Hes. injection Hes as -> -> -> <-. cbn [map]. rewrite app_nil_r. rewrite Ha, Hw. cbn [performs fold_left].
      destruct HM as [M1 _ _ _ _ _]. split; [eapply H4; eauto; congruence|].
      intros x u K y E0 Hx Hy. destruct (H5 x u K y E0 Hx Hy) as [(q & G1 & G2 & G3)|(G1 & G2)]; [|eapply G2; eauto; congruence].
      exfalso. assert (u <> t) by (intros ->; assert (q = p) by congruence; subst; lia).
      (* both a post not yet effective and a completed wait *)
      unfold cj in H1. subst tr1. rewrite called_app, taken_app in H1. change (HEv (Call u EPost) K :: y) with ([HEv (Call u EPost) K] ++ y) in H1.
      rewrite called_app, taken_app, (called_nopost y Hy) in H1. unfold called at 2, taken at 2 in H1. cbn in H1. unfold posts_called, takes in H1. cbn in H1.
      pose proof (taken_nn y). pose proof (sum_in _ _ _ G1). pose proof (sum_dt _ _ _ M1). pose proof (cnt_nn _ HR). lia.
  Qed.

  (** From the moment a post takes effect, everything the poster knows is known to every wait that has not got its result by then. *)
  Lemma tok_pub c1 h1 s2 c tr K t : hreach step c0 c1 -> exec hs (c1, h1) s2 = Some (c, tr) ->
    incl K (mem h1 l) -> (forall p, nth_error (ths c1) t = Some p -> dtake p = 0) ->
    forall x o r K' y, tr = x ++ HEv (Ret t o r) K' :: y -> took o r = 1 -> incl K K'.
  Proof.
    intros HR H HK Hd0 x o r K' y E0 Hg.
    set (PJ := fun (ch : C * hst) (tr : list ev) => hreach step c0 (fst ch) /\ incl K (mem (snd ch) l) /\ (forall p, nth_error (ths (fst ch)) t = Some p -> dtake p = 1 -> incl K (kn (snd ch) t))).
    refine (exec_events hs PJ (fun x e => match e with HEv (Ret t1 o r) K' => t1 = t -> took o r = 1 -> incl K K' | _ => True end) (c1, h1) _ _ _ _ _ _ x (HEv (Ret t o r) K') y H E0 eq_refl Hg); clear H E0 Hg x o r K' y tr c s2.
    - split; [exact HR|]. split; [exact HK|]. intros p Hp Hd. cbn [fst] in Hp. rewrite (Hd0 _ Hp) in Hd. lia.
    - intros [c2 h2] tr a [c3 h3] es (R & K1 & K2) Hs. cbn [fst snd] in *. split; [eapply hreach_step; eauto|].
      destruct a as [t1 k|a]; cbn [hstep fst snd] in Hs.
      + injection Hs as <- <- <-. cbn [fst snd]. split; [exact K1|]. intros p Hp Hd. eapply incl_tran; [eapply K2; eauto|apply hwork_mono].
      + destruct (step c2 a) as [[c4 es1]|] eqn:Es; [|discriminate]. injection Hs as <- <- _. cbn [fst snd].
        assert (Hmono : forall v, incl (kn h2 v) (kn (performs (who a) (acts c2 a) h2) v)) by (intros; apply performs_mono).
        assert (Hkeep : forall u p p', mv c2 u p c4 p' -> dtake p' = 0 \/ incl K (kn (performs (who a) (acts c2 a) h2) u) -> forall q, nth_error (ths c4) t = Some q -> dtake q = 1 -> incl K (kn (performs (who a) (acts c2 a) h2) t)).
        { intros u p p' HM Hp q Hq Hd. destruct HM as [M1 M2 M3 _ _ _]. destruct (Nat.eq_dec t u) as [->|Hn].
          - assert (q = p') as -> by congruence. destruct Hp as [Hp|Hp]; [lia|exact Hp].
          - destruct (M3 _ _ Hn Hq) as (q0 & Q1 & Q2 & Q3). eapply incl_tran; [eapply K2; eauto; congruence|apply Hmono]. }
        destruct (eff _ _ _ _ R Es) as [t0 p p' o0 Hw HM Hp1 Hp2 Hp3 Hp4 Hc Ha He|t0 p p' o0 r0 Hw HM Hp1 Hp2 Hp3 Hp4 Hc Ha He|t0 p p' Hw HM Hp1 Hp2 Hp3 Hp4 Hc Ha He|t0 p p' Hw HM Hp1 Hp2 Hp3 Hp4 Hc Ha He|t0 p p' Hw HM Hp1 Hp2 Hp3 Hp4 Hc Hpos Ha He];
          (split; [eapply incl_tran; [exact K1|apply performs_mem; first [exact Ha|rewrite Ha; reflexivity]]|eapply Hkeep; [exact HM|]]); auto.
        right. rewrite Ha, Hw. cbn. rewrite fset_eq. apply incl_appl. exact K1.
    - intros [c2 h2] tr a [c3 h3] es d e b (R & K1 & K2) Hs Hes. cbn [fst snd] in *. destruct e as [|[|t1 o r] K']; [exact I|exact I|]. intros -> Hg.
      destruct a as [t1 k|a]; cbn [hstep fst snd] in Hs; [injection Hs as _ _ Hs; rewrite Hes in Hs; destruct d as [|? [|]]; discriminate|].
      destruct (step c2 a) as [[c4 es1]|] eqn:Es; [|discriminate]. injection Hs as _ _ Hs.
      destruct (eff _ _ _ _ R Es) as [t0 p p' o0 Hw HM Hp1 Hp2 Hp3 Hp4 Hc Ha He|t0 p p' o0 r0 Hw HM Hp1 Hp2 Hp3 Hp4 Hc Ha He|t0 p p' Hw HM Hp1 Hp2 Hp3 Hp4 Hc Ha He|t0 p p' Hw HM Hp1 Hp2 Hp3 Hp4 Hc Ha He|t0 p p' Hw HM Hp1 Hp2 Hp3 Hp4 Hc Hpos Ha He];
        rewrite He, Hes in Hs; try (destruct d as [|? [|]]; discriminate).
      destruct d as [|? [|]]; [|discriminate|discriminate]. cbn in Hs. rewrite Ha, Hw in Hs. cbn in Hs. injection Hs as -> -> -> <- _. destruct HM as [M1 _ _ _ _ _]. eapply K2; eauto. congruence.
  Qed.

  Lemma tok_now c1 h1 a c2 e2 s2 c tr t : hreach step c0 c1 -> hs (c1, h1) (HBase a) = Some (c2, e2) -> acts c1 a = [MRmw false true l] ->
    exec hs c2 s2 = Some (c, tr) -> (forall p, nth_error (ths c1) t = Some p -> dtake p = 0) ->
    forall x o r K' y, tr = x ++ HEv (Ret t o r) K' :: y -> took o r = 1 -> incl (kn h1 (who a)) K'.
  Proof.
    intros HR Hs Ha H Hd x o r K' y E0 Hg. pose proof HR as HR1.
    destruct c2 as [c2 h2]. pose proof (hreach_step _ _ _ _ _ _ _ _ _ _ HR Hs) as HR2.
    cbn [hstep fst snd] in Hs. destruct (step c1 a) as [[c3 es]|] eqn:Es; [|discriminate]. injection Hs as -> <- _.
    eapply (tok_pub c2); [exact HR2|exact H| | |exact E0|exact Hg].
    - rewrite Ha. cbn. rewrite fset_eq. apply incl_appl, incl_refl.
    - intros p Hp.
      assert (Hkeep : forall u q q', mv c1 u q c2 q' -> dtake q' = 0 -> dtake p = 0).
      { intros u q q' HM Hq. destruct HM as [M1 M2 M3 _ _ _]. destruct (Nat.eq_dec t u) as [->|Hn]; [congruence|]. destruct (M3 _ _ Hn Hp) as (q0 & Q1 & Q2 & Q3). rewrite Q3. eauto. }
      destruct (eff _ _ _ _ HR Es) as [t0 q q' o0 Hw HM Hp1 Hp2 Hp3 Hp4 Hc Ha' He|t0 q q' o0 r0 Hw HM Hp1 Hp2 Hp3 Hp4 Hc Ha' He|t0 q q' Hw HM Hp1 Hp2 Hp3 Hp4 Hc Ha' He|t0 q q' Hw HM Hp1 Hp2 Hp3 Hp4 Hc Ha' He|t0 q q' Hw HM Hp1 Hp2 Hp3 Hp4 Hc Hpos Ha' He]; eauto.
      rewrite Ha in Ha'. discriminate.
  Qed.
End Tok.

Lemma mv_upd {C T} (ths : C -> list T) (inpost dtake : T -> Z) c c' t p p' : nth_error (ths c) t = Some p -> ths c' = upd (ths c) t p' -> mv ths inpost dtake c t p c' p'.
Proof.
  intros Ht E. constructor; rewrite ?E.
  - exact Ht.
  - eapply nth_upd_eq; eauto.
  - intros u q Hn Hq. rewrite nth_upd_neq in Hq by auto. eauto.
  - intros u q Hn Hq. exists q. rewrite nth_upd_neq by auto. auto.
  - apply sumf_upd. exact Ht.
  - apply sumf_upd. exact Ht.
Qed.
