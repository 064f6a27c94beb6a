(** Memory orders of spin_mutex (/repo/include/boost/sync/detail/mutexes/spin_mutex.hpp), over SpinModel.v. *)
From Coq Require Import List Bool Arith.
From Verif Require Import ListSum Exec Events Lin MutexSpec MutexSpecFacts SpinModel SpinProof Hb.
Import ListNotations.

(** Model machinery: the thread of a step; no counterpart in /repo. *)
Definition spin_who (a : sact) : nat := match a with SCall t _ => t | SRun t => t end.
(** The atomic operation of each program point; the mutex has one atomic object, number 0. *)
Definition spin_mem (p : spc) : list mact :=
  match p with
  | SLoad => [MLoad false 0]              (* 61: load(relaxed) *)
  | SXchg | STry _ => [MRmw true false 0] (* 71: exchange(acquire); 112: test_and_set(acquire) *)
  | SStore => [MStore true 0]             (* 77: store(release); 117: clear(release) *)
  | SRest _ | SDone _ _ _ => []
  end.
(** Memory operations of a step: spin_mutex.hpp 57-78, 100-118. *)
Definition spin_acts (c : scfg) (a : sact) : list mact :=
  match a with
  | SCall _ _ => []
  | SRun t => match nth_error (snd c) t with Some p => spin_mem p | None => [] end
  end.

(** spin_mutex.hpp 57-78 with happens-before. *)
Definition ttas_hstep := hstep ttas_step spin_who spin_acts.
(** spin_mutex.hpp 100-118 with happens-before. *)
Definition tas_hstep := hstep tas_step spin_who spin_acts.

(** Model machinery: the thread of an event; no counterpart in /repo. *)
Definition ev_thr {O R} (e : event O R) : nat := match e with Call t _ => t | Ret t _ _ => t end.

Section Spin.
  Variables (entry : bool -> mop -> option spc) (run : bool -> spc -> option (bool * spc)).
  Hypothesis He : entry_ok entry.
  Hypothesis Hr : run_ok run.

  Lemma spin_cases s ths a c' e : spin_step entry run (s, ths) a = Some (c', e) ->
    (exists t o m p, a = SCall t o /\ nth_error ths t = Some (SRest m) /\ mpre m o = true /\ entry m o = Some p /\ c' = (s, upd ths t p) /\ e = [Call t o])
    \/ (exists t m o r, a = SRun t /\ nth_error ths t = Some (SDone m o r) /\ c' = (s, upd ths t (SRest (mnext m o r))) /\ e = [Ret t o r])
    \/ (exists t p s' p', a = SRun t /\ nth_error ths t = Some p /\ run s p = Some (s', p') /\ c' = (s', upd ths t p') /\ e = []).
  Proof.
    destruct a as [t o|t]; cbn [spin_step]; destruct (nth_error ths t) as [q|] eqn:Et; try discriminate.
    - destruct q as [m| | |m| |m o' r']; try discriminate. destruct (mpre m o) eqn:Ep; [|discriminate]. destruct (entry m o) as [p|] eqn:Ee; [|discriminate].
      intros H; inversion H; subst. left. exists t, o, m, p. auto 10.
    - intros H. destruct q as [m| | |m| |m o' r'].
      6: { inversion H; subst. right; left. exists t, m, o', r'. auto. }
      all: match type of H with context [run ?s0 ?q0] => destruct (run s0 q0) as [[s1 p1]|] eqn:Er; [|discriminate] end; inversion H; subst; right; right; eauto 12.
  Qed.

  (* the word goes from unlocked to locked only by the exchange, and back only by the store *)
  Hypothesis Hm : forall s p s' p', run s p = Some (s', p') ->
    (s = unlocked_state -> s' = locked_state -> spin_mem p = [MRmw true false 0]) /\
    (p <> SStore -> forallb nostore (spin_mem p) = true) /\ (p = SStore -> p' = SDone true MUnlock ROk).

  Definition unl (tr : list (hev (event mop mres))) (K : list nat) : Prop := exists u, In (HEv (Call u MUnlock) K) tr.

  Definition SJ (c : scfg * hst) (tr : list (hev (event mop mres))) : Prop :=
    (exists x, SR (fst c) x) /\
    (fst (fst c) = unlocked_state -> forall K, unl tr K -> incl K (mem (snd c) 0)) /\
    (forall t p, nth_error (snd (fst c)) t = Some p -> sholds p = true -> forall K, unl tr K -> incl K (kn (snd c) t)).

  Lemma unl_app tr e K : unl (tr ++ e) K -> unl tr K \/ exists u, In (HEv (Call u MUnlock) K) e.
  Proof. intros (u & H). apply in_app_or in H. destruct H; [left; exists u; auto|right; eauto]. Qed.

  Lemma SJ_step c tr a c' e : SJ c tr -> hstep (spin_step entry run) spin_who spin_acts c a = Some (c', e) -> SJ c' (tr ++ e).
  Proof.
    destruct c as [[s ths] h]. intros ((x & Hx) & HM & HK) H. cbn [fst snd] in *.
    destruct a as [t k|a]; cbn [hstep fst snd] in H.
    - inversion H; subst; clear H.
      assert (Hu : forall K, unl (tr ++ [HWork t k]) K -> unl tr K).
      { intros K HK1. apply unl_app in HK1. destruct HK1 as [|(u & [F|[]])]; [auto|discriminate]. }
      split; [exists x; exact Hx|]. split; cbn [fst snd work mem kn].
      + intros Hs K HK1. apply HM; auto.
      + intros t1 p1 Ht1 Hp1 K HK1. eapply incl_tran; [exact (HK _ _ Ht1 Hp1 K (Hu K HK1))|].
        destruct (Nat.eq_dec t t1) as [->|Hn]; [rewrite fset_eq; apply incl_tl, incl_refl|rewrite fset_neq by auto; apply incl_refl].
    - destruct (spin_step entry run (s, ths) a) as [[c1 es]|] eqn:Es; [|discriminate]. inversion H; subst; clear H.
      destruct (SR_step _ _ He Hr _ _ _ _ _ Hx Es) as (x' & _ & Hx').
      assert (Hexcl : forall u v pu pv, nth_error ths u = Some pu -> nth_error ths v = Some pv -> sholds pu = true -> sholds pv = true -> u = v).
      { intros u v pu pv Hu Hv Hpu Hpv. destruct Hx as (_ & _ & Hh & _). apply (Hh _ _ Hu) in Hpu. apply (Hh _ _ Hv) in Hpv. congruence. }
      assert (Hlk : forall u pu, nth_error ths u = Some pu -> sholds pu = true -> s = unlocked_state -> False).
      { intros u pu Hu Hpu Hs. destruct Hx as (_ & Hn & Hh & _). apply (Hh _ _ Hu) in Hpu. apply Hn in Hs. cbn [fst] in *. congruence. }
      apply spin_cases in Es. destruct Es as [(t & o & m & p & -> & Et & Hpre & Hen & -> & ->)|[(t & m & o & r & -> & Et & -> & ->)|(t & p & s' & p' & -> & Et & Er & -> & ->)]].
      + cbn [spin_acts spin_who performs fold_left map]. destruct (He _ _ _ Hpre Hen) as (_ & Hhp).
        split; [eauto|]. split; cbn [fst snd].
        * intros Hs K HK1. apply unl_app in HK1. destruct HK1 as [HK1|(u & [F|[]])]; [auto|]. injection F as -> -> <-.
          exfalso. assert (m = true) as -> by (destruct m; cbn in Hpre; congruence). eapply Hlk; [exact Et|reflexivity|exact Hs].
        * intros t1 p1 Ht1 Hp1 K HK1.
          assert (Hold : exists q1, nth_error ths t1 = Some q1 /\ sholds q1 = true).
          { destruct (nth_upd_inv _ _ _ _ _ Ht1) as [(<- & -> & _)|(Hn & Hu)]; [|eauto]. exists (SRest m). rewrite Hhp in Hp1. split; [exact Et|exact Hp1]. }
          destruct Hold as (q1 & Hq1 & Hh1). apply unl_app in HK1. destruct HK1 as [HK1|(u & [F|[]])]; [eapply HK; eauto|]. injection F as -> -> <-.
          assert (m = true) as -> by (destruct m; cbn in Hpre; congruence).
          rewrite (Hexcl t1 u _ _ Hq1 Et Hh1 eq_refl). apply incl_refl.
      + cbn [spin_acts spin_who map snd]. rewrite Et. cbn [spin_mem performs fold_left].
        assert (Hu : forall K0 K, unl (tr ++ [HEv (Ret t o r) K0]) K -> unl tr K).
        { intros K0 K HK1. apply unl_app in HK1. destruct HK1 as [|(u & [F|[]])]; [auto|discriminate]. }
        split; [eauto|]. split; cbn [fst snd].
        * intros Hs K HK1. eauto.
        * intros t1 p1 Ht1 Hp1 K HK1. destruct (nth_upd_inv _ _ _ _ _ Ht1) as [(<- & -> & _)|(Hn & Hu1)]; [eapply HK; eauto|eapply HK; eauto].
      + cbn [spin_acts spin_who map snd]. rewrite Et, app_nil_r. split; [eauto|]. cbn [fst snd].
        destruct (Hm _ _ _ _ Er) as (Hacq & Hns & Hst).
        destruct (Hr _ _ _ _ Er) as [(Ha & -> & Hho)|[(m & o & r & Ha & -> & -> & -> & Hn & Htr)|[(m & -> & -> & -> & ->)|(-> & -> & ->)]]].
        * assert (Hp : p <> SStore).
          { intros Hp. rewrite (Hst Hp), Hp in Ha. discriminate. }
          split.
          -- intros Hs K HK1. eapply incl_tran; [apply HM; auto|]. apply performs_mem. auto.
          -- intros t1 p1 Ht1 Hp1 K HK1. eapply incl_tran; [|apply performs_mono].
             destruct (nth_upd_inv _ _ _ _ _ Ht1) as [(<- & -> & _)|(Hn & Hu1)]; [eapply HK; eauto; congruence|eapply HK; eauto].
        * rewrite (Hacq eq_refl eq_refl). split; [discriminate|].
          intros t1 p1 Ht1 Hp1 K HK1. destruct (nth_upd_inv _ _ _ _ _ Ht1) as [(<- & -> & _)|(Hn1 & Hu1)].
          -- cbn. rewrite fset_eq. apply incl_appl. apply HM; auto.
          -- exfalso. eapply Hlk; eauto.
        * split; [discriminate|]. intros t1 p1 Ht1 Hp1 K HK1. eapply incl_tran; [|apply performs_mono].
          destruct (nth_upd_inv _ _ _ _ _ Ht1) as [(<- & -> & _)|(Hn & Hu1)]; [eapply HK; eauto|eapply HK; eauto].
        * split.
          -- intros _ K HK1. eapply HK; eauto.
          -- intros t1 p1 Ht1 Hp1 K HK1. destruct (nth_upd_inv _ _ _ _ _ Ht1) as [(<- & -> & _)|(Hn & Hu1)]; [discriminate|].
             exfalso. apply Hn. symmetry. eapply Hexcl; eauto.
  Qed.

  Lemma spin_hb n sched c tr a u K b t o r K' d :
    exec (hstep (spin_step entry run) spin_who spin_acts) (spin_init n, hst0) sched = Some (c, tr) ->
    tr = a ++ HEv (Call u MUnlock) K :: b ++ HEv (Ret t o r) K' :: d -> mnext false o r = true -> incl K K'.
  Proof.
    intros H E0 Hgot.
    apply (exec_events _ SJ (fun a x => match x with HEv (Ret t o r) K' => mnext false o r = true -> forall K, unl a K -> incl K K' | _ => True end) (spin_init n, hst0))
      with (a := a ++ HEv (Call u MUnlock) K :: b) (x := HEv (Ret t o r) K') (b := d) in H.
    - apply H; [exact Hgot|]. exists u. apply in_or_app. right. left. reflexivity.
    - split; [exists (xinit SP n); apply SR_init|]. split; [intros _ K0 (u0 & [])|intros t0 p0 _ _ K0 (u0 & [])].
    - apply SJ_step.
    - intros [[s ths] h] t1 a1 [c2 h2] es d1 x b1 ((x0 & Hx) & HM & HK) Hs He1. cbn [fst snd] in *. destruct x as [|[|t0 o0 r0] K0]; [exact I|exact I|]. intros Hg K1 HK1.
      destruct a1 as [t3 k3|a3]; cbn [hstep fst snd] in Hs; [inversion Hs; subst; destruct d1 as [|? [|]]; discriminate|].
      destruct (spin_step entry run (s, ths) a3) as [[c3 es1]|] eqn:Es; [|discriminate]. injection Hs as Hc Hh He2. subst c2.
      apply spin_cases in Es. destruct Es as [(t4 & o4 & m & p & -> & Et & Hpre & Hen & -> & ->)|[(t4 & m & o4 & r4 & -> & Et & -> & ->)|(t4 & p & s' & p' & -> & Et & Er & -> & ->)]].
      + subst es. destruct d1 as [|? [|]]; discriminate.
      + subst es. destruct d1 as [|? [|]]; [|discriminate|discriminate]. cbn [app map] in He1. injection He1 as -> -> -> HK0 _. rewrite app_nil_r in HK1.
        rewrite <- HK0. cbn [spin_acts spin_who snd]. rewrite Et. cbn. apply (HK _ _ Et); [|exact HK1]. destruct o0, r0; cbn in *; try discriminate; auto.
      + subst es. destruct d1; discriminate.
    - rewrite E0, <- app_assoc. reflexivity.
  Qed.
End Spin.

Lemma ttas_mem : forall s p s' p', ttas_run s p = Some (s', p') ->
    (s = unlocked_state -> s' = locked_state -> spin_mem p = [MRmw true false 0]) /\
    (p <> SStore -> forallb nostore (spin_mem p) = true) /\ (p = SStore -> p' = SDone true MUnlock ROk).
Proof.
  intros s p s' p' H. destruct p; cbn in *; try discriminate; (split; [|split]); try reflexivity; try congruence.
  all: intros; subst; cbn in *; try discriminate; congruence.
Qed.
Lemma tas_mem : forall s p s' p', tas_run s p = Some (s', p') ->
    (s = unlocked_state -> s' = locked_state -> spin_mem p = [MRmw true false 0]) /\
    (p <> SStore -> forallb nostore (spin_mem p) = true) /\ (p = SStore -> p' = SDone true MUnlock ROk).
Proof.
  intros s p s' p' H. destruct p; cbn in *; try discriminate; (split; [|split]); try reflexivity; try congruence.
  all: intros; subst; cbn in *; try discriminate; congruence.
Qed.
