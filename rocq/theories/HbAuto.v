(** Memory orders of the Linux auto_reset_event
    (/repo/include/boost/sync/detail/events/auto_reset_event_futex.hpp, "L:"), over AutoFutexModel.v. *)
From Coq Require Import List Bool Arith ZArith Lia.
From Verif Require Import ListSum Exec Events Lin Word EventSpec EventSpecFacts AutoFutexModel AutoFutexProof Hb HbSpin HbTokens.
Import ListNotations.
Local Open Scope Z_scope.

(** Model machinery: the thread of a step; no counterpart in /repo. *)
Definition auto_who (a : aact) : nat := match a with ACall t _ => t | ARun t _ => t end.
(** A compare-exchange (L:68, 137, 124, 211, 266, 303, 309) succeeds. *)
Definition cas_ok (s old : Z) (ch : achoice) : bool := match ch with CSpur => false | _ => s =? old end.
(** L:66 / 78: the release fence of a post that finds enough undelivered posts. *)
Definition absorb_fence (s : Z) : list mact := if posts_of s <=? waiters_of s then [] else [MFence].
(** One atomic object, number 0.  The futex system calls are not counted as synchronisation. *)
Definition auto_mem (s : Z) (p : apc) (ch : achoice) : list mact :=
  match p with
  | PLoad => MLoad false 0 :: absorb_fence s                                                       (* L:60 relaxed *)
  | PCas old => if cas_ok s old ch then [MRmw false true 0] else MLoad false 0 :: absorb_fence s    (* L:68 release / relaxed *)
  | TLoad _ => [MLoad false 0]                                                                      (* L:133 relaxed *)
  | TCas _ old => if cas_ok s old ch then [MRmw true false 0] else [MLoad false 0]                  (* L:137 acquire / relaxed *)
  | WAdd _ => [MRmw false false 0]                                                                  (* L:91 / 172 / 231 relaxed *)
  | WLoad _ => [MLoad false 0]                                                                      (* L:116 / 203 / 258 relaxed *)
  | WCas _ old => if cas_ok s old ch then [MRmw true false 0] else [MLoad false 0]                  (* L:124 / 211 / 266 acquire / relaxed *)
  | OLoad => [MLoad false 0]                                                                        (* L:296 relaxed *)
  | OCas old =>
      if cas_ok s old ch then
        if posts_of old =? 0 then [MRmw false false 0]                                              (* L:303 relaxed *)
        else [MRmw true false 0]                                                                    (* L:309 acquire *)
      else [MLoad false 0]
  | ARest | PSignal | WFutex _ _ | WSleep _ | ADone _ _ => []
  end.
(** Memory operations of a step of L:58-315. *)
Definition auto_acts (c : acfg) (a : aact) : list mact :=
  match a with
  | ACall _ _ => []
  | ARun t ch => match nth_error (snd c) t with Some p => auto_mem (fst c) p ch | None => [] end
  end.
(** L:58-315 with happens-before. *)
Definition auto_hstep := hstep auto_step auto_who auto_acts.

(** Proof or specification device; no counterpart in /repo. *)
Definition egood (e : event eop eres) : bool := match e with Ret _ o r => (0 <? took o r) | _ => false end.
(** Proof or specification device; no counterpart in /repo. *)
Definition dtake (p : apc) : Z := match p with ADone o r => took o r | _ => 0 end.
(** Proof or specification device; no counterpart in /repo. *)
Definition esucc (c : acfg) (t : nat) : bool := match nth_error (snd c) t with Some p => (0 <? dtake p) | _ => false end.
(** Proof or specification device; no counterpart in /repo. *)
Definition inpost (p : apc) : Z := match p with PLoad | PCas _ => 1 | _ => 0 end.

Lemma took_nn o r : 0 <= took o r <= 1. Proof. destruct o, r; cbn; lia. Qed.
Lemma dtake_nn p : 0 <= dtake p. Proof. destruct p; cbn; try lia. apply took_nn. Qed.
Lemma inpost_nn p : 0 <= inpost p. Proof. destruct p; cbn; lia. Qed.

(** Kinds of steps. Proof or specification device; no counterpart in /repo. *)
Inductive aeff (s : Z) (ths : list apc) (a : aact) (s' : Z) (ths' : list apc) (e : list (event eop eres)) : Prop :=
| ae_call t o : a = ACall t o -> nth_error ths t = Some ARest -> s' = s -> ths' = upd ths t (auto_entry o) -> e = [Call t o] -> aeff s ths a s' ths' e
| ae_ret t ch o r : a = ARun t ch -> nth_error ths t = Some (ADone o r) -> s' = s -> ths' = upd ths t ARest -> e = [Ret t o r] -> aeff s ths a s' ths' e
| ae_sig t ch : a = ARun t ch -> nth_error ths t = Some PSignal -> s' = s -> e = [] ->
    (ths' = upd ths t (ADone EPost EOk) \/ exists u k, nth_error ths u = Some (WSleep k) /\ ths' = upd (upd ths u (WLoad k)) t (ADone EPost EOk)) -> aeff s ths a s' ths' e
| ae_neut t ch p p' : a = ARun t ch -> nth_error ths t = Some p -> posts_of s' = posts_of s -> ths' = upd ths t p' -> e = [] ->
    inpost p' <= inpost p -> dtake p' = 0 -> dtake p = 0 ->
    (inpost p = 1 -> inpost p' = 1 \/ waiters_of s < posts_of s) -> aeff s ths a s' ths' e
| ae_post t ch old p' : a = ARun t ch -> nth_error ths t = Some (PCas old) -> posts_of s' = posts_of s + 1 -> ths' = upd ths t p' -> e = [] ->
    inpost p' = 0 -> dtake p' = 0 -> auto_mem s (PCas old) ch = [MRmw false true 0] -> aeff s ths a s' ths' e
| ae_take t ch p p' : a = ARun t ch -> nth_error ths t = Some p -> posts_of s' = posts_of s - 1 -> 0 < posts_of s -> ths' = upd ths t p' -> e = [] ->
    inpost p = 0 -> inpost p' = 0 -> dtake p' = 1 -> dtake p = 0 -> auto_mem s p ch = [MRmw true false 0] -> aeff s ths a s' ths' e.

Lemma took_k k : took (kop k) (kres k) = 1. Proof. destruct k; reflexivity. Qed.

Lemma try_test_neut k ch s p : try_test k ch s = Some p -> inpost p = 0 /\ dtake p = 0.
Proof. unfold try_test. destruct (0 <? posts_of s); [|destruct k, ch]; intros H; inversion H; subst; auto. Qed.

Lemma auto_eff s ths a s' ths' e : AI (s, ths) -> acap (s, ths) -> acap (s', ths') -> auto_step (s, ths) a = Some ((s', ths'), e) -> aeff s ths a s' ths' e.
Proof.
  intros HI Hc Hc' H. unfold acap in Hc, Hc'. cbn [snd] in Hc, Hc'.
  pose proof HI as (P & Hs & HP & Hmin & Hloc). cbn [fst snd] in *.
  pose proof (sumf_nonneg areg ths areg_nn) as Hrn.
  set (W := sumf areg ths) in *.
  assert (Epos : posts_of s = P) by (rewrite Hs; apply posts_val; ap_unf; lia).
  assert (Ewai : waiters_of s = W) by (rewrite Hs; apply waiters_val; ap_unf; lia).
  destruct a as [t o|t ch]; cbn [auto_step] in H; destruct (nth_error ths t) as [q|] eqn:Et; try discriminate.
  { destruct q; try discriminate. injection H as <- <- <-. eapply ae_call; eauto. }
  pose proof (sumf_elem areg _ _ _ areg_nn Et) as Hel. fold W in Hel.
  pose proof (Hloc _ _ Et) as Hlq.
  destruct q as [| |old| |k|k old|k|k x|k|k|k old| |old|o r]; cbn [auto_run aloc areg] in *.
  - discriminate.
  - injection H as <- <- <-. eapply ae_neut; eauto; unfold post_try; destruct (Z.leb_spec (posts_of s) (waiters_of s)); cbn; try lia; auto.
  - assert (G : (s' = s /\ ths' = upd ths t (post_try s) /\ e = []) \/ (cas_ok s old ch = true /\ s = old /\ s' = u32 (old + post_one) /\ e = [] /\ ths' = upd ths t (if 0 <? waiters_of old then PSignal else ADone EPost EOk))).
    { unfold cas_ok. destruct (Z.eqb_spec s old); destruct ch; injection H as <- <- <-; auto; right; auto. }
    destruct G as [(-> & -> & ->)|(G0 & <- & -> & -> & ->)].
    + eapply ae_neut; eauto; unfold post_try; destruct (Z.leb_spec (posts_of s) (waiters_of s)); cbn; try lia; auto.
    + eapply ae_post; eauto.
      * rewrite u32_id by (unfold two32; ap_unf; lia). replace (s + post_one) with ((P + 1) * post_one + W) by lia. rewrite posts_val by (ap_unf; lia). lia.
      * destruct (0 <? waiters_of s); reflexivity.
      * destruct (0 <? waiters_of s); reflexivity.
      * cbn [auto_mem]. rewrite G0. reflexivity.
  - destruct ch as [| | | |u]; try (destruct (existsb is_sleep ths); [discriminate|]; injection H as <- <- <-; eapply ae_sig; eauto).
    destruct (nth_error ths u) as [qu|] eqn:Eu; [|discriminate]. destruct qu; try discriminate. injection H as <- <- <-. eapply ae_sig; eauto.
  - destruct (try_test k ch s) as [p1|] eqn:E1; [|discriminate]. injection H as <- <- <-. destruct (try_test_neut _ _ _ _ E1) as (G1 & G2). eapply ae_neut; eauto; cbn; lia.
  - assert (G : (exists p1, try_test k ch s = Some p1 /\ s' = s /\ ths' = upd ths t p1 /\ e = []) \/ (cas_ok s old ch = true /\ s = old /\ s' = u32 (old - post_one) /\ e = [] /\ ths' = upd ths t (ADone (kop k) (kres k)))).
    { unfold cas_ok. destruct (Z.eqb_spec s old); destruct ch; try (injection H as <- <- <-; right; auto; fail); destruct (try_test k _ s) eqn:E1; try discriminate; injection H as <- <- <-; left; eauto. }
    destruct G as [(p1 & E1 & -> & -> & ->)|(G0 & <- & -> & -> & ->)].
    + destruct (try_test_neut _ _ _ _ E1) as (G1 & G2). eapply ae_neut; eauto; cbn; lia.
    + eapply ae_take; eauto; try (cbn; rewrite ?took_k; reflexivity); try (cbn [auto_mem]; rewrite G0; reflexivity); try lia.
      rewrite u32_id by (unfold two32; ap_unf; lia). replace (s - post_one) with ((P - 1) * post_one + W) by lia. rewrite posts_val by (ap_unf; lia). lia.
  - injection H as <- <- <-. assert (areg (wait_test k s) = 1) by (unfold wait_test; destruct (posts_of s =? 0); reflexivity).
    rewrite (sumf_upd areg _ _ _ _ Et) in Hc'. fold W in Hc'. cbn [areg] in Hc'.
    eapply ae_neut; eauto; try (unfold wait_test; destruct (posts_of s =? 0); cbn; lia); try (cbn; lia).
    rewrite u32_id by (unfold two32; ap_unf; lia). replace (s + 1) with (P * post_one + (W + 1)) by lia. rewrite posts_val by (ap_unf; lia). lia.
  - assert (F : e = [] /\ s' = s /\ exists p1, ths' = upd ths t p1 /\ inpost p1 = 0 /\ dtake p1 = 0).
    { destruct k, ch; try (destruct (s =? x)); injection H as <- <- <-; (split; [reflexivity|split; [reflexivity|eexists; split; [reflexivity|split; reflexivity]]]). }
    destruct F as (-> & -> & p1 & -> & F1 & F2). eapply ae_neut; eauto; cbn; lia.
  - assert (F : e = [] /\ s' = s /\ exists p1, ths' = upd ths t p1 /\ inpost p1 = 0 /\ dtake p1 = 0).
    { destruct k, ch; try discriminate; injection H as <- <- <-; (split; [reflexivity|split; [reflexivity|eexists; split; [reflexivity|split; reflexivity]]]). }
    destruct F as (-> & -> & p1 & -> & F1 & F2). eapply ae_neut; eauto; cbn; lia.
  - destruct (0 <? posts_of s); injection H as <- <- <-; eapply ae_neut; eauto; cbn; lia.
  - assert (G : (s' = s /\ ths' = upd ths t (wait_test k s) /\ e = []) \/ (cas_ok s old ch = true /\ s = old /\ s' = u32 (old - (post_one + 1)) /\ e = [] /\ ths' = upd ths t (ADone (kop k) (kres k)))).
    { unfold cas_ok. destruct (Z.eqb_spec s old); destruct ch; injection H as <- <- <-; auto; right; auto. }
    destruct G as [(-> & -> & ->)|(G0 & <- & -> & -> & ->)].
    + eapply ae_neut; eauto; try (unfold wait_test; destruct (posts_of s =? 0); cbn; lia); cbn; lia.
    + eapply ae_take; eauto; try (cbn; rewrite ?took_k; reflexivity); try (cbn [auto_mem]; rewrite G0; reflexivity); try lia.
      rewrite u32_id by (unfold two32; ap_unf; lia). replace (s - (post_one + 1)) with ((P - 1) * post_one + (W - 1)) by lia. rewrite posts_val by (ap_unf; lia). lia.
  - injection H as <- <- <-. eapply ae_neut; eauto; cbn; lia.
  - assert (G : (s' = s /\ ths' = upd ths t (OCas s) /\ e = []) \/ (cas_ok s old ch = true /\ s = old /\ e = [] /\
        ((posts_of old = 0 /\ s' = u32 (old - 1) /\ ths' = upd ths t (match ch with CAgain => TLoad KTimed | _ => ADone ETimed EFalse end)) \/
         (posts_of old <> 0 /\ s' = u32 (old - (post_one + 1)) /\ ths' = upd ths t (ADone ETimed ETrue))))).
    { unfold cas_ok. destruct (Z.eqb_spec s old); destruct ch; try (injection H as <- <- <-; auto; fail); (destruct (Z.eqb_spec (posts_of old) 0); injection H as <- <- <-; right; auto 10). }
    destruct G as [(-> & -> & ->)|(G0 & <- & -> & [(G1 & -> & ->)|(G1 & -> & ->)])].
    + eapply ae_neut; eauto; cbn; lia.
    + eapply ae_neut; eauto; try (destruct ch; cbn; lia); try (cbn; lia).
      rewrite u32_id by (unfold two32; ap_unf; lia). replace (s - 1) with (P * post_one + (W - 1)) by lia. rewrite posts_val by (ap_unf; lia). lia.
    + eapply ae_take; eauto; try reflexivity; try lia; try (cbn [auto_mem]; rewrite G0; destruct (Z.eqb_spec (posts_of s) 0); [lia|reflexivity]).
      rewrite u32_id by (unfold two32; ap_unf; lia). replace (s - (post_one + 1)) with ((P - 1) * post_one + (W - 1)) by lia. rewrite posts_val by (ap_unf; lia). lia.
  - injection H as <- <- <-. eapply ae_ret; eauto.
Qed.

Lemma auto_reach n c : Z.of_nat n <= 1022 -> hreach auto_step (auto_init n) c -> AI c /\ acap c.
Proof.
  intros Hn (sched & tr & H). pose proof (few_threads_light n sched Hn) as Hl. split; [apply (auto_lin _ _ _ _ Hl H)|].
  apply cap_of. eapply light_last; eauto.
Qed.

Lemma auto_teff n : Z.of_nat n <= 1022 -> forall c a c' e, hreach auto_step (auto_init n) c -> auto_step c a = Some (c', e) ->
  teff auto_who auto_acts (@snd Z (list apc)) (fun c : acfg => posts_of (fst c)) inpost dtake 0 c a c' e.
Proof.
  intros Hn [s ths] a [s' ths'] e HR Hs.
  assert (HR' : hreach auto_step (auto_init n) (s', ths')).
  { destruct HR as (sc & x & HR). exists (sc ++ [a]), (x ++ e). rewrite exec_app, HR. cbn [exec]. rewrite Hs, app_nil_r. reflexivity. }
  destruct (auto_reach _ _ Hn HR) as (HI & Hc), (auto_reach _ _ Hn HR') as (HI' & Hc').
  assert (Hw0 : 0 <= waiters_of s).
  { destruct HI as (P & H1 & H2 & _). cbn [fst snd] in *. unfold acap in Hc. cbn [snd] in Hc. pose proof (sumf_nonneg areg ths areg_nn). rewrite H1, waiters_val by (ap_unf; lia). lia. }
  destruct (auto_eff _ _ _ _ _ _ HI Hc Hc' Hs) as [t o Ea Et Es Eths Ee|t ch o r Ea Et Es Eths Ee|t ch Ea Et Es Ee Eths|t ch p p' Ea Et Es Eths Ee G1 G2 G3 G4|t ch old p' Ea Et Es Eths Ee G1 G2 G3|t ch p p' Ea Et Es Es0 Eths Ee G1 G2 G3 G4 G5];
    subst a; [subst s'|subst s'|subst s'| | |].
  - eapply (te_call _ _ _ _ _ _ _ _ _ _ _ t ARest (auto_entry o) o); auto; try (destruct o; reflexivity). apply mv_upd; auto.
  - eapply (te_ret _ _ _ _ _ _ _ _ _ _ _ t (ADone o r) ARest o r); auto; [apply mv_upd; auto|]. cbn. rewrite Et. reflexivity.
  - assert (HM : mv (@snd Z (list apc)) inpost dtake (s, ths) t PSignal (s, ths') (ADone EPost EOk)).
    { destruct Eths as [->|(u & k & Hu & ->)]; [apply mv_upd; auto|].
      assert (Hne : u <> t) by (intros ->; congruence).
      assert (Ht2 : nth_error (upd ths u (WLoad k)) t = Some PSignal) by (rewrite nth_upd_neq by auto; exact Et).
      constructor; cbn [snd].
      - exact Et.
      - eapply nth_upd_eq; eauto.
      - intros v q Hv Hq. rewrite nth_upd_neq in Hq by auto. destruct (nth_upd_inv _ _ _ _ _ Hq) as [(<- & -> & _)|(_ & Hq')]; eauto.
      - intros v q Hv Hq. rewrite nth_upd_neq by auto. destruct (Nat.eq_dec v u) as [->|Hn2].
        + assert (q = WSleep k) as -> by congruence. exists (WLoad k). rewrite (nth_upd_eq _ _ _ _ Hu). auto.
        + exists q. rewrite nth_upd_neq by auto. auto.
      - rewrite (sumf_upd inpost _ _ _ _ Ht2), (sumf_upd inpost _ _ _ _ Hu). cbn. lia.
      - rewrite (sumf_upd dtake _ _ _ _ Ht2), (sumf_upd dtake _ _ _ _ Hu). cbn. lia. }
    eapply (te_neut _ _ _ _ _ _ _ _ _ _ _ t PSignal (ADone EPost EOk)); auto; try (cbn; lia). cbn [auto_acts snd]. rewrite Et. reflexivity.
  - eapply (te_neut _ _ _ _ _ _ _ _ _ _ _ t p p'); auto.
    + apply mv_upd; auto.
    + intros Hp. destruct (G4 Hp) as [|Hbad]; [auto|right]. cbn [fst snd]. pose proof (sumf_elem inpost _ _ _ inpost_nn Et). lia.
    + cbn [auto_acts snd fst]. rewrite Et. destruct p; cbn; try reflexivity; unfold absorb_fence; repeat match goal with |- context [if ?x then _ else _] => destruct x end; reflexivity.
  - eapply (te_post _ _ _ _ _ _ _ _ _ _ _ t (PCas old) p'); auto; [apply mv_upd; auto|]. cbn [auto_acts snd fst]. rewrite Et. exact G3.
  - eapply (te_take _ _ _ _ _ _ _ _ _ _ _ t p p'); auto; [apply mv_upd; auto|]. cbn [auto_acts snd fst]. rewrite Et. exact G5.
Qed.

Lemma inpost01 p : 0 <= inpost p <= 1. Proof. destruct p; cbn; lia. Qed.
Lemma dtake01 p : 0 <= dtake p <= 1. Proof. destruct p; cbn; try lia. apply took_nn. Qed.
Lemma auto_posts_nn n c : Z.of_nat n <= 1022 -> hreach auto_step (auto_init n) c -> 0 <= posts_of (fst c).
Proof.
  intros Hn HR. destruct (auto_reach _ _ Hn HR) as ((P & H1 & H2 & _) & Hc). destruct c as [s ths]. cbn [fst snd] in *. unfold acap in Hc. cbn [snd] in Hc.
  pose proof (sumf_nonneg areg ths areg_nn). rewrite H1, posts_val by (ap_unf; lia). lia.
Qed.
Lemma auto_init0 n t p : nth_error (snd (auto_init n)) t = Some p -> inpost p = 0 /\ dtake p = 0.
Proof. intros H. apply nth_repeat in H. subst. auto. Qed.
Lemma auto_sum0 n : sumf inpost (snd (auto_init n)) = 0 /\ sumf dtake (snd (auto_init n)) = 0.
Proof. unfold auto_init. cbn [snd]. rewrite !sumf_repeat. cbn. lia. Qed.

(** Proof or specification device; no counterpart in /repo. *)
Definition auto_hb n (Hn : Z.of_nat n <= 1022) :=
  tok_hb auto_step auto_who auto_acts (@snd Z (list apc)) (fun c : acfg => posts_of (fst c)) inpost dtake 0 (auto_init n)
    (auto_teff n Hn) inpost01 dtake01 (fun c => auto_posts_nn n c Hn) eq_refl (auto_init0 n) (auto_sum0 n).

(** Proof or specification device; no counterpart in /repo. *)
Definition auto_now n (Hn : Z.of_nat n <= 1022) :=
  tok_now auto_step auto_who auto_acts (@snd Z (list apc)) (fun c : acfg => posts_of (fst c)) inpost dtake 0 (auto_init n) (auto_teff n Hn) eq_refl.
