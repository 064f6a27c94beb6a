(** Memory orders of the semaphore-based auto_reset_event
    (/repo/include/boost/sync/detail/events/auto_reset_event_semaphore.hpp, "L:"), over AutoSemModel.v.
    The kernel semaphore is object 1: its post releases and its successful wait acquires (POSIX memory synchronisation of sem_post / sem_wait; the
    Windows and Mach calls give the same). *)
From Coq Require Import List Bool Arith ZArith Lia.
From Verif Require Import ListSum Exec Events Lin Thr Word EventSpec AutoSemModel AutoSemProof Hb HbSpin HbTokens.
Import ListNotations.
Local Open Scope Z_scope.

(** Model machinery: the thread of a step; no counterpart in /repo. *)
Definition as_who (a : tact eop schoice) : nat := match a with TCall t _ => t | TRun t _ => t end.
Definition as_fence (st : Z) : list mact := if 0 <=? st then [] else [MFence].       (* L:63 *)
Definition as_mem (s : ssh) (p : spc) (ch : schoice) : list mact :=
  let '(st, v) := s in
  match p with
  | SLoad => MLoad false 0 :: as_fence st                                            (* L:45 relaxed *)
  | SCas old => if (st =? old) && negb (match ch with SSpur => true | _ => false end)
                then [MRmw false true 0]                                             (* L:50 release *)
                else MLoad false 0 :: as_fence st                                    (* relaxed *)
  | SSemPost => [MRmw false true 1]                                                  (* L:52 *)
  | SAdd _ => [MRmw true false 0]                                                    (* L:68 / 74 / 87 acquire *)
  | SSemWait k => if (0 <? v) && negb (s_fail k ch) then [MRmw true false 1] else []                         (* L:69 / 76 / 89 *)
  | SSub _ => [MRmw false false 0]                                                   (* L:80 / 93 relaxed *)
  | SRest | SDone _ _ => []
  end.
(** Memory operations of a step of L:43-95. *)
Definition as_acts (c : ssh * list spc) (a : tact eop schoice) : list mact :=
  match a with
  | TCall _ _ => []
  | TRun t ch => match nth_error (snd c) t with Some p => as_mem (fst c) p ch | None => [] end
  end.
(** L:43-95 with happens-before. *)
Definition as_hstep := hstep as_step as_who as_acts.

(** Proof or specification device; no counterpart in /repo. *)
Definition sinpost (p : spc) : Z := match p with SLoad | SCas _ | SSemPost => 1 | _ => 0 end.
(** Proof or specification device; no counterpart in /repo. *)
Definition sdtake (p : spc) : Z := match p with SDone o r => took o r | _ => 0 end.
Lemma stook_nn o r : 0 <= took o r <= 1. Proof. destruct o, r; cbn; lia. Qed.
Lemma sinpost01 p : 0 <= sinpost p <= 1. Proof. destruct p; cbn; lia. Qed.
Lemma sdtake01 p : 0 <= sdtake p <= 1. Proof. destruct p; cbn; try lia. apply stook_nn. Qed.

Lemma as_teff n : Z.of_nat n < 2 ^ 31 - 1 -> forall c a c' e, hreach as_step (as_init n) c -> as_step c a = Some (c', e) ->
  teff as_who as_acts (@snd ssh (list spc)) (fun c : ssh * list spc => snd (fst c)) sinpost sdtake 1 c a c' e.
Proof.
  intros Hn [[st v] ths] a c' e (sc & x & HR) Hs. destruct (as_main _ _ _ _ Hn HR) as (_ & Hv & HSt & _ & Hloc).
  unfold as_step in Hs. apply tstep_cases in Hs.
  destruct Hs as [(t & o & p & p' & -> & H1 & H2 & -> & ->)|[(t & ch & p & o & r & p' & -> & H1 & H2 & -> & ->)|(t & ch & p & -> & H1 & H2 & H3 & ->)]].
  - destruct p; try discriminate. cbn in H2. injection H2 as <-. eapply te_call; [reflexivity|apply mv_upd; [exact H1|reflexivity]|..]; auto; destruct o; reflexivity.
  - destruct p; try discriminate. cbn in H2. injection H2 as -> -> <-. eapply te_ret; [reflexivity|apply mv_upd; [exact H1|reflexivity]|..]; auto; try reflexivity; cbn; rewrite H1; reflexivity.
  - unfold as_run in H3. destruct (as_run1 (st, v) p ch) as [[[st' v'] p']|] eqn:Er; [|discriminate]. injection H3 as <-.
    assert (HM : mv (@snd ssh (list spc)) sinpost sdtake ((st, v), ths) t p ((st', v'), upd ths t p') p') by (apply mv_upd; [exact H1|reflexivity]).
    assert (Hwho : as_who (TRun t ch) = t) by reflexivity.
    pose proof (sumf_nonneg sreg ths sreg_nn) as Hr0.
    assert (Hsum : spst p = 0 -> sumf spst ths + sinpost p <= sumf sinpost ths).
    { intros Hp. clear - H1 Hp. revert t H1. induction ths as [|q ths IH]; intros [|t] H1; cbn in H1; try discriminate.
      - injection H1 as ->. cbn [sumf]. assert (sumf spst ths <= sumf sinpost ths) by (apply sumf_le; intros []; cbn; lia). lia.
      - cbn [sumf]. specialize (IH _ H1). assert (spst q <= sinpost q) by (destruct q; cbn; lia). lia. }
    assert (Habs : spst p = 0 -> sinpost p = 1 -> st < 0 -> 2 <= v + sumf sinpost ths) by (intros G1 G2 G3; specialize (Hsum G1); lia).
    assert (Eacts : as_acts ((st, v), ths) (TRun t ch) = as_mem (st, v) p ch) by (cbn [as_acts snd fst]; rewrite H1; reflexivity).
    specialize (Hloc _ _ H1).
    destruct p; cbn [as_run1] in Er; try discriminate; cbn [spst sinpost sloc] in *.
    + destruct (Z.leb_spec 0 st); injection Er as <- <- <-; refine (te_neut _ _ _ _ _ _ _ _ _ _ _ t _ _ Hwho HM _ _ _ _ _ _ _); auto; cbn [fst snd sinpost sdtake took]; try lia; try reflexivity; try (intros _; right; apply Habs; auto; lia);
        rewrite Eacts; cbn [as_mem]; unfold as_fence; destruct (0 <=? st); reflexivity.
    + destruct ((st =? old) && _) eqn:Eb.
      * injection Er as <- <- <-. refine (te_neut _ _ _ _ _ _ _ _ _ _ _ t _ _ Hwho HM _ _ _ _ _ _ _); auto; cbn [fst snd sinpost sdtake took]; try lia; try reflexivity; try (intros _; right; apply Habs; auto; lia). rewrite Eacts. cbn [as_mem]. rewrite Eb. reflexivity.
      * destruct (Z.ltb_spec st 0); injection Er as <- <- <-; refine (te_neut _ _ _ _ _ _ _ _ _ _ _ t _ _ Hwho HM _ _ _ _ _ _ _); auto; cbn [fst snd sinpost sdtake took]; try lia; try reflexivity; try (intros _; right; apply Habs; auto; lia);
          rewrite Eacts; cbn [as_mem]; rewrite Eb; unfold as_fence; destruct (0 <=? st); reflexivity.
    + injection Er as <- <- <-. refine (te_post _ _ _ _ _ _ _ _ _ _ _ t _ _ Hwho HM _ _ _ _ _ _ _); auto.
    + injection Er as <- <- <-. refine (te_neut _ _ _ _ _ _ _ _ _ _ _ t _ _ Hwho HM _ _ _ _ _ _ _); auto; cbn [fst snd sinpost sdtake took]; try lia; try reflexivity; try (intros _; right; apply Habs; auto; lia). rewrite Eacts. reflexivity.
    + destruct ((0 <? v) && negb (s_fail k ch)) eqn:Eb.
      * assert (0 < v) by (apply andb_true_iff in Eb as [Eb _]; apply Z.ltb_lt; exact Eb).
        injection Er as <- <- <-. refine (te_take _ _ _ _ _ _ _ _ _ _ _ t _ _ Hwho HM _ _ _ _ _ _ _ _); auto; [destruct k; reflexivity|]. rewrite Eacts. cbn [as_mem]. rewrite Eb. reflexivity.
      * destruct k, ch; try discriminate; injection Er as <- <- <-; refine (te_neut _ _ _ _ _ _ _ _ _ _ _ t _ _ Hwho HM _ _ _ _ _ _ _); auto; cbn [fst snd sinpost sdtake took]; try lia; try reflexivity; try (intros _; right; apply Habs; auto; lia);
          rewrite Eacts; cbn [as_mem]; rewrite Eb; reflexivity.
    + injection Er as <- <- <-. refine (te_neut _ _ _ _ _ _ _ _ _ _ _ t _ _ Hwho HM _ _ _ _ _ _ _); auto; cbn [fst snd sinpost sdtake took]; try lia; try reflexivity; try (intros _; right; apply Habs; auto; lia); [destruct k; cbn; congruence|]. rewrite Eacts. reflexivity.
Qed.

Lemma as_v_nn n c : Z.of_nat n < 2 ^ 31 - 1 -> hreach as_step (as_init n) c -> 0 <= snd (fst c).
Proof. intros Hn (sc & x & HR). destruct c as [[st v] ths]. apply (as_main _ _ _ _ Hn HR). Qed.
Lemma as_init0 n t p : nth_error (snd (as_init n)) t = Some p -> sinpost p = 0 /\ sdtake p = 0.
Proof. intros H. apply nth_repeat in H. subst. auto. Qed.
Lemma as_sum0 n : sumf sinpost (snd (as_init n)) = 0 /\ sumf sdtake (snd (as_init n)) = 0.
Proof. unfold as_init. cbn [snd]. rewrite !sumf_repeat. cbn. lia. Qed.

(** Proof or specification device; no counterpart in /repo. *)
Definition as_hb n (Hn : Z.of_nat n < 2 ^ 31 - 1) :=
  tok_hb as_step as_who as_acts (@snd ssh (list spc)) (fun c : ssh * list spc => snd (fst c)) sinpost sdtake 1 (as_init n)
    (as_teff n Hn) sinpost01 sdtake01 (fun c => as_v_nn n c Hn) eq_refl (as_init0 n) (as_sum0 n).
(** Proof or specification device; no counterpart in /repo. *)
Definition as_now n (Hn : Z.of_nat n < 2 ^ 31 - 1) :=
  tok_now as_step as_who as_acts (@snd ssh (list spc)) (fun c : ssh * list spc => snd (fst c)) sinpost sdtake 1 (as_init n) (as_teff n Hn) eq_refl.
