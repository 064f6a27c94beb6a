(** Infinite executions and fair scheduling.

    An infinite execution is a sequence of configurations; at every moment one action of the model is performed or nothing
    happens.  It is fair if no thread that can go on is left out for ever: again and again every thread either acts or is unable
    to go on by itself.  Whether a sleeping thread returns spuriously, a weak compare-exchange fails, or a time-out occurs is left to the
    schedule without any fairness: only [enabled], chosen per model, obliges the scheduler.
    Support library; nothing here models code of /repo. *)
From Coq Require Import List Bool Arith Lia.
From Verif Require Import ListSum Exec.
Import ListNotations.

Lemma exists_last_or {X} (l : list X) : l = [] \/ exists l' b, l = l' ++ [b].
Proof. induction l as [|a l' _] using rev_ind; [auto|right; eauto]. Qed.

Section Fair.
  Context {C A E : Type}.
  Variable step : C -> A -> option (C * list E).
  (** The action is one of thread [t] inside a function of the library. *)
  Variable acts : A -> nat -> Prop.
  (** Thread [t] is inside a function of the library and can take its next step without the help of others. *)
  Variable enabled : C -> nat -> Prop.

  Definition happens (c : C) (a : option A) (c' : C) : Prop :=
    match a with None => c' = c | Some a => exists e, step c a = Some (c', e) end.
  Definition infinite (c0 : C) (cf : nat -> C) (ac : nat -> option A) : Prop :=
    cf 0 = c0 /\ forall i, happens (cf i) (ac i) (cf (S i)).
  Definition fair (cf : nat -> C) (ac : nat -> option A) : Prop :=
    forall t i, exists j, i <= j /\ ((exists a, ac j = Some a /\ acts a t) \/ ~ enabled (cf j) t).

  (** Strong fairness, needed where threads compete for a mutex of the system: a thread that can go on again and again acts some time. *)
  Definition strongly_fair (cf : nat -> C) (ac : nat -> option A) : Prop :=
    forall t i, exists j, i <= j /\ ((exists a, ac j = Some a /\ acts a t) \/ forall k, j <= k -> ~ enabled (cf k) t).

  Lemma strong_weak cf ac : strongly_fair cf ac -> fair cf ac.
  Proof. intros H t i. destruct (H t i) as (j & Hj & [Ha|Hn]); exists j; split; auto; right; apply Hn; auto. Qed.

  Lemma inf_reach c0 cf ac : infinite c0 cf ac -> forall i, exists sched tr, exec step c0 sched = Some (cf i, tr).
  Proof.
    intros (H0 & HS). induction i as [|i (sched & tr & IH)].
    - exists [], []. cbn. rewrite H0. reflexivity.
    - specialize (HS i). unfold happens in HS. destruct (ac i) as [a|].
      + destruct HS as (e & He). exists (sched ++ [a]), (tr ++ e). rewrite exec_app, IH. cbn [exec]. rewrite He, app_nil_r. reflexivity.
      + exists sched, tr. rewrite HS. exact IH.
  Qed.

  Lemma inf_along c0 cf ac (G : C -> Prop) : infinite c0 cf ac -> (forall i, G (cf i)) ->
    forall i, exists sched tr, exec step c0 sched = Some (cf i, tr) /\ along step G c0 sched.
  Proof.
    intros (H0 & HS) HG. induction i as [|i (sched & tr & IH & Ha)].
    - exists [], []. cbn. rewrite H0. split; [reflexivity|]. intros s1 s2 c tr Eq Hx. destruct s1; [|discriminate].
      cbn in Hx. inversion Hx; subst. apply HG.
    - specialize (HS i). unfold happens in HS. destruct (ac i) as [a|].
      + destruct HS as (e & He). exists (sched ++ [a]), (tr ++ e).
        assert (Hx : exec step c0 (sched ++ [a]) = Some (cf (S i), tr ++ e)) by (rewrite exec_app, IH; cbn [exec]; rewrite He, app_nil_r; reflexivity).
        split; [exact Hx|]. intros s1 s2 c tr1 Eq Hx1.
        destruct (exists_last_or s2) as [->|(s3 & b & ->)].
        * rewrite app_nil_r in Eq. subst s1. rewrite Hx in Hx1. inversion Hx1; subst. apply HG.
        * rewrite app_assoc in Eq. apply app_inj_tail in Eq as (Eq & _). eapply Ha; eauto.
      + exists sched, tr. rewrite HS. auto.
  Qed.

  Lemma inf_inv c0 cf ac (I : C -> Prop) : infinite c0 cf ac -> I c0 ->
    (forall c a c' e, I c -> step c a = Some (c', e) -> I c') -> forall i, I (cf i).
  Proof.
    intros (H0 & HS) I0 IS. induction i as [|i IH]; [rewrite H0; exact I0|].
    specialize (HS i). unfold happens in HS. destruct (ac i) as [a|]; [destruct HS as (e & He); eauto|rewrite HS; exact IH].
  Qed.

  (** The rule behind all proofs: as long as no step with property [Q] is made, [live] holds, thread [t] can go on, nobody's step increases
      the measure and every step of [t] decreases it. *)
  Lemma countdown_step cf ac (R live : C -> Prop) (Q : C -> A -> C -> Prop) (m : C -> nat) t i0 :
    (forall i, happens (cf i) (ac i) (cf (S i))) -> fair cf ac ->
    (forall i, i0 <= i -> R (cf i)) ->
    (forall c, R c -> live c -> enabled c t) ->
    (forall i a e, i0 <= i -> ac i = Some a -> live (cf i) -> step (cf i) a = Some (cf (S i), e) ->
       Q (cf i) a (cf (S i)) \/ live (cf (S i)) /\ m (cf (S i)) <= m (cf i) /\ (acts a t -> m (cf (S i)) < m (cf i))) ->
    forall i, i0 <= i -> live (cf i) -> exists j a, i <= j /\ ac j = Some a /\ Q (cf j) a (cf (S j)).
  Proof.
    intros HS HF HR Hen Hst.
    assert (G : forall k i, i0 <= i -> live (cf i) -> m (cf i) <= k -> exists j a, i <= j /\ ac j = Some a /\ Q (cf j) a (cf (S j))).
    2: { intros i Hi Hl. eapply (G _ i Hi Hl). apply le_n. }
    induction k as [k IH] using lt_wf_ind. intros i Hi Hl Hm.
    (* run until [t] acts *)
    destruct (HF t i) as (j & Hj & Ha).
    assert (W : forall d, (exists j' a, i <= j' /\ ac j' = Some a /\ Q (cf j') a (cf (S j'))) \/ live (cf (i + d)) /\ m (cf (i + d)) <= k).
    { induction d as [|d [W|(W1 & W2)]].
      - right. rewrite Nat.add_0_r. auto.
      - left; exact W.
      - pose proof (HS (i + d)) as Hh. unfold happens in Hh. replace (i + S d) with (S (i + d)) by lia.
        destruct (ac (i + d)) as [a|] eqn:Ea.
        + destruct Hh as (e & He).
          destruct (Hst (i + d) a e ltac:(lia) Ea W1 He) as [Hq|(L & M & _)].
          * left. exists (i + d), a. split; [lia|split; auto].
          * right. split; [exact L|lia].
        + right. rewrite Hh. auto. }
    destruct (W (j - i)) as [D|(L & M)]; [exact D|].
    replace (i + (j - i)) with j in * by lia.
    destruct Ha as [(a & Ea & Hact)|Hne].
    - pose proof (HS j) as Hh. unfold happens in Hh. rewrite Ea in Hh. destruct Hh as (e & He).
      destruct (Hst j a e ltac:(lia) Ea L He) as [Hq|(L' & _ & M')].
      + exists j, a. split; [lia|split; auto].
      + specialize (M' Hact). destruct (IH (m (cf (S j))) ltac:(lia) (S j) ltac:(lia) L' (le_n _)) as (j' & a' & H1 & H2).
        exists j', a'. split; [lia|exact H2].
    - exfalso. apply Hne. apply Hen; [apply HR; lia|exact L].
  Qed.

  (** The same for a goal that is a property of the configuration reached. *)
  Lemma countdown cf ac (R Q live : C -> Prop) (m : C -> nat) t i0 :
    (forall i, happens (cf i) (ac i) (cf (S i))) -> fair cf ac ->
    (forall i, i0 <= i -> R (cf i)) ->
    (forall c, R c -> live c -> enabled c t) ->
    (forall c a c' e, R c -> R c' -> live c -> step c a = Some (c', e) ->
       Q c' \/ live c' /\ m c' <= m c /\ (acts a t -> m c' < m c)) ->
    forall i, i0 <= i -> live (cf i) -> exists j, i <= j /\ Q (cf j).
  Proof.
    intros HS HF HR Hen Hst i Hi Hl.
    destruct (countdown_step cf ac R live (fun _ _ c' => Q c') m t i0 HS HF HR Hen) with (i := i) as (j & a & Hj & _ & Hq); auto.
    - intros k a e Hk _ L He. exact (Hst _ _ _ _ (HR k Hk) (HR (S k) ltac:(lia)) L He).
    - exists (S j). split; [lia|exact Hq].
  Qed.

  (** The rule for objects where the thread that has to act changes: as long as no step with property [Q] is made, every step decreases
      the measure or leaves everything as it is, being [idle], and some thread can go on whose steps are not [idle]. *)
  Lemma runs_down cf ac (live : C -> Prop) (Q : C -> A -> C -> Prop) (idle : C -> A -> Prop) (m : C -> nat) i0 :
    (forall i, happens (cf i) (ac i) (cf (S i))) -> fair cf ac ->
    (forall i, i0 <= i -> live (cf i) -> exists t, enabled (cf i) t /\ forall a, acts a t -> ~ idle (cf i) a) ->
    (forall i a e, i0 <= i -> ac i = Some a -> live (cf i) -> step (cf i) a = Some (cf (S i), e) ->
       Q (cf i) a (cf (S i)) \/ live (cf (S i)) /\ (m (cf (S i)) < m (cf i) \/ cf (S i) = cf i /\ idle (cf i) a)) ->
    forall i, i0 <= i -> live (cf i) -> exists j a, i <= j /\ ac j = Some a /\ Q (cf j) a (cf (S j)).
  Proof.
    intros HS HF Hen Hst.
    assert (G : forall k i, i0 <= i -> live (cf i) -> m (cf i) <= k -> exists j a, i <= j /\ ac j = Some a /\ Q (cf j) a (cf (S j))).
    2: { intros i Hi Hl. eapply (G _ i Hi Hl). apply le_n. }
    induction k as [k IH] using lt_wf_ind. intros i Hi Hl Hm.
    destruct (Hen i Hi Hl) as (t & Ht & Hid). destruct (HF t i) as (j & Hj & Ha).
    assert (W : forall d, (exists j' a, i <= j' /\ ac j' = Some a /\ Q (cf j') a (cf (S j'))) \/
       (exists j', i <= j' /\ live (cf j') /\ m (cf j') < m (cf i)) \/ cf (i + d) = cf i).
    { induction d as [|d [W|[W|W]]]; [right; right; f_equal; lia|auto|auto|].
      pose proof (HS (i + d)) as Hh. unfold happens in Hh. replace (i + S d) with (S (i + d)) by lia.
      destruct (ac (i + d)) as [a|] eqn:Ea; [|right; right; rewrite Hh; exact W].
      destruct Hh as (e & He). destruct (Hst (i + d) a e ltac:(lia) Ea ltac:(rewrite W; exact Hl) He) as [Hq|(L & [M|(M & _)])].
      - left. exists (i + d), a. split; [lia|split; auto].
      - right; left. exists (S (i + d)). rewrite W in M. split; [lia|split; auto].
      - right; right. rewrite M. exact W. }
    assert (D : (exists j' a, i <= j' /\ ac j' = Some a /\ Q (cf j') a (cf (S j'))) \/ (exists j', i <= j' /\ live (cf j') /\ m (cf j') < m (cf i))).
    { destruct (W (j - i)) as [D|[D|D]]; auto. replace (i + (j - i)) with j in D by lia.
      destruct Ha as [(a & Ea & Hact)|Hne]; [|exfalso; apply Hne; rewrite D; exact Ht].
      pose proof (HS j) as Hh. unfold happens in Hh. rewrite Ea in Hh. destruct Hh as (e & He).
      destruct (Hst j a e ltac:(lia) Ea ltac:(rewrite D; exact Hl) He) as [Hq|(L & [M|(_ & M)])].
      - left. exists j, a. auto.
      - right. exists (S j). rewrite D in M. split; [lia|split; auto].
      - exfalso. rewrite D in M. exact (Hid a Hact M). }
    destruct D as [D|(j' & Hj' & L & M)]; [exact D|].
    destruct (IH (m (cf j')) ltac:(lia) j' ltac:(lia) L (le_n _)) as (j2 & a & H1 & H2). exists j2, a. split; [lia|exact H2].
  Qed.

  (** A finite execution after which no thread can go on, followed by rest, is an infinite fair execution. *)
  Lemma finite_fair c0 sched c tr : exec step c0 sched = Some (c, tr) -> (forall t, ~ enabled c t) ->
    exists cf ac, infinite c0 cf ac /\ fair cf ac /\ (forall i, length sched <= i -> cf i = c) /\
      (forall i, exists e, exec step c0 (firstn i sched) = Some (cf i, e)) /\ (forall i, ac i = nth_error sched i).
  Proof.
    intros H Hq.
    assert (P : forall i, exists x e, exec step c0 (firstn i sched) = Some (x, e)).
    { intros i. rewrite <- (firstn_skipn i sched), exec_app in H.
      destruct (exec step c0 (firstn i sched)) as [[x e]|]; [eauto|discriminate]. }
    pose (cf := fun i => match exec step c0 (firstn i sched) with Some (x, _) => x | None => c0 end).
    pose (ac := fun i => nth_error sched i).
    assert (B : forall i, length sched <= i -> cf i = c).
    { intros i Hi. unfold cf. rewrite firstn_all2 by lia. rewrite H. reflexivity. }
    exists cf, ac. split; [split|split; [|split; [|split]]].
    - unfold cf. reflexivity.
    - intros i. unfold happens, ac. destruct (nth_error sched i) as [a|] eqn:Ea.
      + assert (F : firstn (S i) sched = firstn i sched ++ [a]).
        { revert Ea. clear. revert i. induction sched as [|x l IH]; intros [|i] H; cbn in *; try discriminate.
          - inversion H; subst; reflexivity.
          - f_equal. apply IH. exact H. }
        destruct (P i) as (x & e & Hx). destruct (P (S i)) as (y & e2 & Hy). unfold cf. rewrite Hx, Hy.
        rewrite F, exec_app, Hx in Hy. cbn [exec] in Hy. destruct (step x a) as [[z e3]|]; [|discriminate].
        inversion Hy; subst. eauto.
      + apply nth_error_None in Ea. rewrite !B by lia. reflexivity.
    - intros t i. exists (Nat.max i (length sched)). split; [lia|]. right. rewrite B by lia. apply Hq.
    - exact B.
    - intros i. destruct (P i) as (x & e & Hx). exists e. unfold cf. rewrite Hx. reflexivity.
    - reflexivity.
  Qed.

  (** The same with strong fairness. *)
  Lemma finite_strong c0 sched c tr : exec step c0 sched = Some (c, tr) -> (forall t, ~ enabled c t) ->
    exists cf ac, infinite c0 cf ac /\ strongly_fair cf ac /\ (forall i, length sched <= i -> cf i = c) /\
      (forall i, exists e, exec step c0 (firstn i sched) = Some (cf i, e)).
  Proof.
    intros H Hq. destruct (finite_fair _ _ _ _ H Hq) as (cf & ac & H1 & _ & H3 & H4 & _). exists cf, ac. repeat split; try apply H1; auto.
    intros t i. exists (max i (length sched)). split; [lia|]. right. intros k Hk. rewrite H3 by lia. apply Hq.
  Qed.

  Definition at_ (c0 : C) (sched : list A) (i : nat) : C := match exec step c0 (firstn i sched) with Some (x, _) => x | None => c0 end.

  Lemma at_ok c0 sched c tr i : exec step c0 sched = Some (c, tr) -> exists e, exec step c0 (firstn i sched) = Some (at_ c0 sched i, e).
  Proof.
    intros H. rewrite <- (firstn_skipn i sched), exec_app in H. unfold at_.
    destruct (exec step c0 (firstn i sched)) as [[x e]|]; [eauto|discriminate].
  Qed.
  Lemma at_end c0 sched c tr : exec step c0 sched = Some (c, tr) -> at_ c0 sched (length sched) = c.
  Proof. intros H. unfold at_. rewrite firstn_all, H. reflexivity. Qed.
  Lemma at_step c0 sched c tr i a : exec step c0 sched = Some (c, tr) -> nth_error sched i = Some a ->
    exists e, step (at_ c0 sched i) a = Some (at_ c0 sched (S i), e).
  Proof.
    intros H Ea. destruct (at_ok c0 sched c tr i H) as (e & Hx). destruct (at_ok c0 sched c tr (S i) H) as (e2 & Hy).
    assert (F : firstn (S i) sched = firstn i sched ++ [a]).
    { revert Ea. clear. revert i. induction sched as [|x l IH]; intros [|i] H; cbn in *; try discriminate.
      - inversion H; subst; reflexivity.
      - f_equal. apply IH. exact H. }
    rewrite F, exec_app, Hx in Hy. cbn [exec] in Hy. destruct (step (at_ c0 sched i) a) as [[z e3]|]; [|discriminate].
    inversion Hy; subst. eauto.
  Qed.

  (** A finite execution followed for ever by a round that leads back to its beginning is an infinite execution. *)
  Lemma lasso c0 pre c tr round tr2 :
    exec step c0 pre = Some (c, tr) -> exec step c round = Some (c, tr2) -> 0 < length round ->
    exists cf ac, infinite c0 cf ac /\ (forall i, i < length pre -> ac i = nth_error pre i) /\
      (forall k i, i < length round -> cf (length pre + k * length round + i) = at_ c round i /\
                                      ac (length pre + k * length round + i) = nth_error round i).
  Proof.
    intros H1 H2 Hl. set (L := length round) in *. set (P := length pre) in *.
    pose (cf := fun i => if i <? P then at_ c0 pre i else at_ c round ((i - P) mod L)).
    pose (ac := fun i => if i <? P then nth_error pre i else nth_error round ((i - P) mod L)).
    assert (N : forall k i, i < L -> cf (P + k * L + i) = at_ c round i /\ ac (P + k * L + i) = nth_error round i).
    { intros k i Hi. unfold cf, ac. replace (P + k * L + i <? P) with false by (symmetry; apply Nat.ltb_ge; lia).
      replace ((P + k * L + i - P) mod L) with i; [auto|].
      replace (P + k * L + i - P) with (i + k * L) by lia. rewrite Nat.mod_add by lia. symmetry. apply Nat.mod_small. exact Hi. }
    exists cf, ac. split; [split|split; [|exact N]].
    - unfold cf. destruct (0 <? P) eqn:El0; [reflexivity|]. apply Nat.ltb_ge in El0. assert (P = 0) by lia. unfold P in *.
      destruct pre; [|discriminate]. cbn in H1. inversion H1; subst.
      replace (0 - length (@nil A)) with 0 by reflexivity. rewrite Nat.mod_0_l by lia. reflexivity.
    - intros i. destruct (Nat.lt_ge_cases i P) as [Hi|Hi].
      + unfold happens, ac. replace (i <? P) with true by (symmetry; apply Nat.ltb_lt; lia).
        destruct (nth_error pre i) as [a|] eqn:Ea; [|apply nth_error_None in Ea; unfold P in Hi; lia].
        destruct (at_step c0 pre c tr i a H1 Ea) as (e & He). exists e. unfold cf.
        replace (i <? P) with true by (symmetry; apply Nat.ltb_lt; lia).
        destruct (S i <? P) eqn:El0; [exact He|]. apply Nat.ltb_ge in El0. replace (S i - P) with 0 by lia. rewrite Nat.mod_0_l by lia.
        replace (S i) with P in He by lia. unfold P in He. rewrite (at_end c0 pre c tr H1) in He. exact He.
      + pose proof (Nat.div_mod_eq (i - P) L) as D. pose proof (Nat.mod_upper_bound (i - P) L ltac:(lia)) as U.
        set (k := (i - P) / L) in *. set (r := (i - P) mod L) in *.
        replace i with (P + k * L + r) by nia. destruct (N k r U) as (-> & Ea). rewrite Ea. unfold happens.
        destruct (nth_error round r) as [a|] eqn:En; [|apply nth_error_None in En; fold L in En; lia].
        destruct (at_step c round c tr2 r a H2 En) as (e & He). exists e. rewrite He. f_equal. f_equal.
        destruct (Nat.eq_dec (S r) L) as [El|El].
        * replace (S (P + k * L + r)) with (P + S k * L + 0) by nia. destruct (N (S k) 0 Hl) as (-> & _).
          rewrite El. unfold L. rewrite (at_end c round c tr2 H2). unfold at_. cbn. reflexivity.
        * replace (S (P + k * L + r)) with (P + k * L + S r) by lia. destruct (N k (S r) ltac:(lia)) as (-> & _). reflexivity.
    - intros i Hi. unfold ac. replace (i <? P) with true by (symmetry; apply Nat.ltb_lt; lia). reflexivity.
  Qed.

  (** It is strongly fair if in every round each thread acts or is unable to go on at any moment. *)
  Lemma lasso_fair c0 pre c tr round tr2 :
    exec step c0 pre = Some (c, tr) -> exec step c round = Some (c, tr2) -> 0 < length round ->
    (forall t, (exists a, In a round /\ acts a t) \/ forall i, i < length round -> ~ enabled (at_ c round i) t) ->
    exists cf ac, infinite c0 cf ac /\ strongly_fair cf ac /\ (forall i, i < length pre -> ac i = nth_error pre i) /\
      (forall k i, i < length round -> cf (length pre + k * length round + i) = at_ c round i /\
                                      ac (length pre + k * length round + i) = nth_error round i).
  Proof.
    intros H1 H2 Hl Hf. destruct (lasso c0 pre c tr round tr2 H1 H2 Hl) as (cf & ac & A1 & A2 & N). exists cf, ac. split; [exact A1|]. split; [|split; [exact A2|exact N]].
    set (L := length round) in *. set (P := length pre) in *.
    intros t i. destruct (Hf t) as [(a & Ha & Hact)|Hne].
    - destruct (In_nth_error _ _ Ha) as (r & Hr). assert (r < L) by (apply nth_error_Some; rewrite Hr; discriminate).
      exists (P + i * L + r). split; [nia|]. left. exists a. destruct (N i r H) as (_ & ->). auto.
    - exists (P + i * L). split; [nia|]. right. intros j Hj.
      pose proof (Nat.div_mod_eq (j - P) L) as D. pose proof (Nat.mod_upper_bound (j - P) L ltac:(lia)) as U.
      set (k := (j - P) / L) in *. set (r := (j - P) mod L) in *.
      replace j with (P + k * L + r) by nia. destruct (N k r U) as (-> & _). apply Hne. exact U.
  Qed.

  (** It is weakly fair if in every round each thread acts or is unable to go on at some moment. *)
  Lemma lasso_weak c0 pre c tr round tr2 :
    exec step c0 pre = Some (c, tr) -> exec step c round = Some (c, tr2) -> 0 < length round ->
    (forall t, (exists a, In a round /\ acts a t) \/ exists i, i < length round /\ ~ enabled (at_ c round i) t) ->
    exists cf ac, infinite c0 cf ac /\ fair cf ac /\ (forall i, i < length pre -> ac i = nth_error pre i) /\
      (forall k i, i < length round -> cf (length pre + k * length round + i) = at_ c round i /\
                                      ac (length pre + k * length round + i) = nth_error round i).
  Proof.
    intros H1 H2 Hl Hf. destruct (lasso c0 pre c tr round tr2 H1 H2 Hl) as (cf & ac & A1 & A2 & N). exists cf, ac. split; [exact A1|]. split; [|split; [exact A2|exact N]].
    intros t i. destruct (Hf t) as [(a & Ha & Hact)|(r & Hr & Hne)].
    - destruct (In_nth_error _ _ Ha) as (r & Hr). assert (r < length round) by (apply nth_error_Some; rewrite Hr; discriminate).
      exists (length pre + i * length round + r). split; [nia|]. left. exists a. destruct (N i r H) as (_ & ->). auto.
    - exists (length pre + i * length round + r). split; [nia|]. right. destruct (N i r Hr) as (-> & _). exact Hne.
  Qed.
End Fair.
