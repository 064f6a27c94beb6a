(** Property theorems: scope guards (C33). *)
From Coq Require Import List Bool ZArith Lia.
From Verif Require Import ListSum LockModel PropsLock GuardModel.
Import ListNotations.
Local Open Scope Z_scope.

(** What the guards (not the client's own calls) did to the mode-[k] lock of [m]: locks taken or adopted, minus locks given up. *)
Definition by_guards (e : site * mev) (m : nat) (k : kind) : Z := match fst e with SiUser => 0 | _ => effect (snd e) m k end.
Definition gledger (tr : gtrace) (m : nat) (k : kind) : Z := sumf (fun e => by_guards e m k) tr.

(** Failed re-locks in ~unlock_guard. *)
Definition relock_failed (e : site * mev) (m : nat) (k : kind) : Z :=
  match e with (SiUnlockDtor, EvCall m' (MLock k') OThrow) => at_ m' k' m k | _ => 0 end.
Definition failed (tr : gtrace) (m : nat) (k : kind) : Z := sumf (fun e => relock_failed e m k) tr.

(** Nesting discipline, as a stack machine over the recorded calls: entering a guard pushes, leaving it must find the same guard on
    top. *)
Inductive frame := FLocked (m : nat) (k : kind) | FUnlocked (m : nat).
Definition nest1 (st : option (list frame)) (e : site * mev) : option (list frame) :=
  match st with
  | None => None
  | Some st =>
      match fst e with
      | SiUser => Some st
      | SiLockCtor => match snd e with EvCall m (MLock k) OThrow => Some st | EvCall m (MLock k) _ => Some (FLocked m k :: st) | _ => None end
      | SiAdopt => match snd e with EvAdopt m k => Some (FLocked m k :: st) | _ => None end
      | SiUnlockCtor => match snd e with EvCall m (MUnlock KU) _ => Some (FUnlocked m :: st) | _ => None end
      | SiLockDtor => match st, snd e with
                      | FLocked m k :: st', EvCall m' (MUnlock k') _ => if Nat.eqb m m' && kind_eqb k k' then Some st' else None
                      | _, _ => None
                      end
      | SiUnlockDtor => match st, snd e with
                        | FUnlocked m :: st', EvCall m' (MLock KU) _ => if Nat.eqb m m' then Some st' else None
                        | _, _ => None
                        end
      end
  end.
Definition nest (tr : gtrace) (st : option (list frame)) : option (list frame) := fold_left nest1 tr st.

Lemma gledger_app a b m k : gledger (a ++ b) m k = gledger a m k + gledger b m k. Proof. apply sumf_app. Qed.
Lemma failed_app a b m k : failed (a ++ b) m k = failed a m k + failed b m k. Proof. apply sumf_app. Qed.
Lemma nest_app a b st : nest (a ++ b) st = nest b (nest a st). Proof. apply fold_left_app. Qed.
Lemma failed_nonneg tr m k : 0 <= failed tr m k.
Proof.
  apply sumf_nonneg. intros [[] [m' [] []|m' k'|m' k']]; cbn; try lia. apply at_nonneg.
Qed.
Lemma kind_eqb_same k : kind_eqb k k = true. Proof. destruct k; reflexivity. Qed.

(** Everything about one run, by induction on the scope. *)
Definition keeps (os os' : list lobj) : Prop :=
  forall j l, nth_error os j = Some l -> exists l', nth_error os' j = Some l' /\ lm l' = lm l /\ (ll l = false -> ll l' = false).
Definition good (os os' : list lobj) (seg : gtrace) (r : gres) : Prop :=
  r <> GTerm ->
  (forall m k, gledger seg m k = - failed seg m k) /\
  (forall st, nest seg (Some st) = Some st) /\
  keeps os os' /\
  ((forall m k, failed seg m k = 0) -> os' = os).

Lemma fail0_app a b : (forall m k, failed (a ++ b) m k = 0) -> (forall m k, failed a m k = 0) /\ (forall m k, failed b m k = 0).
Proof.
  intros H. split; intros m k; specialize (H m k); rewrite failed_app in H; pose proof (failed_nonneg a m k); pose proof (failed_nonneg b m k); lia.
Qed.

Ltac segs := repeat (rewrite ?gledger_app, ?failed_app).

Lemma keeps_refl os : keeps os os.
Proof. intros j l H. eauto. Qed.
Lemma keeps_trans a b c : keeps a b -> keeps b c -> keeps a c.
Proof. intros H1 H2 j l Hj. destruct (H1 j l Hj) as (l1 & E1 & E2 & E3). destruct (H2 j l1 E1) as (l2 & F1 & F2 & F3). exists l2. split; [assumption|]. split; [congruence|auto]. Qed.
Lemma good_nil os r : good os os [] r.
Proof. intros _. split; [reflexivity|]. split; [reflexivity|]. split; [apply keeps_refl|auto]. Qed.
Lemma good_one os e r : (forall m k, by_guards e m k = 0) -> (forall m k, relock_failed e m k = 0) -> (forall st, nest1 (Some st) e = Some st) -> good os os [e] r.
Proof. intros H1 H2 H3 _. split; [intros; cbn; rewrite H1, H2; lia|]. split; [intros; cbn; apply H3|]. split; [apply keeps_refl|auto]. Qed.
Lemma bracket os os2 sb e1 e2 f r r' : good os os2 sb r -> r <> GTerm ->
  (forall st, nest1 (Some st) e1 = Some (f :: st)) -> (forall st, nest1 (Some (f :: st)) e2 = Some st) ->
  (forall m k, by_guards e1 m k + by_guards e2 m k = - (relock_failed e1 m k + relock_failed e2 m k)) ->
  good os os2 ([e1] ++ sb ++ [e2]) r'.
Proof.
  intros G Hr H1 H2 H3 _. destruct (G Hr) as (B1 & B2 & B3 & B4). split; [|split; [|split; [assumption|]]].
  - intros m k. segs. rewrite B1. specialize (H3 m k). cbn. lia.
  - intros st. rewrite !nest_app. cbn [nest fold_left]. rewrite H1. fold (nest sb (Some (f :: st))). rewrite B2. apply H2.
  - intros Hf. apply fail0_app in Hf. destruct Hf as (_ & Hf). apply fail0_app in Hf. destruct Hf as (Hf & _). auto.
Qed.
Lemma good_term os os' seg : good os os' seg GTerm.
Proof. intros H. congruence. Qed.

Lemma grun_good E s : forall os tr, exists seg, snd (fst (grun E s os tr)) = tr ++ seg /\ good os (fst (fst (grun E s os tr))) seg (snd (grun E s os tr)).
Proof.
  induction s as [| |a IHa b IHb|a IHa b IHb|m o|k m b IH|k m b IH|m b IH|i b IH]; intros os tr; cbn [grun].
  - exists []. rewrite app_nil_r. split; [reflexivity|]. apply good_nil.
  - exists []. rewrite app_nil_r. split; [reflexivity|]. apply good_nil.
  - destruct (IHa os tr) as (sa & Ea & Ga). destruct (grun E a os tr) as [[os1 tr1] r1]. cbn [fst snd] in Ea, Ga. subst tr1.
    destruct r1; [|exists sa; auto|exists sa; auto].
    destruct (IHb os1 (tr ++ sa)) as (sb & Eb & Gb). exists (sa ++ sb). rewrite Eb, app_assoc. split; [reflexivity|].
    destruct (grun E b os1 (tr ++ sa)) as [[os2 tr2] r2]. cbn [fst snd] in *. intros Hr. specialize (Gb Hr). specialize (Ga ltac:(discriminate)).
    destruct Ga as (A1 & A2 & A3 & A4), Gb as (B1 & B2 & B3 & B4). split; [|split; [|split; [eapply keeps_trans; eassumption|]]].
    + intros. segs. rewrite A1, B1. lia.
    + intros. rewrite nest_app, A2, B2. reflexivity.
    + intros Hf. apply fail0_app in Hf. destruct Hf. rewrite B4, A4; auto.
  - destruct (IHa os tr) as (sa & Ea & Ga). destruct (grun E a os tr) as [[os1 tr1] r1]. cbn [fst snd] in Ea, Ga. subst tr1.
    destruct r1; [exists sa; auto| |exists sa; auto].
    destruct (IHb os1 (tr ++ sa)) as (sb & Eb & Gb). exists (sa ++ sb). rewrite Eb, app_assoc. split; [reflexivity|].
    destruct (grun E b os1 (tr ++ sa)) as [[os2 tr2] r2]. cbn [fst snd] in *. intros Hr. specialize (Gb Hr). specialize (Ga ltac:(discriminate)).
    destruct Ga as (A1 & A2 & A3 & A4), Gb as (B1 & B2 & B3 & B4). split; [|split; [|split; [eapply keeps_trans; eassumption|]]].
    + intros. segs. rewrite A1, B1. lia.
    + intros. rewrite nest_app, A2, B2. reflexivity.
    + intros Hf. apply fail0_app in Hf. destruct Hf. rewrite B4, A4; auto.
  - unfold gcall. exists [(SiUser, EvCall m o (E tr m o))]. destruct (E tr m o); cbn [fst snd]; (split; [reflexivity|]); apply good_one; reflexivity.
  - (* SGuard *)
    unfold gcall. destruct (E tr m (MLock k)) eqn:EO;
      [ | |exists [(SiLockCtor, EvCall m (MLock k) OThrow)]; cbn [fst snd]; split; [reflexivity|]; apply good_one; reflexivity];
      match goal with |- context [grun E b os (tr ++ [?e])] => destruct (IH os (tr ++ [e])) as (sb & Eb & Gb); destruct (grun E b os (tr ++ [e])) as [[os2 tr2] r2] end;
      cbn [fst snd] in Eb, Gb; subst tr2; rewrite <- app_assoc;
      (destruct r2; [| |eexists; split; [reflexivity|apply good_term]]);
      match goal with |- context [E ?t m (MUnlock k)] => destruct (E t m (MUnlock k)) eqn:EU end; cbn [fst snd]; rewrite <- !app_assoc;
      (eexists; split; [reflexivity|]); try apply good_term;
      apply (bracket _ _ _ _ _ (FLocked m k) _ _ Gb ltac:(discriminate)); try reflexivity;
      try (intros; cbn; rewrite Nat.eqb_refl, kind_eqb_same; reflexivity); intros; cbn; lia.
  - (* SAdoptG *)
    unfold gcall. destruct (IH os (tr ++ [(SiAdopt, EvAdopt m k)])) as (sb & Eb & Gb).
    destruct (grun E b os (tr ++ [(SiAdopt, EvAdopt m k)])) as [[os2 tr2] r2]. cbn [fst snd] in Eb, Gb; subst tr2; rewrite <- app_assoc;
      (destruct r2; [| |eexists; split; [reflexivity|apply good_term]]);
      match goal with |- context [E ?t m (MUnlock k)] => destruct (E t m (MUnlock k)) eqn:EU end; cbn [fst snd]; rewrite <- !app_assoc;
      (eexists; split; [reflexivity|]); try apply good_term;
      apply (bracket _ _ _ _ _ (FLocked m k) _ _ Gb ltac:(discriminate)); try reflexivity;
      try (intros; cbn; rewrite Nat.eqb_refl, kind_eqb_same; reflexivity); intros; cbn; lia.
  - (* SUnlockG *)
    unfold gcall. destruct (E tr m (MUnlock KU)) eqn:EO;
      [ | |eexists; split; [reflexivity|apply good_term]];
      match goal with |- context [grun E b os (tr ++ [?e])] => destruct (IH os (tr ++ [e])) as (sb & Eb & Gb); destruct (grun E b os (tr ++ [e])) as [[os2 tr2] r2] end;
      cbn [fst snd] in Eb, Gb; subst tr2; rewrite <- app_assoc;
      (destruct r2; [| |eexists; split; [reflexivity|apply good_term]]);
      match goal with |- context [E ?t m (MLock KU)] => destruct (E t m (MLock KU)) eqn:EU end; cbn [fst snd]; rewrite <- !app_assoc;
      (eexists; split; [reflexivity|]); try apply good_term;
      apply (bracket _ _ _ _ _ (FUnlocked m) _ _ Gb ltac:(discriminate)); try reflexivity;
      try (intros; cbn; rewrite Nat.eqb_refl; reflexivity); intros; cbn; lia.
  - (* SUnlockL *)
    destruct (nth_error os i) as [l|] eqn:En; [|exists []; split; [cbn; rewrite app_nil_r; reflexivity|apply good_term]].
    unfold on_lock, do_unlock, call. destruct l as [[m|] lk]; cbn [lm ll]; [|exists []; split; [cbn; rewrite app_nil_r; reflexivity|apply good_term]].
    destruct lk; cbn [lm ll]; [|exists []; split; [cbn; rewrite app_nil_r; reflexivity|apply good_term]].
    cbn [app]. destruct (E tr m (MUnlock KU)) eqn:EO; cbn [map];
      [ | |eexists; split; [reflexivity|apply good_term]];
      match goal with |- context [grun E b ?o (tr ++ [?e])] => destruct (IH o (tr ++ [e])) as (sb & Eb & Gb); destruct (grun E b o (tr ++ [e])) as [[os2 tr2] r2] end;
      cbn [fst snd] in Eb, Gb; subst tr2; rewrite <- app_assoc;
      (destruct r2; [| |eexists; split; [reflexivity|apply good_term]]).
    all: destruct (Gb ltac:(discriminate)) as (B1 & B2 & B3 & B4);
      destruct (B3 i (LO (Some m) false) (nth_upd_eq _ _ _ _ En)) as ([m2 lk2] & En2 & Em2 & Ek2); cbn [lm ll] in Em2, Ek2; specialize (Ek2 eq_refl); subst;
      rewrite En2; unfold do_lock, call; cbn [lm ll app].
    all: match goal with |- context [?F ?t ?mm (MLock KU)] => destruct (F t mm (MLock KU)) eqn:EU end; cbn [fst snd map]; rewrite <- ?app_assoc;
      (eexists; split; [reflexivity|]); try apply good_term;
      try match goal with |- good _ _ ((?e :: ?x) ++ ?y) _ => change ((e :: x) ++ y) with ([e] ++ x ++ y) end; intros _.
    all: assert (Hk : keeps os os2) by
          (intros j l Hj; destruct (Nat.eq_dec i j) as [<-|Hn];
           [exists (LO (Some m) false); split; [assumption|]; rewrite En in Hj; inversion Hj; subst; split; [reflexivity|cbn; auto]
           |apply B3; rewrite nth_upd_neq; assumption]).
    all: assert (Hk2 : forall q, keeps os (upd os2 i (LO (Some m) q))) by
          (intros q j l Hj; destruct (Nat.eq_dec i j) as [<-|Hn];
           [exists (LO (Some m) q); rewrite (nth_upd_eq _ _ _ _ En2); rewrite En in Hj; inversion Hj; subst; split; [reflexivity|]; split; [reflexivity|cbn; discriminate]
           |rewrite nth_upd_neq by assumption; apply Hk; assumption]).
    all: split; [intros m0 k0; segs; rewrite B1; cbn; lia|].
    all: split; [intros st; rewrite !nest_app; cbn [nest fold_left nest1 fst snd]; fold (nest sb (Some (FUnlocked m :: st))); rewrite B2; cbn [nest fold_left nest1 fst snd]; rewrite Nat.eqb_refl; reflexivity|].
    all: split; [apply Hk2|].
    all: intros Hf; apply fail0_app in Hf; destruct Hf as (_ & Hf); apply fail0_app in Hf; destruct Hf as (Hf & Hf2).
    all: try (rewrite (B4 Hf), upd_upd, upd_same; [reflexivity|assumption]).
    all: specialize (Hf2 m KU); cbn in Hf2; rewrite at_refl in Hf2; lia.
Qed.

(** For every environment and every tree of scopes: when a scope ends - normally or by an exception, wherever it was thrown - the
    guards have undone exactly what they did to every mutex in every mode, except for re-locks that failed in ~unlock_guard; and
    if none failed, the client's unique_lock objects are as they were. *)
Theorem C33_balanced : forall E s os tr os' tr' r, grun E s os tr = (os', tr', r) -> r <> GTerm ->
  exists seg, tr' = tr ++ seg /\ (forall m k, gledger seg m k = - failed seg m k) /\ ((forall m k, failed seg m k = 0) -> os' = os).
Proof.
  intros E s os tr os' tr' r H Hr. destruct (grun_good E s os tr) as (seg & E1 & G). rewrite H in E1, G. cbn [fst snd] in E1, G.
  destruct (G Hr) as (A & _ & _ & B). exists seg. auto.
Qed.
Print Assumptions C33_balanced.

(** The guards' calls are properly nested: what is left is always the innermost guard still open. *)
Theorem C33_nested : forall E s os tr os' tr' r, grun E s os tr = (os', tr', r) -> r <> GTerm ->
  exists seg, tr' = tr ++ seg /\ forall st, nest seg (Some st) = Some st.
Proof.
  intros E s os tr os' tr' r H Hr. destruct (grun_good E s os tr) as (seg & E1 & G). rewrite H in E1, G. cbn [fst snd] in E1, G.
  destruct (G Hr) as (_ & A & _). exists seg. auto.
Qed.
Print Assumptions C33_nested.

(** If the mutex functions never throw, std::terminate is never called by the guards, provided unlock_guard is only used on
    unique_lock objects that own their mutex: stated for mutex-based guards. *)
Fixpoint no_objects (s : scope) : Prop :=
  match s with
  | SSeq a b | SCatch a b => no_objects a /\ no_objects b
  | SGuard _ _ b | SAdoptG _ _ b | SUnlockG _ b => no_objects b
  | SUnlockL _ _ => False
  | _ => True
  end.
Theorem C33_no_terminate : forall E s os tr, (forall t m o, E t m o <> OThrow) -> no_objects s -> snd (grun E s os tr) <> GTerm.
Proof.
  intros E s. intros os tr HE. revert os tr. induction s as [| |a IHa b IHb|a IHa b IHb|m o|k m b IH|k m b IH|m b IH|i b IH]; intros os tr Ho; cbn [grun no_objects] in *; try (cbn; discriminate); try contradiction.
  - destruct Ho as (Ha & Hb). specialize (IHa os tr Ha). destruct (grun E a os tr) as [[o1 t1] r]. destruct r; [apply IHb; assumption|assumption|assumption].
  - destruct Ho as (Ha & Hb). specialize (IHa os tr Ha). destruct (grun E a os tr) as [[o1 t1] r]. destruct r; [assumption|apply IHb; assumption|assumption].
  - unfold gcall. destruct (E tr m o) eqn:EO; cbn; discriminate.
  - unfold gcall. pose proof (HE tr m (MLock k)) as H1. destruct (E tr m (MLock k)) eqn:EO; try congruence;
      match goal with |- context [grun E b os ?t] => specialize (IH os t Ho); destruct (grun E b os t) as [[o1 t1] r] end; cbn [snd] in IH;
      pose proof (HE t1 m (MUnlock k)) as H2; destruct r; try congruence; destruct (E t1 m (MUnlock k)) eqn:EU; cbn; congruence.
  - unfold gcall. match goal with |- context [grun E b os ?t] => specialize (IH os t Ho); destruct (grun E b os t) as [[o1 t1] r] end; cbn [snd] in IH.
    pose proof (HE t1 m (MUnlock k)) as H2; destruct r; try congruence; destruct (E t1 m (MUnlock k)) eqn:EU; cbn; congruence.
  - unfold gcall. pose proof (HE tr m (MUnlock KU)) as H1. destruct (E tr m (MUnlock KU)) eqn:EO; try congruence;
      match goal with |- context [grun E b os ?t] => specialize (IH os t Ho); destruct (grun E b os t) as [[o1 t1] r] end; cbn [snd] in IH;
      pose proof (HE t1 m (MLock KU)) as H2; destruct r; try congruence; destruct (E t1 m (MLock KU)) eqn:EU; cbn; congruence.
Qed.
Print Assumptions C33_no_terminate.

(** Exceptions are neither swallowed nor invented: a scope without try/catch ends normally only if no mutex function threw in it, and
    it ends with an exception only if one threw or the client did (scopes that leave unique_lock objects alone: relocking one that is
    already locked raises lock_error). *)
Definition threw (e : site * mev) : bool := match snd e with EvCall _ _ OThrow => true | _ => false end.
Fixpoint no_catch (s : scope) : bool :=
  match s with
  | SCatch _ _ => false
  | SSeq a b => no_catch a && no_catch b
  | SGuard _ _ b | SAdoptG _ _ b | SUnlockG _ b | SUnlockL _ b => no_catch b
  | _ => true
  end.
Fixpoint throws_itself (s : scope) : bool :=
  match s with
  | SThrow => true
  | SSeq a b | SCatch a b => throws_itself a || throws_itself b
  | SGuard _ _ b | SAdoptG _ _ b | SUnlockG _ b | SUnlockL _ b => throws_itself b
  | _ => false
  end.

Lemma grun_exceptions E s : forall os tr, exists seg, snd (fst (grun E s os tr)) = tr ++ seg /\
  (no_catch s = true -> snd (grun E s os tr) = GOk -> existsb threw seg = false) /\
  (no_objects s -> snd (grun E s os tr) = GExn -> throws_itself s = true \/ existsb threw seg = true).
Proof.
  induction s as [| |a IHa b IHb|a IHa b IHb|m o|k m b IH|k m b IH|m b IH|i b IH]; intros os tr; cbn [grun no_catch throws_itself no_objects].
  - exists []. rewrite app_nil_r. repeat split; auto. discriminate.
  - exists []. rewrite app_nil_r. repeat split; auto.
  - destruct (IHa os tr) as (sa & Ea & A1 & A2). destruct (grun E a os tr) as [[os1 tr1] r1]. cbn [fst snd] in *. subst tr1.
    destruct r1.
    + destruct (IHb os1 (tr ++ sa)) as (sb & Eb & B1 & B2). exists (sa ++ sb). rewrite Eb, app_assoc, existsb_app. split; [reflexivity|]. split.
      * intros H1 H2. apply andb_true_iff in H1. destruct H1 as (Ha & Hb). rewrite (A1 Ha eq_refl), (B1 Hb H2). reflexivity.
      * intros [O1 O2] H2. destruct (B2 O2 H2) as [->| ->]; rewrite !orb_true_r; auto.
    + exists sa. split; [reflexivity|]. split; [discriminate|]. intros [O1 O2] _. destruct (A2 O1 eq_refl) as [->| ->]; auto.
    + exists sa. split; [reflexivity|]. split; discriminate.
  - destruct (IHa os tr) as (sa & Ea & A1 & A2). destruct (grun E a os tr) as [[os1 tr1] r1]. cbn [fst snd] in *. subst tr1.
    destruct r1.
    + exists sa. split; [reflexivity|]. split; discriminate.
    + destruct (IHb os1 (tr ++ sa)) as (sb & Eb & B1 & B2). exists (sa ++ sb). rewrite Eb, app_assoc, existsb_app. split; [reflexivity|]. split; [discriminate|].
      intros [O1 O2] H2. destruct (B2 O2 H2) as [->| ->]; rewrite !orb_true_r; auto.
    + exists sa. split; [reflexivity|]. split; discriminate.
  - unfold gcall. exists [(SiUser, EvCall m o (E tr m o))]. destruct (E tr m o); cbn; repeat split; auto; try discriminate.
  - unfold gcall. destruct (E tr m (MLock k)) eqn:EO;
      [ | |eexists; split; [reflexivity|]; cbn; split; [discriminate|auto]];
      match goal with |- context [grun E b os (tr ++ [?e])] => destruct (IH os (tr ++ [e])) as (sb & Eb & B1 & B2); destruct (grun E b os (tr ++ [e])) as [[os2 tr2] r2] end;
      cbn [fst snd] in *; subst tr2; rewrite <- app_assoc;
      (destruct r2; [| |eexists; split; [reflexivity|]; cbn; split; discriminate]);
      match goal with |- context [E ?t m (MUnlock k)] => destruct (E t m (MUnlock k)) eqn:EU end; cbn [fst snd]; rewrite <- !app_assoc;
      (eexists; split; [reflexivity|]); rewrite !existsb_app; cbn; rewrite ?orb_false_r; split; try discriminate; auto.
  - unfold gcall. destruct (IH os (tr ++ [(SiAdopt, EvAdopt m k)])) as (sb & Eb & B1 & B2).
    destruct (grun E b os (tr ++ [(SiAdopt, EvAdopt m k)])) as [[os2 tr2] r2]. cbn [fst snd] in *; subst tr2; rewrite <- app_assoc;
      (destruct r2; [| |eexists; split; [reflexivity|]; cbn; split; discriminate]);
      match goal with |- context [E ?t m (MUnlock k)] => destruct (E t m (MUnlock k)) eqn:EU end; cbn [fst snd]; rewrite <- !app_assoc;
      (eexists; split; [reflexivity|]); rewrite !existsb_app; cbn; rewrite ?orb_false_r; split; try discriminate; auto.
  - unfold gcall. destruct (E tr m (MUnlock KU)) eqn:EO;
      [ | |eexists; split; [reflexivity|]; cbn; split; discriminate];
      match goal with |- context [grun E b os (tr ++ [?e])] => destruct (IH os (tr ++ [e])) as (sb & Eb & B1 & B2); destruct (grun E b os (tr ++ [e])) as [[os2 tr2] r2] end;
      cbn [fst snd] in *; subst tr2; rewrite <- app_assoc;
      (destruct r2; [| |eexists; split; [reflexivity|]; cbn; split; discriminate]);
      match goal with |- context [E ?t m (MLock KU)] => destruct (E t m (MLock KU)) eqn:EU end; cbn [fst snd]; rewrite <- !app_assoc;
      (eexists; split; [reflexivity|]); rewrite !existsb_app; cbn; rewrite ?orb_false_r, ?orb_true_r; split; try discriminate; auto.
  - destruct (nth_error os i) as [l|]; [|exists []; cbn; rewrite app_nil_r; repeat split; discriminate].
    unfold on_lock, do_unlock, call. destruct l as [[m|] lk]; cbn [lm ll]; [|exists []; cbn; rewrite app_nil_r; repeat split; discriminate].
    destruct lk; cbn [lm ll]; [|exists []; cbn; rewrite app_nil_r; repeat split; discriminate].
    cbn [app]. destruct (E tr m (MUnlock KU)) eqn:EO; cbn [map];
      [ | |eexists; split; [reflexivity|]; cbn; split; discriminate];
      match goal with |- context [grun E b ?o (tr ++ [?e])] => destruct (IH o (tr ++ [e])) as (sb & Eb & B1 & B2); destruct (grun E b o (tr ++ [e])) as [[os2 tr2] r2] end;
      cbn [fst snd] in *; subst tr2; rewrite <- app_assoc;
      (destruct r2; [| |eexists; split; [reflexivity|]; cbn; split; discriminate]).
    all: destruct (nth_error os2 i) as [[[m2|] lk2]|] eqn:En2; [| |eexists; split; [reflexivity|]; cbn; split; discriminate]; unfold do_lock, call; cbn [lm ll app];
      [destruct lk2; cbn [map app];
       [|match goal with |- context [?F ?t ?mm (MLock KU)] => destruct (F t mm (MLock KU)) eqn:EU end]|];
      cbn [fst snd map]; rewrite <- ?app_assoc, ?app_nil_r; cbn [app];
      (eexists; split; [reflexivity|]); cbn [existsb]; rewrite ?existsb_app; cbn; rewrite ?orb_false_r, ?orb_true_r; split; try discriminate; try contradiction; auto.
Qed.
Theorem C33_exceptions : forall E s os tr os' tr' r, grun E s os tr = (os', tr', r) ->
  exists seg, tr' = tr ++ seg /\ (no_catch s = true -> r = GOk -> existsb threw seg = false) /\
  (no_objects s -> r = GExn -> throws_itself s = true \/ existsb threw seg = true).
Proof. intros E s os tr os' tr' r H. destruct (grun_exceptions E s os tr) as (seg & A & B & C). rewrite H in A, B, C. exists seg. auto. Qed.
Print Assumptions C33_exceptions.

(** { lock_guard g(0); { unlock_guard u(0); { shared_lock_guard h(1); throw; } } } inside try/catch, then an unlock_guard over an owned unique_lock. *)
Example C33_example :
  grun (fun _ _ _ => OYes) (SSeq (SCatch (SGuard KU 0 (SUnlockG 0 (SGuard KS 1 SThrow))) SSkip) (SUnlockL 0 SThrow)) [LO (Some 2%nat) true] [] =
  ([LO (Some 2%nat) true],
   [(SiLockCtor, EvCall 0 (MLock KU) OYes); (SiUnlockCtor, EvCall 0 (MUnlock KU) OYes); (SiLockCtor, EvCall 1 (MLock KS) OYes);
    (SiLockDtor, EvCall 1 (MUnlock KS) OYes); (SiUnlockDtor, EvCall 0 (MLock KU) OYes); (SiLockDtor, EvCall 0 (MUnlock KU) OYes);
    (SiUnlockCtor, EvCall 2 (MUnlock KU) OYes); (SiUnlockDtor, EvCall 2 (MLock KU) OYes)]%nat, GExn).
Proof. reflexivity. Qed.

(** The exception: if re-locking fails in ~unlock_guard the scope ends with the mutex given up - and, during unwinding, the program
    is terminated.  (The mutexes of this library can fail to lock only if the operating system reports an error.) *)
Theorem C33_relock_failure : exists E s, (forall os tr, exists seg, grun E s os tr = (os, tr ++ seg, GExn) /\ gledger seg 0 KU = -1) /\
  snd (grun E (SUnlockG 0 SThrow) [] []) = GTerm.
Proof.
  exists (fun _ _ o => match o with MLock _ => OThrow | _ => OYes end), (SUnlockG 0 SSkip). split; [|reflexivity].
  intros os tr. exists [(SiUnlockCtor, EvCall 0 (MUnlock KU) OYes); (SiUnlockDtor, EvCall 0 (MLock KU) OThrow)]. split; [|reflexivity].
  cbn. rewrite <- app_assoc. reflexivity.
Qed.
Print Assumptions C33_relock_failure.
