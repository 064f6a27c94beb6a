(** Waitable timers when modules come and go: the slot, the semaphore and the timers, when the semaphore can be created and queried. *)
From Coq Require Import List Bool Arith ZArith Lia Permutation.
From Verif Require Import ListSum Exec OnceModel OnceProof OnceKey OnceCtx ModModel ModProof.
Import ListNotations.
Local Open Scope Z_scope.

(** CreateSemaphoreW and NtQuerySemaphore do not fail; everything else may. *)
Definition xsure_step (vs : nat -> nat -> nat) (s : xst) (a : xact) : option (xst * list xev) :=
  match a with XB a0 => if sure (xb s) a0 then xstep vs s a else None | _ => xstep vs s a end.
Lemma xsure_x vs s a r : xsure_step vs s a = Some r -> xstep vs s a = Some r.
Proof. destruct a; cbn [xsure_step]; auto. destruct (sure _ _); [auto|discriminate]. Qed.

(** ** Initialised modules hold the semaphore *)
Definition late (m : nat) (pc : opc) : bool := match pc with ODrop j _ | OQuery j | OPut j _ | OPub j => (j =? m)%nat | _ => false end.
Lemma late_inside m pc : late m pc = true -> inside m pc = true. Proof. destruct pc; cbn; auto; discriminate. Qed.
Definition HX (s : once_st) : Prop :=
  (forall m x, nth_error (mods (fst s)) m = Some x -> ini x = 2%nat -> holder x = true) /\
  (forall t pc m x, nth_error (snd s) t = Some pc -> late m pc = true -> nth_error (mods (fst s)) m = Some x -> holder x = true).

Lemma HX_frame p ths p' t pc pc' : HX (p, ths) -> nth_error ths t = Some pc -> mods p' = mods p -> (forall m, late m pc' = true -> late m pc = true) -> HX (p', upd ths t pc').
Proof.
  intros (H1 & H2) Ht Em Hl. split; cbn [fst snd] in *; rewrite Em; [exact H1|]. intros u w m x Hu Hw Hx. apply nth_upd_inv in Hu. destruct Hu as [(<- & -> & _)|(_ & Hu)]; eauto.
Qed.
Lemma HX_mod p ths tr p' t pc pc' m x x' : OI (p, ths) tr -> HX (p, ths) -> nth_error ths t = Some pc -> inside m pc = true -> nth_error (mods p) m = Some x -> mods p' = upd (mods p) m x' ->
  (ini x' = 2%nat -> holder x' = true) -> (forall j, late j pc' = true -> j = m /\ holder x' = true) -> HX (p', upd ths t pc').
Proof.
  intros HO (H1 & H2) Ht Hin Hm Em Hi Hl. split; cbn [fst snd] in *; rewrite Em.
  - intros j y Hy Hj. apply nth_upd_inv in Hy. destruct Hy as [(<- & -> & _)|(_ & Hy)]; eauto.
  - intros u w j y Hu Hw Hy. apply nth_upd_inv in Hu. destruct Hu as [(<- & -> & _)|(Hn & Hu)].
    + destruct (Hl _ Hw) as (-> & Hh). rewrite (nth_upd_eq _ _ _ _ Hm) in Hy. congruence.
    + apply nth_upd_inv in Hy. destruct Hy as [(<- & -> & _)|(_ & Hy)]; [|eauto]. exfalso. eapply (one_inside (p, ths) tr m u t); cbn [fst snd]; eauto; [congruence|apply late_inside; exact Hw].
Qed.

Lemma HX_step s tr a s' e : OI s tr -> AG s -> HX s -> sure_step s a = Some (s', e) -> HX s'.
Proof.
  unfold sure_step. destruct (sure s a) eqn:Hsure; [|discriminate]. intros HO HA HH H. destruct s as [p ths]. pose proof HA as (_ & _ & _ & _ & _ & A6 & _).
  destruct a as [t m|t o|t|c]; cbn [once_step] in H.
  - destruct (nth_error ths t) as [[]|] eqn:Et; try discriminate. destruct (nth_error (mods p) m); inversion H; subst. eapply HX_frame; eauto.
  - destruct (nth_error ths t) as [pc|] eqn:Et; [|discriminate]. destruct (once_step1 p t pc o) as [[[p' pc'] e']|] eqn:Es; inversion H; subst. clear H. cbn [sure snd] in Hsure. rewrite Et in Hsure.
    assert (Hin1 : forall m x, inside m pc = true -> nth_error (mods p) m = Some x -> ini x = 1%nat).
    { intros m x Hin Hx. destruct HO as (I1 & _). destruct (I1 m x Hx) as (_ & B & _). pose proof (nin_elem _ _ _ _ Et Hin). cbn [snd] in B. destruct (Nat.eqb_spec (ini x) 1); [assumption|cbn in B; lia]. }
    pose proof HH as (H1 & H2). cbn [fst snd] in H1, H2.
    destruct pc as [| |m|m|m|m|m k|m k|m|m|m|m k|m|m|m c|m c|m c|m c|c]; cbn [once_step1] in Es; try discriminate.
    + destruct (nth_error (mods p) m) as [x|] eqn:Em; [|discriminate]. inversion Es; subst. eapply HX_frame; eauto. intros j. destruct (_ =? _)%nat; discriminate.
    + destruct (nth_error (mods p) m) as [x|] eqn:Em; [|discriminate]. destruct (ini x) as [|[|i]] eqn:Ei; inversion Es; subst; [|eapply HX_frame; eauto..].
      split; cbn [fst snd set_mod mods].
      * intros j y Hy Hj. apply nth_upd_inv in Hy. destruct Hy as [(<- & -> & _)|(_ & Hy)]; [discriminate|eauto].
      * intros u w j y Hu Hw Hy. apply nth_upd_inv in Hu. destruct Hu as [(<- & -> & _)|(Hn & Hu)]; [discriminate|]. apply nth_upd_inv in Hy. destruct Hy as [(<- & -> & _)|(_ & Hy)]; [|eauto]. cbn [holder]. eauto.
    + destruct (nth_error (mods p) m) as [x|] eqn:Em; [|discriminate]. assert (Hi : ini x = 1%nat) by (apply (Hin1 m); [cbn; apply Nat.eqb_refl|exact Em]).
      destruct o as [k0|]; [destruct (sem p) as [k1|]|]; inversion Es; subst; (eapply (HX_mod p ths tr _ t (OOpen m) _ m x _ HO HH Et); [apply Nat.eqb_refl|exact Em|reflexivity|cbn [ini holder]; congruence|]); cbn; try (intros; discriminate). intros j E. apply Nat.eqb_eq in E. auto.
    + destruct o as [k|]; [destruct (existsb _ _); [discriminate|]|]; inversion Es; subst; eapply HX_frame; eauto.
    + destruct (nth_error (mods p) m) as [x|] eqn:Em; [|discriminate]. assert (Hi : ini x = 1%nat) by (apply (Hin1 m); [cbn; apply Nat.eqb_refl|exact Em]). destruct o as [k0|]; [|discriminate].
      destruct (sem p) as [k1|]; inversion Es; subst; (eapply (HX_mod p ths tr _ t (OCreate m k) _ m x _ HO HH Et); [apply Nat.eqb_refl|exact Em|reflexivity|cbn [ini holder]; congruence|]); intros j E; apply Nat.eqb_eq in E; auto.
    + inversion Es; subst. eapply HX_frame; eauto.
    + destruct o as [k0|]; [|discriminate]. pose proof (proj1 (A6 _ _ Et) eq_refl) as Hs. destruct (sem p) as [k1|]; [|congruence]. inversion Es; subst. eapply HX_frame; eauto.
    + exfalso. exact (proj2 (A6 _ _ Et) m eq_refl).
    + destruct (nth_error (mods p) m) as [x|] eqn:Em; [|discriminate]. inversion Es; subst. eapply (HX_mod p ths tr _ t (OUndo m) _ m x _ HO HH Et); [apply Nat.eqb_refl|exact Em|reflexivity|discriminate|intros; discriminate].
    + destruct (nth_error (mods p) m) as [x|] eqn:Em; [|discriminate]. inversion Es; subst. assert (Hh : holder x = true) by (eapply H2; [exact Et|cbn; apply Nat.eqb_refl|exact Em]). eapply (HX_mod p ths tr _ t (OPut m k) _ m x _ HO HH Et); [apply Nat.eqb_refl|exact Em|reflexivity|auto|intros j E; apply Nat.eqb_eq in E; auto].
    + destruct (nth_error (mods p) m) as [x|] eqn:Em; [|discriminate]. inversion Es; subst. assert (Hh : holder x = true) by (eapply H2; [exact Et|cbn; apply Nat.eqb_refl|exact Em]). eapply (HX_mod p ths tr _ t (OPub m) _ m x _ HO HH Et); [apply Nat.eqb_refl|exact Em|reflexivity|auto|intros; discriminate].
    + destruct (nth_error (mods p) m) as [x|] eqn:Em; [|discriminate]. destruct (tls_get _ _ _); [|destruct o]; inversion Es; subst; eapply HX_frame; eauto.
    + destruct o; destruct (nth_error (tlcs p) c); inversion Es; subst; eapply HX_frame; eauto.
    + destruct o; destruct (nth_error (tlcs p) c); inversion Es; subst; eapply HX_frame; eauto.
    + destruct o; destruct (nth_error (tlcs p) c); inversion Es; subst; eapply HX_frame; eauto.
    + destruct o; destruct (nth_error (mods p) m); inversion Es; subst; eapply HX_frame; eauto.
    + destruct (nth_error (tlcs p) c); inversion Es; subst. eapply HX_frame; eauto.
  - destruct (nth_error ths t) as [[]|] eqn:Et; inversion H; subst. eapply HX_frame; eauto.
  - destruct (nth_error (tlcs p) c) as [x|]; [|discriminate]. destruct (nth_error ths (cown x)) as [[]|] eqn:Et; try discriminate. destruct (cwait x); inversion H; subst. exact HH.
Qed.

(** ** Slots no module knows any more *)
(** [l]: the slots of a process that never lost one; [lk]: the lost ones. *)
Definition split_slots (p : proc) (lk l : list nat) : Prop := NoDup (tslots p) /\ NoDup (lk ++ l) /\ forall k, In k (tslots p) <-> In k (lk ++ l).

Lemma nodup_app_l {A} (a b : list A) k : NoDup (a ++ b) -> In k a -> In k b -> False.
Proof. induction a as [|x a IH]; [intros _ []|]. cbn. intros H [->|Hi] Hb; inversion H; subst; [apply H2; apply in_or_app; auto|eauto]. Qed.
Lemma nodup_mid {A} (a b : list A) x : NoDup (a ++ b) -> ~ In x (a ++ b) -> NoDup (a ++ x :: b).
Proof. intros H1 H2. eapply Permutation_NoDup; [apply Permutation_middle|]. constructor; assumption. Qed.
Lemma nodup_filter_r {A} (f : A -> bool) (a b : list A) : NoDup (a ++ b) -> NoDup (a ++ filter f b).
Proof.
  induction a as [|x a IH]; cbn; intros H; [apply NoDup_filter; exact H|]. inversion H; subst. constructor; [|auto]. intros Hi. apply H2. apply in_app_or in Hi. apply in_or_app. destruct Hi as [Hi|Hi]; [auto|]. apply filter_In in Hi. tauto.
Qed.

Lemma sim_step p ths a p' ths' e lk l : once_step (p, ths) a = Some ((p', ths'), e) -> split_slots p lk l -> (forall t pc k, nth_error ths t = Some pc -> pendk pc = Some k -> In k l) ->
  exists l', once_step (set_slots p l, ths) a = Some ((set_slots p' l', ths'), e) /\ split_slots p' lk l'.
Proof.
  intros H (D1 & D2 & D3) Hk.
  assert (Same : forall r, r = Some ((set_slots p' l, ths'), e) -> tslots p' = tslots p -> exists l', r = Some ((set_slots p' l', ths'), e) /\ split_slots p' lk l').
  { intros r -> E. exists l. split; [reflexivity|]. unfold split_slots. rewrite E. auto. }
  assert (New : forall k r, existsb (Nat.eqb k) (tslots p) = false -> (existsb (Nat.eqb k) l = false -> r = Some ((set_slots p' (k :: l), ths'), e)) -> tslots p' = k :: tslots p -> exists l', r = Some ((set_slots p' l', ths'), e) /\ split_slots p' lk l').
  { intros k r Hx Hr E. apply existsb_out in Hx. exists (k :: l). split.
    - apply Hr. destruct (existsb (Nat.eqb k) l) eqn:Eb; [|reflexivity]. exfalso. apply existsb_exists in Eb. destruct Eb as (j & Hj & Ej). apply Nat.eqb_eq in Ej. subst j. apply Hx, D3, in_or_app. auto.
    - unfold split_slots. rewrite E. split; [constructor; assumption|]. split; [apply nodup_mid; [exact D2|rewrite <- D3; exact Hx]|]. intros j. cbn [In]. rewrite D3, !in_app_iff. cbn [In]. tauto. }
  destruct a as [t m|t o|t|c]; cbn [once_step] in H |- *.
  - destruct (nth_error ths t) as [[]|] eqn:Et; try discriminate. cbn [set_slots mods]. destruct (nth_error (mods p) m); inversion H; subst. apply Same; reflexivity.
  - destruct (nth_error ths t) as [pc|] eqn:Et; [|discriminate]. destruct (once_step1 p t pc o) as [[[p1 pc1] e1]|] eqn:Es; inversion H; subst. clear H.
    destruct pc as [| |m|m|m|m|m k|m k|m|m|m|m k|m|m|m c|m c|m c|m c|c]; cbn [once_step1 set_slots mods sem tslots tlcs tlsv semh] in Es |- *; try discriminate.
    + destruct (nth_error (mods p) m) as [x|]; inversion Es; subst. apply Same; reflexivity.
    + destruct (nth_error (mods p) m) as [x|]; [|discriminate]. destruct (ini x) as [|[|i]]; inversion Es; subst; apply Same; reflexivity.
    + destruct (nth_error (mods p) m) as [x|]; [|discriminate]. destruct o; [destruct (sem p) eqn:Esm|]; inversion Es; subst; apply Same; reflexivity.
    + destruct o as [k|]; [destruct (existsb (Nat.eqb k) (tslots p)) eqn:Eb; [discriminate|]|]; inversion Es; subst; [|apply Same; reflexivity]. apply (New k); [exact Eb| |reflexivity]. intros ->. reflexivity.
    + destruct (nth_error (mods p) m) as [x|]; [|discriminate]. destruct o; [destruct (sem p) eqn:Esm|]; inversion Es; subst; apply Same; reflexivity.
    + inversion Es; subst. eexists. split; [reflexivity|]. unfold split_slots. cbn [set_slots tslots]. split; [apply NoDup_filter; exact D1|]. split; [apply nodup_filter_r; exact D2|]. intros j. rewrite in_app_iff, !filter_In, D3, in_app_iff.
      assert (Hn : In j lk -> negb (j =? k)%nat = true). { intros Hj. destruct (Nat.eqb_spec j k) as [->|]; [|reflexivity]. exfalso. eapply (nodup_app_l lk l k D2); [exact Hj|]. eapply Hk; [exact Et|reflexivity]. }
      tauto.
    + destruct o; [destruct (sem p) eqn:Esm|]; inversion Es; subst; apply Same; reflexivity.
    + destruct o as [k|]; [destruct (existsb (Nat.eqb k) (tslots p)) eqn:Eb; [discriminate|]|]; inversion Es; subst; [|apply Same; reflexivity]. apply (New k); [exact Eb| |reflexivity]. intros ->. reflexivity.
    + destruct (nth_error (mods p) m) as [x|]; inversion Es; subst. apply Same; reflexivity.
    + destruct (nth_error (mods p) m) as [x|]; inversion Es; subst. apply Same; reflexivity.
    + destruct (nth_error (mods p) m) as [x|]; inversion Es; subst. apply Same; reflexivity.
    + destruct (nth_error (mods p) m) as [x|]; [|discriminate]. destruct (tls_get _ _ _); [|destruct o]; inversion Es; subst; apply Same; reflexivity.
    + destruct o; destruct (nth_error (tlcs p) c); inversion Es; subst; apply Same; reflexivity.
    + destruct o; destruct (nth_error (tlcs p) c); inversion Es; subst; apply Same; reflexivity.
    + destruct o; destruct (nth_error (tlcs p) c); inversion Es; subst; apply Same; reflexivity.
    + destruct o; destruct (nth_error (mods p) m); inversion Es; subst; apply Same; reflexivity.
    + destruct (nth_error (tlcs p) c); inversion Es; subst. apply Same; reflexivity.
  - destruct (nth_error ths t) as [[]|] eqn:Et; inversion H; subst. apply Same; reflexivity.
  - cbn [set_slots tlcs]. destruct (nth_error (tlcs p) c) as [x|]; [|discriminate]. destruct (nth_error ths (cown x)) as [[]|] eqn:Et; try discriminate. destruct (cwait x); inversion H; subst. apply Same; reflexivity.
Qed.

(** ** Unloading a module *)
Definition nok (k : nat) (l : list nat) : list nat := filter (fun j => negb (j =? k)%nat) l.
Lemma AG_unload q ths m x cr q1 e : AG (q, ths) -> HX (q, ths) -> nth_error (mods q) m = Some x -> existsb (runs cr m) ths = false ->
  (forall t pc j, nth_error ths t = Some pc -> pcmod pc = Some j -> nth_error (mods q) j <> None) -> mod_destroy q m = (q1, e) ->
  let q2 := set_mod q1 m (MS 0 0 false) in
  HX (q2, ths) /\
  ((e = [] /\ sem q2 = sem q /\ AG (q2, ths)) \/ (exists k, e = [XLost k] /\ sem q = Some k /\ sem q2 = None /\ AG (set_slots q2 (nok k (tslots q)), ths))).
Proof.
  intros HA HH Hx Hno Hex Hd. pose proof HA as (A1 & A2 & A3 & A4 & A5 & A6 & A7 & A8 & A9 & A10 & A11). pose proof HH as (H1 & H2). cbn [fst snd] in *.
  assert (No : forall t pc, nth_error ths t = Some pc -> runs cr m pc = false).
  { intros t pc Ht. destruct (runs cr m pc) eqn:E; [|reflexivity]. assert (existsb (runs cr m) ths = true) by (apply existsb_exists; exists pc; split; [eapply nth_error_In; exact Ht|exact E]). congruence. }
  assert (Nin : forall t pc, nth_error ths t = Some pc -> inside m pc = false) by (intros t pc Ht; destruct (inside m pc) eqn:E; [|reflexivity]; apply (inside_runs cr) in E; rewrite (No _ _ Ht) in E; discriminate).
  pose proof (destroy_same _ _ _ _ _ Hx Hd) as (S1 & S2 & S3 & SL & S4 & S5). set (q2 := set_mod q1 m (MS 0 0 false)) in *.
  assert (Hm2 : nth_error (mods q2) m = Some (MS 0 0 false)).
  { destruct (nth_error (mods q2) m) as [y|] eqn:E; [rewrite (S5 y eq_refl); reflexivity|]. exfalso. apply nth_error_None in E. assert (nth_error (mods q) m <> None) by congruence. apply nth_error_Some in H. lia. }
  assert (HHX : HX (q2, ths)).
  { split; cbn [fst snd].
    - intros j y Hy Hj. destruct (Nat.eq_dec j m) as [->|N]; [rewrite Hm2 in Hy; inversion Hy; subst; discriminate|rewrite S4 in Hy by exact N; eauto].
    - intros t pc j y Ht Hl Hy. destruct (Nat.eq_dec j m) as [->|N]; [apply late_inside in Hl; rewrite (Nin _ _ Ht) in Hl; discriminate|rewrite S4 in Hy by exact N; eauto]. }
  assert (Hsum : sumf (fun x => bz (holder x)) (mods q2) = sumf (fun x => bz (holder x)) (mods q) - bz (holder x)).
  { assert (E : mods q2 = upd (mods q) m (MS 0 0 false)).
    { unfold q2, set_mod. cbn [mods]. unfold mod_destroy in Hd. rewrite Hx in Hd. destruct (holder x); [destruct (semh q) as [|[|h]]; [destruct (sem q)|destruct (sem q)|]|]; inversion Hd; subst; cbn [set_mod set_sem mods]; rewrite ?upd_upd; reflexivity. }
    rewrite E, (sumf_upd _ _ _ _ _ Hx). cbn. lia. }
  assert (Keep : sem q2 = sem q -> tslots q2 = tslots q -> Z.of_nat (semh q2) = Z.of_nat (semh q) - bz (holder x) -> (sem q2 = None -> semh q2 = 0%nat) -> AG (q2, ths)).
  { intros E1 E2 E3 E4. unfold AG. rewrite E1, E2. split; [exact A1|]. split; [exact A2|]. split; [exact A3|]. split; [exact A4|]. split; [exact A5|]. split; [exact A6|]. split.
    - intros t pc j Ht. destruct (A7 _ _ j Ht) as (B1 & B2). split; [exact B1|]. intros ->. destruct (B2 eq_refl) as (y & Y1 & Y2). exists y. split; [|exact Y2]. rewrite S4; [exact Y1|]. intros ->. specialize (Nin _ _ Ht). cbn in Nin. rewrite Nat.eqb_refl in Nin. discriminate.
    - split; [|split; [|split]].
      + intros j y Hy Hj. destruct (Nat.eq_dec j m) as [->|N]; [rewrite Hm2 in Hy; inversion Hy; subst; discriminate|rewrite S4 in Hy by exact N; eauto].
      + intros t pc j y Ht Hy He. destruct (Nat.eq_dec j m) as [->|N]; [rewrite Hm2 in Hy; inversion Hy; reflexivity|rewrite S4 in Hy by exact N; eapply A9; eauto].
      + rewrite Hsum, E3, A10. reflexivity.
      + rewrite <- E1. exact E4. }
  split; [exact HHX|]. unfold mod_destroy in Hd. rewrite Hx in Hd. destruct (holder x) eqn:Eh.
  - assert (Hge : 1 <= sumf (fun x => bz (holder x)) (mods q)) by (pose proof (sumf_elem (fun x => bz (holder x)) _ _ _ (fun a => bz_nonneg _) Hx) as G; cbn beta in G; rewrite Eh in G; exact G).
    destruct (semh q) as [|[|h]] eqn:Es; [lia| |].
    + destruct (sem q) as [k|] eqn:Ek; [|exfalso; specialize (A11 eq_refl); congruence]. inversion Hd; subst q1 e. right. exists k. split; [reflexivity|]. split; [reflexivity|]. split; [reflexivity|].
      assert (Hoth : forall j y, nth_error (mods q) j = Some y -> j <> m -> holder y = false).
      { intros j y Hy N. destruct (holder y) eqn:E; [|reflexivity]. exfalso. pose proof (sumf_two (fun x => bz (holder x)) _ j m y x (fun a => bz_nonneg _) N Hy Hx) as G. cbn beta in G. rewrite E, Eh in G. cbn in G. lia. }
      assert (Nl : forall t pc j, nth_error ths t = Some pc -> late j pc = false).
      { intros t pc j Ht. destruct (late j pc) eqn:E; [|reflexivity]. exfalso. destruct (Nat.eq_dec j m) as [->|N]; [apply late_inside in E; rewrite (Nin _ _ Ht) in E; discriminate|].
        assert (Ep : pcmod pc = Some j) by (destruct pc; cbn in E |- *; try discriminate; apply Nat.eqb_eq in E; congruence). destruct (nth_error (mods q) j) as [y|] eqn:Ey; [|exact (Hex _ _ _ Ht Ep Ey)]. specialize (H2 _ _ _ _ Ht E Ey). rewrite (Hoth _ _ Ey N) in H2. discriminate. }
      unfold AG. replace (mods (set_slots q2 (nok k (tslots q)))) with (mods q2) by reflexivity. cbn [set_slots tslots sem semh]. change (sem q2) with (@None nat). change (semh q2) with 0%nat.
      assert (Hki : In k (tslots q)) by auto.
      split; [apply NoDup_filter; exact A1|]. split; [discriminate|]. split.
      { intros t pc j Ht Hj. destruct (A3 _ _ _ Ht Hj) as (B1 & B2). split; [|discriminate]. apply filter_In. split; [exact B1|]. destruct (Nat.eqb_spec j k) as [->|]; [congruence|reflexivity]. }
      split; [exact A4|]. split; [unfold nok; rewrite filter_len by assumption; rewrite A5; cbn [some bz]; lia|]. split.
      { intros t pc Ht. split; [|apply (A6 _ _ Ht)]. intros Hn. exfalso. destruct pc; try discriminate; [specialize (Nl _ _ m0 Ht)|specialize (Nl _ _ m0 Ht)]; cbn in Nl; rewrite Nat.eqb_refl in Nl; discriminate. }
      split. { intros t pc j Ht. split; [intros i ->|intros ->]; specialize (Nl _ _ j Ht); cbn in Nl; rewrite Nat.eqb_refl in Nl; discriminate. }
      split. { intros j y Hy Hj. destruct (Nat.eq_dec j m) as [->|N]; [rewrite Hm2 in Hy; inversion Hy; subst; discriminate|]. rewrite S4 in Hy by exact N. specialize (H1 _ _ Hy Hj). rewrite (Hoth _ _ Hy N) in H1. discriminate. }
      split. { intros t pc j y Ht Hy He. destruct (Nat.eq_dec j m) as [->|N]; [rewrite Hm2 in Hy; inversion Hy; reflexivity|rewrite S4 in Hy by exact N; eapply A9; eauto]. }
      split; [rewrite Hsum; cbn [bz]; lia|reflexivity].
    + inversion Hd; subst q1 e. left. split; [reflexivity|]. split; [reflexivity|]. apply Keep; [reflexivity|reflexivity|cbn [bz]; unfold q2; cbn [set_mod set_sem semh]; lia|]. unfold q2. cbn [set_mod set_sem sem semh]. intros E. specialize (A11 E). congruence.
  - inversion Hd; subst q1 e. left. split; [reflexivity|]. split; [reflexivity|]. apply Keep; [reflexivity|reflexivity|cbn [bz]; unfold q2; cbn [set_mod semh]; lia|]. exact A11.
Qed.

(** ** The timers handed out since the semaphore was lost last *)
Definition gets (e : xev) : option (nat * nat) := match e with XE (ERet t _ c) | XMis t _ c => Some (t, c) | _ => None end.
Fixpoint rets (acc : list (nat * nat)) (tr : list xev) : list (nat * nat) :=
  match tr with
  | [] => acc
  | XLost _ :: r => rets [] r
  | e :: r => rets (match gets e with Some tc => tc :: acc | None => acc end) r
  end.
Lemma rets_app acc a b : rets acc (a ++ b) = rets (rets acc a) b.
Proof. revert acc. induction a as [|e a IH]; intros acc; [reflexivity|]. destruct e; cbn [app rets]; apply IH. Qed.
Definition losts (tr : list xev) : Z := sumf (fun e => match e with XLost _ => 1 | _ => 0 end) tr.
Lemma losts_app a b : losts (a ++ b) = losts a + losts b. Proof. apply sumf_app. Qed.
Lemma losts_in tr : losts tr = 0 -> forall k, ~ In (XLost k) tr.
Proof.
  induction tr as [|e tr IH]; [intros _ k []|]. unfold losts in *. cbn [sumf]. intros H k [->|Hi].
  - pose proof (sumf_nonneg (fun e => match e with XLost _ => 1 | _ => 0 end) tr ltac:(intros []; lia)). lia.
  - eapply IH; [|exact Hi]. pose proof (sumf_nonneg (fun e => match e with XLost _ => 1 | _ => 0 end) tr ltac:(intros []; lia)). destruct e; lia.
Qed.
Lemma rets_keep acc tr x : losts tr = 0 -> In x acc -> In x (rets acc tr).
Proof.
  revert acc. induction tr as [|e tr IH]; intros acc H Hi; [exact Hi|]. unfold losts in *. cbn [sumf] in H. pose proof (sumf_nonneg (fun e => match e with XLost _ => 1 | _ => 0 end) tr ltac:(intros []; lia)).
  destruct e; cbn [rets]; try lia; apply IH; try lia; destruct (gets _); try right; exact Hi.
Qed.
Lemma rets_in acc es x : losts es = 0 -> In x (rets acc es) -> In x acc \/ exists e, In e es /\ gets e = Some x.
Proof.
  revert acc. induction es as [|e es IH]; intros acc H Hi; [auto|]. unfold losts in *. cbn [sumf] in H. pose proof (sumf_nonneg (fun e => match e with XLost _ => 1 | _ => 0 end) es ltac:(intros []; lia)).
  destruct e as [e|c m g|t m c|k|c]; cbn [rets] in Hi; try lia; (destruct (IH _ ltac:(lia) Hi) as [Hi'|(e' & E1 & E2)]; [|right; exists e'; split; [right; exact E1|exact E2]]).
  - destruct (gets (XE e)) as [tc|] eqn:E; [|auto]. destruct Hi' as [->|Hi']; [|auto]. right. exists (XE e). split; [left; reflexivity|exact E].
  - cbn in Hi'. auto.
  - cbn in Hi'. destruct Hi' as [<-|Hi']; [|auto]. right. exists (XMis t m c). split; [left; reflexivity|reflexivity].
  - cbn in Hi'. auto.
Qed.

Definition KX (s : xst) (tr : list xev) : Prop :=
  let (p, ths) := xb s in
  HX (p, ths) /\
  (exists lk l, split_slots p lk l /\ AG (set_slots p l, ths) /\ Z.of_nat (length lk) = losts tr) /\
  (forall t c, In (t, c) (rets [] tr) -> exists k, sem p = Some k /\ tls_get (tlsv p) t k = Some c).

Lemma KX_init nm n : KX (x_init nm n) [].
Proof.
  unfold KX, x_init. cbn [xb]. unfold once_init. split; [|split].
  - split; cbn [fst snd mods]; [intros m x H; apply nth_error_In, repeat_spec in H; subst; discriminate|]. intros t pc m x H; apply nth_error_In, repeat_spec in H; subst; discriminate.
  - exists [], []. split; [split; [constructor|split; [constructor|intros k; reflexivity]]|]. split; [exact (AG_init nm n)|reflexivity].
  - intros t c [].
Qed.

(** What a returning step says, and that slots once filled keep their value. *)
Lemma ret_get p ths a p' ths' e t m c : once_step (p, ths) a = Some ((p', ths'), e) -> In (ERet t m c) e -> exists x pc, nth_error ths t = Some pc /\ past m pc = true /\ nth_error (mods p) m = Some x /\ tls_get (tlsv p') t (tkey x) = Some c /\ sem p' = sem p.
Proof.
  intros Hs Hi. pose proof (ctx_effects _ _ _ _ _ Hs) as He. cbn [fst snd] in He.
  destruct He as [u pc pc' p' e Ht Hc Hc' Hg El Ev (Hq1 & Hq2)|u j x d Ht Hm Hv|u j x Ht Hm Hv|u j d x h pc pc' Ht Hpc Hx|u j d x Ht Hm|u d pc Ht Hpc|u d x Ht Hx|d x Hx Hg Hw].
  - exfalso. eapply Hq2; exact Hi.
  - destruct Hi as [Hi|[Hi|[]]]; inversion Hi; subst. exists x, (OLook m). cbn. rewrite Nat.eqb_refl. auto.
  - destruct Hi as [Hi|[]]; discriminate.
  - destruct Hi as [Hi|[]]; discriminate.
  - destruct Hi as [Hi|[]]; inversion Hi; subst. exists x, (OVal m c). cbn. rewrite !Nat.eqb_refl. auto.
  - destruct Hi.
  - apply in_app_or in Hi. destruct Hi as [Hi|[Hi|[]]]; [exfalso; eapply closes_noret; exact Hi|discriminate].
  - exfalso; eapply closes_noret; exact Hi.
Qed.
Lemma tls_stable p ths a p' ths' e tr t k c : CX (p, ths) tr -> once_step (p, ths) a = Some ((p', ths'), e) -> tls_get (tlsv p) t k = Some c -> tls_get (tlsv p') t k = Some c.
Proof.
  intros (_ & _ & _ & _ & C5 & _) Hs Hg0. pose proof (ctx_effects _ _ _ _ _ Hs) as He. cbn [fst snd] in He.
  destruct He as [u pc pc' p' e Ht Hc Hc' Hg El Ev (Hq1 & Hq2)|u j x d Ht Hm Hv|u j x Ht Hm Hv|u j d x h pc pc' Ht Hpc Hx|u j d x Ht Hm|u d pc Ht Hpc|u d x Ht Hx|d x Hx Hg Hw]; cbn [set_tlcs tlsv]; try rewrite Ev; try assumption.
  cbn [tls_get]. destruct (Nat.eqb_spec u t) as [->|]; cbn [andb]; [|exact Hg0]. destruct (Nat.eqb_spec (tkey x) k) as [<-|]; [|exact Hg0]. rewrite (C5 _ _ _ _ Ht eq_refl Hm) in Hg0. discriminate.
Qed.
Lemma sem_mono p ths a p' ths' e k : once_step (p, ths) a = Some ((p', ths'), e) -> sem p = Some k -> sem p' = Some k.
Proof.
  destruct a as [t m|t o|t|c]; cbn [once_step]; intros H Hk.
  - destruct (nth_error ths t) as [[]|]; try discriminate. destruct (nth_error (mods p) m); inversion H; subst. exact Hk.
  - destruct (nth_error ths t) as [pc|]; [|discriminate]. destruct (once_step1 p t pc o) as [[[p1 pc1] e1]|] eqn:E1; inversion H; subst. clear H.
    destruct pc; cbn [once_step1] in E1; try discriminate; rewrite ?Hk in E1;
      try (destruct (nth_error (mods p) m) as [x|]; [|discriminate]); try (destruct (ini x) as [|[|?]]); try (destruct o); try (destruct (existsb _ _)); try (destruct (tls_get _ _ _)); try (destruct (nth_error (tlcs p) c) as [w|]); try discriminate; inversion E1; subst; cbn; auto.
  - destruct (nth_error ths t) as [[]|]; try discriminate. inversion H; subst. exact Hk.
  - destruct (nth_error (tlcs p) c) as [x|]; [|discriminate]. destruct (nth_error ths (cown x)) as [[]|]; try discriminate. destruct (cwait x); inversion H; subst. exact Hk.
Qed.

Lemma losts_XE l : losts (map XE l) = 0. Proof. unfold losts. induction l as [|e l IH]; [reflexivity|]. cbn. rewrite IH. reflexivity. Qed.
Lemma losts_check vs cr l es : losts (map (check vs cr l) es) = 0.
Proof. unfold losts. induction es as [|e es IH]; [reflexivity|]. cbn [map sumf]. rewrite IH. destruct e; try reflexivity. cbn. destruct (nth_error cr c) as [[]|]; [|reflexivity]. destruct (nth_error l m); [|reflexivity]. destruct (_ =? _)%nat; reflexivity. Qed.
Lemma gets_bev e t c : gets e = Some (t, c) -> exists m, In (ERet t m c) (bev e).
Proof. destruct e as [e|x m g|u m d|k|d]; cbn; try discriminate; [destruct e; try discriminate|]; intros H; inversion H; subst; eexists; left; reflexivity. Qed.

Lemma KX_base s tr a b' e e' (m0 : list ml) cr : XG s tr -> KX s tr -> sure (xb s) a = true -> once_step (xb s) a = Some (b', e) -> bevs e' = e -> losts e' = 0 -> KX (XS b' m0 cr) (tr ++ e').
Proof.
  intros ((tr' & HO & HC & _) & _) HK Hsure Ho Eb Hl. unfold KX in *. destruct s as [[p ths] l0 cr0]. destruct b' as [p' ths']. cbn [xb] in *. destruct HK as (HH & (lk & l & D & HA & Hn) & HR).
  assert (HO2 : OI (set_slots p l, ths) tr') by exact HO.
  assert (HH2 : HX (set_slots p l, ths)) by exact HH.
  assert (Hp : forall t pc k, nth_error ths t = Some pc -> pendk pc = Some k -> In k l) by (destruct HA as (_ & _ & A3 & _); intros t pc k Ht Hk; apply (A3 _ _ _ Ht Hk)).
  destruct (sim_step _ _ _ _ _ _ _ _ Ho D Hp) as (l' & Hs' & D').
  assert (Ss : sure_step (set_slots p l, ths) a = Some (set_slots p' l', ths', e)) by (unfold sure_step; replace (sure (set_slots p l, ths) a) with true by (symmetry; destruct a; exact Hsure); exact Hs').
  pose proof (AG_step _ _ _ _ _ HO2 HA Ss) as HA'. pose proof (HX_step _ _ _ _ _ HO2 HA HH2 Ss) as HH'.
  split; [exact HH'|]. split.
  - exists lk, l'. split; [exact D'|]. split; [exact HA'|]. rewrite losts_app, Hl. lia.
  - intros t c Hi. rewrite rets_app in Hi. apply rets_in in Hi; [|exact Hl]. destruct Hi as [Hi|(x & Hx & Hg)].
    + destruct (HR _ _ Hi) as (k & K1 & K2). exists k. split; [eapply sem_mono; eauto|eapply tls_stable; eauto].
    + destruct (gets_bev _ _ _ Hg) as (m & Hm). assert (Hin : In (ERet t m c) e) by (rewrite <- Eb; unfold bevs; apply in_flat_map; exists x; split; assumption).
      destruct (ret_get _ _ _ _ _ _ _ _ _ Ho Hin) as (y & pc & P1 & P2 & P3 & P4 & P5). destruct HO as (_ & I2 & _). destruct (I2 _ _ _ P1 P2) as (y' & Y1 & Y2). cbn [fst] in Y1. assert (y' = y) by congruence. subst y'. exists (tkey y). split; [|exact P4]. rewrite P5.
      destruct HA as (_ & _ & _ & _ & _ & _ & _ & A8 & _). exact (A8 _ _ P3 Y2).
Qed.

Lemma KX_step vs s tr a s' e : XG s tr -> KX s tr -> xsure_step vs s a = Some (s', e) -> KX s' (tr ++ e).
Proof.
  intros HG HK Hs. pose proof (x_effects _ _ _ _ _ (xsure_x _ _ _ _ Hs)) as He.
  assert (Hsure : forall a0, a = XB a0 -> sure (xb s) a0 = true) by (intros a0 ->; cbn [xsure_step] in Hs; destruct (sure (xb s) a0); [reflexivity|discriminate]).
  clear Hs. destruct He as [a b' e e' Ho Hl Hev _|t m o b' e y Ho Ht Hy Hl Hnr|c m g y Hc Hy Hd|m y Hy Hd|m y p' e Hy Hd Hr He].
  - eapply KX_base; eauto; destruct Hev as [->| ->]; [apply bevs_XE|apply bevs_check|apply losts_XE|apply losts_check].
  - eapply KX_base; eauto; [rewrite bevs_app, bevs_XE; apply app_nil_r|rewrite losts_app, losts_XE; reflexivity].
  - unfold KX in *. destruct (xb s) as [p ths]. destruct HK as (HH & (lk & l & D & HA & Hn) & HR). split; [exact HH|]. split; [exists lk, l; rewrite losts_app; cbn; split; [exact D|split; [exact HA|lia]]|]. rewrite rets_app. exact HR.
  - rewrite app_nil_r. exact HK.
  - destruct HG as ((tr' & HO & HC & _) & _ & G3 & _ & _ & G6 & _). unfold KX in *. destruct s as [[p ths] l0 cr]. cbn [xb xml xcr fst snd] in *. destruct HK as (HH & (lk & l & D & HA & Hn) & HR).
    assert (exists x, nth_error (mods p) m = Some x) as (x & Hx) by (destruct (nth_error (mods p) m) as [x|] eqn:E; [eauto|]; apply nth_error_None in E; assert (nth_error l0 m <> None) by congruence; apply nth_error_Some in H; lia).
    assert (Hex : forall t pc j, nth_error ths t = Some pc -> pcmod pc = Some j -> nth_error (mods (set_slots p l)) j <> None).
    { intros t pc j Ht Hp. destruct (G6 _ _ _ Ht Hp) as (y' & Y & _). cbn. apply nth_error_Some. rewrite <- G3. apply nth_error_Some. congruence. }
    assert (He2 : mod_destroy (set_slots p l) m = (set_slots p' l, e)).
    { unfold mod_destroy in He |- *. cbn [set_slots mods semh sem]. rewrite Hx in He |- *. destruct (holder x); [destruct (semh p) as [|[|h]]; [destruct (sem p)|destruct (sem p)|]|]; inversion He; subst; reflexivity. }
    assert (Et : tslots p' = tslots p /\ tlsv p' = tlsv p).
    { unfold mod_destroy in He. rewrite Hx in He. destruct (holder x); [destruct (semh p) as [|[|h]]; [destruct (sem p)|destruct (sem p)|]|]; inversion He; subst; split; reflexivity. }
    destruct Et as (Et & Ev).
    destruct (AG_unload (set_slots p l) ths m x cr _ _ HA HH Hx Hr Hex He2) as (HH' & [(-> & Es & HA')|(k & -> & Es & En & HA')]).
    + split; [exact HH'|]. rewrite app_nil_r. split.
      * exists lk, l. split; [unfold split_slots in *; cbn [set_mod tslots]; rewrite Et; exact D|]. split; [exact HA'|exact Hn].
      * intros t c Hi. destruct (HR _ _ Hi) as (k & K1 & K2). exists k. cbn [set_mod tlsv]. rewrite Ev. split; [|exact K2]. cbn in Es |- *. congruence.
    + split; [exact HH'|]. destruct D as (D1 & D2 & D3). assert (Hkl : In k l) by (destruct HA as (_ & A2 & _); apply A2; exact Es). split.
      * exists (k :: lk), (nok k l). split; [|split; [exact HA'|rewrite losts_app; cbn [length losts sumf]; change (losts [XLost k]) with 1; lia]].
        unfold split_slots. cbn [set_mod tslots]. rewrite Et. split; [exact D1|].
        assert (Hp : Permutation (lk ++ l) ((k :: lk) ++ nok k l)).
        { cbn. apply NoDup_Permutation; [exact D2| |].
          - constructor; [intros Hi; apply in_app_or in Hi; destruct Hi as [Hi|Hi]; [eapply nodup_app_l; eauto|unfold nok in Hi; apply filter_In in Hi; destruct Hi as (_ & Hi); rewrite Nat.eqb_refl in Hi; discriminate]|apply nodup_filter_r; exact D2].
          - intros j. cbn. unfold nok. rewrite !in_app_iff, filter_In. destruct (Nat.eqb_spec j k) as [->|N]; cbn; [tauto|]. split; [tauto|]. intros [->|]; [congruence|tauto]. }
        split; [eapply Permutation_NoDup; [exact Hp|exact D2]|]. intros j. rewrite D3. split; intros Hj; (eapply Permutation_in; [|exact Hj]); [exact Hp|apply Permutation_sym; exact Hp].
      * intros t c Hi. rewrite rets_app in Hi. cbn in Hi. destruct Hi.
Qed.

Lemma x_all vs nm n sched s tr : exec (xsure_step vs) (x_init nm n) sched = Some (s, tr) -> XG s tr /\ KX s tr.
Proof.
  apply (exec_inv (xsure_step vs) (fun s tr => XG s tr /\ KX s tr)); [exact (conj (XG_init nm n) (KX_init nm n))|]. intros c t a c' e (HG & HK) Hs. split; [eapply XG_step; [exact HG|eapply xsure_x; exact Hs]|eapply KX_step; eauto].
Qed.
