(** Waitable timers: all modules agree on the TLS slot when the semaphore can be created and queried. *)
From Coq Require Import List Bool Arith ZArith Lia.
From Verif Require Import ListSum Exec OnceModel OnceProof.
Import ListNotations.
Local Open Scope Z_scope.

(** CreateSemaphoreW and NtQuerySemaphore do not fail; everything else may. *)
Definition sure (s : once_st) (a : oact) : bool :=
  match a with OStep t None => match nth_error (snd s) t with Some (OCreate _ _) | Some (OQuery _) => false | _ => true end | _ => true end.
Definition sure_step (s : once_st) (a : oact) : option (once_st * list oev) := if sure s a then once_step s a else None.

Definition pendk (pc : opc) : option nat := match pc with OCreate _ k | ODrop _ k => Some k | _ => None end.
Definition needs (pc : opc) : bool := match pc with ODrop _ _ | OQuery _ => true | _ => false end.
Definition early (m : nat) (pc : opc) : bool := match pc with OOpen j | OAlloc j | OCreate j _ | OUndo j => (j =? m)%nat | _ => false end.
Definition some {A} (o : option A) : bool := match o with Some _ => true | None => false end.

Definition AG (s : once_st) : Prop :=
  let (p, ths) := s in
  NoDup (tslots p) /\
  (forall k, sem p = Some k -> In k (tslots p)) /\
  (forall t pc k, nth_error ths t = Some pc -> pendk pc = Some k -> In k (tslots p) /\ sem p <> Some k) /\
  (forall t u pc pc' k, t <> u -> nth_error ths t = Some pc -> nth_error ths u = Some pc' -> pendk pc = Some k -> pendk pc' = Some k -> False) /\
  Z.of_nat (length (tslots p)) = bz (some (sem p)) + sumf (fun pc => bz (some (pendk pc))) ths /\
  (forall t pc, nth_error ths t = Some pc -> (needs pc = true -> sem p <> None) /\ (forall m, pc <> OAlloc2 m)) /\
  (forall t pc m, nth_error ths t = Some pc -> (forall k, pc = OPut m k -> sem p = Some k) /\ (pc = OPub m -> exists x, nth_error (mods p) m = Some x /\ sem p = Some (tkey x))) /\
  (forall m x, nth_error (mods p) m = Some x -> ini x = 2%nat -> sem p = Some (tkey x)) /\
  (forall t pc m x, nth_error ths t = Some pc -> nth_error (mods p) m = Some x -> (early m pc = true \/ ini x = 0%nat) -> holder x = false) /\
  Z.of_nat (semh p) = sumf (fun x => bz (holder x)) (mods p) /\
  (sem p = None -> semh p = 0%nat).

Lemma AG_init nm n : AG (once_init nm n).
Proof.
  unfold AG, once_init. cbn [mods sem semh tslots]. assert (R : forall t pc, nth_error (repeat OIdle n) t = Some pc -> pc = OIdle) by (intros t pc H; apply nth_error_In, repeat_spec in H; exact H).
  split; [constructor|]. split; [discriminate|]. split; [intros t pc k H; rewrite (R _ _ H); discriminate|]. split; [intros t u pc pc' k _ H; rewrite (R _ _ H); discriminate|].
  split; [rewrite sumf_repeat; cbn; lia|]. split; [intros t pc H; rewrite (R _ _ H); split; discriminate|]. split; [intros t pc m H; rewrite (R _ _ H); split; discriminate|].
  split; [intros m x H; apply nth_error_In, repeat_spec in H; subst; discriminate|]. split; [intros t pc m x _ H _; apply nth_error_In, repeat_spec in H; subst; reflexivity|]. split; [rewrite sumf_repeat; cbn; lia|reflexivity].
Qed.

Definition plain (pc : opc) : bool := match pc with OCreate _ _ | ODrop _ _ | OQuery _ | OPut _ _ | OPub _ | OOpen _ | OAlloc _ | OAlloc2 _ | OUndo _ => false | _ => true end.

(** Steps that leave semaphore, slots and modules alone. *)
Lemma AG_frame p ths p' ths' t pc pc' : AG (p, ths) -> nth_error ths t = Some pc -> ths' = upd ths t pc' -> mods p' = mods p -> sem p' = sem p -> semh p' = semh p -> tslots p' = tslots p -> pendk pc = pendk pc' ->
  (needs pc' = true -> sem p <> None) -> (forall m, pc' <> OAlloc2 m) -> (forall m k, pc' = OPut m k -> sem p = Some k) -> (forall m, pc' <> OPub m) -> (forall m, early m pc' = true -> early m pc = true) -> AG (p', ths').
Proof.
  intros (A1 & A2 & A3 & A4 & A5 & A6 & A7 & A8 & A9 & A10 & A11) Ht -> Em Es Eh El Ep Hn H2 H3 H4 H5. unfold AG. rewrite Em, Es, Eh, El.
  assert (Inv : forall u w, nth_error (upd ths t pc') u = Some w -> (u = t /\ w = pc') \/ nth_error ths u = Some w) by (intros u w Hu; apply nth_upd_inv in Hu; destruct Hu as [(<- & -> & _)|(_ & Hu)]; auto).
  assert (P : forall u w, nth_error (upd ths t pc') u = Some w -> exists w', nth_error ths u = Some w' /\ pendk w = pendk w') by (intros u w Hu; destruct (Inv _ _ Hu) as [(-> & ->)|Hu']; eauto).
  split; [exact A1|]. split; [exact A2|]. split.
  { intros u w k Hu Hk. destruct (P _ _ Hu) as (w' & Hw & Ek). eapply A3; [exact Hw|congruence]. }
  split. { intros u v w w' k Huv Hu Hv Ek Ek'. destruct (P _ _ Hu) as (x & Hx & Ex). destruct (P _ _ Hv) as (y & Hy & Ey). eapply (A4 u v x y k); eauto; congruence. }
  split. { rewrite (sumf_upd _ _ _ _ _ Ht), Ep. rewrite A5. lia. }
  split. { intros u w Hu. destruct (Inv _ _ Hu) as [(-> & ->)|Hu']; [auto|eauto]. }
  split. { intros u w m Hu. destruct (Inv _ _ Hu) as [(-> & ->)|Hu']; [split; [eauto|intros E; exfalso; eapply H4; exact E]|eauto]. }
  split; [exact A8|]. split; [|split; [exact A10|exact A11]].
  intros u w m x Hu Hx [He|He]; [|eapply A9; [exact Ht|exact Hx|auto]]. destruct (Inv _ _ Hu) as [(-> & ->)|Hu']; [eapply A9; [exact Ht|exact Hx|auto]|eapply A9; eauto].
Qed.

Lemma one_inside s tr m t u pc pc' : OI s tr -> nth_error (mods (fst s)) m <> None -> t <> u -> nth_error (snd s) t = Some pc -> nth_error (snd s) u = Some pc' -> inside m pc = true -> inside m pc' = true -> False.
Proof.
  intros (I1 & _) Hm Hn Ht Hu A B. destruct (nth_error (mods (fst s)) m) as [x|] eqn:E; [|congruence]. destruct (I1 m x E) as (_ & C & _). unfold nin in C.
  pose proof (sumf_two (fun pc => bz (inside m pc)) (snd s) t u pc pc' (fun a => bz_nonneg _) Hn Ht Hu) as G. cbn beta in G. rewrite A, B in G. cbn in G. destruct (_ =? _)%nat; cbn in C; lia.
Qed.
Lemma early_inside m pc : early m pc = true -> inside m pc = true. Proof. destruct pc; cbn; auto; discriminate. Qed.

(** A module is updated by the thread that initialises it. *)
Lemma AG_mod p ths tr p' t pc pc' m x x' : OI (p, ths) tr -> AG (p, ths) -> nth_error ths t = Some pc -> inside m pc = true -> nth_error (mods p) m = Some x ->
  mods p' = upd (mods p) m x' -> tslots p' = tslots p ->
  (sem p' = sem p \/ (sem p = None /\ exists k, sem p' = Some k /\ pendk pc = Some k)) ->
  Z.of_nat (semh p') = Z.of_nat (semh p) - bz (holder x) + bz (holder x') ->
  (pendk pc' = pendk pc /\ sem p' = sem p \/ pendk pc' = None /\ sem p = None /\ pendk pc <> None /\ sem p' = pendk pc \/ pendk pc = None /\ pendk pc' = None /\ sem p' = sem p) ->
  (needs pc' = true -> sem p' <> None) -> (forall j, pc' <> OAlloc2 j) -> (forall j k, pc' = OPut j k -> sem p' = Some k) -> (forall j, pc' = OPub j -> j = m /\ sem p' = Some (tkey x')) ->
  (ini x' = 2%nat -> sem p' = Some (tkey x')) -> (forall j, early j pc' = true -> j = m) -> (early m pc' = true \/ ini x' = 0%nat -> holder x' = false) -> (sem p' = None -> semh p' = 0%nat) -> AG (p', upd ths t pc').
Proof.
  intros HO (A1 & A2 & A3 & A4 & A5 & A6 & A7 & A8 & A9 & A10 & A11) Ht Hin Hm Em El Hsem Hh Hp Hn H2 H3 H4 H5 H6 H7 H8. unfold AG. rewrite Em, El.
  assert (Inv : forall u w, nth_error (upd ths t pc') u = Some w -> (u = t /\ w = pc') \/ (u <> t /\ nth_error ths u = Some w)) by (intros u w Hu; apply nth_upd_inv in Hu; destruct Hu as [(<- & -> & _)|(Hd & Hu)]; auto).
  assert (Mono : forall k, sem p = Some k -> sem p' = Some k) by (intros k Hk; destruct Hsem as [->|(E & _)]; [exact Hk|congruence]).
  assert (P : forall k, pendk pc' = Some k -> pendk pc = Some k /\ sem p' = sem p) by (intros k Hk; destruct Hp as [(E1 & E2)|[(E1 & _)|(E1 & E2 & _)]]; [split; congruence|congruence|congruence]).
  split; [exact A1|]. split.
  { intros k Hk. destruct Hsem as [E|(E & k' & Ek & Epk)]; [apply A2; congruence|]. assert (k' = k) by congruence. subst. apply (A3 _ _ _ Ht Epk). }
  split.
  { intros u w k Hu Hk. destruct (Inv _ _ Hu) as [(-> & ->)|(Hd & Hu')].
    - destruct (P _ Hk) as (P1 & P2). rewrite P2. eapply A3; eauto.
    - destruct (A3 _ _ _ Hu' Hk) as (B1 & B2). split; [exact B1|]. destruct Hsem as [->|(E & k' & Ek & Epk)]; [exact B2|]. intros Ek2. assert (k' = k) by congruence. subst. exact (A4 u t w pc k Hd Hu' Ht Hk Epk). }
  split.
  { intros u v w w' k Huv Hu Hv Ek Ek'. destruct (Inv _ _ Hu) as [(-> & ->)|(Hd & Hu')]; destruct (Inv _ _ Hv) as [(-> & ->)|(Hd' & Hv')]; [congruence| | |eapply (A4 u v w w' k); eauto].
    - destruct (P _ Ek) as (P1 & _). eapply (A4 t v pc w' k); eauto.
    - destruct (P _ Ek') as (P1 & _). eapply (A4 u t w pc k); eauto. }
  split.
  { rewrite (sumf_upd _ _ _ _ _ Ht). rewrite A5. destruct Hp as [(E1 & E2)|[(E1 & E2 & E3 & E4)|(E1 & E2 & E3)]].
    - rewrite E1, E2. lia.
    - rewrite E4, E1, E2. destruct (pendk pc); [cbn [some bz]; lia|congruence].
    - rewrite E1, E2, E3. lia. }
  split.
  { intros u w Hu. destruct (Inv _ _ Hu) as [(-> & ->)|(Hd & Hu')]; [auto|]. destruct (A6 _ _ Hu') as (B1 & B2). split; [|exact B2]. intros N. specialize (B1 N). destruct (sem p) as [k|] eqn:E; [rewrite (Mono k eq_refl); discriminate|congruence]. }
  split.
  { intros u w j Hu. destruct (Inv _ _ Hu) as [(-> & ->)|(Hd & Hu')].
    - split; [eauto|]. intros E. destruct (H4 j E) as (-> & E'). exists x'. split; [eapply nth_upd_eq; exact Hm|exact E'].
    - destruct (A7 _ _ j Hu') as (B1 & B2). split; [intros k E; apply Mono; eauto|]. intros E. destruct (B2 E) as (y & Y1 & Y2). exists y. split; [|apply Mono; exact Y2]. rewrite nth_upd_neq; [exact Y1|]. intros <-.
      eapply (one_inside (p, ths) tr m u t); eauto; cbn [fst]; [congruence|]. rewrite E. cbn. apply Nat.eqb_refl. }
  split.
  { intros j y Hy Hi. apply nth_upd_inv in Hy. destruct Hy as [(<- & -> & _)|(Hd & Hy)]; [auto|apply Mono; eauto]. }
  split.
  { intros u w j y Hu Hy He. apply nth_upd_inv in Hy. destruct Hy as [(<- & -> & _)|(Hd & Hy)].
    - apply H7. destruct He as [He|He]; [|auto]. destruct (Inv _ _ Hu) as [(-> & ->)|(Hd & Hu')]; [auto|]. exfalso. eapply (one_inside (p, ths) tr m u t); eauto; cbn [fst]; [congruence|apply early_inside; exact He].
    - destruct He as [He|He]; [|eapply A9; [exact Ht|exact Hy|auto]]. destruct (Inv _ _ Hu) as [(-> & ->)|(Hd' & Hu')]; [exfalso; apply Hd; symmetry; apply H6; exact He|eapply A9; eauto]. }
  split; [rewrite (sumf_upd _ _ _ _ _ Hm); lia|]. exact H8.
Qed.

Lemma filter_len (l : list nat) k : NoDup l -> In k l -> Z.of_nat (length (filter (fun j => negb (j =? k)%nat) l)) = Z.of_nat (length l) - 1.
Proof.
  induction 1 as [|x l Hx Hd IH]; [intros []|]. intros [->|Hi]; cbn [filter length].
  - rewrite Nat.eqb_refl. cbn [negb]. replace (filter (fun j => negb (j =? k)%nat) l) with l; [lia|]. clear -Hx. induction l as [|y l IH]; [reflexivity|]. cbn. destruct (Nat.eqb_spec y k) as [->|]; [exfalso; apply Hx; left; reflexivity|]. cbn. f_equal. apply IH. intros H. apply Hx. right. exact H.
  - destruct (Nat.eqb_spec x k) as [->|]; [contradiction|]. cbn [negb length]. rewrite !Nat2Z.inj_succ, IH by assumption. lia.
Qed.
Lemma existsb_out k l : existsb (Nat.eqb k) l = false -> ~ In k l.
Proof. intros H Hi. assert (existsb (Nat.eqb k) l = true) by (apply existsb_exists; exists k; split; [exact Hi|apply Nat.eqb_refl]). congruence. Qed.

Ltac frame HA Et pc' := eapply (AG_frame _ _ _ _ _ _ pc' HA Et eq_refl); try reflexivity; try (intros; discriminate); auto.

Ltac msolve Hh := cbn [set_mod set_sem set_slots sem semh mods tslots holder ini tkey pendk needs early inside some]; try (intros; discriminate); try reflexivity; try (rewrite Hh; cbn [bz]; lia); try (cbn [bz]; lia); try (intros; congruence); try (intros [?|?]; congruence);
  try (intros ? E; apply Nat.eqb_eq in E; congruence); try (left; reflexivity); try (left; split; reflexivity); try (right; right; repeat split; reflexivity); try assumption; auto.

Lemma AG_step s tr a s' e : OI s tr -> AG s -> sure_step s a = Some (s', e) -> AG s'.
Proof.
  unfold sure_step. destruct (sure s a) eqn:Hsure; [|discriminate]. intros HO HA H. destruct s as [p ths]. pose proof HA as (A1 & A2 & A3 & A4 & A5 & A6 & A7 & A8 & A9 & A10 & A11).
  destruct a as [t m|t o|t|c]; cbn [once_step] in H.
  - destruct (nth_error ths t) as [[]|] eqn:Et; try discriminate. destruct (nth_error (mods p) m); inversion H; subst. frame HA Et (OChk m).
  - destruct (nth_error ths t) as [pc|] eqn:Et; [|discriminate]. destruct (once_step1 p t pc o) as [[[p' pc'] e']|] eqn:Es; inversion H; subst. clear H. cbn [sure snd] in Hsure. rewrite Et in Hsure.
    assert (Hin1 : forall m x, inside m pc = true -> nth_error (mods p) m = Some x -> ini x = 1%nat).
    { intros m x Hin Hx. destruct HO as (I1 & _). destruct (I1 m x Hx) as (_ & B & _). pose proof (nin_elem _ _ _ _ Et Hin). cbn [snd] in B. destruct (Nat.eqb_spec (ini x) 1); [assumption|cbn in B; lia]. }
    destruct pc as [| |m|m|m|m|m k|m k|m|m|m|m k|m|m|m c|m c|m c|m c|c]; cbn [once_step1] in Es; try discriminate.
    + destruct (nth_error (mods p) m) as [x|] eqn:Em; [|discriminate]. inversion Es; subst. destruct (_ =? _)%nat; [frame HA Et (OLook m)|frame HA Et (OCas m)].
    + destruct (nth_error (mods p) m) as [x|] eqn:Em; [|discriminate]. destruct (ini x) as [|[|i]] eqn:Ei; inversion Es; subst; [|frame HA Et (OCas m)|frame HA Et (OLook m)].
      (* the exchange: nobody is inside *)
      assert (Hh : holder x = false) by (eapply A9; [exact Et|exact Em|auto]).
      assert (Nobody : forall u w, nth_error ths u = Some w -> inside m w = false).
      { intros u w Hu. destruct (inside m w) eqn:E; [|reflexivity]. exfalso. destruct HO as (I1 & _). destruct (I1 m x Em) as (_ & B & _). cbn [snd] in B. pose proof (nin_elem _ _ _ _ Hu E). rewrite Ei in B. cbn in B. lia. }
      unfold AG, set_mod. cbn [mods sem semh tslots].
      assert (Inv : forall u w, nth_error (upd ths t (OOpen m)) u = Some w -> (u = t /\ w = OOpen m) \/ (u <> t /\ nth_error ths u = Some w)) by (intros u w Hu; apply nth_upd_inv in Hu; destruct Hu as [(<- & -> & _)|(Hd & Hu)]; auto).
      split; [exact A1|]. split; [exact A2|]. split; [intros u w k Hu Hk; destruct (Inv _ _ Hu) as [(-> & ->)|(_ & Hu')]; [discriminate|eauto]|].
      split; [intros u v w w' k Huv Hu Hv Ek Ek'; destruct (Inv _ _ Hu) as [(-> & ->)|(_ & Hu')]; [discriminate|]; destruct (Inv _ _ Hv) as [(-> & ->)|(_ & Hv')]; [discriminate|eapply (A4 u v); eauto]|].
      split; [rewrite (sumf_upd _ _ _ _ _ Et); cbn; lia|]. split; [intros u w Hu; destruct (Inv _ _ Hu) as [(-> & ->)|(_ & Hu')]; [split; discriminate|eauto]|].
      split. { intros u w j Hu. destruct (Inv _ _ Hu) as [(-> & ->)|(_ & Hu')]; [split; discriminate|]. destruct (A7 _ _ j Hu') as (B1 & B2). split; [exact B1|]. intros E. destruct (B2 E) as (y & Y1 & Y2). exists y. split; [|exact Y2]. rewrite nth_upd_neq; [exact Y1|]. intros <-. specialize (Nobody _ _ Hu'). rewrite E in Nobody. cbn in Nobody. rewrite Nat.eqb_refl in Nobody. discriminate. }
      split. { intros j y Hy Hi. apply nth_upd_inv in Hy. destruct Hy as [(<- & -> & _)|(Hd & Hy)]; [discriminate|eauto]. }
      split. { intros u w j y Hu Hy He. apply nth_upd_inv in Hy. destruct Hy as [(<- & -> & _)|(Hd & Hy)]; [exact Hh|]. destruct He as [He|He]; [|eapply A9; [exact Et|exact Hy|auto]]. destruct (Inv _ _ Hu) as [(-> & ->)|(_ & Hu')]; [cbn in He; apply Nat.eqb_eq in He; congruence|eapply A9; eauto]. }
      split; [rewrite (sumf_upd _ _ _ _ _ Em); cbn [holder]; lia|exact A11].
    + destruct (nth_error (mods p) m) as [x|] eqn:Em; [|discriminate]. assert (Hh : holder x = false) by (eapply A9; [exact Et|exact Em|left; cbn; apply Nat.eqb_refl]). assert (Hi : ini x = 1%nat) by (apply (Hin1 m); [cbn; apply Nat.eqb_refl|exact Em]).
      assert (Hother : AG (set_mod p m (MS (ini x) (tkey x) false), upd ths t (OAlloc m))).
      { eapply (AG_mod p ths tr _ t (OOpen m) (OAlloc m) m x _ HO HA Et); [apply Nat.eqb_refl|exact Em|reflexivity|reflexivity|..]; msolve Hh. }
      destruct o as [k0|]; [destruct (sem p) as [k1|] eqn:Esem|]; inversion Es; subst; auto.
      eapply (AG_mod p ths tr _ t (OOpen m) (OQuery m) m x _ HO HA Et); [apply Nat.eqb_refl|exact Em|reflexivity|reflexivity|..]; msolve Hh.
    + destruct o as [k|]; [destruct (existsb _ _) eqn:Eb; [discriminate|]|]; inversion Es; subst; [|frame HA Et (OUndo m)].
      pose proof (existsb_out _ _ Eb) as Hk. unfold AG, set_slots. cbn [mods sem semh tslots].
      assert (Inv : forall u w, nth_error (upd ths t (OCreate m k)) u = Some w -> (u = t /\ w = OCreate m k) \/ (u <> t /\ nth_error ths u = Some w)) by (intros u w Hu; apply nth_upd_inv in Hu; destruct Hu as [(<- & -> & _)|(Hd & Hu)]; auto).
      split; [constructor; assumption|]. split; [intros j Hj; right; auto|].
      split; [intros u w j Hu Hj; destruct (Inv _ _ Hu) as [(-> & ->)|(_ & Hu')]; [cbn in Hj; inversion Hj; subst; split; [left; reflexivity|intros E; apply Hk; auto]|destruct (A3 _ _ _ Hu' Hj); split; [right; assumption|assumption]]|].
      split. { intros u v w w' j Huv Hu Hv Ek Ek'. destruct (Inv _ _ Hu) as [(-> & ->)|(Hd & Hu')]; destruct (Inv _ _ Hv) as [(-> & ->)|(Hd' & Hv')]; [congruence| | |eapply (A4 u v); eauto].
        - cbn in Ek. inversion Ek; subst. apply Hk. apply (A3 _ _ _ Hv' Ek').
        - cbn in Ek'. inversion Ek'; subst. apply Hk. apply (A3 _ _ _ Hu' Ek). }
      split; [rewrite (sumf_upd _ _ _ _ _ Et); cbn [length pendk some bz]; lia|]. split; [intros u w Hu; destruct (Inv _ _ Hu) as [(-> & ->)|(_ & Hu')]; [split; discriminate|eauto]|].
      split; [intros u w j Hu; destruct (Inv _ _ Hu) as [(-> & ->)|(_ & Hu')]; [split; discriminate|eauto]|]. split; [exact A8|]. split; [|split; [exact A10|exact A11]].
      intros u w j y Hu Hy [He|He]; [|eapply A9; [exact Et|exact Hy|auto]]. destruct (Inv _ _ Hu) as [(-> & ->)|(_ & Hu')]; [eapply A9; [exact Et|exact Hy|left; exact He]|eapply A9; eauto].
    + destruct (nth_error (mods p) m) as [x|] eqn:Em; [|discriminate]. destruct o as [k0|]; [|discriminate]. assert (Hh : holder x = false) by (eapply A9; [exact Et|exact Em|left; cbn; apply Nat.eqb_refl]). assert (Hi : ini x = 1%nat) by (apply (Hin1 m); [cbn; apply Nat.eqb_refl|exact Em]).
      destruct (sem p) as [k1|] eqn:Esem; inversion Es; subst.
      * eapply (AG_mod p ths tr _ t (OCreate m k) (ODrop m k) m x _ HO HA Et); [apply Nat.eqb_refl|exact Em|reflexivity|reflexivity|..]; msolve Hh.
      * eapply (AG_mod p ths tr _ t (OCreate m k) (OPut m k) m x _ HO HA Et); [apply Nat.eqb_refl|exact Em|reflexivity|reflexivity|..]; msolve Hh.
        -- right. split; [exact Esem|]. eauto.
        -- rewrite Hh, (A11 eq_refl). cbn [bz]. lia.
        -- right. left. repeat split; auto; discriminate.
    + inversion Es; subst. destruct (A3 _ _ _ Et eq_refl) as (Hk1 & Hk2). unfold AG, set_slots. cbn [mods sem semh tslots].
      assert (Inv : forall u w, nth_error (upd ths t (OQuery m)) u = Some w -> (u = t /\ w = OQuery m) \/ (u <> t /\ nth_error ths u = Some w)) by (intros u w Hu; apply nth_upd_inv in Hu; destruct Hu as [(<- & -> & _)|(Hd & Hu)]; auto).
      assert (Keep : forall j, In j (tslots p) -> j <> k -> In j (filter (fun j => negb (j =? k)%nat) (tslots p))) by (intros j Hj Hn; apply filter_In; split; [exact Hj|]; destruct (Nat.eqb_spec j k); [contradiction|reflexivity]).
      split; [apply NoDup_filter; exact A1|]. split; [intros j Hj; apply Keep; [auto|congruence]|].
      split; [intros u w j Hu Hj; destruct (Inv _ _ Hu) as [(-> & ->)|(Hd & Hu')]; [discriminate|]; destruct (A3 _ _ _ Hu' Hj); split; [apply Keep; [assumption|]; intros ->; exact (A4 u t _ _ k Hd Hu' Et Hj eq_refl)|assumption]|].
      split; [intros u v w w' j Huv Hu Hv Ek Ek'; destruct (Inv _ _ Hu) as [(-> & ->)|(Hd & Hu')]; [discriminate|]; destruct (Inv _ _ Hv) as [(-> & ->)|(Hd' & Hv')]; [discriminate|eapply (A4 u v); eauto]|].
      split; [rewrite filter_len by assumption; rewrite (sumf_upd _ _ _ _ _ Et); cbn [pendk some bz]; lia|].
      split; [intros u w Hu; destruct (Inv _ _ Hu) as [(-> & ->)|(_ & Hu')]; [split; [intros _; exact (proj1 (A6 _ _ Et) eq_refl)|discriminate]|eauto]|].
      split; [intros u w j Hu; destruct (Inv _ _ Hu) as [(-> & ->)|(_ & Hu')]; [split; discriminate|eauto]|]. split; [exact A8|]. split; [|split; [exact A10|exact A11]].
      intros u w j y Hu Hy [He|He]; [|eapply A9; [exact Et|exact Hy|auto]]. destruct (Inv _ _ Hu) as [(-> & ->)|(_ & Hu')]; [discriminate|eapply A9; eauto].
    + destruct o as [k0|]; [|discriminate]. pose proof (proj1 (A6 _ _ Et) eq_refl) as Hs. destruct (sem p) as [k1|] eqn:Esem; [|congruence]. inversion Es; subst. eapply (AG_frame _ _ _ _ _ _ (OPut m k1) HA Et eq_refl); try reflexivity; try (intros; discriminate). intros j k E. inversion E; subst. exact Esem.
    + exfalso. exact (proj2 (A6 _ _ Et) m eq_refl).
    + destruct (nth_error (mods p) m) as [x|] eqn:Em; [|discriminate]. inversion Es; subst. assert (Hh : holder x = false) by (eapply A9; [exact Et|exact Em|left; cbn; apply Nat.eqb_refl]).
      eapply (AG_mod p ths tr _ t (OUndo m) OIdle m x _ HO HA Et); [apply Nat.eqb_refl|exact Em|reflexivity|reflexivity|..]; msolve Hh.
    + destruct (nth_error (mods p) m) as [x|] eqn:Em; [|discriminate]. inversion Es; subst. pose proof (proj1 (A7 _ _ m Et) k eq_refl) as Hs. assert (Hi : ini x = 1%nat) by (apply (Hin1 m); [cbn; apply Nat.eqb_refl|exact Em]).
      eapply (AG_mod p ths tr _ t (OPut m k) (OPub m) m x _ HO HA Et); [apply Nat.eqb_refl|exact Em|reflexivity|reflexivity|..]; msolve Hi. intros j E; inversion E; auto.
    + destruct (nth_error (mods p) m) as [x|] eqn:Em; [|discriminate]. inversion Es; subst. destruct (proj2 (A7 _ _ m Et) eq_refl) as (y & Hy & Hs). assert (y = x) by congruence. subst y.
      eapply (AG_mod p ths tr _ t (OPub m) (OLook m) m x _ HO HA Et); [apply Nat.eqb_refl|exact Em|reflexivity|reflexivity|..]; msolve Hs.
    + destruct (nth_error (mods p) m) as [x|] eqn:Em; [|discriminate]. destruct (tls_get _ _ _); [|destruct o]; inversion Es; subst; [frame HA Et OIdle|frame HA Et (ODup m (length (tlcs p)))|frame HA Et OIdle].
    + destruct o; destruct (nth_error (tlcs p) c); inversion Es; subst; [frame HA Et (OReg m c)|frame HA Et (ODel c)].
    + destruct o; destruct (nth_error (tlcs p) c); inversion Es; subst; [frame HA Et (OTim m c)|frame HA Et (ODel c)].
    + destruct o; destruct (nth_error (tlcs p) c); inversion Es; subst; [frame HA Et (OVal m c)|frame HA Et (ODel c)].
    + destruct o; destruct (nth_error (mods p) m); inversion Es; subst; [frame HA Et OIdle|frame HA Et (ODel c)].
    + destruct (nth_error (tlcs p) c); inversion Es; subst. frame HA Et OIdle.
  - destruct (nth_error ths t) as [[]|] eqn:Et; inversion H; subst. frame HA Et OGone.
  - destruct (nth_error (tlcs p) c) as [x|]; [|discriminate]. destruct (nth_error ths (cown x)) as [[]|] eqn:Et; try discriminate. destruct (cwait x); inversion H; subst. exact HA.
Qed.

Lemma sure_once s a r : sure_step s a = Some r -> once_step s a = Some r.
Proof. unfold sure_step. destruct (sure s a); [auto|discriminate]. Qed.

Lemma once_ag nm n sched s tr : exec sure_step (once_init nm n) sched = Some (s, tr) -> OI s tr /\ AG s.
Proof.
  intros H. revert H. apply (exec_inv sure_step (fun s tr => OI s tr /\ AG s)); [exact (conj (OI_init nm n) (AG_init nm n))|].
  intros c t a c' e (HO & HA) Hs. split; [|exact (AG_step _ _ _ _ _ HO HA Hs)]. apply sure_once in Hs. eapply OI_step; eauto.
Qed.
