(** One-time initialisation: who began the attempt that is running, and which contexts are still reachable; init_tss_once. *)
From Coq Require Import List Bool Arith ZArith Lia.
From Verif Require Import ListSum Exec Events OnceModel OnceProof OnceCtx.
Import ListNotations.
Local Open Scope Z_scope.

(** ** The running attempt *)
Definition about (m : nat) (e : oev) : bool := match e with EBegin _ j | EFail _ j | EDone _ j _ => (j =? m)%nat | _ => false end.
(** The last thing that happened to the initialisation of [m] is that [t] began it. *)
Definition running (t m : nat) (tr : list oev) : Prop := exists a b, tr = a ++ EBegin t m :: b /\ forall e, In e b -> about m e = false.
Lemma running_app t m tr e : running t m tr -> (forall x, In x e -> about m x = false) -> running t m (tr ++ e).
Proof. intros (a & b & -> & H) He. exists a, (b ++ e). split; [rewrite <- app_assoc; reflexivity|]. intros x Hx. apply in_app_or in Hx. destruct Hx; auto. Qed.
Lemma running_same t u m tr : running t m tr -> running u m tr -> t = u.
Proof.
  intros (a & b & -> & H) (a' & b' & E & H'). apply app_cut in E. destruct E as [(d & E1 & E2)|(d & E1 & E2)].
  - exfalso. assert (G : about m (EBegin t m) = false) by (apply H'; rewrite E2; apply in_or_app; right; left; reflexivity). cbn in G. rewrite Nat.eqb_refl in G. discriminate.
  - destruct d as [|y d]; inversion E2; subst; [reflexivity|]. exfalso. assert (G : about m (EBegin u m) = false) by (apply H; apply in_or_app; right; left; reflexivity). cbn in G. rewrite Nat.eqb_refl in G. discriminate.
Qed.

Definition RUN (s : once_st) (tr : list oev) : Prop := forall t pc m, nth_error (snd s) t = Some pc -> inside m pc = true -> running t m tr /\ (m < length (mods (fst s)))%nat.

Lemma zero_about m e : begins m e = 0 /\ fails m e = 0 /\ dones m e = 0 -> forall x, In x e -> about m x = false.
Proof.
  intros (A & B & C) x Hx. apply In_nth_error in Hx. destruct Hx as (i & Hi). unfold begins, fails, dones in *.
  pose proof (sumf_zero_all (fun e => match e with EBegin _ j => bz (j =? m)%nat | _ => 0 end) e i x) as SA. pose proof (sumf_zero_all (fun e => match e with EFail _ j => bz (j =? m)%nat | _ => 0 end) e i x) as SB. pose proof (sumf_zero_all (fun e => match e with EDone _ j _ => bz (j =? m)%nat | _ => 0 end) e i x) as SC.
  destruct x; cbn; try reflexivity.
  - assert (G : bz (m0 =? m)%nat = 0) by (apply SA; auto; intros []; try apply bz_nonneg; lia). destruct (_ =? _)%nat; [discriminate|reflexivity].
  - assert (G : bz (m0 =? m)%nat = 0) by (apply SB; auto; intros []; try apply bz_nonneg; lia). destruct (_ =? _)%nat; [discriminate|reflexivity].
  - assert (G : bz (m0 =? m)%nat = 0) by (apply SC; auto; intros []; try apply bz_nonneg; lia). destruct (_ =? _)%nat; [discriminate|reflexivity].
Qed.

Lemma RUN_step s tr a s' e : OI s tr -> RUN s tr -> once_step s a = Some (s', e) -> RUN s' (tr ++ e).
Proof.
  intros HO HR Hs. destruct s as [p ths]. pose proof (once_effects _ _ _ _ _ Hs) as He. clear Hs. destruct s' as [p' ths']. cbn [fst snd] in *. unfold RUN in *. cbn [fst snd] in *.
  assert (Only : forall t pc m u w, nth_error ths t = Some pc -> inside m pc = true -> nth_error ths u = Some w -> inside m w = true -> u = t).
  { intros t pc m u w Ht Hp Hu Hw. destruct (Nat.eq_dec u t) as [|Hn]; [assumption|exfalso]. destruct (HR _ _ _ Ht Hp) as (_ & L). destruct HO as (I1 & _). destruct (nth_error (mods p) m) as [x|] eqn:Em; [|apply nth_error_None in Em; lia].
    destruct (I1 m x Em) as (_ & C & _). cbn [snd] in C. unfold nin in C. pose proof (sumf_two (fun pc => bz (inside m pc)) ths u t w pc (fun a => bz_nonneg _) Hn Hu Ht) as G. cbn beta in G. rewrite Hp, Hw in G. cbn in G. destruct (_ =? _)%nat; cbn in C; lia. }
  destruct He as [t pc pc' p' e Ht Em Hin Hpast Hev Hd Hu|c x Hc|t j x pc Ht Hpc Hm Hi|t j x Ht Hm Hi|t j x pc pc' p' key h Ht Hpin Hin Hpast Hm Em|t j x Ht Hm|t j x Ht Hm]; intros u w m Hw Hwm.
  - rewrite Em. assert (exists w', nth_error ths u = Some w' /\ inside m w' = true) as (w' & Hw1 & Hw2) by (apply nth_upd_inv in Hw; destruct Hw as [(<- & -> & _)|(_ & Hw)]; [exists pc; split; [exact Ht|rewrite <- Hin; exact Hwm]|eauto]). destruct (HR _ _ _ Hw1 Hw2) as (R1 & R2). split; [|exact R2]. apply running_app; [exact R1|apply zero_about; apply Hev].
  - destruct (HR _ _ _ Hw Hwm) as (R1 & R2). split; [|exact R2]. apply running_app; [exact R1|apply zero_about; apply closes_quiet].
  - rewrite app_nil_r. apply nth_upd_inv in Hw. destruct Hw as [(<- & -> & _)|(_ & Hw)]; [discriminate|eauto].
  - cbn [set_mod mods]. rewrite upd_length. apply nth_upd_inv in Hw. destruct Hw as [(<- & -> & _)|(Hn & Hw)].
    + cbn in Hwm. apply Nat.eqb_eq in Hwm. subst j. split; [exists tr, []; split; [reflexivity|intros e []]|]. apply nth_error_Some. congruence.
    + destruct (HR _ _ _ Hw Hwm) as (R1 & R2). split; [|exact R2]. apply running_app; [exact R1|]. intros e [<-|[]]. cbn. apply Nat.eqb_neq. intros ->. destruct HO as (I1 & _). destruct (I1 m x Hm) as (_ & B & _). cbn [snd] in B. pose proof (nin_elem _ _ _ _ Hw Hwm). rewrite Hi in B. cbn in B. lia.
  - rewrite app_nil_r, Em, upd_length. apply nth_upd_inv in Hw. destruct Hw as [(<- & -> & _)|(_ & Hw)]; [rewrite Hin in Hwm; eauto|eauto].
  - cbn [set_mod mods]. rewrite upd_length. apply nth_upd_inv in Hw. destruct Hw as [(<- & -> & _)|(Hn & Hw)]; [discriminate|]. destruct (HR _ _ _ Hw Hwm) as (R1 & R2). split; [|exact R2]. apply running_app; [exact R1|]. intros e [<-|[]]. cbn. apply Nat.eqb_neq. intros ->. apply Hn. symmetry. eapply (Only t _ m u w Ht); eauto. cbn. apply Nat.eqb_refl.
  - cbn [set_mod mods]. rewrite upd_length. apply nth_upd_inv in Hw. destruct Hw as [(<- & -> & _)|(Hn & Hw)]; [discriminate|]. destruct (HR _ _ _ Hw Hwm) as (R1 & R2). split; [|exact R2]. apply running_app; [exact R1|]. intros e [<-|[]]. cbn. apply Nat.eqb_neq. intros ->. apply Hn. symmetry. eapply (Only t _ m u w Ht); eauto. cbn. apply Nat.eqb_refl.
Qed.

Lemma RUN_init nm n : RUN (once_init nm n) [].
Proof. intros t pc m H. cbn in H. apply nth_error_In, repeat_spec in H. subst. discriminate. Qed.

(** ** Every context is being made, stored in its thread's slot, or destroyed *)
Definition OWN (s : once_st) : Prop := forall c x, nth_error (tlcs (fst s)) c = Some x -> calive x = true -> (exists pc, nth_error (snd s) (cown x) = Some pc /\ pcctx pc = Some c) \/ exists k, In (cown x, k, c) (tlsv (fst s)).

Lemma OWN_step s tr a s' e : CX s tr -> OWN s -> once_step s a = Some (s', e) -> OWN s'.
Proof.
  intros HC HW Hs. destruct s as [p ths]. destruct HC as (C1 & C2 & C3 & _). pose proof (ctx_effects _ _ _ _ _ Hs) as He. clear Hs. destruct s' as [p' ths']. unfold OWN in *. cbn [fst snd] in *.
  destruct He as [t pc pc' p' e Ht Hp Hp' Hng Ec Ev Hno|t m x c Ht Hm Hg|t m x Ht Hm Hg|t m c x h pc pc' Ht Hcase Hc|t m c x Ht Hm|t c pc Ht Hp|t c x Ht Hc|c x Hc Ho Hw]; cbn [set_tlcs tlcs tlsv].
  - intros d y Hy Ha. rewrite Ec in Hy. rewrite Ev. destruct (HW d y Hy Ha) as [(w & W1 & W2)|]; [|auto]. left. exists w. split; [|exact W2]. rewrite nth_upd_neq; [exact W1|]. intros ->. congruence.
  - intros d y Hy Ha. destruct (HW d y Hy Ha) as [(w & W1 & W2)|]; [|auto]. left. exists w. split; [|exact W2]. rewrite nth_upd_neq; [exact W1|]. intros ->. rewrite Ht in W1. inversion W1; subst. discriminate.
  - intros d y Hy Ha. destruct (Nat.lt_ge_cases d (length (tlcs p))) as [L|L].
    + rewrite nth_error_app1 in Hy by exact L. destruct (HW d y Hy Ha) as [(w & W1 & W2)|]; [|auto]. left. exists w. split; [|exact W2]. rewrite nth_upd_neq; [exact W1|]. intros ->. rewrite Ht in W1. inversion W1; subst. discriminate.
    + rewrite nth_error_app2 in Hy by exact L. destruct (d - length (tlcs p))%nat as [|i] eqn:Ed; [|destruct i; discriminate]. cbn in Hy. inversion Hy; subst. cbn [cown]. left. exists (ODup m (length (tlcs p))). split; [eapply nth_upd_eq; exact Ht|]. cbn. f_equal. lia.
  - assert (Hpc : pcctx pc = Some c /\ pcctx pc' = Some c) by (destruct Hcase as [E|[E|E]]; inversion E; subst; split; reflexivity). destruct Hpc as (P1 & P2). destruct (C1 t pc c Ht P1) as (x0 & X1 & X2 & X3 & _). assert (x0 = x) by congruence. subst x0.
    intros d y Hy Ha. apply nth_upd_inv in Hy. destruct Hy as [(<- & -> & _)|(Hn & Hy)].
    + left. exists pc'. split; [|exact P2]. replace (cown (set_flag h x)) with t by (destruct h; cbn; congruence). eapply nth_upd_eq; exact Ht.
    + destruct (HW d y Hy Ha) as [(w & W1 & W2)|]; [|auto]. left. exists w. split; [|exact W2]. rewrite nth_upd_neq; [exact W1|]. intros ->. rewrite Ht in W1. inversion W1; subst. congruence.
  - intros d y Hy Ha. destruct (HW d y Hy Ha) as [(w & W1 & W2)|(k & K)]; [|right; exists k; right; exact K]. destruct (Nat.eq_dec (cown y) t) as [E|E].
    + rewrite E, Ht in W1. inversion W1; subst. cbn in W2. inversion W2; subst. right. exists (tkey x). left. reflexivity.
    + left. exists w. split; [|exact W2]. rewrite nth_upd_neq; [exact W1|congruence].
  - intros d y Hy Ha. destruct (HW d y Hy Ha) as [(w & W1 & W2)|]; [|auto]. destruct (Nat.eq_dec (cown y) t) as [E|E].
    + left. exists (ODel c). rewrite E in *. split; [eapply nth_upd_eq; exact Ht|]. rewrite Ht in W1. inversion W1; subst. cbn. congruence.
    + left. exists w. split; [|exact W2]. rewrite nth_upd_neq; [exact W1|congruence].
  - intros d y Hy Ha. apply nth_upd_inv in Hy. destruct Hy as [(<- & -> & _)|(Hn & Hy)]; [discriminate|]. destruct (HW d y Hy Ha) as [(w & W1 & W2)|]; [|auto]. left. exists w. split; [|exact W2]. rewrite nth_upd_neq; [exact W1|]. intros ->. rewrite Ht in W1. inversion W1; subst. cbn in W2. congruence.
  - intros d y Hy Ha. apply nth_upd_inv in Hy. destruct Hy as [(<- & -> & _)|(Hn & Hy)]; [discriminate|]. eauto.
Qed.
Lemma OWN_init nm n : OWN (once_init nm n). Proof. intros [|c] x H; discriminate. Qed.

(** The contexts stored in slots were made completely. *)
Definition MADE (s : once_st) (tr : list oev) : Prop := forall t k c h, In (t, k, c) (tlsv (fst s)) -> opened c h tr = 1.
Lemma MADE_step s tr a s' e : CX s tr -> MADE s tr -> once_step s a = Some (s', e) -> MADE s' (tr ++ e).
Proof.
  intros HC HM Hs. destruct s as [p ths]. destruct HC as (C1 & C2 & C3 & C4 & _). pose proof (ctx_effects _ _ _ _ _ Hs) as He. clear Hs. destruct s' as [p' ths']. unfold MADE in *. cbn [fst snd] in *.
  destruct He as [t pc pc' p' e Ht Hp Hp' Hng Ec Ev Hno|t m x c Ht Hm Hg|t m x Ht Hm Hg|t m c x h pc pc' Ht Hcase Hc|t m c x Ht Hm|t c pc Ht Hp|t c x Ht Hc|c x Hc Ho Hw]; cbn [set_tlcs tlcs tlsv]; intros u k d hh Hd; rewrite opened_app.
  - rewrite Ev in Hd. rewrite (HM _ _ _ hh Hd). destruct Hno as (Hno & _). destruct (Hno d hh) as (-> & _). reflexivity.
  - rewrite (HM _ _ _ hh Hd). reflexivity.
  - rewrite (HM _ _ _ hh Hd). reflexivity.
  - assert (P1 : pcctx pc = Some c) by (destruct Hcase as [E|[E|E]]; inversion E; subst; reflexivity). destruct (C1 t pc c Ht P1) as (_ & _ & _ & _ & _ & X). rewrite (HM _ _ _ hh Hd). cbn. rewrite (proj2 (Nat.eqb_neq c d)); [reflexivity|]. intros ->. eapply X; exact Hd.
  - destruct Hd as [Hd|Hd]; [|rewrite (HM _ _ _ hh Hd); reflexivity]. inversion Hd; subst. destruct (C1 u _ d Ht eq_refl) as (y & Y1 & _ & Y3 & Y4 & _). specialize (C4 d hh). rewrite Y1 in C4. destruct C4 as (D1 & D2 & _). specialize (D2 Y3). cbn in Y4. inversion Y4. replace (flag hh y) with true in D1 by (destruct hh; cbn; congruence). cbn in *. lia.
  - rewrite (HM _ _ _ hh Hd). reflexivity.
  - rewrite opened_app, (HM _ _ _ hh Hd). destruct (closes_count c x d hh) as (-> & _). reflexivity.
  - rewrite (HM _ _ _ hh Hd). destruct (closes_count c x d hh) as (-> & _). reflexivity.
Qed.

Definition ALL (s : once_st) (tr : list oev) : Prop := OI s tr /\ CX s tr /\ RUN s tr /\ OWN s /\ MADE s tr.
Lemma ALL_init nm n : ALL (once_init nm n) []. Proof. split; [apply OI_init|split; [apply CX_init|split; [apply RUN_init|split; [apply OWN_init|intros t k c h []]]]]. Qed.
Lemma ALL_step s tr a s' e : ALL s tr -> once_step s a = Some (s', e) -> ALL s' (tr ++ e).
Proof. intros (A & B & C & D & F) H. split; [eapply OI_step; eauto|split; [eapply CX_step; eauto|split; [eapply RUN_step; eauto|split; [eapply OWN_step; eauto|eapply MADE_step; eauto]]]]. Qed.
Lemma once_all nm n sched s tr : exec once_step (once_init nm n) sched = Some (s, tr) -> ALL s tr.
Proof. apply exec_inv; [apply ALL_init|intros; eapply ALL_step; eauto]. Qed.

(** ** init_tss_once *)
Definition win (pc : wpc) : bool := match pc with WNew | WKey | WPub => true | _ => false end.
Definition wbegins (tr : list wev) : Z := sumf (fun e => match e with WBegin _ => 1 | _ => 0 end) tr.
Definition wends (tr : list wev) : Z := sumf (fun e => match e with WEnd _ => 1 | _ => 0 end) tr.
Definition WI (c : wsh * list wpc) (tr : list wev) : Prop :=
  let (s, ths) := c in
  (wflag s <= 2)%nat /\ sumf (fun pc => bz (win pc)) ths = bz (wflag s =? 1)%nat /\ wbegins tr = bz (0 <? wflag s)%nat /\ wends tr = bz (wflag s =? 2)%nat /\
  (forall t pc, nth_error ths t = Some pc -> (win pc = true -> In (WBegin t) tr) /\ (pc = WUse -> wflag s = 2%nat) /\ (pc = WKey -> wmgr s = Some t) /\ (pc = WPub -> wmgr s = Some t /\ wkey s = true)) /\
  (wflag s = 2%nat -> exists u, wmgr s = Some u /\ wkey s = true /\ In (WBegin u) tr /\ In (WEnd u) tr).

Lemma WI_init n : WI (w_init n) [].
Proof.
  unfold WI, w_init. split; [cbn; lia|]. split; [rewrite sumf_repeat; cbn; lia|]. split; [reflexivity|]. split; [reflexivity|]. split; [|discriminate].
  intros t pc H. apply nth_error_In, repeat_spec in H. subst. repeat split; discriminate.
Qed.

Lemma WI_step c tr a c' e : WI c tr -> w_step c a = Some (c', e) -> WI c' (tr ++ e).
Proof.
  destruct c as [s ths]. intros (A & B & C & D & F & G) H.
  assert (One : forall t pc u w, nth_error ths t = Some pc -> win pc = true -> nth_error ths u = Some w -> win w = true -> t = u).
  { intros t pc u w Ht Hp Hu Hw. destruct (Nat.eq_dec t u) as [|Hn]; [assumption|exfalso]. pose proof (sumf_two (fun pc => bz (win pc)) ths t u pc w (fun a => bz_nonneg _) Hn Ht Hu) as K. cbn beta in K. rewrite Hp, Hw in K. cbn in K. destruct (_ =? _)%nat; cbn in B; lia. }
  assert (Inn : forall t pc, nth_error ths t = Some pc -> win pc = true -> wflag s = 1%nat).
  { intros t pc Ht Hp. pose proof (sumf_elem (fun pc => bz (win pc)) ths t pc (fun a => bz_nonneg _) Ht) as K. cbn beta in K. rewrite Hp in K. cbn in K. destruct (Nat.eqb_spec (wflag s) 1); [assumption|cbn in B; lia]. }
  destruct a as [t|t]; cbn [w_step] in H; destruct (nth_error ths t) as [pc|] eqn:Et; try discriminate.
  - destruct pc; inversion H; subst. rewrite app_nil_r. unfold WI. rewrite (sumf_upd _ _ _ _ _ Et). cbn [win bz]. repeat split; try lia; auto; intros; apply nth_upd_inv in H0; destruct H0 as [(<- & -> & _)|(Hn & Hu)]; try discriminate; eapply F in Hu; destruct Hu as (F1 & F2 & F3 & F4); auto; apply F4; auto.
  - destruct (w_step1 s t pc) as [[[s' pc'] e']|] eqn:Es; inversion H; subst. clear H. destruct (F t pc Et) as (F1 & F2 & F3 & F4).
    assert (Inv : forall u w, nth_error (upd ths t pc') u = Some w -> (u = t /\ w = pc') \/ (u <> t /\ nth_error ths u = Some w)) by (intros u w Hu; apply nth_upd_inv in Hu; destruct Hu as [(<- & -> & _)|(Hd & Hu)]; auto).
    unfold WI. rewrite (sumf_upd _ _ _ _ _ Et). unfold wbegins, wends in *. rewrite !sumf_app.
    destruct pc; cbn [w_step1] in Es; try discriminate.
    + assert (Hq : win pc' = false /\ (pc' = WUse -> wflag s = 2%nat) /\ pc' <> WKey /\ pc' <> WPub) by (inversion Es; subst; destruct (Nat.eqb_spec (wflag s') 2); repeat split; discriminate || auto).
      destruct Hq as (Q1 & Q2 & Q3 & Q4). assert (s' = s /\ e = []) as (-> & ->) by (inversion Es; auto). rewrite Q1, app_nil_r. cbn [sumf win bz]. split; [lia|]. split; [lia|]. split; [lia|]. split; [lia|]. split; [|exact G].
      intros u w Hu. destruct (Inv _ _ Hu) as [(-> & ->)|(_ & Hu')]; [|eauto]. split; [congruence|]. split; [exact Q2|]. split; intros; contradiction.
    + destruct (wflag s) as [|[|i]] eqn:Ef; inversion Es; subst; cbn [sumf win bz wflag wmgr wkey].
      * cbn in B, C, D. split; [lia|]. split; [cbn; lia|]. split; [cbn; lia|]. split; [cbn; lia|]. split; [|discriminate]. intros u w Hu. destruct (Inv _ _ Hu) as [(-> & ->)|(_ & Hu')].
        -- split; [intros _; apply in_or_app; right; left; reflexivity|]. repeat split; discriminate.
        -- destruct (F _ _ Hu') as (F1' & F2' & F3' & F4'). split; [intros; apply in_or_app; left; auto|]. split; [intros E; specialize (F2' E); discriminate|]. auto.
      * rewrite Ef. split; [lia|]. split; [cbn in *; lia|]. split; [cbn in *; lia|]. split; [cbn in *; lia|]. split; [|discriminate]. rewrite app_nil_r. intros u w Hu. destruct (Inv _ _ Hu) as [(-> & ->)|(_ & Hu')]; [repeat split; discriminate|]. eauto.
      * rewrite Ef. assert (i = 0%nat) by lia. subst i. split; [lia|]. split; [cbn in *; lia|]. split; [cbn in *; lia|]. split; [cbn in *; lia|]. split; [|rewrite app_nil_r; exact G]. rewrite app_nil_r. intros u w Hu. destruct (Inv _ _ Hu) as [(-> & ->)|(_ & Hu')]; [repeat split; discriminate || auto|]. eauto.
    + inversion Es; subst. cbn [sumf win bz wflag wmgr wkey]. rewrite (Inn _ _ Et eq_refl) in *. rewrite app_nil_r. split; [lia|]. split; [lia|]. split; [cbn in *; lia|]. split; [cbn in *; lia|]. split; [|discriminate]. intros u w Hu. destruct (Inv _ _ Hu) as [(-> & ->)|(Hn & Hu')].
      * repeat split; try discriminate. auto.
      * destruct (F _ _ Hu') as (F1' & F2' & F3' & F4'). split; [auto|]. split; [auto|]. split; intros ->; exfalso; apply Hn; eapply One; eauto.
    + inversion Es; subst. cbn [sumf win bz wflag wmgr wkey]. rewrite (Inn _ _ Et eq_refl) in *. rewrite app_nil_r. split; [lia|]. split; [lia|]. split; [cbn in *; lia|]. split; [cbn in *; lia|]. split; [|discriminate]. intros u w Hu. destruct (Inv _ _ Hu) as [(-> & ->)|(Hn & Hu')].
      * repeat split; try discriminate; auto.
      * destruct (F _ _ Hu') as (F1' & F2' & F3' & F4'). split; [auto|]. split; [auto|]. split; intros ->; exfalso; apply Hn; eapply One; eauto.
    + inversion Es; subst. cbn [sumf win bz wflag wmgr wkey]. rewrite (Inn _ _ Et eq_refl) in *. destruct (F4 eq_refl) as (Hm & Hk). split; [lia|]. split; [cbn in *; lia|]. split; [cbn in *; lia|]. split; [cbn in *; lia|]. split.
      * intros u w Hu. destruct (Inv _ _ Hu) as [(-> & ->)|(Hn & Hu')]; [repeat split; discriminate || auto|]. destruct (F _ _ Hu') as (F1' & F2' & F3' & F4'). split; [intros; apply in_or_app; left; auto|]. auto.
      * intros _. exists t. repeat split; auto; apply in_or_app; [left; auto|right; left; reflexivity].
    + inversion Es; subst. cbn [sumf win bz]. split; [lia|]. split; [lia|]. split; [lia|]. split; [lia|]. split.
      * intros u w Hu. destruct (Inv _ _ Hu) as [(-> & ->)|(Hn & Hu')]; [repeat split; discriminate|]. destruct (F _ _ Hu') as (F1' & F2' & F3' & F4'). split; [intros; apply in_or_app; left; auto|]. auto.
      * intros E. destruct (G E) as (u & U1 & U2 & U3 & U4). exists u. repeat split; auto; apply in_or_app; auto.
Qed.
