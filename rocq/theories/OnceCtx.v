(** Waitable timers: the contexts of the threads and their handles. *)
From Coq Require Import List Bool Arith ZArith Lia.
From Verif Require Import ListSum Exec OnceModel OnceProof.
Import ListNotations.
Local Open Scope Z_scope.

Definition pcctx (pc : opc) : option nat := match pc with ODup _ c | OReg _ c | OTim _ c | OVal _ c | ODel c => Some c | _ => None end.
Definition stage (pc : opc) (x : tlc) : Prop :=
  match pc with
  | ODup _ _ => (cthr x, cwait x, ctimer x) = (false, false, false)
  | OReg _ _ => (cthr x, cwait x, ctimer x) = (true, false, false)
  | OTim _ _ => (cthr x, cwait x, ctimer x) = (true, true, false)
  | OVal _ _ => (cthr x, cwait x, ctimer x) = (true, true, true)
  | _ => True
  end.
(** The module whose slot the thread is about to fill. *)
Definition filling (pc : opc) : option nat := match pc with ODup m _ | OReg m _ | OTim m _ | OVal m _ => Some m | _ => None end.
Definition flag (h : hkind) (x : tlc) : bool := match h with HThread => cthr x | HWait => cwait x | HTimer => ctimer x end.
Definition set_flag (h : hkind) (x : tlc) : tlc :=
  match h with HThread => TC (cown x) true (cwait x) (ctimer x) (calive x) | HWait => TC (cown x) (cthr x) true (ctimer x) (calive x) | HTimer => TC (cown x) (cthr x) (cwait x) true (calive x) end.
Definition hk_eqb (a b : hkind) : bool := match a, b with HThread, HThread | HWait, HWait | HTimer, HTimer => true | _, _ => false end.
Definition opened (c : nat) (h : hkind) (tr : list oev) : Z := sumf (fun e => match e with EOpen d k => bz ((d =? c)%nat && hk_eqb k h) | _ => 0 end) tr.
Definition closed (c : nat) (h : hkind) (tr : list oev) : Z := sumf (fun e => match e with EClose d k => bz ((d =? c)%nat && hk_eqb k h) | _ => 0 end) tr.
Lemma opened_app c h a b : opened c h (a ++ b) = opened c h a + opened c h b. Proof. apply sumf_app. Qed.
Lemma closed_app c h a b : closed c h (a ++ b) = closed c h a + closed c h b. Proof. apply sumf_app. Qed.
Definition noh (e : list oev) : Prop := (forall c h, opened c h e = 0 /\ closed c h e = 0) /\ (forall t m c, ~ In (ERet t m c) e).

(** Modules whose initialisation is complete do not change. *)
Definition keeps (p p' : proc) : Prop := forall m x, nth_error (mods p) m = Some x -> ini x = 2%nat -> nth_error (mods p') m = Some x.

Inductive ceff (p : proc) (ths : list opc) : proc -> list opc -> list oev -> Prop :=
| CE_quiet t pc pc' p' e : nth_error ths t = Some pc -> pcctx pc = None -> pcctx pc' = None -> pc <> OGone -> tlcs p' = tlcs p -> tlsv p' = tlsv p -> noh e -> ceff p ths p' (upd ths t pc') e
| CE_found t m x c : nth_error ths t = Some (OLook m) -> nth_error (mods p) m = Some x -> tls_get (tlsv p) t (tkey x) = Some c -> ceff p ths p (upd ths t OIdle) [EUse t m (tkey x); ERet t m c]
| CE_new t m x : nth_error ths t = Some (OLook m) -> nth_error (mods p) m = Some x -> tls_get (tlsv p) t (tkey x) = None ->
    ceff p ths (set_tlcs p (tlcs p ++ [TC t false false false true]) (tlsv p)) (upd ths t (ODup m (length (tlcs p)))) [EUse t m (tkey x)]
| CE_open t m c x h pc pc' : nth_error ths t = Some pc -> (pc, h, pc') = (ODup m c, HThread, OReg m c) \/ (pc, h, pc') = (OReg m c, HWait, OTim m c) \/ (pc, h, pc') = (OTim m c, HTimer, OVal m c) ->
    nth_error (tlcs p) c = Some x -> ceff p ths (set_tlcs p (upd (tlcs p) c (set_flag h x)) (tlsv p)) (upd ths t pc') [EOpen c h]
| CE_val t m c x : nth_error ths t = Some (OVal m c) -> nth_error (mods p) m = Some x -> ceff p ths (set_tlcs p (tlcs p) ((t, tkey x, c) :: tlsv p)) (upd ths t OIdle) [ERet t m c]
| CE_fail t c pc : nth_error ths t = Some pc -> pcctx pc = Some c -> ceff p ths p (upd ths t (ODel c)) []
| CE_del t c x : nth_error ths t = Some (ODel c) -> nth_error (tlcs p) c = Some x -> ceff p ths (set_tlcs p (upd (tlcs p) c (dead x)) (tlsv p)) (upd ths t OIdle) (closes c x ++ [EThrow t])
| CE_cb c x : nth_error (tlcs p) c = Some x -> nth_error ths (cown x) = Some OGone -> cwait x = true -> ceff p ths (set_tlcs p (upd (tlcs p) c (dead x)) (tlsv p)) ths (closes c x).

Ltac cq T := eapply CE_quiet; [exact T|reflexivity|reflexivity|discriminate|reflexivity|reflexivity|split; [intros; split; reflexivity|intros ? ? ? Hx; cbn in Hx; intuition discriminate]].
Lemma ctx_effects p ths a s' e : once_step (p, ths) a = Some (s', e) -> ceff p ths (fst s') (snd s') e.
Proof.
  intros H. destruct a as [t m|t o|t|c]; cbn [once_step] in H.
  - destruct (nth_error ths t) as [[]|] eqn:Et; try discriminate. destruct (nth_error (mods p) m); inversion H; subst. cbn. cq Et.
  - destruct (nth_error ths t) as [pc|] eqn:Et; [|discriminate]. destruct (once_step1 p t pc o) as [[[p' pc'] e']|] eqn:Es; inversion H; subst. cbn [fst snd]. clear H.
    destruct pc as [| |m|m|m|m|m k|m k|m|m|m|m k|m|m|m c|m c|m c|m c|c]; cbn [once_step1] in Es; try discriminate.
    + destruct (nth_error (mods p) m) as [x|] eqn:Em; [|discriminate]. inversion Es; subst. destruct (_ =? _)%nat; cq Et.
    + destruct (nth_error (mods p) m) as [x|] eqn:Em; [|discriminate]. destruct (ini x) as [|[|i]] eqn:Ei; inversion Es; subst; cq Et.
    + destruct (nth_error (mods p) m) as [x|] eqn:Em; [|discriminate]. destruct o as [k0|]; [destruct (sem p) as [k1|]|]; inversion Es; subst; cq Et.
    + destruct o as [k|]; [destruct (existsb _ _); [discriminate|]|]; inversion Es; subst; cq Et.
    + destruct (nth_error (mods p) m) as [x|] eqn:Em; [|discriminate]. destruct o as [k0|]; [destruct (sem p) as [k1|]|]; inversion Es; subst; cq Et.
    + inversion Es; subst. cq Et.
    + destruct o as [k0|]; [destruct (sem p) as [k1|]|]; inversion Es; subst; cq Et.
    + destruct o as [k|]; [destruct (existsb _ _); [discriminate|]|]; inversion Es; subst; cq Et.
    + destruct (nth_error (mods p) m) as [x|] eqn:Em; [|discriminate]. inversion Es; subst. cq Et.
    + destruct (nth_error (mods p) m) as [x|] eqn:Em; [|discriminate]. inversion Es; subst. cq Et.
    + destruct (nth_error (mods p) m) as [x|] eqn:Em; [|discriminate]. inversion Es; subst. cq Et.
    + destruct (nth_error (mods p) m) as [x|] eqn:Em; [|discriminate]. destruct (tls_get (tlsv p) t (tkey x)) as [c|] eqn:Eg; [|destruct o as [k0|]]; inversion Es; subst.
      * eapply CE_found; eauto.
      * eapply CE_new; eauto.
      * cq Et.
    + destruct o, (nth_error (tlcs p) c) as [x|] eqn:Ec; inversion Es; subst; [|eapply CE_fail; eauto]. exact (CE_open p ths t m c x HThread _ _ Et (or_introl eq_refl) Ec).
    + destruct o, (nth_error (tlcs p) c) as [x|] eqn:Ec; inversion Es; subst; [|eapply CE_fail; eauto]. exact (CE_open p ths t m c x HWait _ _ Et (or_intror (or_introl eq_refl)) Ec).
    + destruct o, (nth_error (tlcs p) c) as [x|] eqn:Ec; inversion Es; subst; [|eapply CE_fail; eauto]. exact (CE_open p ths t m c x HTimer _ _ Et (or_intror (or_intror eq_refl)) Ec).
    + destruct (nth_error (mods p) m) as [x|] eqn:Em; [|discriminate]. destruct o; inversion Es; subst; [eapply CE_val; eauto|eapply CE_fail; eauto].
    + destruct (nth_error (tlcs p) c) as [x|] eqn:Ec; [|discriminate]. inversion Es; subst. eapply CE_del; eauto.
  - destruct (nth_error ths t) as [[]|] eqn:Et; try discriminate. inversion H; subst. cbn. cq Et.
  - destruct (nth_error (tlcs p) c) as [x|] eqn:Ec; [|discriminate]. destruct (nth_error ths (cown x)) as [[]|] eqn:Eo; try discriminate. destruct (cwait x) eqn:Ew; inversion H; subst. cbn [fst snd]. eapply CE_cb; eauto.
Qed.

Lemma keeps_step s tr a s' e : OI s tr -> once_step s a = Some (s', e) -> keeps (fst s) (fst s').
Proof.
  intros (I1 & I2 & I3) Hs m y Hy H2. destruct s as [p ths]. pose proof (once_effects _ _ _ _ _ Hs) as He. destruct s' as [p' ths']. cbn [fst snd] in *.
  assert (Nin : forall t pc j x, nth_error ths t = Some pc -> inside j pc = true -> nth_error (mods p) j = Some x -> ini x = 1%nat).
  { intros t pc j x Ht Hpin Hx. destruct (I1 j x Hx) as (_ & B & _). pose proof (nin_elem _ _ _ _ Ht Hpin). destruct (Nat.eqb_spec (ini x) 1); [assumption|cbn in B; lia]. }
  destruct He as [t pc pc' p' e Ht Em Hin Hpast Hev Hd Hu|c x Hc|t j x pc Ht Hpc Hm Hi|t j x Ht Hm Hi|t j x pc pc' p' key h Ht Hpin Hin Hpast Hm Em|t j x Ht Hm|t j x Ht Hm]; cbn [mods set_mod set_tlcs]; try assumption; try congruence.
  - rewrite nth_upd_neq; [exact Hy|]. intros ->. congruence.
  - rewrite Em, nth_upd_neq; [exact Hy|]. intros ->. assert (ini x = 1%nat) by eauto. congruence.
  - rewrite nth_upd_neq; [exact Hy|]. intros ->. assert (ini x = 1%nat) by (eapply Nin; [exact Ht|cbn; apply Nat.eqb_refl|exact Hm]). congruence.
  - rewrite nth_upd_neq; [exact Hy|]. intros ->. assert (ini x = 1%nat) by (eapply Nin; [exact Ht|cbn; apply Nat.eqb_refl|exact Hm]). congruence.
Qed.

Definition full (x : tlc) : Prop := (cthr x, cwait x, ctimer x, calive x) = (true, true, true, true).
Definition void (x : tlc) : Prop := (cthr x, cwait x, ctimer x, calive x) = (false, false, false, false).

Definition CX (s : once_st) (tr : list oev) : Prop :=
  let (p, ths) := s in
  (forall t pc c, nth_error ths t = Some pc -> pcctx pc = Some c -> exists x, nth_error (tlcs p) c = Some x /\ cown x = t /\ calive x = true /\ stage pc x /\ (forall u k, ~ In (u, k, c) (tlsv p))) /\
  (forall t k c, In (t, k, c) (tlsv p) -> exists x, nth_error (tlcs p) c = Some x /\ cown x = t /\ (full x \/ (void x /\ nth_error ths t = Some OGone))) /\
  (forall c x, nth_error (tlcs p) c = Some x -> void x \/ (calive x = true /\ ((exists pc, nth_error ths (cown x) = Some pc /\ pcctx pc = Some c) \/ full x))) /\
  (forall c h, match nth_error (tlcs p) c with
               | Some x => opened c h tr = closed c h tr + bz (flag h x) /\ (calive x = true -> closed c h tr = 0) /\ 0 <= closed c h tr <= 1
               | None => opened c h tr = 0 /\ closed c h tr = 0
               end) /\
  (forall t pc m x, nth_error ths t = Some pc -> filling pc = Some m -> nth_error (mods p) m = Some x -> tls_get (tlsv p) t (tkey x) = None) /\
  (forall t m c, In (ERet t m c) tr -> exists x, nth_error (mods p) m = Some x /\ ini x = 2%nat /\ tls_get (tlsv p) t (tkey x) = Some c).

Lemma tls_get_in l t k c : tls_get l t k = Some c -> In (t, k, c) l.
Proof.
  induction l as [|[[u j] d] l IH]; cbn; [discriminate|]. destruct (Nat.eqb_spec u t) as [->|]; cbn; [|auto]. destruct (Nat.eqb_spec j k) as [->|]; cbn; [|auto]. intros H. inversion H. auto.
Qed.
Lemma fill_past pc m : filling pc = Some m -> past m pc = true.
Proof. destruct pc; cbn; try discriminate; intros H; inversion H; apply Nat.eqb_refl. Qed.
Lemma fill_ctx pc m : filling pc = Some m -> pcctx pc <> None.
Proof. destruct pc; cbn; discriminate. Qed.

Lemma closes_count c x d h : opened d h (closes c x) = 0 /\ closed d h (closes c x) = if (d =? c)%nat then bz (flag h x) else 0.
Proof.
  unfold closes. rewrite (Nat.eqb_sym d c). destruct (c =? d)%nat eqn:E; destruct (cwait x) eqn:E1, (cthr x) eqn:E2, (ctimer x) eqn:E3, h; cbn; rewrite ?E, ?E1, ?E2, ?E3; split; reflexivity.
Qed.

Lemma CX_init nm n : CX (once_init nm n) [].
Proof.
  unfold once_init. cbn. split; [|split; [|split; [|split; [|split]]]].
  - intros t pc c H. apply nth_error_In, repeat_spec in H. subst. discriminate.
  - intros t k c [].
  - intros [|c] x H; discriminate.
  - intros [|c] h; split; reflexivity.
  - intros t pc m x H. apply nth_error_In, repeat_spec in H. subst. discriminate.
  - intros t m c [].
Qed.

Lemma mods_stable s tr a s' e m x : OI s tr -> once_step s a = Some (s', e) -> nth_error (mods (fst s')) m = Some x -> (exists y, nth_error (mods (fst s)) m = Some y /\ ini y = 2%nat) -> nth_error (mods (fst s)) m = Some x.
Proof. intros HO Hs Hx (y & Hy & H2). rewrite (keeps_step _ _ _ _ _ HO Hs _ _ Hy H2) in Hx. congruence. Qed.

Lemma CX_step s tr a s' e : OI s tr -> CX s tr -> once_step s a = Some (s', e) -> CX s' (tr ++ e).
Proof.
  intros HO HC Hs. pose proof (keeps_step _ _ _ _ _ HO Hs) as HK. pose proof (fun m x => mods_stable _ _ _ _ _ m x HO Hs) as HM. pose proof (OI_step _ _ _ _ _ HO Hs) as HO'.
  destruct s as [p ths]. destruct HC as (C1 & C2 & C3 & C4 & C5 & C6). pose proof (ctx_effects _ _ _ _ _ Hs) as He. clear Hs. destruct s' as [p' ths']. destruct HO as (_ & O2 & _). cbn [fst snd] in *.
  (* the parts about modules *)
  assert (K6 : forall l, (forall t k c, tls_get (tlsv p) t k = Some c -> tls_get l t k = Some c) -> forall t m c, In (ERet t m c) tr -> exists x, nth_error (mods p') m = Some x /\ ini x = 2%nat /\ tls_get l t (tkey x) = Some c).
  { intros l Hl t m c Hi. destruct (C6 _ _ _ Hi) as (x & A & B & C). exists x. split; [apply HK; assumption|]. auto. }
  assert (Lst : forall t pc m, nth_error ths t = Some pc -> past m pc = true -> forall x, nth_error (mods p') m = Some x -> nth_error (mods p) m = Some x) by (intros t pc m Ht Hp x Hx; apply HM; eauto).
  destruct He as [t pc pc' p' e Ht Hc Hc' Hg El Ev (Hq1 & Hq2)|t m x c Ht Hm Hv|t m x Ht Hm Hv|t m c x h pc pc' Ht Hpc Hx|t m c x Ht Hm|t c pc Ht Hpc|t c x Ht Hx|c x Hx Hg Hw].
  - unfold CX. rewrite El, Ev. split; [|split; [|split; [|split; [|split]]]].
    + intros u w d Hu Hd. apply nth_upd_inv in Hu. destruct Hu as [(<- & -> & _)|(Hn & Hu)]; [congruence|eauto].
    + intros u k d Hi. destruct (C2 _ _ _ Hi) as (x & A & B & C). exists x. split; [exact A|]. split; [exact B|]. destruct C as [C|(C & D)]; [auto|]. right. split; [exact C|]. rewrite nth_upd_neq; [exact D|]. intros ->. congruence.
    + intros d x Hd. destruct (C3 d x Hd) as [G|(G & [(w & G1 & G2)|G1])]; auto. right. split; [exact G|]. left. exists w. split; [|exact G2]. rewrite nth_upd_neq; [exact G1|]. intros E. rewrite <- E in G1. congruence.
    + intros d h. specialize (C4 d h). destruct (Hq1 d h) as (Q1 & Q2). rewrite opened_app, closed_app, Q1, Q2, !Z.add_0_r. exact C4.
    + intros u w m x Hu Hf Hx. apply nth_upd_inv in Hu. destruct Hu as [(<- & -> & _)|(Hn & Hu)]; [exfalso; eapply fill_ctx; eauto|]. eapply C5; eauto. eapply Lst; eauto. apply fill_past. exact Hf.
    + intros u m d Hi. apply in_app_or in Hi. destruct Hi as [Hi|Hi]; [eapply K6; eauto|exfalso; eapply Hq2; exact Hi].
  - split; [|split; [|split; [|split; [|split]]]].
    + intros u w d Hu Hd. apply nth_upd_inv in Hu. destruct Hu as [(<- & -> & _)|(Hn & Hu)]; [discriminate|eauto].
    + intros u k d Hi. destruct (C2 _ _ _ Hi) as (y & A & B & C). exists y. split; [exact A|]. split; [exact B|]. destruct C as [C|(C & D)]; [auto|]. right. split; [exact C|]. rewrite nth_upd_neq; [exact D|]. intros ->. congruence.
    + intros d y Hd. destruct (C3 d y Hd) as [G|(G & [(w & G1 & G2)|G1])]; auto. right. split; [exact G|]. left. exists w. split; [|exact G2]. rewrite nth_upd_neq; [exact G1|]. intros E. rewrite <- E in G1. rewrite Ht in G1. inversion G1; subst. discriminate.
    + intros d h. specialize (C4 d h). rewrite opened_app, closed_app. change (opened d h [EUse t m (tkey x); ERet t m c]) with 0. change (closed d h [EUse t m (tkey x); ERet t m c]) with 0. rewrite !Z.add_0_r. exact C4.
    + intros u w j y Hu Hf Hy. apply nth_upd_inv in Hu. destruct Hu as [(<- & -> & _)|(Hn & Hu)]; [discriminate|]. eapply C5; eauto.
    + intros u j d Hi. apply in_app_or in Hi. destruct Hi as [Hi|[Hi|[Hi|[]]]]; [eapply K6; eauto|discriminate|]. inversion Hi; subst. exists x. destruct (O2 _ _ j Ht) as (y & Y1 & Y2); [cbn; apply Nat.eqb_refl|]. assert (y = x) by congruence. subst. auto.
  - assert (Hnew : nth_error (tlcs p ++ [TC t false false false true]) (length (tlcs p)) = Some (TC t false false false true)) by (rewrite nth_error_app2, Nat.sub_diag by lia; reflexivity).
    assert (Hold : forall d y, nth_error (tlcs p) d = Some y -> nth_error (tlcs p ++ [TC t false false false true]) d = Some y) by (intros d y Hd; rewrite nth_error_app1; [exact Hd|apply nth_error_Some; congruence]).
    assert (Hinv : forall d y, nth_error (tlcs p ++ [TC t false false false true]) d = Some y -> nth_error (tlcs p) d = Some y \/ (d = length (tlcs p) /\ y = TC t false false false true)).
    { intros d y Hd. destruct (le_lt_dec (length (tlcs p)) d) as [Hge|Hlt]; [|rewrite nth_error_app1 in Hd by exact Hlt; auto]. rewrite nth_error_app2 in Hd by exact Hge. destruct (d - length (tlcs p))%nat as [|[|j]] eqn:Ej; cbn in Hd; inversion Hd. right. split; [lia|reflexivity]. }
    unfold CX, set_tlcs in *. cbn [tlcs tlsv mods] in *. split; [|split; [|split; [|split; [|split]]]].
    + intros u w d Hu Hd. apply nth_upd_inv in Hu. destruct Hu as [(<- & -> & _)|(Hn & Hu)].
      * cbn in Hd. inversion Hd; subst d. eexists. split; [exact Hnew|]. repeat split; auto. intros u k Hi. destruct (C2 _ _ _ Hi) as (y & A & _). assert (length (tlcs p) < length (tlcs p))%nat by (apply nth_error_Some; congruence). lia.
      * destruct (C1 _ _ _ Hu Hd) as (y & A & B). exists y. auto.
    + intros u k d Hi. destruct (C2 _ _ _ Hi) as (y & A & B & C). exists y. split; [auto|]. split; [exact B|]. destruct C as [C|(C & D)]; [auto|]. right. split; [exact C|]. rewrite nth_upd_neq; [exact D|]. intros ->. congruence.
    + intros d y Hd. destruct (Hinv _ _ Hd) as [Hd'|(-> & ->)].
      * destruct (C3 d y Hd') as [G|(G & [(w & G1 & G2)|G1])]; auto. right. split; [exact G|]. left. exists w. split; [|exact G2]. rewrite nth_upd_neq; [exact G1|]. intros E. rewrite <- E in G1. rewrite Ht in G1. inversion G1; subst. discriminate.
      * right. split; [reflexivity|]. left. cbn [cown]. eexists. split; [eapply nth_upd_eq; exact Ht|reflexivity].
    + intros d h. specialize (C4 d h). rewrite opened_app, closed_app. change (opened d h [EUse t m (tkey x)]) with 0. change (closed d h [EUse t m (tkey x)]) with 0. rewrite !Z.add_0_r.
      destruct (nth_error (tlcs p ++ [TC t false false false true]) d) as [y|] eqn:Ed.
      * destruct (Hinv _ _ Ed) as [Hd'|(-> & ->)]; [rewrite Hd' in C4; exact C4|]. assert (En : nth_error (tlcs p) (length (tlcs p)) = None) by (apply nth_error_None; lia). rewrite En in C4. destruct C4 as (-> & ->). destruct h; cbn; repeat split; lia.
      * destruct (nth_error (tlcs p) d) as [y|] eqn:Ed'; [rewrite (Hold _ _ Ed') in Ed; discriminate|exact C4].
    + intros u w j y Hu Hf Hy. apply nth_upd_inv in Hu. destruct Hu as [(<- & -> & _)|(Hn & Hu)]; [|eapply C5; eauto]. cbn in Hf. inversion Hf; subst j. congruence.
    + intros u j d Hi. apply in_app_or in Hi. destruct Hi as [Hi|[Hi|[]]]; [eapply K6; eauto|discriminate].
  - assert (Hown : cown x = t /\ calive x = true /\ flag h x = false /\ pcctx pc = Some c /\ pcctx pc' = Some c /\ stage pc' (set_flag h x) /\ filling pc = Some m /\ filling pc' = Some m /\ (forall u k, ~ In (u, k, c) (tlsv p))).
    { destruct (C1 t pc c Ht) as (y & A & B & C & D & E); [destruct Hpc as [Hp|[Hp|Hp]]; inversion Hp; reflexivity|]. assert (y = x) by congruence. subst y.
      destruct Hpc as [Hp|[Hp|Hp]]; inversion Hp; subst; cbn in D |- *; inversion D; repeat split; auto; congruence. }
    destruct Hown as (W1 & W2 & W3 & W4 & W5 & W6 & W7 & W8 & W9).
    assert (F1 : cown (set_flag h x) = t) by (destruct h; exact W1). assert (F2 : calive (set_flag h x) = true) by (destruct h; exact W2).
    unfold CX, set_tlcs in *. cbn [tlcs tlsv mods] in *. split; [|split; [|split; [|split; [|split]]]].
    + intros u w d Hu Hd. apply nth_upd_inv in Hu. destruct Hu as [(<- & -> & _)|(Hn & Hu)].
      * assert (d = c) by congruence. subst d. eexists. split; [eapply nth_upd_eq; exact Hx|]. auto.
      * destruct (C1 _ _ _ Hu Hd) as (y & A & B & C). exists y. split; [|auto]. rewrite nth_upd_neq; [exact A|]. intros <-. assert (y = x) by congruence. subst y. congruence.
    + intros u k d Hi. assert (d <> c) by (intros ->; eapply W9; exact Hi). destruct (C2 _ _ _ Hi) as (y & A & B & C). exists y. split; [rewrite nth_upd_neq by congruence; exact A|]. split; [exact B|]. destruct C as [C|(C & D)]; [auto|]. right. split; [exact C|]. rewrite nth_upd_neq; [exact D|]. intros ->. rewrite Ht in D. inversion D; subst. discriminate.
    + intros d y Hd. apply nth_upd_inv in Hd. destruct Hd as [(<- & -> & _)|(Hn & Hd)].
      * right. split; [exact F2|]. left. rewrite F1. eexists. split; [eapply nth_upd_eq; exact Ht|exact W5].
      * destruct (C3 d y Hd) as [G|(G & [(w & G1 & G2)|G1])]; auto. right. split; [exact G|]. left. exists w. split; [|exact G2]. rewrite nth_upd_neq; [exact G1|]. intros E. rewrite <- E in G1. congruence.
    + intros d k. specialize (C4 d k). rewrite opened_app, closed_app. change (closed d k [EOpen c h]) with 0. rewrite Z.add_0_r. unfold opened at 2 4. cbn [sumf].
      destruct (Nat.eq_dec c d) as [<-|Hn].
      * rewrite (nth_upd_eq _ _ _ _ Hx), Nat.eqb_refl. rewrite Hx in C4. destruct C4 as (A & B & C). cbn [andb]. split; [|split; [intros _; exact (B W2)|exact C]]. rewrite A. destruct h, k; cbn in *; rewrite ?W3; cbn; lia.
      * rewrite nth_upd_neq by exact Hn. rewrite (proj2 (Nat.eqb_neq c d) Hn). cbn [andb bz]. rewrite !Z.add_0_r. exact C4.
    + intros u w j y Hu Hf Hy. apply nth_upd_inv in Hu. destruct Hu as [(<- & -> & _)|(Hn & Hu)]; [|eapply C5; eauto]. eapply C5; [exact Ht| |exact Hy]. congruence.
    + intros u j d Hi. apply in_app_or in Hi. destruct Hi as [Hi|[Hi|[]]]; [eapply K6; eauto|discriminate].
  - destruct (C1 t _ c Ht eq_refl) as (y & A & B & C & D & E). cbn in D.
    assert (Hg : forall u k d, tls_get (tlsv p) u k = Some d -> tls_get ((t, tkey x, c) :: tlsv p) u k = Some d).
    { intros u k d Hd. cbn. destruct (Nat.eqb_spec t u) as [<-|]; cbn; [|exact Hd]. destruct (Nat.eqb_spec (tkey x) k) as [<-|]; cbn; [|exact Hd]. rewrite (C5 t _ m x Ht eq_refl Hm) in Hd. discriminate. }
    unfold CX, set_tlcs in *. cbn [tlcs tlsv mods] in *. split; [|split; [|split; [|split; [|split]]]].
    + intros u w d Hu Hd. apply nth_upd_inv in Hu. destruct Hu as [(<- & -> & _)|(Hn & Hu)]; [discriminate|]. destruct (C1 _ _ _ Hu Hd) as (z & Z1 & Z2 & Z3 & Z4 & Z5). exists z. repeat split; auto. intros v k [Hi|Hi]; [|eapply Z5; exact Hi]. inversion Hi; subst. assert (z = y) by congruence. subst. congruence.
    + intros u k d [Hi|Hi].
      * inversion Hi; subst. exists y. split; [exact A|]. split; [reflexivity|]. left. unfold full. rewrite C. inversion D. reflexivity.
      * destruct (C2 _ _ _ Hi) as (z & Z1 & Z2 & Z3). exists z. split; [exact Z1|]. split; [exact Z2|]. destruct Z3 as [Z3|(Z3 & Z4)]; [auto|]. right. split; [exact Z3|]. rewrite nth_upd_neq; [exact Z4|]. intros ->. congruence.
    + intros d z Hd. destruct (C3 d z Hd) as [G|(G & [(w & G1 & G2)|G1])]; auto. right. split; [exact G|]. destruct (Nat.eq_dec (cown z) t) as [Eo|Eo].
      * right. rewrite Eo, Ht in G1. inversion G1; subst w. cbn in G2. inversion G2; subst d. assert (z = y) by congruence. subst. unfold full. rewrite C. inversion D. reflexivity.
      * left. exists w. split; [rewrite nth_upd_neq by congruence; exact G1|exact G2].
    + intros d h. specialize (C4 d h). rewrite opened_app, closed_app. change (opened d h [ERet t m c]) with 0. change (closed d h [ERet t m c]) with 0. rewrite !Z.add_0_r. exact C4.
    + intros u w j z Hu Hf Hz. apply nth_upd_inv in Hu. destruct Hu as [(<- & -> & _)|(Hn & Hu)]; [discriminate|]. cbn. rewrite (proj2 (Nat.eqb_neq t u)) by congruence. cbn. eapply C5; eauto.
    + intros u j d Hi. apply in_app_or in Hi. destruct Hi as [Hi|[Hi|[]]].
      * destruct (C6 _ _ _ Hi) as (z & Z1 & Z2 & Z3). exists z. split; [exact Z1|]. split; [exact Z2|]. apply Hg. exact Z3.
      * inversion Hi; subst. exists x. destruct (O2 _ _ j Ht) as (z & Z1 & Z2); [cbn; apply Nat.eqb_refl|]. assert (z = x) by congruence. subst. cbn. rewrite !Nat.eqb_refl. auto.
  - destruct (C1 t pc c Ht Hpc) as (y & A & B & C & D & E). rewrite app_nil_r. split; [|split; [|split; [|split; [|split]]]].
    + intros u w d Hu Hd. apply nth_upd_inv in Hu. destruct Hu as [(<- & -> & _)|(Hn & Hu)]; [|eauto]. cbn in Hd. inversion Hd; subst. exists y. repeat split; auto.
    + intros u k d Hi. destruct (C2 _ _ _ Hi) as (z & Z1 & Z2 & Z3). exists z. split; [exact Z1|]. split; [exact Z2|]. destruct Z3 as [Z3|(Z3 & Z4)]; [auto|]. right. split; [exact Z3|]. rewrite nth_upd_neq; [exact Z4|]. intros ->. rewrite Ht in Z4. inversion Z4; subst. discriminate.
    + intros d z Hd. destruct (C3 d z Hd) as [G|(G & [(w & G1 & G2)|G1])]; auto. right. split; [exact G|]. left. destruct (Nat.eq_dec (cown z) t) as [Eo|Eo].
      * rewrite Eo in G1 |- *. eexists. split; [eapply nth_upd_eq; exact Ht|]. cbn. congruence.
      * exists w. split; [rewrite nth_upd_neq by congruence; exact G1|exact G2].
    + exact C4.
    + intros u w j z Hu Hf Hz. apply nth_upd_inv in Hu. destruct Hu as [(<- & -> & _)|(Hn & Hu)]; [discriminate|]. eapply C5; eauto.
    + exact C6.
  - destruct (C1 t _ c Ht eq_refl) as (y & A & B & C & D & E). assert (y = x) by congruence. subst y.
    unfold CX, set_tlcs in *. cbn [tlcs tlsv mods] in *. split; [|split; [|split; [|split; [|split]]]].
    + intros u w d Hu Hd. apply nth_upd_inv in Hu. destruct Hu as [(<- & -> & _)|(Hn & Hu)]; [discriminate|]. destruct (C1 _ _ _ Hu Hd) as (z & Z1 & Z2 & Z3). exists z. split; [|auto]. rewrite nth_upd_neq; [exact Z1|]. intros <-. assert (z = x) by congruence. subst z. congruence.
    + intros u k d Hi. assert (d <> c) by (intros ->; eapply E; exact Hi). destruct (C2 _ _ _ Hi) as (z & Z1 & Z2 & Z3). exists z. split; [rewrite nth_upd_neq by congruence; exact Z1|]. split; [exact Z2|]. destruct Z3 as [Z3|(Z3 & Z4)]; [auto|]. right. split; [exact Z3|]. rewrite nth_upd_neq; [exact Z4|]. intros ->. congruence.
    + intros d z Hd. apply nth_upd_inv in Hd. destruct Hd as [(<- & -> & _)|(Hn & Hd)]; [left; reflexivity|]. destruct (C3 d z Hd) as [G|(G & [(w & G1 & G2)|G1])]; auto. right. split; [exact G|]. left. exists w. split; [|exact G2]. rewrite nth_upd_neq; [exact G1|]. intros E0. rewrite <- E0 in G1. rewrite Ht in G1. inversion G1; subst. cbn in G2. congruence.
    + intros d h. specialize (C4 d h). destruct (closes_count c x d h) as (Q1 & Q2). rewrite !opened_app, !closed_app, Q1, Q2. change (opened d h [EThrow t]) with 0. change (closed d h [EThrow t]) with 0.
      destruct (Nat.eqb_spec d c) as [->|Hn]; [rewrite (nth_upd_eq _ _ _ _ Hx)|rewrite nth_upd_neq by congruence; rewrite !Z.add_0_r; exact C4].
      rewrite Hx in C4. destruct C4 as (F1 & F2 & F3). specialize (F2 C). split; [|split; [discriminate|]]; [replace (flag h (dead x)) with false by (destruct h; reflexivity); change (bz false) with 0; lia|]. destruct (flag h x); cbn [bz]; lia.
    + intros u w j z Hu Hf Hz. apply nth_upd_inv in Hu. destruct Hu as [(<- & -> & _)|(Hn & Hu)]; [discriminate|]. eapply C5; eauto.
    + intros u j d Hi. apply in_app_or in Hi. destruct Hi as [Hi|Hi]; [eapply K6; eauto|]. exfalso. apply in_app_or in Hi. destruct Hi as [Hi|[Hi|[]]]; [|discriminate]. unfold closes in Hi. destruct (cwait x), (cthr x), (ctimer x); cbn in Hi; intuition discriminate.
  - assert (Hal : calive x = true) by (destruct (C3 _ _ Hx) as [G|(G & _)]; [inversion G; congruence|exact G]).
    unfold CX, set_tlcs in *. cbn [tlcs tlsv mods] in *. split; [|split; [|split; [|split; [|split]]]].
    + intros u w d Hu Hd. destruct (C1 _ _ _ Hu Hd) as (z & Z1 & Z2 & Z3). exists z. split; [|auto]. rewrite nth_upd_neq; [exact Z1|]. intros <-. assert (z = x) by congruence. subst z. rewrite Z2 in Hg. rewrite Hu in Hg. inversion Hg; subst. discriminate.
    + intros u k d Hi. destruct (C2 _ _ _ Hi) as (z & Z1 & Z2 & Z3). destruct (Nat.eq_dec c d) as [<-|Hn].
      * assert (z = x) by congruence. subst z. eexists. split; [eapply nth_upd_eq; exact Hx|]. split; [exact Z2|]. right. split; [reflexivity|congruence].
      * exists z. rewrite nth_upd_neq by exact Hn. auto.
    + intros d z Hd. apply nth_upd_inv in Hd. destruct Hd as [(<- & -> & _)|(Hn & Hd)]; [left; reflexivity|]. auto.
    + intros d h. specialize (C4 d h). destruct (closes_count c x d h) as (Q1 & Q2). rewrite !opened_app, !closed_app, Q1, Q2.
      destruct (Nat.eqb_spec d c) as [->|Hn]; [rewrite (nth_upd_eq _ _ _ _ Hx)|rewrite nth_upd_neq by congruence; rewrite !Z.add_0_r; exact C4].
      rewrite Hx in C4. destruct C4 as (F1 & F2 & F3). specialize (F2 Hal). split; [|split; [discriminate|]]; [replace (flag h (dead x)) with false by (destruct h; reflexivity); change (bz false) with 0; lia|]. destruct (flag h x); cbn [bz]; lia.
    + exact C5.
    + intros u j d Hi. apply in_app_or in Hi. destruct Hi as [Hi|Hi]; [eapply K6; eauto|]. exfalso. unfold closes in Hi. destruct (cwait x), (cthr x), (ctimer x); cbn in Hi; intuition discriminate.
Qed.

Lemma once_cx nm n sched s tr : exec once_step (once_init nm n) sched = Some (s, tr) -> OI s tr /\ CX s tr.
Proof. apply (exec_inv once_step (fun s tr => OI s tr /\ CX s tr)); [split; [apply OI_init|apply CX_init]|]. intros c tr' a c' e (A & B) Hs. split; [eapply OI_step; eauto|eapply CX_step; eauto]. Qed.
