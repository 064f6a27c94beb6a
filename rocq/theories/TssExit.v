(** Thread-specific storage: exit functions and notifications. *)
From Coq Require Import List Bool Arith ZArith Lia.
From Verif Require Import ListSum Exec TssModel TssProof TssKeys TssOwn.
Import ListNotations.

(** ** Views of the contexts *)
Definition at_of (s : tsh) (x : nat) : list nat := match ctx_of s x with Some c => atexit c | None => [] end.
Definition nt_of (s : tsh) (x : nat) : list nat := match ctx_of s x with Some c => notif c | None => [] end.
Definition slot_at (s : tsh) (t : nat) : list nat := match slot s t with Some x => at_of s x | None => [] end.
Definition slot_nt (s : tsh) (t : nat) : list nat := match slot s t with Some x => nt_of s x | None => [] end.
Definition VS (s s' : tsh) : Prop :=
  (forall x, at_of s' x = at_of s x) /\ (forall x, nt_of s' x = nt_of s x) /\ (forall u, slot_at s' u = slot_at s u) /\ (forall u, slot_nt s' u = slot_nt s u).

Lemma VS_refl s : VS s s. Proof. repeat split. Qed.
Lemma VS_trans a b c : VS a b -> VS b c -> VS a c.
Proof. intros (A1 & A2 & A3 & A4) (B1 & B2 & B3 & B4). repeat split; intros; [rewrite B1|rewrite B2|rewrite B3|rewrite B4]; auto. Qed.
Lemma VS_ext s s' : slots s' = slots s -> (forall x, at_of s' x = at_of s x) -> (forall x, nt_of s' x = nt_of s x) -> VS s s'.
Proof. intros E A B. repeat split; auto; intros u; unfold slot_at, slot_nt, slot; rewrite E; destruct (nth_error (slots s) u) as [[x|]|]; auto. Qed.
Lemma VS_ctxs s s' : slots s' = slots s -> ctxs s' = ctxs s -> VS s s'.
Proof. intros E E2. apply VS_ext; auto; intros x; unfold at_of, nt_of, ctx_of; rewrite E2; reflexivity. Qed.
Lemma VS_ctx s x c c' : ctx_of s x = Some c -> atexit c' = atexit c -> notif c' = notif c -> VS s (set_ctx s x (Some c')).
Proof.
  intros Hc Ea En. apply VS_ext; [reflexivity| |]; intros y; unfold at_of, nt_of; rewrite (ctx_set _ _ _ _ _ Hc); destruct (Nat.eqb_spec y x) as [->|]; try reflexivity; rewrite Hc; assumption.
Qed.
Lemma VS_new s cb fl : VS s (new_key s cb fl).
Proof. apply VS_ctxs; unfold new_key; destruct (freed s); reflexivity. Qed.
Lemma VS_delete s p q : VS s (fst (delete_key s p q)).
Proof.
  destruct (delete_facts s p q) as (Es & _ & _ & [(cb & _ & _ & _ & _ & Hc & _)|(_ & _ & _ & Hc & _)]); [|apply VS_ctxs; assumption].
  apply VS_ext; [exact Es| |]; intros x; unfold at_of, nt_of; rewrite Hc; destruct (ctx_of s x) as [c|]; rewrite ?clr_atexit, ?clr_notif; reflexivity.
Qed.
Lemma VS_ensure pl s ths t th : WFC pl s ths -> nth_error ths t = Some th -> user th = true -> VS s (fst (ensure s t)).
Proof.
  intros HW Ht Hu. pose proof (ensure_ok pl s ths t th HW Ht Hu) as (HW' & Hs & (c & Hc & Ho & Hn1 & Hn2) & Hmono & Hback & Hoth).
  assert (A : forall x, at_of (fst (ensure s t)) x = at_of s x /\ nt_of (fst (ensure s t)) x = nt_of s x).
  { intros x. unfold at_of, nt_of. destruct (ctx_of (fst (ensure s t)) x) as [d|] eqn:Ed.
    - destruct (ctx_of s x) as [d'|] eqn:Ed'; [rewrite (Hmono x d' Ed') in Ed; inversion Ed; auto|]. destruct (Hback x d Ed) as [Hb|(Hn & ->)]; [congruence|].
      rewrite Hc in Ed. inversion Ed; subst d. rewrite (Hn1 Hn). auto.
    - destruct (ctx_of s x) as [d'|] eqn:Ed'; [rewrite (Hmono x d' Ed') in Ed; discriminate|auto]. }
  split; [intros x; apply A|]. split; [intros x; apply A|]. split; intros u; unfold slot_at, slot_nt.
  - destruct (Nat.eq_dec u t) as [->|Hne]; [|rewrite (Hoth u Hne); destruct (slot s u); [apply A|reflexivity]].
    rewrite Hs. unfold at_of at 1. rewrite Hc. destruct (slot s t) as [y|] eqn:Ey; [|rewrite Hn1 by reflexivity; reflexivity].
    assert (y = snd (ensure s t)) by (unfold ensure; rewrite Ey; reflexivity). subst y. unfold at_of. rewrite Hn2 by discriminate. reflexivity.
  - destruct (Nat.eq_dec u t) as [->|Hne]; [|rewrite (Hoth u Hne); destruct (slot s u); [apply A|reflexivity]].
    rewrite Hs. unfold nt_of at 1. rewrite Hc. destruct (slot s t) as [y|] eqn:Ey; [|rewrite Hn1 by reflexivity; reflexivity].
    assert (y = snd (ensure s t)) by (unfold ensure; rewrite Ey; reflexivity). subst y. unfold nt_of. rewrite Hn2 by discriminate. reflexivity.
Qed.
Lemma VS_set pl s ths t th k v : WFC pl s ths -> nth_error ths t = Some th -> user th = true -> VS s (set_value s t k v).
Proof.
  intros HW Ht Hu. destruct (set_value_ok pl s ths t th k v HW Ht Hu) as (_ & _ & x & c & Hs & Hc & E & _). rewrite E. eapply VS_trans; [eapply VS_ensure; eauto|]. eapply VS_ctx; eauto.
Qed.

(** The own context of thread [t]: the one at_thread_exit appends to. *)
Lemma slot_own pl s ths t x c : WFC pl s ths -> slot s t = Some x -> ctx_of s x = Some c -> xown c = t.
Proof. intros (_ & H2 & _) Hs Hc. destruct (H2 t x Hs) as (d & A & B). congruence. Qed.

(** Changing a context that belongs to [t] affects no other thread. *)
Lemma other_ctx pl s ths t x c c' u : WFC pl s ths -> ctx_of s x = Some c -> xown c = t -> u <> t ->
  slot_at (set_ctx s x c') u = slot_at s u /\ slot_nt (set_ctx s x c') u = slot_nt s u.
Proof.
  intros (_ & H2 & _) Hc Ho Hn. unfold slot_at, slot_nt. change (slot (set_ctx s x c') u) with (slot s u). destruct (slot s u) as [y|] eqn:Ey; [|auto].
  destruct (H2 u y Ey) as (d & A & B). unfold at_of, nt_of. rewrite (ctx_set _ _ _ _ _ Hc), (proj2 (Nat.eqb_neq y x)) by (intros ->; congruence). auto.
Qed.

Definition FR (s s' : tsh) (t : nat) : Prop :=
  (forall u, u <> t -> slot s' u = slot s u /\ slot_at s' u = slot_at s u /\ slot_nt s' u = slot_nt s u) /\
  (forall x c, ctx_of s x = Some c -> xown c <> t -> at_of s' x = at_of s x /\ nt_of s' x = nt_of s x).

Lemma FR_VS s s' t : VS s s' -> (forall u, u <> t -> slot s' u = slot s u) -> FR s s' t.
Proof. intros (A & B & C & D) E. split; [intros u Hu; auto|intros; auto]. Qed.

Lemma FR_ctx pl s ths t x c c' : WFC pl s ths -> ctx_of s x = Some c -> xown c = t -> FR s (set_ctx s x c') t.
Proof.
  intros HW Hc Ho. split; [intros u Hu; split; [reflexivity|eapply other_ctx; eauto]|]. intros y d Hd Hn. unfold at_of, nt_of. rewrite (ctx_set _ _ _ _ _ Hc), (proj2 (Nat.eqb_neq y x)) by (intros ->; congruence). auto.
Qed.
Lemma FR_trans a b c t : FR a b t -> FR b c t -> (forall x d, ctx_of a x = Some d -> xown d <> t -> exists d', ctx_of b x = Some d' /\ xown d' = xown d) -> FR a c t.
Proof.
  intros (A1 & A2) (B1 & B2) Hk. split.
  - intros u Hu. destruct (A1 u Hu) as (E1 & E2 & E3), (B1 u Hu) as (F1 & F2 & F3). repeat split; congruence.
  - intros x d Hd Hn. destruct (Hk x d Hd Hn) as (d' & Hd' & Ho). destruct (A2 x d Hd Hn) as (E1 & E2), (B2 x d' Hd' ltac:(congruence)) as (F1 & F2). split; congruence.
Qed.
Lemma FR_ext s s' s'' t : slots s'' = slots s' -> ctxs s'' = ctxs s' -> FR s s' t -> FR s s'' t.
Proof.
  intros E1 E2 (A & B). destruct (VS_ctxs s' s'' E1 E2) as (V1 & V2 & V3 & V4). split.
  - intros u Hu. rewrite V3, V4. destruct (A u Hu) as (C & D). split; [|exact D]. unfold slot at 1. rewrite E1. exact C.
  - intros x c Hc Hn. rewrite V1, V2. eauto.
Qed.
Lemma ensure_ctxs s t : slot s t = None -> ctxs (fst (ensure s t)) = ctxs s ++ [Some (X t [] [] [])]. Proof. intros E. unfold ensure. rewrite E. reflexivity. Qed.

Lemma ensure_frame pl s ths t th c' : WFC pl s ths -> nth_error ths t = Some th -> user th = true -> FR s (set_ctx (fst (ensure s t)) (snd (ensure s t)) c') t.
Proof.
  intros HW Ht Hu. pose proof (ensure_ok pl s ths t th HW Ht Hu) as (HW' & Hs & (c & Hc & Ho & Hn1 & Hn2) & Hmono & Hback & Hoth).
  eapply FR_trans; [apply FR_VS; [eapply VS_ensure; eauto|exact Hoth]|eapply FR_ctx; eauto|]. intros x d Hd _. exists d. auto.
Qed.

Lemma frame_eff pl s ths t th s' th' e : WFC pl s ths -> nth_error ths t = Some th -> tss_eff pl s t th s' th' e -> FR s s' t.
Proof.
  intros HW Ht He. pose proof HW as (H1 & H2 & H3 & H4 & H5). assert (HL : t < length (slots s)) by (rewrite H1; apply nth_error_Some; congruence).
  assert (R : FR s s t) by (apply FR_VS; [apply VS_refl|reflexivity]).
  destruct He; try exact R.
  - apply FR_VS; [apply VS_new|]. intros u _. unfold slot, new_key. destruct (freed s); reflexivity.
  - apply FR_VS; [apply VS_delete|]. intros u _. unfold slot. destruct (delete_facts s p q) as (E & _). rewrite E. reflexivity.
  - apply FR_VS; [eapply VS_set; eauto|]. intros u Hu. destruct (set_value_ok pl s ths t th (pkey q) 0 HW Ht H) as (_ & _ & x & c & _ & _ & E & _). rewrite E. eapply ensure_ok; eauto.
  - apply FR_VS; [eapply VS_set; eauto|]. intros u Hu. destruct (set_value_ok pl s ths t th (pkey q) v HW Ht H) as (_ & _ & x & c & _ & _ & E & _). rewrite E. eapply ensure_ok; eauto.
  - apply FR_VS; [eapply VS_ensure; eauto|]. eapply ensure_ok; eauto.
  - cbv zeta. eapply FR_ext; [| |eapply (ensure_frame pl s ths t th (Some (X (xown c) (storage c) (atexit c ++ [nreg s]) (notif c)))); eauto]; reflexivity.
  - eapply ensure_frame; eauto.
  - split; [|auto]. intros u Hu. unfold slot_at, slot_nt. rewrite !(slot_set s t None u HL), (proj2 (Nat.eqb_neq u t) Hu). auto.
  - destruct (H3 t th x Ht ltac:(rewrite H0; reflexivity)) as (d & A & B & _). assert (d = c) as -> by congruence. eapply FR_ctx; eauto.
  - destruct (H3 t th x Ht ltac:(rewrite H0; reflexivity)) as (d & A & B & _). assert (d = c) as -> by congruence. eapply FR_ctx; eauto.
  - destruct (H3 t th x Ht ltac:(rewrite H0; reflexivity)) as (d & A & B & _). destruct pl; try (eapply FR_ctx; eauto).
    destruct (FR_ctx Win s ths t x d None HW A B) as (C & D). split; [|exact D]. intros u Hu. destruct (C u Hu) as (E1 & E2 & E3).
    assert (Hsl : slot (set_slot (set_ctx s x None) t None) u = slot s u) by (rewrite (slot_set (set_ctx s x None) t None u HL), (proj2 (Nat.eqb_neq u t) Hu); reflexivity).
    split; [exact Hsl|]. unfold slot_at, slot_nt in *. rewrite Hsl. rewrite <- E1. split; assumption.
Qed.

(** ** Histories *)
Definition ev_thread (e : tev) : nat :=
  match e with ENew t _ _ | EDel t _ | EGet t _ _ | ESet t _ _ _ | ERel t _ _ _ | ECall t _ _ | EReg t _ | ERun t _ | ENot t _ | ENotified t _ | EUnlk t _ | EExit t | ETls t | EDet t => t end.
Lemma ev_own pl s t th s' th' e : tss_eff pl s t th s' th' e -> Forall (fun x => ev_thread x = t) e.
Proof.
  intros He. destruct He; repeat constructor.
  - destruct H0 as [->|(m & ->)]; repeat constructor.
  - destruct H0 as [->|(m & ->)]; repeat constructor.
Qed.

Definition reg1 (t : nat) (e : tev) : list nat := match e with EReg u f => if u =? t then [f] else [] | _ => [] end.
Definition run1 (t : nat) (e : tev) : list nat := match e with ERun u f => if u =? t then [f] else [] | _ => [] end.
Definition not1 (t : nat) (e : tev) : list nat := match e with ENot u m => if u =? t then [m] else [] | _ => [] end.
Definition ntd1 (t : nat) (e : tev) : list nat := match e with ENotified u m => if u =? t then [m] else [] | _ => [] end.
Definition is_exit (t : nat) (e : tev) : bool := match e with EExit u => u =? t | _ => false end.
Definition is_det (t : nat) (e : tev) : bool := match e with EDet u => u =? t | _ => false end.
Definition is_tls (t : nat) (e : tev) : bool := match e with ETls u => u =? t | _ => false end.

(** In order: what thread [t] registered, what it ran, what notifications it asked for, what it notified. *)
Definition regs (t : nat) (tr : list tev) : list nat := flat_map (reg1 t) tr.
Definition runs (t : nat) (tr : list tev) : list nat := flat_map (run1 t) tr.
Definition nots (t : nat) (tr : list tev) : list nat := flat_map (not1 t) tr.
Definition notified (t : nat) (tr : list tev) : list nat := flat_map (ntd1 t) tr.
Definition exited (t : nat) (tr : list tev) : bool := existsb (is_exit t) tr.
Definition tls (t : nat) (tr : list tev) : bool := existsb (is_tls t) tr.
(** Rounds of POSIX key destructors. *)
Definition dets (t : nat) (tr : list tev) : nat := length (filter (is_det t) tr).
(** What [t] registered before it began to exit. *)
Fixpoint exit_regs (t : nat) (tr : list tev) : list nat :=
  match tr with [] => [] | e :: r => if is_exit t e then [] else reg1 t e ++ exit_regs t r end.
(** Has [t] notified since its last change of context? *)
Definition ntf1 (t : nat) (b : bool) (e : tev) : bool :=
  match e with ENotified u _ => if u =? t then true else b | EDet u => if u =? t then false else b | _ => b end.
Definition ntf (t : nat) (tr : list tev) : bool := fold_left (ntf1 t) tr false.

Lemma exit_regs_app t a b : exit_regs t (a ++ b) = if exited t a then exit_regs t a else exit_regs t a ++ exit_regs t b.
Proof.
  induction a as [|e a IH]; cbn; [reflexivity|]. destruct (is_exit t e); cbn; [reflexivity|]. rewrite IH. unfold exited. destruct (existsb (is_exit t) a); [reflexivity|apply app_assoc].
Qed.

Lemma other_ev u e : Forall (fun x => ev_thread x <> u) e ->
  regs u e = [] /\ runs u e = [] /\ nots u e = [] /\ notified u e = [] /\ exited u e = false /\ tls u e = false /\ dets u e = 0 /\ exit_regs u e = [] /\ (forall b, fold_left (ntf1 u) e b = b).
Proof.
  induction 1 as [|x l Hx _ (A & B & C & D & E & F & G & H & I)]; [repeat split|]. unfold regs, runs, nots, notified, exited, tls, dets in *. cbn.
  assert (N : (ev_thread x =? u) = false) by (apply Nat.eqb_neq; exact Hx). rewrite A, B, C, D, E, F, H.
  destruct x; cbn in *; rewrite ?N; cbn; repeat split; auto.
Qed.

(** ** The invariants of one thread *)
Definition prefix {A} (a b : list A) : Prop := exists r, b = a ++ r.
Definition infun (e : estate) : list nat := match e with ExAt _ _ fs => fs | _ => [] end.

Definition ORD (pl : plat) (s : tsh) (tr : list tev) (t : nat) (th : thr) : Prop :=
  match est th with
  | Running => exited t tr = false /\ runs t tr = [] /\ exit_regs t tr = slot_at s t
  | _ => exited t tr = true /\
         (prefix (rev (exit_regs t tr)) (runs t tr ++ infun (est th)) \/
          (runs t tr = [] /\ stk th = [] /\
           match est th with Iter _ => slot_at s t = exit_regs t tr | ExAt x _ [] => at_of s x = exit_regs t tr | Done => True | _ => False end))
  end.

Definition pendn (pl : plat) (s : tsh) (t : nat) (th : thr) : list nat :=
  match est th with
  | ExAt x _ _ | ExTls x _ _ _ => (match pl with Win => [] | _ => nt_of s x end) ++ slot_nt s t
  | ExNot _ _ ms => ms ++ (match pl with Win => [] | _ => slot_nt s t end)
  | _ => slot_nt s t
  end.
Definition NTF (pl : plat) (s : tsh) (tr : list tev) (t : nat) (th : thr) : Prop := nots t tr = notified t tr ++ pendn pl s t th.

Definition LST (tr : list tev) (t : nat) (th : thr) : Prop := ntf t tr = true -> match est th with ExNot _ _ _ | Iter _ | Done => True | _ => False end.

Definition RND (pl : plat) (s : tsh) (tr : list tev) (t : nat) (th : thr) : Prop :=
  match pl with
  | Posix lim => match est th with
                 | Running => dets t tr = 0
                 | Iter n | ExAt _ n _ | ExTls _ n _ _ | ExNot _ n _ => n + dets t tr = lim
                 | Done => slot s t = None \/ dets t tr = lim
                 end
  | Win => dets t tr = 0
  | PosixTls => dets t tr = 0 /\ match est th with Running | Done => True | _ => False end
  end.

Definition TLS (tr : list tev) (t : nat) (th : thr) : Prop := match est th with ExTls _ _ _ st => stk th <> [] \/ st <> [] -> tls t tr = true | _ => True end.

Definition TI (pl : plat) (s : tsh) (tr : list tev) (t : nat) (th : thr) : Prop :=
  ORD pl s tr t th /\ NTF pl s tr t th /\ LST tr t th /\ RND pl s tr t th /\ TLS tr t th.

Lemma hist_app t tr e :
  regs t (tr ++ e) = regs t tr ++ regs t e /\ runs t (tr ++ e) = runs t tr ++ runs t e /\ nots t (tr ++ e) = nots t tr ++ nots t e /\ notified t (tr ++ e) = notified t tr ++ notified t e /\
  exited t (tr ++ e) = exited t tr || exited t e /\ tls t (tr ++ e) = tls t tr || tls t e /\ dets t (tr ++ e) = dets t tr + dets t e /\ ntf t (tr ++ e) = fold_left (ntf1 t) e (ntf t tr).
Proof.
  unfold regs, runs, nots, notified, exited, tls, dets, ntf. rewrite !flat_map_app, !existsb_app, filter_app, app_length, fold_left_app. repeat split.
Qed.

(** Steps of other threads. *)
Lemma TI_other pl s ths t th s' th' e tr u w : WFC pl s ths -> nth_error ths t = Some th -> tss_eff pl s t th s' th' e -> nth_error ths u = Some w -> u <> t -> TI pl s tr u w -> TI pl s' (tr ++ e) u w.
Proof.
  intros HW Ht He Hu Hn (A & B & C & D & E). destruct (frame_eff _ _ _ _ _ _ _ _ HW Ht He) as (F1 & F2). destruct (F1 u Hn) as (G1 & G2 & G3).
  pose proof (ev_own _ _ _ _ _ _ _ He) as Hev. assert (Hev' : Forall (fun x => ev_thread x <> u) e) by (eapply Forall_impl; [|exact Hev]; cbn; intros; congruence).
  destruct (other_ev u e Hev') as (E1 & E2 & E3 & E4 & E5 & E6 & E7 & E8 & E9). destruct (hist_app u tr e) as (X1 & X2 & X3 & X4 & X5 & X6 & X7 & X8).
  rewrite E1, app_nil_r in X1. rewrite E2, app_nil_r in X2. rewrite E3, app_nil_r in X3. rewrite E4, app_nil_r in X4. rewrite E5, orb_false_r in X5. rewrite E6, orb_false_r in X6. rewrite E7, Nat.add_0_r in X7. rewrite E9 in X8.
  assert (X9 : exit_regs u (tr ++ e) = exit_regs u tr) by (rewrite exit_regs_app, E8, app_nil_r; destruct (exited u tr); reflexivity).
  assert (Hx : forall x, exof (est w) = Some x -> at_of s' x = at_of s x /\ nt_of s' x = nt_of s x).
  { intros x Hx. destruct HW as (_ & _ & H3 & _). destruct (H3 u w x Hu Hx) as (c & Hc & Ho & _). eapply F2; eauto. congruence. }
  split; [|split; [|split; [|split]]].
  - unfold ORD in *. rewrite X2, X5, X9, G2. destruct (est w) as [| |x n fs| | |] eqn:Ew; auto. destruct fs; auto. destruct (Hx x eq_refl) as (Y & _). rewrite Y. exact A.
  - unfold NTF, pendn in *. rewrite X3, X4, B, G3. destruct (est w) eqn:Ew; auto; destruct (Hx x eq_refl) as (_ & Y); rewrite Y; reflexivity.
  - unfold LST in *. rewrite X8. exact C.
  - unfold RND in *. rewrite X7, G1. exact D.
  - unfold TLS in *. rewrite X6. exact E.
Qed.

(** Steps that change none of this: the views stay, the event is irrelevant, the exit phase stays. *)
Definition quiet_ev (t : nat) (e : tev) : Prop := match e with EReg _ _ | ERun _ _ | ENot _ _ | ENotified _ _ | EExit _ | EDet _ | ETls _ => False | _ => True end.
Lemma quiet_hist t e : Forall (quiet_ev t) e ->
  regs t e = [] /\ runs t e = [] /\ nots t e = [] /\ notified t e = [] /\ exited t e = false /\ tls t e = false /\ dets t e = 0 /\ exit_regs t e = [] /\ (forall b, fold_left (ntf1 t) e b = b).
Proof.
  induction 1 as [|x l Hx _ (A & B & C & D & E & F & G & H & I)]; [repeat split|]. unfold regs, runs, nots, notified, exited, tls, dets in *. cbn. rewrite A, B, C, D, E, F, H.
  destruct x; cbn in *; try contradiction; repeat split; auto.
Qed.

Lemma TI_quiet pl s s' tr e t th th' : TI pl s tr t th -> VS s s' -> Forall (quiet_ev t) e -> est th' = est th -> (est th = Done -> slot s' t = slot s t) ->
  (stk th = [] -> est th <> Running -> stk th' = []) -> TI pl s' (tr ++ e) t th'.
Proof.
  intros (A & B & C & D & E) (V1 & V2 & V3 & V4) He Es Hd Hstk. destruct (quiet_hist t e He) as (E1 & E2 & E3 & E4 & E5 & E6 & E7 & E8 & E9). destruct (hist_app t tr e) as (X1 & X2 & X3 & X4 & X5 & X6 & X7 & X8).
  rewrite E1, app_nil_r in X1. rewrite E2, app_nil_r in X2. rewrite E3, app_nil_r in X3. rewrite E4, app_nil_r in X4. rewrite E5, orb_false_r in X5. rewrite E6, orb_false_r in X6. rewrite E7, Nat.add_0_r in X7. rewrite E9 in X8.
  assert (X9 : exit_regs t (tr ++ e) = exit_regs t tr) by (rewrite exit_regs_app, E8, app_nil_r; destruct (exited t tr); reflexivity).
  split; [|split; [|split; [|split]]].
  - unfold ORD in *. rewrite X2, X5, X9, V3, Es. destruct (est th) as [| |x n fs| | |] eqn:Ew; auto.
    + destruct A as (A1 & [A2|(A2 & A3 & A4)]); split; auto. right. repeat split; auto. apply Hstk; auto. discriminate.
    + destruct A as (A1 & [A2|(A2 & A3 & A4)]); split; auto. right. repeat split; auto; [apply Hstk; auto; discriminate|]. destruct fs; [rewrite V1|]; exact A4.
    + destruct A as (A1 & [A2|(A2 & A3 & A4)]); split; auto. contradiction.
    + destruct A as (A1 & [A2|(A2 & A3 & A4)]); split; auto. contradiction.
    + destruct A as (A1 & [A2|(A2 & A3 & A4)]); split; auto. right. repeat split; auto. apply Hstk; auto. discriminate.
  - unfold NTF, pendn in *. rewrite X3, X4, B, Es, V4. destruct (est th) eqn:Ew; auto; rewrite V2; reflexivity.
  - unfold LST in *. rewrite X8, Es. exact C.
  - unfold RND in *. rewrite X7, Es. destruct pl; auto. destruct (est th); auto. rewrite Hd by reflexivity. exact D.
  - unfold TLS in *. rewrite X6, Es. destruct (est th); auto. intros [Hs|Hs]; apply E; [left|right; exact Hs]. intros E0. apply Hs, Hstk; [exact E0|discriminate].
Qed.

Ltac hist t tr e :=
  pose proof (hist_app t tr e) as (XG & XR & XN & XD & XE & XT & XC & XF); pose proof (exit_regs_app t tr e) as XX;
  cbn in XG, XR, XN, XD, XE, XT, XC, XF, XX; unfold dets in XC; cbn in XC;
  rewrite ?Nat.eqb_refl in XG; rewrite ?Nat.eqb_refl in XR; rewrite ?Nat.eqb_refl in XN; rewrite ?Nat.eqb_refl in XD; rewrite ?Nat.eqb_refl in XE;
  rewrite ?Nat.eqb_refl in XT; rewrite ?Nat.eqb_refl in XC; rewrite ?Nat.eqb_refl in XF; rewrite ?Nat.eqb_refl in XX; cbn in XG, XR, XN, XD, XE, XT, XC, XF, XX;
  fold (dets t tr) (dets t (tr ++ e)) in XC;
  rewrite ?app_nil_r in XG; rewrite ?app_nil_r in XR; rewrite ?app_nil_r in XN; rewrite ?app_nil_r in XD; rewrite ?orb_false_r, ?orb_true_r in XE; rewrite ?orb_false_r, ?orb_true_r in XT; rewrite ?Nat.add_0_r in XC; rewrite ?app_nil_r in XX.

Lemma user_stk th : user th = true -> stk th = [] -> est th = Running.
Proof. unfold user. intros H E. rewrite E in H. destruct (est th); congruence. Qed.

Lemma prefix_app {A} (a b c : list A) : prefix a b -> prefix a (b ++ c).
Proof. intros (r & ->). exists (r ++ c). rewrite app_assoc. reflexivity. Qed.

Lemma TI_own pl s ths t th s' th' e tr : WFC pl s ths -> nth_error ths t = Some th -> tss_eff pl s t th s' th' e -> TI pl s tr t th -> TI pl s' (tr ++ e) t th'.
Proof.
  intros HW Ht He HT. pose proof HW as (H1 & H2 & H3 & H4 & H5). assert (HL : t < length (slots s)) by (rewrite H1; apply nth_error_Some; congruence). specialize (H5 t th Ht) as H5t.
  assert (Hus : forall (fr : list frame), user th = true -> stk th = [] -> est th <> Running -> fr ++ stk th = []) by (intros fr Hu Hs Hr; exfalso; apply Hr; eapply user_stk; eauto).
  assert (Hud : user th = true -> est th <> Done) by (intros Hu Hd; rewrite Hd in H5t; destruct H5t as (A & _); rewrite (user_stk th Hu A) in Hd; discriminate).
  destruct He.
  - eapply TI_quiet; eauto; [apply VS_new|repeat constructor|intros; exfalso; eapply Hud; eauto].
  - eapply TI_quiet; eauto; [apply VS_delete|repeat constructor|intros; exfalso; eapply Hud; eauto|intros; apply Hus; assumption].
  - eapply TI_quiet; eauto; [apply VS_refl|repeat constructor].
  - eapply TI_quiet; eauto; [apply VS_refl].
  - eapply TI_quiet; eauto; [eapply VS_set; eauto|repeat constructor|intros; exfalso; eapply Hud; eauto].
  - eapply TI_quiet; eauto; [eapply VS_set; eauto|repeat constructor|intros; exfalso; eapply Hud; eauto|intros; apply Hus; assumption].
  - eapply TI_quiet; eauto; [apply VS_refl|]. destruct H0 as [->|(m & ->)]; repeat constructor.
  - eapply TI_quiet; eauto; [eapply VS_ensure; eauto| |intros; exfalso; eapply Hud; eauto]. destruct H0 as [->|(m & ->)]; repeat constructor.
  - (* registration of an exit function *)
    pose proof (ensure_ok pl s ths t th HW Ht H) as (HW' & Hs & _). destruct (VS_ensure pl s ths t th HW Ht H) as (V1 & V2 & V3 & V4).
    cbv zeta. set (x := snd (ensure s t)) in *. set (s1 := fst (ensure s t)) in *. set (c' := X (xown c) (storage c) (atexit c ++ [nreg s]) (notif c)). set (s2 := TS _ _ _ _ _ _).
    assert (Hc2 : forall y, ctx_of s2 y = if y =? x then Some c' else ctx_of s1 y) by (intros y; exact (ctx_set s1 x c (Some c') y H0)).
    assert (Hs2 : forall u, slot s2 u = slot s1 u) by reflexivity.
    assert (Ha : slot_at s2 t = slot_at s t ++ [nreg s]).
    { rewrite <- V3. unfold slot_at, at_of. rewrite Hs2, Hs, Hc2, Nat.eqb_refl, H0. reflexivity. }
    assert (Hn : forall y, nt_of s2 y = nt_of s y). { intros y. rewrite <- V2. unfold nt_of. rewrite Hc2. destruct (Nat.eqb_spec y x) as [->|]; [rewrite H0|]; reflexivity. }
    assert (Hn2 : slot_nt s2 t = slot_nt s t). { rewrite <- V4. unfold slot_nt. rewrite Hs2. destruct (slot s1 t); [rewrite Hn, V2; reflexivity|reflexivity]. }
    destruct HT as (A & B & C & D & E). hist t tr [EReg t (nreg s)]. split; [|split; [|split; [|split]]].
    + unfold ORD in *. destruct (est th) eqn:Ee.
      * destruct A as (A1 & A2 & A3). rewrite XR, XE, XX, A1, Ha, A3. repeat split; assumption.
      * destruct A as (A1 & A2). rewrite XR, XE, XX, A1. split; [reflexivity|]. left. destruct A2 as [A2|(_ & A2 & _)]; [exact A2|]. rewrite (user_stk th H A2) in Ee. discriminate.
      * destruct A as (A1 & A2). rewrite XR, XE, XX, A1. split; [reflexivity|]. left. destruct A2 as [A2|(_ & A2 & _)]; [exact A2|]. rewrite (user_stk th H A2) in Ee. discriminate.
      * destruct A as (A1 & A2). rewrite XR, XE, XX, A1. split; [reflexivity|]. left. destruct A2 as [A2|(_ & A2 & _)]; [exact A2|]. rewrite (user_stk th H A2) in Ee. discriminate.
      * destruct A as (A1 & A2). rewrite XR, XE, XX, A1. split; [reflexivity|]. left. destruct A2 as [A2|(_ & A2 & _)]; [exact A2|]. rewrite (user_stk th H A2) in Ee. discriminate.
      * exfalso. eapply Hud; eauto.
    + unfold NTF, pendn in *. rewrite XN, XD, B, Hn2. destruct (est th); rewrite ?Hn; reflexivity.
    + unfold LST in *. rewrite XF. exact C.
    + unfold RND in *. rewrite XC. destruct pl; auto. destruct (est th) eqn:Ee; auto. exfalso. eapply Hud; eauto.
    + unfold TLS in *. rewrite XT. exact E.
  - (* registration of a notification *)
    pose proof (ensure_ok pl s ths t th HW Ht H) as (HW' & Hs & _). destruct (VS_ensure pl s ths t th HW Ht H) as (V1 & V2 & V3 & V4).
    set (x := snd (ensure s t)) in *. set (s1 := fst (ensure s t)) in *. set (c' := X (xown c) (storage c) (atexit c) (notif c ++ [m])). set (s2 := set_ctx s1 x (Some c')).
    assert (Hc2 : forall y, ctx_of s2 y = if y =? x then Some c' else ctx_of s1 y) by (intros y; exact (ctx_set s1 x c (Some c') y H0)).
    assert (Hs2 : forall u, slot s2 u = slot s1 u) by reflexivity.
    assert (Hn2 : slot_nt s2 t = slot_nt s t ++ [m]).
    { rewrite <- V4. unfold slot_nt, nt_of. rewrite Hs2, Hs, Hc2, Nat.eqb_refl, H0. reflexivity. }
    assert (Ha : forall y, at_of s2 y = at_of s y). { intros y. rewrite <- V1. unfold at_of. rewrite Hc2. destruct (Nat.eqb_spec y x) as [->|]; [rewrite H0|]; reflexivity. }
    assert (Ha2 : slot_at s2 t = slot_at s t). { rewrite <- V3. unfold slot_at. rewrite Hs2. destruct (slot s1 t); [rewrite Ha, V1; reflexivity|reflexivity]. }
    assert (Hn : forall y, exof (est th) = Some y -> pl <> Win -> nt_of s2 y = nt_of s y).
    { intros y Hy Hp. rewrite <- V2. unfold nt_of. rewrite Hc2. destruct (Nat.eqb_spec y x) as [->|]; [|reflexivity]. exfalso. apply Hp. destruct HW' as (_ & _ & W3 & _). destruct (W3 t th x Ht Hy) as (d & _ & _ & Hw & _). apply Hw. exact Hs. }
    destruct HT as (A & B & C & D & E). hist t tr [ENot t m]. split; [|split; [|split; [|split]]].
    + unfold ORD in *. rewrite XR, XE, XX, Ha2. replace (if exited t tr then exit_regs t tr else exit_regs t tr) with (exit_regs t tr) by (destruct (exited t tr); reflexivity). destruct (est th) as [| |y n fs| | |]; auto. destruct fs; auto. rewrite Ha. exact A.
    + unfold NTF, pendn in *. rewrite XN, XD, B, Hn2. destruct (est th) eqn:Ee; rewrite ?app_assoc; auto.
      * destruct pl; [reflexivity| |]; rewrite Hn by (reflexivity || discriminate); reflexivity.
      * destruct pl; [reflexivity| |]; rewrite Hn by (reflexivity || discriminate); reflexivity.
      * exfalso. rewrite (user_stk th H H5t) in Ee. discriminate.
    + unfold LST in *. rewrite XF. exact C.
    + unfold RND in *. rewrite XC. destruct pl; auto. destruct (est th) eqn:Ee; auto. exfalso. eapply Hud; eauto.
    + unfold TLS in *. rewrite XT. exact E.
  - eapply TI_quiet; eauto; [apply VS_refl|]. intros E. congruence.
  - (* exit *)
    destruct HT as (A & B & C & D & E). unfold ORD, NTF, pendn, LST, RND in A, B, C, D. rewrite H0 in A, B, C, D. destruct A as (A1 & A2 & A3). hist t tr [EExit t]. rewrite A1 in *.
    assert (Hord : forall es x n, es = Iter n \/ es = Done \/ (es = ExAt x n [] /\ slot s t = Some x) -> ORD pl s (tr ++ [EExit t]) t (Th [] es)).
    { intros es x n Hes. unfold ORD. cbn [est stk]. rewrite XR, XE, XX, A2, A3. destruct Hes as [->|[->|(-> & Hx)]]; (split; [reflexivity|]; right; repeat split). unfold slot_at. rewrite Hx. reflexivity. }
    split; [|split; [|split; [|split]]].
    + destruct pl as [|lim|]; [destruct (slot s t) as [x|] eqn:Ex; [apply (Hord _ x 0)|apply (Hord _ 0 0)]|apply (Hord _ 0 lim)|apply (Hord _ 0 0)]; auto.
    + unfold NTF, pendn. cbn [est]. rewrite XN, XD, B. destruct pl; [destruct (slot s t) as [x|] eqn:Ex|..]; reflexivity.
    + unfold LST. rewrite XF. intros F. destruct (C F).
    + unfold RND in *. cbn [est]. rewrite XC. destruct pl; [exact D| |split; [apply D|exact I]]. lia.
    + unfold TLS. cbn. destruct pl; [destruct (slot s t)|..]; exact I.
  - eapply TI_quiet; eauto; [apply VS_refl|repeat constructor|]. intros E. congruence.
  - eapply TI_quiet; eauto; [apply VS_refl|]. intros E. congruence.
  - (* the destructor loop ends *)
    destruct HT as (A & B & C & D & E). unfold ORD, NTF, pendn, LST, RND in A, B, C, D. rewrite H0 in A, B, C, D. rewrite H0 in H5t. destruct H5t as (_ & Hpl). rewrite app_nil_r. split; [|split; [|split; [|split]]].
    + unfold ORD. cbn [est stk infun]. destruct A as (A1 & A2). split; [exact A1|]. destruct A2 as [A2|(A2 & _)]; [left; exact A2|right; auto].
    + exact B.
    + intros _. exact I.
    + unfold RND. cbn [est]. destruct pl; auto; [|destruct D; contradiction]. destruct H6 as [->|Hs]; [right; lia|left; exact Hs].
    + exact I.
  - (* next round *)
    destruct HT as (A & B & C & D & E). unfold ORD, NTF, pendn, LST, RND in A, B, C, D. rewrite H0 in A, B, C, D. rewrite H0 in H5t. destruct H5t as (_ & Hpl). hist t tr [EDet t].
    assert (Ex : exit_regs t (tr ++ [EDet t]) = exit_regs t tr) by (rewrite XX; destruct (exited t tr); reflexivity).
    split; [|split; [|split; [|split]]].
    + unfold ORD. cbn [est stk infun]. destruct A as (A1 & A2). rewrite XR, XE, Ex. split; [exact A1|]. destruct A2 as [A2|(A2 & _ & A3)]; [left; exact A2|right]. repeat split; [exact A2|].
      unfold slot_at in A3. rewrite H6 in A3. exact A3.
    + unfold NTF, pendn. cbn [est]. rewrite XN, XD, B. unfold slot_nt. rewrite (slot_set s t None t HL), Nat.eqb_refl, H6. destruct pl; [congruence| |]; rewrite app_nil_r; reflexivity.
    + unfold LST. rewrite XF. discriminate.
    + unfold RND. cbn [est]. rewrite XC. destruct pl; [congruence|lia|]. destruct D. contradiction.
    + exact I.
  - (* an exit function is called *)
    destruct HT as (A & B & C & D & E). unfold ORD, NTF, pendn, LST, RND in A, B, C, D. rewrite H0 in A, B, C, D. hist t tr [ERun t f].
    assert (Ex : exit_regs t (tr ++ [ERun t f]) = exit_regs t tr) by (rewrite XX; destruct (exited t tr); reflexivity).
    split; [|split; [|split; [|split]]].
    + unfold ORD. cbn [est stk infun] in *. destruct A as (A1 & A2). rewrite XR, XE, Ex. split; [exact A1|]. destruct A2 as [A2|(A2 & _ & A3)]; [left|contradiction]. rewrite <- app_assoc. exact A2.
    + unfold NTF, pendn. cbn [est]. rewrite XN, XD, B. reflexivity.
    + unfold LST. rewrite XF. exact C.
    + unfold RND. cbn [est]. rewrite XC. exact D.
    + exact I.
  - (* on to the values *)
    destruct HT as (A & B & C & D & E). unfold ORD, NTF, pendn, LST, RND in A, B, C, D. rewrite H0 in A, B, C, D. rewrite app_nil_r. split; [|split; [|split; [|split]]].
    + unfold ORD. cbn [est stk infun] in *. destruct A as (A1 & A2). split; [exact A1|]. left. destruct A2 as [A2|(A2 & _ & A3)]; [exact A2|]. unfold at_of in A3. rewrite H6, H7 in A3. rewrite <- A3, A2. exists []. reflexivity.
    + unfold NTF, pendn. cbn [est]. exact B.
    + exact C.
    + exact D.
    + unfold TLS. cbn. intros [F|F]; congruence.
  - (* a round of exit functions *)
    destruct HT as (A & B & C & D & E). unfold ORD, NTF, pendn, LST, RND in A, B, C, D. rewrite H0 in A, B, C, D. rewrite app_nil_r.
    set (c' := X (xown c) (storage c) [] (notif c)).
    assert (Hn : forall y, nt_of (set_ctx s x (Some c')) y = nt_of s y).
    { intros y. unfold nt_of. rewrite (ctx_set _ _ _ _ _ H6). destruct (Nat.eqb_spec y x) as [->|]; [rewrite H6|]; reflexivity. }
    split; [|split; [|split; [|split]]].
    + unfold ORD. cbn [est stk infun] in *. destruct A as (A1 & A2). split; [exact A1|]. left. rewrite app_nil_r in A2. destruct A2 as [A2|(A2 & _ & A3)]; [apply prefix_app; exact A2|]. unfold at_of in A3. rewrite H6 in A3. rewrite <- A3, A2. exists []. rewrite app_nil_r. reflexivity.
    + unfold NTF, pendn. cbn [est]. rewrite B. f_equal. unfold slot_nt. change (slot (set_ctx s x (Some c')) t) with (slot s t). f_equal; [destruct pl; rewrite ?Hn; reflexivity|destruct (slot s t); rewrite ?Hn; reflexivity].
    + exact C.
    + exact D.
    + exact I.
  - (* a value is skipped *)
    destruct HT as (A & B & C & D & E). unfold ORD, NTF, pendn, LST, RND in A, B, C, D. rewrite H0 in A, B, C, D. rewrite app_nil_r. split; [|split; [|split; [|split]]].
    + unfold ORD. cbn [est stk infun] in *. destruct A as (A1 & A2). split; [exact A1|]. destruct A2 as [A2|(A2 & _ & A3)]; [left; exact A2|contradiction].
    + exact B.
    + exact C.
    + exact D.
    + unfold TLS. cbn. intros [F|F]; [congruence|]. unfold TLS in E. rewrite H0 in E. apply E. right. exact F.
  - (* a value is cleaned *)
    destruct HT as (A & B & C & D & E). unfold ORD, NTF, pendn, LST, RND in A, B, C, D. rewrite H0 in A, B, C, D. hist t tr [ECall t cb v].
    assert (Ex : exit_regs t (tr ++ [ECall t cb v]) = exit_regs t tr) by (rewrite XX; destruct (exited t tr); reflexivity).
    split; [|split; [|split; [|split]]].
    + unfold ORD. cbn [est stk infun] in *. rewrite XR, XE, Ex. destruct A as (A1 & A2). split; [exact A1|]. destruct A2 as [A2|(A2 & _ & A3)]; [left; exact A2|contradiction].
    + unfold NTF, pendn. cbn [est]. rewrite XN, XD. exact B.
    + unfold LST. rewrite XF. exact C.
    + unfold RND. cbn [est]. rewrite XC. exact D.
    + unfold TLS. cbn [est stk]. intros _. rewrite XT. unfold TLS in E. rewrite H0 in E. apply E. right. intros ->. destruct k; discriminate.
  - (* notifications *)
    destruct HT as (A & B & C & D & E). unfold ORD, NTF, pendn, LST, RND in A, B, C, D. rewrite H0 in A, B, C, D. rewrite app_nil_r. split; [|split; [|split; [|split]]].
    + unfold ORD. cbn [est stk infun] in *. destruct A as (A1 & A2). split; [exact A1|]. destruct A2 as [A2|(A2 & _ & A3)]; [left; exact A2|contradiction].
    + unfold NTF, pendn. cbn [est]. rewrite B. f_equal. destruct pl.
      * destruct (H3 t th x Ht ltac:(rewrite H0; reflexivity)) as (d & _ & _ & Hw & _). unfold slot_nt. rewrite (proj2 Hw eq_refl). unfold nt_of. rewrite H7. rewrite app_nil_r. reflexivity.
      * unfold nt_of. rewrite H7. reflexivity.
      * unfold nt_of. rewrite H7. reflexivity.
    + intros _. exact I.
    + exact D.
    + exact I.
  - (* the values are swapped out *)
    destruct HT as (A & B & C & D & E). unfold ORD, NTF, pendn, LST, RND in A, B, C, D. rewrite H0 in A, B, C, D. hist t tr [ETls t].
    assert (Ex : exit_regs t (tr ++ [ETls t]) = exit_regs t tr) by (rewrite XX; destruct (exited t tr); reflexivity).
    destruct (VS_ctx s x c (X (xown c) [] (atexit c) (notif c)) H7 eq_refl eq_refl) as (V1 & V2 & V3 & V4).
    split; [|split; [|split; [|split]]].
    + unfold ORD. cbn [est stk infun] in *. rewrite XR, XE, Ex. destruct A as (A1 & A2). split; [exact A1|]. destruct A2 as [A2|(A2 & _ & A3)]; [left; exact A2|contradiction].
    + unfold NTF, pendn. cbn [est]. rewrite XN, XD, V2, V4. exact B.
    + unfold LST. rewrite XF. exact C.
    + unfold RND. cbn [est]. rewrite XC. exact D.
    + unfold TLS. cbn. intros _. exact XT.
  - (* one notification *)
    destruct HT as (A & B & C & D & E). unfold ORD, NTF, pendn, LST, RND in A, B, C, D. rewrite H0 in A, B, C, D. hist t tr [ENotified t m].
    assert (Ex : exit_regs t (tr ++ [ENotified t m]) = exit_regs t tr) by (rewrite XX; destruct (exited t tr); reflexivity).
    split; [|split; [|split; [|split]]].
    + unfold ORD. cbn [est stk infun] in *. rewrite XR, XE, Ex. destruct A as (A1 & A2). split; [exact A1|]. destruct A2 as [A2|(A2 & _ & A3)]; [left; exact A2|contradiction].
    + unfold NTF, pendn. cbn [est]. rewrite XN, XD, B, <- app_assoc. reflexivity.
    + intros _. exact I.
    + unfold RND. cbn [est]. rewrite XC. exact D.
    + exact I.
  - (* the context is destroyed *)
    destruct HT as (A & B & C & D & E). unfold ORD, NTF, pendn, LST, RND in A, B, C, D. rewrite H0 in A, B, C, D. rewrite app_nil_r.
    destruct (H3 t th x Ht ltac:(rewrite H0; reflexivity)) as (c & Hc & Ho & Hw & _).
    split; [|split; [|split; [|split]]].
    + unfold ORD. cbn [est stk infun] in *. destruct A as (A1 & A2). destruct A2 as [A2|(A2 & _ & A3)]; [|contradiction]. destruct pl; (split; [exact A1|left; exact A2]).
    + unfold NTF, pendn. destruct pl; cbn [est].
      * rewrite B. f_equal. unfold slot_nt. rewrite (slot_set (set_ctx s x None) t None t HL), Nat.eqb_refl. reflexivity.
      * rewrite B. cbn [app]. f_equal. unfold slot_nt. change (slot (set_ctx s x None) t) with (slot s t). destruct (slot s t) as [y|] eqn:Ey; [|reflexivity]. unfold nt_of. rewrite (ctx_set _ _ _ _ _ Hc). destruct (Nat.eqb_spec y x) as [->|]; [|reflexivity].
        discriminate (proj1 Hw eq_refl).
      * rewrite B. cbn [app]. f_equal. unfold slot_nt. change (slot (set_ctx s x None) t) with (slot s t). destruct (slot s t) as [y|] eqn:Ey; [|reflexivity]. unfold nt_of. rewrite (ctx_set _ _ _ _ _ Hc). destruct (Nat.eqb_spec y x) as [->|]; [|reflexivity].
        discriminate (proj1 Hw eq_refl).
    + intros _. destruct pl; exact I.
    + unfold RND. destruct pl; exact D.
    + destruct pl; exact I.
Qed.

Definition ALLTI (pl : plat) (c : tss_st) (tr : list tev) : Prop := forall t th, nth_error (snd c) t = Some th -> TI pl (fst c) tr t th.

Lemma TI_step pl s ths t th s' th' e tr : WFC pl s ths -> nth_error ths t = Some th -> tss_eff pl s t th s' th' e -> ALLTI pl (s, ths) tr -> ALLTI pl (s', upd ths t th') (tr ++ e).
Proof.
  intros HW Ht He HA u w Hu. cbn [fst snd] in *. apply nth_upd_inv in Hu. destruct Hu as [(<- & -> & _)|(Hn & Hu)]; [eapply TI_own; eauto; apply HA; exact Ht|].
  exact (TI_other pl s ths t th s' th' e tr u w HW Ht He Hu ltac:(congruence) (HA u w Hu)).
Qed.

Lemma TI_init pl n : ALLTI pl (tss_init n) [].
Proof.
  intros t th Ht. cbn in Ht. apply nth_repeat in Ht. subst th. assert (Hs : slot (fst (tss_init n)) t = None).
  { unfold slot, tss_init. cbn. destruct (nth_error (repeat None n) t) as [o|] eqn:E; [|reflexivity]. apply nth_repeat in E. subst o. reflexivity. }
  split; [|split; [|split; [|split]]].
  - unfold ORD, slot_at. rewrite Hs. cbn. auto.
  - unfold NTF, pendn, slot_nt. rewrite Hs. reflexivity.
  - discriminate.
  - unfold RND. destruct pl; cbn; auto.
  - exact I.
Qed.

(** ** Every registered function runs once *)
Local Open Scope Z_scope.
Definition cnt (f : nat) (l : list nat) : Z := sumf (fun x => b2z (x =? f)%nat) l.
Definition nregs (f : nat) (tr : list tev) : Z := sumf (fun e => match e with EReg _ g => b2z (g =? f)%nat | _ => 0 end) tr.
Definition nruns (f : nat) (tr : list tev) : Z := sumf (fun e => match e with ERun _ g => b2z (g =? f)%nat | _ => 0 end) tr.
Definition wat (f : nat) (o : option ctx) : Z := match o with Some c => cnt f (atexit c) | None => 0 end.
Definition pend (f : nat) (c : tss_st) : Z := sumf (wat f) (ctxs (fst c)) + sumf (fun th => cnt f (infun (est th))) (snd c).
(** Windows: registered by a cleanup function of a thread-specific value, too late to be called. *)
Definition late (pl : plat) (f : nat) (tr : list tev) : Prop := pl = Win /\ exists u a b, tr = a ++ EReg u f :: b /\ tls u a = true.

Definition REG (pl : plat) (c : tss_st) (tr : list tev) : Prop :=
  (forall f, nregs f tr = b2z (f <? nreg (fst c))%nat) /\
  (forall x d f, ctx_of (fst c) x = Some d -> In f (atexit d) -> In (EReg (xown d) f) tr) /\
  (forall t th f, nth_error (snd c) t = Some th -> In f (infun (est th)) -> In (EReg t f) tr) /\
  (forall t f, In (ERun t f) tr -> In (EReg t f) tr) /\
  (forall t u f, In (EReg t f) tr -> In (EReg u f) tr -> t = u) /\
  (forall f, nruns f tr + pend f c <= nregs f tr) /\
  (forall f, ~ late pl f tr -> nruns f tr + pend f c = nregs f tr) /\
  (pl = Win -> forall t th x d f, nth_error (snd c) t = Some th -> exof (est th) = Some x -> ctx_of (fst c) x = Some d ->
     match est th with ExTls _ _ _ _ | ExNot _ _ _ => In f (atexit d) -> late pl f tr | _ => True end).

Lemma nregs_app f a b : nregs f (a ++ b) = nregs f a + nregs f b. Proof. apply sumf_app. Qed.
Lemma nruns_app f a b : nruns f (a ++ b) = nruns f a + nruns f b. Proof. apply sumf_app. Qed.
Lemma late_app pl f a b : late pl f a -> late pl f (a ++ b).
Proof. intros (E & u & x & y & -> & H). split; [exact E|]. exists u, x, (y ++ b). split; [rewrite <- app_assoc; reflexivity|exact H]. Qed.
Lemma cnt_pos f l : In f l -> 1 <= cnt f l.
Proof. unfold cnt. induction l as [|a l IH]; [intros []|]. assert (P : 0 <= sumf (fun x => b2z (x =? f)%nat) l) by (apply sumf_nonneg; intros x; unfold b2z; destruct (x =? f)%nat; lia). cbn [sumf]. intros [->|H]; [rewrite Nat.eqb_refl; change (b2z true) with 1; lia|]. specialize (IH H). assert (0 <= b2z (a =? f)%nat) by (unfold b2z; destruct (a =? f)%nat; lia). lia. Qed.
Lemma cnt_nonneg f l : 0 <= cnt f l. Proof. apply sumf_nonneg. intros x. unfold b2z. destruct (x =? f)%nat; lia. Qed.
Lemma cnt_app f a b : cnt f (a ++ b) = cnt f a + cnt f b. Proof. apply sumf_app. Qed.
Lemma cnt_rev f l : cnt f (rev l) = cnt f l.
Proof. induction l as [|a l IH]; [reflexivity|]. cbn [rev]. rewrite cnt_app, IH. unfold cnt. cbn. lia. Qed.
Lemma cnt_out f l : ~ In f l -> cnt f l = 0.
Proof. induction l as [|a l IH]; intros H; [reflexivity|]. unfold cnt in *. cbn. rewrite IH by (intros G; apply H; right; exact G). destruct (Nat.eqb_spec a f); [exfalso; apply H; left; assumption|reflexivity]. Qed.
Lemma nregs_in f tr : 1 <= nregs f tr <-> exists t, In (EReg t f) tr.
Proof.
  unfold nregs. induction tr as [|e tr IH]; cbn; [split; [lia|intros (t & [])]|].
  assert (P : 0 <= sumf (fun e => match e with EReg _ g => b2z (g =? f)%nat | _ => 0 end) tr) by (apply sumf_nonneg; intros x; destruct x; try lia; unfold b2z; destruct (_ =? _)%nat; lia).
  destruct e; try (rewrite Z.add_0_l, IH; split; [intros (u & H); exists u; right; exact H|intros (u & [H|H]); [discriminate|exists u; exact H]]).
  destruct (Nat.eqb_spec f0 f) as [->|Hn]; cbn [b2z].
  - split; [intros _; exists t; left; reflexivity|lia].
  - rewrite Z.add_0_l, IH. split; [intros (u & H); exists u; right; exact H|intros (u & [H|H]); [congruence|exists u; exact H]].
Qed.

Lemma pend_ensure f s ths t : pend f (fst (ensure s t), ths) = pend f (s, ths).
Proof. unfold pend, ensure. destruct (slot s t); [reflexivity|]. cbn. rewrite sumf_app. cbn. lia. Qed.
Lemma pend_ctx f s ths x c o : ctx_of s x = Some c -> pend f (set_ctx s x o, ths) = pend f (s, ths) - cnt f (atexit c) + wat f o.
Proof. intros Hc. apply ctx_list_spec in Hc. unfold pend. cbn. rewrite (sumf_upd _ _ _ _ _ Hc). cbn. lia. Qed.
Lemma pend_thr f s ths t th th' : nth_error ths t = Some th -> pend f (s, upd ths t th') = pend f (s, ths) - cnt f (infun (est th)) + cnt f (infun (est th')).
Proof. intros Ht. unfold pend. cbn. rewrite (sumf_upd _ _ _ _ _ Ht). lia. Qed.
Lemma pend_ext f s s' ths : ctxs s' = ctxs s -> pend f (s', ths) = pend f (s, ths).
Proof. intros E. unfold pend. cbn. rewrite E. reflexivity. Qed.
Lemma pend_delete f s ths p q : pend f (fst (delete_key s p q), ths) = pend f (s, ths).
Proof.
  destruct (delete_facts s p q) as (_ & _ & _ & [(cb & _ & _ & _ & E & _)|(_ & _ & _ & E & _)]); unfold pend; cbn [fst snd]; rewrite E; [|reflexivity].
  f_equal. clear E. induction (ctxs s) as [|o l IH]; [reflexivity|]. cbn [map sumf]. rewrite IH. f_equal. destruct o as [c|]; [|reflexivity]. rewrite clear1_clr. cbn. rewrite clr_atexit. reflexivity.
Qed.
Lemma pend_set f pl s ths t th k v : WFC pl s ths -> nth_error ths t = Some th -> user th = true -> forall ths', pend f (set_value s t k v, ths') = pend f (s, ths').
Proof.
  intros HW Ht Hu ths'. destruct (set_value_ok pl s ths t th k v HW Ht Hu) as (_ & _ & x & c & _ & Hc & E & _). rewrite E, (pend_ctx _ _ _ _ _ _ Hc), pend_ensure. cbn [wat atexit]. lia.
Qed.

Definition qev (e : tev) : Prop := match e with EReg _ _ | ERun _ _ => False | _ => True end.
Lemma qev_hist e : Forall qev e -> (forall f, nregs f e = 0) /\ (forall f, nruns f e = 0) /\ (forall t f, ~ In (EReg t f) e) /\ (forall t f, ~ In (ERun t f) e).
Proof.
  induction 1 as [|x l Hx _ (A & B & C & D)]; [repeat split; auto|]. split; [|split; [|split]].
  - intros f. unfold nregs in *. cbn. rewrite A. destruct x; cbn in *; try contradiction; reflexivity.
  - intros f. unfold nruns in *. cbn. rewrite B. destruct x; cbn in *; try contradiction; reflexivity.
  - intros t f [->|H]; [contradiction|eapply C; eauto].
  - intros t f [->|H]; [contradiction|eapply D; eauto].
Qed.

Lemma REG_quiet pl s ths tr s' e t th th' : REG pl (s, ths) tr -> nth_error ths t = Some th -> nreg s' = nreg s ->
  (forall x d', ctx_of s' x = Some d' -> (exists d, ctx_of s x = Some d /\ xown d' = xown d /\ atexit d' = atexit d) \/ atexit d' = []) ->
  (forall f, pend f (s', upd ths t th') = pend f (s, ths)) -> Forall qev e ->
  (forall f, In f (infun (est th')) -> In (EReg t f) tr) ->
  (pl = Win -> forall x d f, exof (est th') = Some x -> ctx_of s' x = Some d -> match est th' with ExTls _ _ _ _ | ExNot _ _ _ => In f (atexit d) -> late pl f (tr ++ e) | _ => True end) ->
  REG pl (s', upd ths t th') (tr ++ e).
Proof.
  intros (R1 & R2 & R3 & R4 & R5 & R6 & R7 & R8) Ht En Hc Hp Hq Hin Hph. cbn [fst snd] in *. destruct (qev_hist e Hq) as (Q1 & Q2 & Q3 & Q4).
  assert (Hi : forall u f, In (EReg u f) (tr ++ e) <-> In (EReg u f) tr) by (intros u f; rewrite in_app_iff; split; [intros [H|H]; [exact H|exfalso; eapply Q3; eauto]|auto]).
  unfold REG. cbn [fst snd]. split; [|split; [|split; [|split; [|split; [|split; [|split]]]]]].
  - intros f. rewrite nregs_app, Q1, En, R1. lia.
  - intros x d f Hd Hf. rewrite Hi. destruct (Hc x d Hd) as [(d0 & A & B & C)|C]; [rewrite B; rewrite C in Hf; eauto|rewrite C in Hf; destruct Hf].
  - intros u w f Hu Hf. rewrite Hi. apply nth_upd_inv in Hu. destruct Hu as [(<- & -> & _)|(Hn & Hu)]; [auto|eauto].
  - intros u f. rewrite Hi, in_app_iff. intros [H|H]; [auto|exfalso; eapply Q4; eauto].
  - intros u w f. rewrite !Hi. apply R5.
  - intros f. rewrite nregs_app, nruns_app, Q1, Q2, Hp. specialize (R6 f). lia.
  - intros f Hl. rewrite nregs_app, nruns_app, Q1, Q2, Hp. specialize (R7 f ltac:(intros H; apply Hl; apply late_app; exact H)). lia.
  - intros Hw u w x d f Hu Hx Hd. apply nth_upd_inv in Hu. destruct Hu as [(<- & -> & _)|(Hn & Hu)]; [eapply Hph; eauto|]. specialize (R8 Hw u w x).
    destruct (Hc x d Hd) as [(d0 & A & B & C)|C]; [specialize (R8 d0 f Hu Hx A); rewrite C; destruct (est w); auto; intros Hf; apply late_app; auto|rewrite C; destruct (est w); auto; intros []].
Qed.

Lemma REG_user pl s ths tr s' e t th th' : REG pl (s, ths) tr -> nth_error ths t = Some th -> est th' = est th -> nreg s' = nreg s ->
  (forall x d', ctx_of s' x = Some d' -> (exists d, ctx_of s x = Some d /\ xown d' = xown d /\ atexit d' = atexit d) \/ atexit d' = []) ->
  (forall f, pend f (s', ths) = pend f (s, ths)) -> Forall qev e -> REG pl (s', upd ths t th') (tr ++ e).
Proof.
  intros HR Ht Es En Hc Hp Hq. pose proof HR as (R1 & R2 & R3 & R4 & R5 & R6 & R7 & R8). eapply REG_quiet; eauto.
  - intros f. rewrite (pend_thr _ _ _ _ _ _ Ht), Hp, Es. lia.
  - rewrite Es. intros f Hf. eapply R3; eauto.
  - rewrite Es. intros Hw x d f Hx Hd. destruct (Hc x d Hd) as [(d0 & A & B & C)|C].
    + specialize (R8 Hw t th x d0 f Ht Hx A). rewrite C. destruct (est th); auto; intros Hf; apply late_app; auto.
    + rewrite C. destruct (est th); auto; intros [].
Qed.

Lemma ensure_back pl s ths t th : WFC pl s ths -> nth_error ths t = Some th -> user th = true -> forall x d', ctx_of (fst (ensure s t)) x = Some d' -> ctx_of s x = Some d' \/ (d' = X t [] [] [] /\ slot s t = None).
Proof.
  intros HW Ht Hu x d' Hd. pose proof (ensure_ok pl s ths t th HW Ht Hu) as (HW' & Hs & (c & Hc & Ho & Hn1 & Hn2) & Hmono & Hback & Hoth).
  destruct (Hback x d' Hd) as [H|(H & ->)]; [left; exact H|right]. rewrite Hc in Hd. inversion Hd; subst. split; [apply Hn1|]; exact H.
Qed.

Lemma REG_step pl s ths t th s' th' e tr : WFC pl s ths -> nth_error ths t = Some th -> tss_eff pl s t th s' th' e -> TLS tr t th -> REG pl (s, ths) tr -> REG pl (s', upd ths t th') (tr ++ e).
Proof.
  intros HW Ht He HT HR. pose proof HW as (H1 & H2 & H3 & H4 & H5). specialize (H5 t th Ht) as H5t. pose proof HR as (R1 & R2 & R3 & R4 & R5 & R6 & R7 & R8). cbn [fst snd] in R1, R2, R3, R4, R5, R6, R7, R8.
  assert (Hsame : forall x d', ctx_of s x = Some d' -> (exists d, ctx_of s x = Some d /\ xown d' = xown d /\ atexit d' = atexit d) \/ atexit d' = []) by (intros x d Hd; left; exists d; auto).
  assert (Hens : user th = true -> forall x d', ctx_of (fst (ensure s t)) x = Some d' -> (exists d, ctx_of s x = Some d /\ xown d' = xown d /\ atexit d' = atexit d) \/ atexit d' = []).
  { intros Hu x d' Hd. destruct (ensure_back pl s ths t th HW Ht Hu x d' Hd) as [H|(-> & _)]; [left; exists d'; auto|right; reflexivity]. }
  assert (Hset : forall k w, user th = true -> forall x d', ctx_of (set_value s t k w) x = Some d' -> (exists d, ctx_of s x = Some d /\ xown d' = xown d /\ atexit d' = atexit d) \/ atexit d' = []).
  { intros k w Hu x d' Hd. destruct (set_value_ok pl s ths t th k w HW Ht Hu) as (_ & _ & y & c & _ & Hc & E & _). rewrite E, (ctx_set _ _ _ _ _ Hc) in Hd. destruct (Nat.eqb_spec x y) as [->|]; [|auto].
    inversion Hd; subst d'. cbn. apply (Hens Hu y c Hc). }
  assert (Hnr : forall k w, nreg (set_value s t k w) = nreg s).
  { intros k w. destruct (ensure_nreg s t) as (E & _). unfold set_value. destruct (ensure s t) as [s1 x]. cbn in E. destruct (ctx_of s1 x); exact E. }
  destruct He.
  - eapply REG_user; eauto; [unfold new_key; destruct (freed s); reflexivity| | |repeat constructor].
    + intros x d Hd. apply (Hsame x d). unfold ctx_of, new_key in *. destruct (freed s); exact Hd.
    + intros f. apply pend_ext. unfold new_key. destruct (freed s); reflexivity.
  - destruct (delete_facts s p q) as (_ & En & _ & Hd). eapply REG_user; eauto; [| |repeat constructor].
    + intros x d' Hd'. destruct Hd as [(cb & _ & _ & _ & _ & Hc & _)|(_ & _ & _ & Hc & _)].
      * rewrite Hc in Hd'. destruct (ctx_of s x) as [d|]; [|discriminate]. inversion Hd'; subst d'. left. exists d. rewrite clr_own, clr_atexit. auto.
      * apply (Hsame x d'). unfold ctx_of in *. rewrite Hc in Hd'. exact Hd'.
    + intros f. apply pend_delete.
  - eapply REG_user; eauto. repeat constructor.
  - eapply REG_user; eauto.
  - eapply REG_user; eauto; [|repeat constructor]. intros f. eapply pend_set; eauto.
  - eapply REG_user; eauto; [|repeat constructor]. intros f. eapply pend_set; eauto.
  - eapply REG_user; eauto. destruct H0 as [->|(m & ->)]; repeat constructor.
  - eapply REG_user; eauto; [apply ensure_nreg|intros f; apply pend_ensure|]. destruct H0 as [->|(m & ->)]; repeat constructor.
  - (* registration *)
    rewrite (upd_same _ _ _ Ht). cbv zeta. set (s2 := TS _ _ _ _ _ _).
    pose proof (ensure_ok pl s ths t th HW Ht H) as (HW' & Hs & (c0 & Hc0 & Ho0 & _) & _). assert (c0 = c) as -> by congruence. clear Hc0.
    set (x := snd (ensure s t)) in *. set (s1 := fst (ensure s t)) in *. set (g := nreg s) in *.
    assert (Hc2 : forall y, ctx_of s2 y = if (y =? x)%nat then Some (X (xown c) (storage c) (atexit c ++ [g]) (notif c)) else ctx_of s1 y) by (intros y; exact (ctx_set s1 x c _ y H0)).
    assert (Hold : forall u, ~ In (EReg u g) tr).
    { intros u Hi. assert (1 <= nregs g tr) by (apply nregs_in; exists u; exact Hi). rewrite R1 in H6. unfold g in H6. rewrite Nat.ltb_irrefl in H6. cbn in H6. lia. }
    assert (Hfrom : forall y d f, ctx_of s1 y = Some d -> In f (atexit d) -> In (EReg (xown d) f) tr).
    { intros y d f Hd Hf. destruct (ensure_back pl s ths t th HW Ht H y d Hd) as [A|(-> & _)]; [eauto|destruct Hf]. }
    assert (Hpend : forall f, pend f (s2, ths) = pend f (s, ths) + b2z (g =? f)%nat).
    { intros f. transitivity (pend f (set_ctx s1 x (Some (X (xown c) (storage c) (atexit c ++ [g]) (notif c))), ths)); [apply pend_ext; reflexivity|].
      rewrite (pend_ctx _ _ _ _ _ _ H0). unfold s1. rewrite pend_ensure. cbn [wat atexit]. rewrite cnt_app. unfold cnt at 3. cbn. lia. }
    assert (Hrun : forall f, nruns f [EReg t g] = 0) by reflexivity. assert (Hreg : forall f, nregs f [EReg t g] = b2z (g =? f)%nat) by (intros f; unfold nregs; cbn; lia).
    unfold REG. cbn [fst snd]. split; [|split; [|split; [|split; [|split; [|split; [|split]]]]]].
    + intros f. rewrite nregs_app, Hreg, R1. unfold s2. cbn [nreg]. fold g. destruct (Nat.ltb_spec f g), (Nat.ltb_spec f (S g)), (Nat.eqb_spec g f); cbn [b2z]; lia.
    + intros y d f Hd Hf. rewrite Hc2 in Hd. apply in_app_iff. destruct (Nat.eqb_spec y x) as [->|]; [|left; eapply Hfrom; eauto]. inversion Hd; subst d. cbn [atexit xown] in *. apply in_app_iff in Hf.
      destruct Hf as [Hf|[<-|[]]]; [left; eapply Hfrom; eauto|]. right. left. rewrite Ho0. reflexivity.
    + intros u w f Hu Hf. apply in_app_iff. left. eauto.
    + intros u f. rewrite !in_app_iff. intros [Hi|[Hi|[]]]; [left; auto|discriminate].
    + intros u w f. rewrite !in_app_iff. intros [A|[A|[]]] [B|[B|[]]]; [eauto| | |].
      * inversion B; subst. exfalso. eapply Hold; eauto.
      * inversion A; subst. exfalso. eapply Hold; eauto.
      * inversion A; inversion B; subst. reflexivity.
    + intros f. rewrite nregs_app, nruns_app, Hreg, Hrun, Hpend. specialize (R6 f). lia.
    + intros f Hl. rewrite nregs_app, nruns_app, Hreg, Hrun, Hpend. specialize (R7 f ltac:(intros G; apply Hl; apply late_app; exact G)). lia.
    + intros Hw u w y d f Hu Hx Hd. rewrite Hc2 in Hd. specialize (R8 Hw u w y).
      assert (Hpre : forall d0, ctx_of s1 y = Some d0 -> match est w with ExTls _ _ _ _ | ExNot _ _ _ => In f (atexit d0) -> late pl f (tr ++ [EReg t g]) | _ => True end).
      { intros d0 Hd0. destruct (ensure_back pl s ths t th HW Ht H y d0 Hd0) as [A|(-> & _)]; [specialize (R8 d0 f Hu Hx A); destruct (est w); auto; intros Hf; apply late_app; auto|destruct (est w); auto; intros []]. }
      destruct (Nat.eqb_spec y x) as [->|]; [|apply Hpre; exact Hd]. inversion Hd; subst d. cbn [atexit]. specialize (Hpre c H0).
      assert (u = t). { destruct HW' as (_ & _ & W3 & _). destruct (W3 u w x Hu Hx) as (d & A & B & _). congruence. } subst u. assert (w = th) by congruence. subst w.
      destruct (est th) eqn:Ee; auto.
      * intros Hf. apply in_app_iff in Hf. destruct Hf as [Hf|[<-|[]]]; [auto|]. split; [exact Hw|]. exists t, tr, []. split; [reflexivity|]. unfold TLS in HT. rewrite Ee in HT. apply HT. left. intros E0. rewrite (user_stk th H E0) in Ee. discriminate.
      * intros _. exfalso. rewrite (user_stk th H H5t) in Ee. discriminate.
  - (* notification *)
    eapply REG_user; eauto; [cbn; apply ensure_nreg| | |repeat constructor].
    + intros y d Hd. rewrite (ctx_set _ _ _ _ _ H0) in Hd. destruct (Nat.eqb_spec y (snd (ensure s t))) as [->|]; [|apply (Hens H y d Hd)]. inversion Hd; subst d. cbn. apply (Hens H _ c H0).
    + intros f. rewrite (pend_ctx _ _ _ _ _ _ H0), pend_ensure. cbn [wat atexit]. lia.
  - eapply REG_user; eauto.
  - eapply REG_quiet; eauto; [|repeat constructor| |].
    + intros f. rewrite (pend_thr _ _ _ _ _ _ Ht), H0. cbn. destruct pl; [destruct (slot s t)|..]; cbn; lia.
    + cbn. destruct pl; [destruct (slot s t)|..]; intros f [].
    + intros -> x d f. cbn. destruct (slot s t); auto.
  - eapply REG_user; eauto. repeat constructor.
  - eapply REG_user; eauto.
  - eapply REG_quiet; eauto; [|intros f []|cbn; intros; discriminate]. intros f. rewrite (pend_thr _ _ _ _ _ _ Ht), H0. cbn. lia.
  - eapply REG_quiet; eauto; [|repeat constructor|intros f []|cbn; auto]. intros f. rewrite (pend_thr _ _ _ _ _ _ Ht), H0. cbn. assert (E : pend f (set_slot s t None, ths) = pend f (s, ths)) by (apply pend_ext; reflexivity). rewrite E. lia.
  - (* an exit function is called *)
    assert (Hi : forall u h, In (EReg u h) (tr ++ [ERun t f]) <-> In (EReg u h) tr) by (intros u h; rewrite in_app_iff; split; [intros [G|[G|[]]]; [exact G|discriminate]|auto]).
    assert (Hf0 : In (EReg t f) tr) by (eapply R3; [exact Ht|rewrite H0; left; reflexivity]).
    assert (Hpend : forall h, pend h (s, upd ths t (Th [FUser] (ExAt x n fs))) = pend h (s, ths) - b2z (f =? h)%nat) by (intros h; rewrite (pend_thr _ _ _ _ _ _ Ht), H0; unfold cnt; cbn; lia).
    assert (Hrun : forall h, nruns h [ERun t f] = b2z (f =? h)%nat) by (intros h; unfold nruns; cbn; lia). assert (Hreg : forall h, nregs h [ERun t f] = 0) by reflexivity.
    unfold REG. cbn [fst snd]. split; [|split; [|split; [|split; [|split; [|split; [|split]]]]]].
    + intros h. rewrite nregs_app, Hreg, R1. lia.
    + intros y d h Hd Hh. rewrite Hi. eauto.
    + intros u w h Hu Hh. rewrite Hi. apply nth_upd_inv in Hu. destruct Hu as [(<- & -> & _)|(Hn & Hu)]; [|eauto]. eapply R3; [exact Ht|]. rewrite H0. right. exact Hh.
    + intros u h. rewrite Hi, in_app_iff. intros [G|[G|[]]]; [auto|]. inversion G; subst. exact Hf0.
    + intros u w h. rewrite !Hi. apply R5.
    + intros h. rewrite nregs_app, nruns_app, Hreg, Hrun, Hpend. specialize (R6 h). lia.
    + intros h Hl. rewrite nregs_app, nruns_app, Hreg, Hrun, Hpend. specialize (R7 h ltac:(intros G; apply Hl; apply late_app; exact G)). lia.
    + intros Hw u w y d h Hu Hx Hd. apply nth_upd_inv in Hu. destruct Hu as [(<- & -> & _)|(Hn & Hu)]; [exact I|]. specialize (R8 Hw u w y d h Hu Hx Hd). destruct (est w); auto; intros G; apply late_app; auto.
  - eapply REG_quiet; eauto; [|intros f []|].
    + intros f. rewrite (pend_thr _ _ _ _ _ _ Ht), H0. cbn. lia.
    + cbn. intros _ y d f Ey Hd. inversion Ey; subst y. assert (d = c) as -> by congruence. rewrite H7. intros [].
  - (* a round *)
    eapply REG_quiet; eauto.
    + intros y d Hd. rewrite (ctx_set _ _ _ _ _ H6) in Hd. destruct (Nat.eqb_spec y x) as [->|]; [right; inversion Hd; reflexivity|auto].
    + intros f. rewrite (pend_thr _ _ _ _ _ _ Ht), H0, (pend_ctx _ _ _ _ _ _ H6). cbn [est infun wat atexit]. rewrite cnt_rev. unfold cnt at 2 3. cbn. lia.
    + cbn. intros f Hf. apply in_rev in Hf. destruct (H3 t th x Ht ltac:(rewrite H0; reflexivity)) as (d & A & B & _). rewrite <- B. assert (d = c) as -> by congruence. eapply R2; eauto.
    + intros. exact I.
  - eapply REG_quiet; eauto; [|intros f []|].
    + intros f. rewrite (pend_thr _ _ _ _ _ _ Ht), H0. cbn. lia.
    + cbn. intros Hw y d f Ey Hd Hf. apply late_app. specialize (R8 Hw t th y d f Ht). rewrite H0 in R8. apply R8; assumption.
  - eapply REG_quiet; eauto; [|repeat constructor|intros f []|].
    + intros f. rewrite (pend_thr _ _ _ _ _ _ Ht), H0. cbn. lia.
    + cbn. intros Hw y d f Ey Hd Hf. apply late_app. specialize (R8 Hw t th y d f Ht). rewrite H0 in R8. apply R8; assumption.
  - eapply REG_quiet; eauto; [|intros f []|].
    + intros f. rewrite (pend_thr _ _ _ _ _ _ Ht), H0. cbn. lia.
    + cbn. intros Hw y d f Ey Hd Hf. apply late_app. specialize (R8 Hw t th y d f Ht). rewrite H0 in R8. apply R8; assumption.
  - eapply REG_quiet; eauto; [| |repeat constructor|intros f []|].
    + intros y d Hd. rewrite (ctx_set _ _ _ _ _ H7) in Hd. destruct (Nat.eqb_spec y x) as [->|]; [|auto]. inversion Hd; subst d. left. exists c. auto.
    + intros f. rewrite (pend_thr _ _ _ _ _ _ Ht), H0, (pend_ctx _ _ _ _ _ _ H7). cbn [wat atexit est infun]. lia.
    + cbn. intros Hw y d f Ey Hd Hf. inversion Ey; subst y. apply late_app. rewrite (ctx_set _ _ _ _ _ H7), Nat.eqb_refl in Hd. inversion Hd; subst d. specialize (R8 Hw t th x c f Ht). rewrite H0 in R8. apply R8; auto.
  - eapply REG_quiet; eauto; [|repeat constructor|intros f []|].
    + intros f. rewrite (pend_thr _ _ _ _ _ _ Ht), H0. cbn. lia.
    + cbn. intros Hw y d f Ey Hd Hf. apply late_app. specialize (R8 Hw t th y d f Ht). rewrite H0 in R8. apply R8; assumption.
  - (* the context is destroyed *)
    rewrite app_nil_r. destruct (H3 t th x Ht ltac:(rewrite H0; reflexivity)) as (c & Hc & Ho & Hw & Hph). rewrite H0 in Hph. cbn in Hph. destruct Hph as (_ & Hat).
    set (s1 := match pl with Win => set_slot (set_ctx s x None) t None | _ => set_ctx s x None end). set (th1 := Th [] (match pl with Win => Done | _ => Iter n end)).
    assert (Hcx : forall y, ctx_of s1 y = if (y =? x)%nat then None else ctx_of s y) by (intros y; unfold s1; destruct pl; exact (ctx_set s x c None y Hc)).
    assert (Hpend : forall f, pend f (s1, upd ths t th1) = pend f (s, ths) - cnt f (atexit c)).
    { intros f. rewrite (pend_thr _ _ _ _ _ _ Ht), H0. assert (E : pend f (s1, ths) = pend f (set_ctx s x None, ths)) by (apply pend_ext; unfold s1; destruct pl; reflexivity). rewrite E, (pend_ctx _ _ _ _ _ _ Hc). unfold th1. destruct pl; cbn; lia. }
    unfold REG. cbn [fst snd]. split; [|split; [|split; [|split; [|split; [|split; [|split]]]]]]; auto.
    + intros f. rewrite R1. unfold s1. destruct pl; reflexivity.
    + intros y d f. rewrite Hcx. destruct (y =? x)%nat; [discriminate|eauto].
    + intros u w f Hu Hf. apply nth_upd_inv in Hu. destruct Hu as [(<- & -> & _)|(Hn & Hu)]; [unfold th1 in Hf; destruct pl; destruct Hf|eauto].
    + intros f. rewrite Hpend. specialize (R6 f). pose proof (cnt_nonneg f (atexit c)). lia.
    + intros f Hl. rewrite Hpend. specialize (R7 f Hl). enough (cnt f (atexit c) = 0) by lia. destruct pl; [|rewrite Hat by discriminate; reflexivity..].
      apply cnt_out. intros Hf. apply Hl. specialize (R8 eq_refl t th x c f Ht). rewrite H0 in R8. apply R8; auto.
    + intros Hp u w y d f Hu Hx. rewrite Hcx. apply nth_upd_inv in Hu. destruct Hu as [(<- & -> & _)|(Hn & Hu)]; [unfold th1 in *; destruct pl; discriminate|]. destruct (y =? x)%nat; [discriminate|]. intros Hd. eapply R8; eauto.
Qed.

Lemma tss_exit pl n sched c tr : exec (tss_step pl) (tss_init n) sched = Some (c, tr) -> BASE pl c /\ ALLTI pl c tr /\ REG pl c tr.
Proof.
  apply (exec_inv (tss_step pl) (fun c tr => BASE pl c /\ ALLTI pl c tr /\ REG pl c tr)).
  - split; [apply base_init|]. split; [apply TI_init|]. unfold REG. cbn [fst snd]. split; [|split; [|split; [|split; [|split; [|split; [|split]]]]]].
    + reflexivity.
    + intros [|x] d f; discriminate.
    + intros t th f Ht. apply nth_repeat in Ht. subst th. intros [].
    + intros t f [].
    + intros t u f [].
    + intros f. unfold pend. cbn. rewrite sumf_repeat. cbn. lia.
    + intros f _. unfold pend. cbn. rewrite sumf_repeat. cbn. lia.
    + intros _ t th x d f Ht. apply nth_repeat in Ht. subst th. discriminate.
  - intros c0 tr0 a c1 e (HB & HA & HR) Hs. split; [eapply base_step; eauto|]. destruct c0 as [s ths]. destruct HB as (HW & HK). destruct (tss_effects _ _ _ _ _ _ Hs) as (th & th' & Ht & E & He). destruct c1 as [s1 ths1]. cbn [fst snd] in *. subst ths1.
    split; [eapply TI_step; eauto|]. eapply REG_step; eauto. apply (HA _ _ Ht).
Qed.
