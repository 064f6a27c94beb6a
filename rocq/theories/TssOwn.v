(** Thread-specific storage: accounting of owned values. *)
From Coq Require Import List Bool Arith ZArith Lia.
From Verif Require Import ListSum Exec TssModel TssProof TssKeys.
Import ListNotations.
Local Open Scope Z_scope.

(** ** Destruction of a pointer while an exiting thread has its value in hand *)
(** Between M:168 and the end of the loop M:169-178 the values of the exiting thread are in a local vector, out of delete_key's reach.
    [in_flight k th]: the thread has a value of key [k] there that it has not come to yet. *)
Definition in_flight (k : nat) (th : thr) : bool :=
  match est th with ExTls _ _ j st => (j <=? k)%nat && negb (getv st k =? 0)%nat | _ => false end.
(** No pointer is destroyed while an exiting thread has a value of it in hand. *)
Definition calm (c : tss_st) (a : tact2) : bool :=
  match a with
  | ADel _ p => match nth_error (tptrs (fst c)) p with Some q => negb (existsb (in_flight (pkey q)) (snd c)) | None => true end
  | _ => true
  end.
Definition calm_step (pl : plat) (c : tss_st) (a : tact2) : option (tss_st * list tev) := if calm c a then tss_step pl c a else None.

(** ** Counting *)
Definition b2z (b : bool) : Z := if b then 1 else 0.
(** Values [v] installed in, taken out of, and cleaned for, pointers with the cleanup function [cb]. *)
Definition installed (cb v : nat) (tr : list tev) : Z := sumf (fun e => match e with ESet _ _ (Some c) x => b2z ((c =? cb)%nat && (x =? v)%nat) | _ => 0 end) tr.
Definition taken (cb v : nat) (tr : list tev) : Z := sumf (fun e => match e with ERel _ _ (Some c) x => b2z ((c =? cb)%nat && (x =? v)%nat) | _ => 0 end) tr.
Definition cleaned (cb v : nat) (tr : list tev) : Z := sumf (fun e => match e with ECall _ c x => b2z ((c =? cb)%nat && (x =? v)%nat) | _ => 0 end) tr.

(** Values still in place: in the storage of a context, in hand of an exiting thread, or in a list of calls to be made. *)
Definition hitk (cb v : nat) (ks : list (option nat * bool)) (k x : nat) : Z :=
  match nth_error ks k with Some (Some c, _) => b2z ((c =? cb)%nat && (x =? v)%nat) | _ => 0 end.
Fixpoint wl (cb v : nat) (ks : list (option nat * bool)) (k : nat) (l : list nat) : Z :=
  match l with [] => 0 | x :: l' => hitk cb v ks k x + wl cb v ks (S k) l' end.
Definition wctx (cb v : nat) (ks : list (option nat * bool)) (o : option ctx) : Z := match o with Some c => wl cb v ks 0 (storage c) | None => 0 end.
Definition wfr (cb v : nat) (f : frame) : Z := match f with FRun c vs => if (c =? cb)%nat then sumf (fun x => b2z (x =? v)%nat) vs else 0 | FUser => 0 end.
Definition west (cb v : nat) (ks : list (option nat * bool)) (e : estate) : Z := match e with ExTls _ _ k st => wl cb v ks k (skipn k st) | _ => 0 end.
Definition wthr (cb v : nat) (ks : list (option nat * bool)) (th : thr) : Z := sumf (wfr cb v) (stk th) + west cb v ks (est th).
Definition held (cb v : nat) (c : tss_st) : Z := sumf (wctx cb v (keys (fst c))) (ctxs (fst c)) + sumf (wthr cb v (keys (fst c))) (snd c).

Section Count.
  Variables cb v : nat.
  Hypothesis Hv : v <> 0%nat.
  Notation hit := (hitk cb v). Notation wsum := (wl cb v).

  Lemma hit0 ks k : hit ks k 0 = 0.
  Proof. unfold hitk. destruct (nth_error ks k) as [[[c|] f]|]; try reflexivity. destruct v; [congruence|]. rewrite andb_false_r. reflexivity. Qed.
  Lemma hit_nonneg ks k x : 0 <= hit ks k x.
  Proof. unfold hitk, b2z. destruct (nth_error ks k) as [[[c|] f]|]; try lia. destruct (_ && _); lia. Qed.
  Lemma wl_nonneg ks l : forall k, 0 <= wsum ks k l.
  Proof. induction l as [|x l IH]; intros k; cbn; [lia|]. pose proof (hit_nonneg ks k x). specialize (IH (S k)). lia. Qed.
  Lemma wl_ext ks ks' l : forall k, (forall j x, nth_error l j = Some x -> x <> 0%nat -> nth_error ks' (k + j) = nth_error ks (k + j)) -> wsum ks' k l = wsum ks k l.
  Proof.
    induction l as [|x l IH]; intros k H; cbn; [reflexivity|]. f_equal.
    - destruct x as [|x]; [rewrite !hit0; reflexivity|]. specialize (H 0%nat (S x) eq_refl ltac:(discriminate)). rewrite Nat.add_0_r in H. unfold hitk. rewrite H. reflexivity.
    - apply IH. intros j y Hj Hy. specialize (H (S j) y Hj Hy). rewrite Nat.add_succ_r in H. exact H.
  Qed.
  Lemma wl_setv ks j y : forall l k, wsum ks k (setv l j y) = wsum ks k l - hit ks (k + j) (getv l j) + hit ks (k + j) y.
  Proof.
    induction j as [|j IH]; intros [|x l] k; cbn [setv wl].
    - unfold getv. cbn. rewrite Nat.add_0_r, hit0. lia.
    - unfold getv. cbn. rewrite Nat.add_0_r. lia.
    - rewrite IH, hit0. cbn [wl]. rewrite !getv_nil, !hit0. rewrite Nat.add_succ_comm. lia.
    - rewrite IH. change (getv (x :: l) (S j)) with (getv l j). rewrite Nat.add_succ_comm. lia.
  Qed.

  Lemma nth_getv l j (x : nat) : nth_error l j = Some x -> getv l j = x.
  Proof. unfold getv. revert j. induction l as [|a l IH]; intros [|j]; cbn; intros H; try discriminate; [congruence|auto]. Qed.
  Lemma getv_skipn k : forall l j, getv (skipn k l) j = getv l (k + j).
  Proof. unfold getv. induction k as [|k IH]; intros [|a l] j; cbn; try reflexivity; [destruct j; reflexivity|apply IH]. Qed.

  (** Keys change only where nothing is stored. *)
  Lemma wctx_keys ks ks' o : (forall c j, o = Some c -> getv (storage c) j <> 0%nat -> nth_error ks' j = nth_error ks j) -> wctx cb v ks' o = wctx cb v ks o.
  Proof. destruct o as [c|]; cbn; [|reflexivity]. intros H. apply wl_ext. intros j x Hj Hx. cbn. apply (H c j eq_refl). rewrite (nth_getv _ _ _ Hj). exact Hx. Qed.
  Lemma wthr_keys ks ks' th : (forall x n k st j, est th = ExTls x n k st -> (k <= j)%nat -> getv st j <> 0%nat -> nth_error ks' j = nth_error ks j) -> wthr cb v ks' th = wthr cb v ks th.
  Proof.
    intros H. unfold wthr. f_equal. unfold west. destruct (est th) as [| | |x n k st| |] eqn:E; try reflexivity. apply wl_ext. intros j y Hj Hy. eapply H; [reflexivity|lia|].
    rewrite <- getv_skipn, (nth_getv _ _ _ Hj). exact Hy.
  Qed.
End Count.

Lemma sumf_ext_nth {A} (f g : A -> Z) l : (forall i a, nth_error l i = Some a -> f a = g a) -> sumf f l = sumf g l.
Proof. induction l as [|a l IH]; intros H; cbn; [reflexivity|]. rewrite (H 0%nat a eq_refl), IH; [reflexivity|]. intros i b Hb. apply (H (S i)). exact Hb. Qed.

Definition INF (s : tsh) (ths : list thr) : Prop :=
  forall t th x n k st j, nth_error ths t = Some th -> est th = ExTls x n k st -> (k <= j)%nat -> (In j (freed s) \/ (length (keys s) <= j)%nat) -> getv st j = 0%nat.

Definition OWN (c : tss_st) (tr : list tev) : Prop :=
  INF (fst c) (snd c) /\ forall cb v, v <> 0%nat -> installed cb v tr = cleaned cb v tr + taken cb v tr + held cb v c.

Lemma ctx_list_spec (s : tsh) i c : nth_error (ctxs s) i = Some (Some c) <-> ctx_of s i = Some c.
Proof. unfold ctx_of. destruct (nth_error (ctxs s) i) as [[d|]|]; split; congruence. Qed.

Lemma del_action pl s ths a c' t p : tss_step pl (s, ths) a = Some (c', [EDel t p]) -> a = ADel t p.
Proof.
  cbn [tss_step]. destruct (nth_error ths (thread_of a)) as [th|]; [|discriminate]. intros H.
  destruct a as [u cb fl|u q|u q|u q|u q v f|u f|u m f|u|u|u]; cbn [thread_of] in H; try (destruct (user th); [|discriminate]); cbn [tss_user] in H.
  - inversion H.
  - destruct (nth_error (tptrs s) q) as [r|]; [|discriminate]. destruct (palive r); [|discriminate]. destruct (delete_key s q r). inversion H; subst. reflexivity.
  - destruct (nth_error (tptrs s) q) as [r|]; [|discriminate]. destruct (palive r); inversion H.
  - destruct (nth_error (tptrs s) q) as [r|]; [|discriminate]. destruct (palive r); [|discriminate]. destruct (_ =? _)%nat; inversion H.
  - destruct (nth_error (tptrs s) q) as [r|]; [|discriminate]. destruct (palive r); [|discriminate]. destruct (_ =? _)%nat; [inversion H|]. destruct f; [inversion H| |]; destruct (can_fail _ _ _); inversion H.
  - destruct f; [|destruct (can_fail _ _ _); inversion H..]. destruct (ensure s u) as [s1 x]. destruct (ctx_of s1 x); inversion H.
  - destruct f; [|destruct (can_fail _ _ _); inversion H..]. destruct (ensure s u) as [s1 x]. destruct (ctx_of s1 x); inversion H.
  - destruct (stk th) as [|[] ?]; inversion H.
  - destruct (stk th); inversion H.
  - unfold tss_run in H. destruct (stk th) as [|[|cb [|v vs]] r]; try discriminate; try (inversion H; fail). destruct (est th) as [|[|n]|x n [|f fs]|x n k st|x n [|m ms]|]; try discriminate; try (inversion H; fail).
    + destruct (slot s u); inversion H.
    + destruct (ctx_of s x) as [c|]; [|discriminate]. destruct (atexit c); inversion H.
    + destruct (nth_error st k) as [[|v]|]; [inversion H| |].
      * destruct (nth_error (keys s) k) as [[[cb|] fl]|]; inversion H.
      * destruct (ctx_of s x) as [c|]; [|discriminate]. destruct (storage c); inversion H.
    + destruct pl; inversion H.
Qed.

Lemma installed_app cb v a b : installed cb v (a ++ b) = installed cb v a + installed cb v b. Proof. apply sumf_app. Qed.
Lemma taken_app cb v a b : taken cb v (a ++ b) = taken cb v a + taken cb v b. Proof. apply sumf_app. Qed.
Lemma cleaned_app cb v a b : cleaned cb v (a ++ b) = cleaned cb v a + cleaned cb v b. Proof. apply sumf_app. Qed.

Lemma count_concat k v (l : list (option ctx)) : v <> 0%nat ->
  sumf (fun x => b2z (x =? v)%nat) (concat (map (vals1 k) l)) = sumf (fun o => match o with Some c => b2z (getv (storage c) k =? v)%nat | None => 0 end) l.
Proof.
  intros Hv. induction l as [|o l IH]; cbn; [reflexivity|]. rewrite sumf_app, IH. f_equal. destruct o as [c|]; cbn; [|reflexivity].
  destruct (Nat.eqb_spec (getv (storage c) k) 0) as [E|E]; cbn; [rewrite E; destruct v; [congruence|reflexivity]|lia].
Qed.

Lemma wctx_clear cb v ks k o f fl : v <> 0%nat -> nth_error ks k = Some (f, fl) ->
  wctx cb v (upd ks k (None, true)) (clear1 k o) = wctx cb v ks o - (match f with Some c => if (c =? cb)%nat then (match o with Some d => b2z (getv (storage d) k =? v)%nat | None => 0 end) else 0 | None => 0 end).
Proof.
  intros Hv Hk. destruct o as [c|]; [|cbn; destruct f; [destruct (_ =? _)%nat|]; reflexivity]. rewrite clear1_clr.
  assert (E : wctx cb v (upd ks k (None, true)) (Some (clr k c)) = wctx cb v ks (Some (clr k c))).
  { apply wctx_keys; [exact Hv|]. intros d j Ed Hj. inversion Ed; subst d. rewrite clr_get in Hj. destruct (Nat.eqb_spec j k); [congruence|]. apply nth_upd_neq. congruence. }
  rewrite E. clear E. cbn [wctx]. unfold clr.
  assert (Hh : hitk cb v ks k (getv (storage c) k) = match f with Some c0 => if (c0 =? cb)%nat then b2z (getv (storage c) k =? v)%nat else 0 | None => 0 end).
  { unfold hitk. rewrite Hk. destruct f as [c0|]; [|reflexivity]. destruct (c0 =? cb)%nat; reflexivity. }
  destruct (Nat.eqb_spec (getv (storage c) k) 0) as [Ez|Ez].
  - rewrite <- Hh, Ez, hit0 by exact Hv. lia.
  - cbn [storage]. rewrite (wl_setv cb v Hv). cbn [Nat.add]. rewrite (hit0 cb v Hv). rewrite <- Hh. lia.
Qed.

Lemma sumf_map_sub {A} (g : A -> A) (f f' h : A -> Z) l : (forall a, f' (g a) = f a - h a) -> sumf f' (map g l) = sumf f l - sumf h l.
Proof. intros H. induction l as [|a l IH]; cbn; [lia|]. rewrite H, IH. lia. Qed.

Lemma held_ensure cb v s ths t : held cb v (fst (ensure s t), ths) = held cb v (s, ths).
Proof. unfold held, ensure. destruct (slot s t); [reflexivity|]. cbn. rewrite sumf_app. cbn. lia. Qed.

Lemma held_ctx cb v s ths x c c' : ctx_of s x = Some c -> held cb v (set_ctx s x (Some c'), ths) = held cb v (s, ths) - wl cb v (keys s) 0 (storage c) + wl cb v (keys s) 0 (storage c').
Proof. intros Hc. apply ctx_list_spec in Hc. unfold held. cbn. rewrite (sumf_upd _ _ _ _ _ Hc). cbn. lia. Qed.

Lemma held_thr cb v s ths t th th' : nth_error ths t = Some th -> held cb v (s, upd ths t th') = held cb v (s, ths) - wthr cb v (keys s) th + wthr cb v (keys s) th'.
Proof. intros Ht. unfold held. cbn. rewrite (sumf_upd _ _ _ _ _ Ht). lia. Qed.

Lemma skipn_nth {A} (l : list A) k x : nth_error l k = Some x -> skipn k l = x :: skipn (S k) l.
Proof. revert k. induction l as [|a l IH]; intros [|k]; cbn; intros H; try discriminate; [congruence|apply IH; exact H]. Qed.

Lemma INF_thr s ths t th' : INF s ths -> (forall x n k st j, est th' = ExTls x n k st -> (k <= j)%nat -> (In j (freed s) \/ (length (keys s) <= j)%nat) -> getv st j = 0%nat) -> INF s (upd ths t th').
Proof. intros HI H u w x n k st j Hu Hw. apply nth_upd_inv in Hu. destruct Hu as [(_ & -> & _)|(_ & Hu)]; [eapply H; eauto|eapply HI; eauto]. Qed.
Lemma INF_ext s s' ths : keys s' = keys s -> freed s' = freed s -> INF s ths -> INF s' ths.
Proof. unfold INF. intros -> ->. auto. Qed.

Lemma west_same cb v ks th th' : est th' = est th -> wthr cb v ks th' = wthr cb v ks th - sumf (wfr cb v) (stk th) + sumf (wfr cb v) (stk th').
Proof. intros E. unfold wthr. rewrite E. lia. Qed.

Lemma own_step pl s ths t th s' th' e tr : WFC pl s ths -> WFK s -> nth_error ths t = Some th -> tss_eff pl s t th s' th' e ->
  (forall p q, e = [EDel t p] -> alive s p q -> existsb (in_flight (pkey q)) ths = false) ->
  OWN (s, ths) tr -> OWN (s', upd ths t th') (tr ++ e).
Proof.
  intros HW HK Ht He Hcalm (HI & HO). cbn [fst snd] in HI. pose proof HK as (K1 & K2 & K3 & K4 & K5).
  assert (Hset : forall cb v p q w, v <> 0%nat -> user th = true -> alive s p q -> 
     held cb v (set_value s t (pkey q) w, ths) = held cb v (s, ths) - hitk cb v (keys s) (pkey q) (get s t (pkey q)) + hitk cb v (keys s) (pkey q) w).
  { intros cb v p q w Hv Hu Hp. pose proof (set_value_ok pl s ths t th (pkey q) w HW Ht Hu) as (_ & _ & x & c & Hs & Hc & E & Ex). rewrite E, (held_ctx _ _ _ _ _ _ _ Hc), held_ensure. cbn [storage].
    rewrite (wl_setv cb v Hv). destruct (ensure_nreg s t) as (_ & Ek & _). rewrite Ek. cbn [Nat.add].
    assert (Eg : get s t (pkey q) = getv (storage c) (pkey q)).
    { rewrite <- (ensure_get pl s ths t th HW Ht Hu). unfold get. rewrite (proj1 (proj2 (ensure_ok pl s ths t th HW Ht Hu))), Ex, Hc. reflexivity. }
    rewrite Eg. lia. }
  assert (Hhit : forall cb v p q w, alive s p q -> hitk cb v (keys s) (pkey q) w = match pcb q with Some c => b2z ((c =? cb)%nat && (w =? v)%nat) | None => 0 end).
  { intros cb v p q w Hp. destruct (K1 p q Hp) as ((fl & A) & _). unfold hitk. rewrite A. reflexivity. }
  destruct He.
  - (* new *) rewrite (upd_same _ _ _ Ht).
    assert (Hkeys : forall j, ~ In j (freed s) -> (j < length (keys s))%nat -> nth_error (keys (new_key s cb flag)) j = nth_error (keys s) j).
    { intros j Hf Hl. unfold new_key. destruct (freed s) as [|k fr]; cbn; [apply nth_error_app1; exact Hl|apply nth_upd_neq; intros ->; apply Hf; left; reflexivity]. }
    split.
    + intros u w x n k st j Hu Hw Hkj Hj. eapply HI; eauto. revert Hj. cbn [fst]. unfold new_key. destruct (freed s); cbn; rewrite ?app_length, ?upd_length; cbn; intuition lia.
    + intros cb0 v Hv. rewrite installed_app, taken_app, cleaned_app. specialize (HO cb0 v Hv). cbn [installed taken cleaned sumf].
      enough (held cb0 v (new_key s cb flag, ths) = held cb0 v (s, ths)) by (unfold installed, taken, cleaned in *; cbn; lia).
      unfold held. cbn [fst snd]. assert (Ec : ctxs (new_key s cb flag) = ctxs s) by (unfold new_key; destruct (freed s); reflexivity). rewrite Ec.
      assert (Hj : forall j, (In j (freed s) \/ (length (keys s) <= j)%nat) \/ (~ In j (freed s) /\ (j < length (keys s))%nat)) by (intros j; destruct (in_dec Nat.eq_dec j (freed s)), (le_lt_dec (length (keys s)) j); tauto).
      f_equal; apply sumf_ext_nth; intros i a Ha.
      * apply wctx_keys; [exact Hv|]. intros c j -> Hc. apply ctx_list_spec in Ha. destruct (Hj j) as [Hb|(A & B)]; [exfalso; apply Hc; eapply K5; eauto|apply Hkeys; assumption].
      * apply wthr_keys; [exact Hv|]. intros x n k st j He' Hk Hc. destruct (Hj j) as [Hb|(A & B)]; [exfalso; apply Hc; eapply HI; eauto|apply Hkeys; assumption].
  - (* del *) rename H0 into Hp. specialize (Hcalm p q eq_refl Hp).
    assert (Hnf : forall u w x n k st, nth_error ths u = Some w -> est w = ExTls x n k st -> (k <= pkey q)%nat -> getv st (pkey q) = 0%nat).
    { intros u w x n k st Hu Hw Hk. destruct (Nat.eqb_spec (getv st (pkey q)) 0) as [E|E]; [exact E|]. exfalso. apply nth_error_In in Hu.
      assert (existsb (in_flight (pkey q)) ths = true); [|congruence]. apply existsb_exists. exists w. split; [exact Hu|]. unfold in_flight. rewrite Hw. apply Nat.leb_le in Hk. apply Nat.eqb_neq in E. rewrite Hk, E. reflexivity. }
    destruct (delete_facts s p q) as (_ & _ & _ & [(f & Hk & Ek & Ef & Ec & _ & Efr)|(_ & Ek & Ef & Ec & Efr)]); rewrite Efr; set (s' := fst (delete_key s p q)) in *.
    + split.
      * apply INF_thr.
        -- intros u w x n k st j Hu Hw Hkj. cbn [fst]. rewrite Ef, Ek, upd_length. intros [[<-|Hj]|Hj]; [eapply Hnf; eauto|eapply HI; eauto|eapply HI; eauto].
        -- intros x n k st j Hw Hkj. cbn [fst]. change (est (push th _)) with (est th) in Hw. rewrite Ef, Ek, upd_length. intros [[<-|Hj]|Hj]; [eapply Hnf; eauto|eapply HI; eauto|eapply HI; eauto].
      * intros cb0 v Hv. rewrite installed_app, taken_app, cleaned_app. specialize (HO cb0 v Hv).
        enough (G : held cb0 v (s', upd ths t (push th match f with Some f0 => [FRun f0 (concat (map (vals1 (pkey q)) (ctxs s)))] | None => [] end)) = held cb0 v (s, ths)) by (rewrite G; unfold installed, taken, cleaned in *; cbn [sumf]; lia).
        rewrite (held_thr _ _ _ _ _ _ _ Ht). rewrite (west_same cb0 v (keys s') th (push th _)) by reflexivity. cbn [push stk]. rewrite sumf_app.
        assert (G1 : held cb0 v (s', ths) = held cb0 v (s, ths) - match f with Some c => if (c =? cb0)%nat then sumf (fun o => match o with Some d => b2z (getv (storage d) (pkey q) =? v)%nat | None => 0 end) (ctxs s) else 0 | None => 0 end).
        { unfold held. cbn [fst snd]. rewrite Ec, Ek.
          assert (G2 : sumf (wthr cb0 v (upd (keys s) (pkey q) (None, true))) ths = sumf (wthr cb0 v (keys s)) ths).
          { apply sumf_ext_nth. intros i a Ha. apply wthr_keys; [exact Hv|]. intros x n k st j He' Hkj Hc. apply nth_upd_neq. intros <-. apply Hc. eapply Hnf; eauto. }
          rewrite G2. rewrite (sumf_map_sub (clear1 (pkey q)) (wctx cb0 v (keys s)) (wctx cb0 v (upd (keys s) (pkey q) (None, true)))
             (fun o => match f with Some c => if (c =? cb0)%nat then (match o with Some d => b2z (getv (storage d) (pkey q) =? v)%nat | None => 0 end) else 0 | None => 0 end)) by (intros o; eapply wctx_clear; eauto).
          assert (G3 : sumf (fun o => match f with Some c => if (c =? cb0)%nat then (match o with Some d => b2z (getv (storage d) (pkey q) =? v)%nat | None => 0 end) else 0 | None => 0 end) (ctxs s)
                     = match f with Some c => if (c =? cb0)%nat then sumf (fun o => match o with Some d => b2z (getv (storage d) (pkey q) =? v)%nat | None => 0 end) (ctxs s) else 0 | None => 0 end).
          { assert (Z0 : forall l : list (option ctx), sumf (fun _ => 0) l = 0) by (induction l; cbn; lia). destruct f as [c|]; [|apply Z0]. destruct (c =? cb0)%nat; [reflexivity|apply Z0]. }
          rewrite G3. lia. }
        rewrite G1. destruct f as [c|]; cbn [sumf wfr]; [|lia]. destruct (c =? cb0)%nat; [rewrite count_concat by exact Hv|]; lia.
    + split.
      * apply INF_thr; [eapply INF_ext; eauto|]. intros x n k st j Hw Hkj. change (est (push th _)) with (est th) in Hw. cbn [fst]. rewrite Ef, Ek. eapply HI; eauto.
      * intros cb0 v Hv. rewrite installed_app, taken_app, cleaned_app. specialize (HO cb0 v Hv).
        enough (G : held cb0 v (s', upd ths t (push th [])) = held cb0 v (s, ths)) by (rewrite G; unfold installed, taken, cleaned in *; cbn [sumf]; lia).
        rewrite (held_thr _ _ _ _ _ _ _ Ht). rewrite (west_same cb0 v (keys s') th (push th [])) by reflexivity. cbn [push stk app]. unfold held. cbn [fst snd]. rewrite Ek, Ec. lia.
  - rewrite (upd_same _ _ _ Ht). split; [exact HI|]. intros cb0 v Hv. rewrite installed_app, taken_app, cleaned_app. specialize (HO cb0 v Hv). unfold installed, taken, cleaned in *; cbn [sumf]. lia.
  - rewrite (upd_same _ _ _ Ht), app_nil_r. split; assumption.
  - (* release *) rewrite (upd_same _ _ _ Ht). destruct (set_value_keys s t (pkey q) 0) as (E1 & E2 & _). split; [eapply INF_ext; eauto|].
    intros cb0 v0 Hv. rewrite installed_app, taken_app, cleaned_app. specialize (HO cb0 v0 Hv). rewrite (Hset cb0 v0 p q 0%nat Hv H H0), hit0 by exact Hv. rewrite <- H1, (Hhit _ _ _ _ _ H0).
    unfold installed, taken, cleaned in *; cbn [sumf]. destruct (pcb q); lia.
  - (* set *) destruct (set_value_keys s t (pkey q) v) as (E1 & E2 & _). split.
    + apply INF_thr; [eapply INF_ext; eauto|]. cbn [fst snd]. rewrite E1, E2. intros x n k st j Hw. change (est (push th _)) with (est th) in Hw. eapply HI; eauto.
    + intros cb0 v0 Hv. rewrite installed_app, taken_app, cleaned_app. specialize (HO cb0 v0 Hv). rewrite (held_thr _ _ _ _ _ _ _ Ht). rewrite (west_same cb0 v0 _ th (push th _)) by reflexivity. cbn [push stk]. rewrite sumf_app.
      rewrite (Hset cb0 v0 p q v Hv H H0), !(Hhit _ _ _ _ _ H0), <- H1. unfold installed, taken, cleaned in *; cbn [sumf].
      destruct (pcb q) as [c|]; cbn [sumf]; [|lia]. destruct (Nat.eqb_spec old 0) as [->|Ho]; cbn [sumf wfr].
      * assert (Ev0 : (0 =? v0)%nat = false) by (apply Nat.eqb_neq; congruence). rewrite Ev0, andb_false_r. cbn [b2z]. lia.
      * destruct (c =? cb0)%nat; cbn [andb b2z]; lia.
  - rewrite (upd_same _ _ _ Ht). split; [exact HI|]. intros cb0 v Hv. rewrite installed_app, taken_app, cleaned_app. specialize (HO cb0 v Hv). unfold installed, taken, cleaned in *. destruct H0 as [->|(m & ->)]; cbn [sumf]; lia.
  - rewrite (upd_same _ _ _ Ht). destruct (ensure_nreg s t) as (_ & E1 & E2 & _). split; [eapply INF_ext; eauto|]. intros cb0 v Hv. rewrite installed_app, taken_app, cleaned_app, held_ensure. specialize (HO cb0 v Hv).
    unfold installed, taken, cleaned in *. destruct H0 as [->|(m & ->)]; cbn [sumf]; lia.
  - rewrite (upd_same _ _ _ Ht). destruct (ensure_nreg s t) as (_ & E1 & E2 & _). cbv zeta. split; [eapply INF_ext; [| |exact HI]; cbn; congruence|]. intros cb0 v Hv. rewrite installed_app, taken_app, cleaned_app. specialize (HO cb0 v Hv).
    assert (G : held cb0 v (set_ctx (fst (ensure s t)) (snd (ensure s t)) (Some (X (xown c) (storage c) (atexit c ++ [nreg s]) (notif c))), ths) = held cb0 v (s, ths)) by (rewrite (held_ctx _ _ _ _ _ _ _ H0), held_ensure; cbn; lia).
    unfold held in G |- *. cbn [fst snd ctxs keys set_ctx] in *. rewrite G. unfold held in HO. unfold installed, taken, cleaned in *; cbn [sumf]. cbn [fst snd] in *. lia.
  - rewrite (upd_same _ _ _ Ht). destruct (ensure_nreg s t) as (_ & E1 & E2 & _). split; [eapply INF_ext; [| |exact HI]; cbn; congruence|]. intros cb0 v Hv. rewrite installed_app, taken_app, cleaned_app. specialize (HO cb0 v Hv).
    rewrite (held_ctx _ _ _ _ _ _ _ H0), held_ensure. unfold installed, taken, cleaned in *; cbn [sumf storage]. lia.
  - split; [apply INF_thr; [exact HI|]; cbn; intros; eapply HI; eauto|]. intros cb0 v Hv. rewrite app_nil_r. specialize (HO cb0 v Hv). rewrite (held_thr _ _ _ _ _ _ _ Ht). rewrite (west_same _ _ _ th (Th _ (est th))) by reflexivity. rewrite H. cbn [stk sumf wfr]. lia.
  - split; [apply INF_thr; [exact HI|]; cbn; destruct pl; [destruct (slot s t)|..]; discriminate|]. intros cb0 v Hv. rewrite installed_app, taken_app, cleaned_app. specialize (HO cb0 v Hv). rewrite (held_thr _ _ _ _ _ _ _ Ht).
    unfold wthr. rewrite H, H0. unfold installed, taken, cleaned in *. cbn [stk est sumf]. destruct pl; [destruct (slot s t)|..]; cbn [west]; lia.
  - split; [apply INF_thr; [exact HI|]; cbn; intros; eapply HI; eauto|]. intros cb0 v0 Hv. rewrite installed_app, taken_app, cleaned_app. specialize (HO cb0 v0 Hv). rewrite (held_thr _ _ _ _ _ _ _ Ht). rewrite (west_same _ _ _ th (Th _ (est th))) by reflexivity. rewrite H.
    unfold installed, taken, cleaned in *. cbn [stk sumf wfr]. destruct (cb =? cb0)%nat; cbn [andb b2z]; lia.
  - split; [apply INF_thr; [exact HI|]; cbn; intros; eapply HI; eauto|]. intros cb0 v Hv. rewrite app_nil_r. specialize (HO cb0 v Hv). rewrite (held_thr _ _ _ _ _ _ _ Ht). rewrite (west_same _ _ _ th (Th _ (est th))) by reflexivity. rewrite H. cbn [stk sumf wfr]. destruct (cb =? cb0)%nat; lia.
  - split; [apply INF_thr; [exact HI|]; discriminate|]. intros cb0 v Hv. rewrite app_nil_r. specialize (HO cb0 v Hv). rewrite (held_thr _ _ _ _ _ _ _ Ht). unfold wthr. rewrite H, H0. cbn [stk est sumf west]. lia.
  - split; [apply INF_thr; [exact HI|]; discriminate|]. intros cb0 v Hv. rewrite installed_app, taken_app, cleaned_app. specialize (HO cb0 v Hv). rewrite (held_thr _ _ _ _ _ _ _ Ht). unfold wthr. rewrite H, H0. unfold installed, taken, cleaned in *. cbn [stk est sumf west].
    unfold held in *. cbn [fst snd ctxs keys set_slot] in *. lia.
  - split; [apply INF_thr; [exact HI|]; discriminate|]. intros cb0 v Hv. rewrite installed_app, taken_app, cleaned_app. specialize (HO cb0 v Hv). rewrite (held_thr _ _ _ _ _ _ _ Ht). unfold wthr. rewrite H, H0. unfold installed, taken, cleaned in *. cbn [stk est sumf west wfr]. lia.
  - split; [apply INF_thr; [exact HI|]|].
    + cbn. intros y m k st j E. inversion E; subst. intros. apply getv_nil.
    + intros cb0 v Hv. rewrite app_nil_r. specialize (HO cb0 v Hv). rewrite (held_thr _ _ _ _ _ _ _ Ht). unfold wthr. rewrite H, H0. cbn [stk est sumf west skipn wl]. lia.
  - split; [apply INF_thr; [eapply INF_ext; [reflexivity|reflexivity|exact HI]|discriminate]|]. intros cb0 v Hv. rewrite app_nil_r. specialize (HO cb0 v Hv). rewrite (held_thr _ _ _ _ _ _ _ Ht), (held_ctx _ _ _ _ _ _ _ H1). unfold wthr. rewrite H, H0. cbn [stk est sumf west storage]. lia.
  - split; [apply INF_thr; [exact HI|]|].
    + cbn. intros y m k' st' j E. inversion E; subst. intros Hk. eapply HI; eauto. lia.
    + intros cb0 v0 Hv. rewrite app_nil_r. specialize (HO cb0 v0 Hv). rewrite (held_thr _ _ _ _ _ _ _ Ht). unfold wthr. rewrite H, H0. cbn [stk est sumf west]. rewrite (skipn_nth _ _ _ H1). cbn [wl].
      assert (Hz : hitk cb0 v0 (keys s) k v = 0).
      { destruct H2 as [->|H2]; [apply hit0; exact Hv|]. unfold hitk. destruct (nth_error (keys s) k) as [[[c|] f]|]; try reflexivity. exfalso. eapply H2. reflexivity. }
      lia.
  - split; [apply INF_thr; [exact HI|]|].
    + cbn. intros y m k' st' j E. inversion E; subst. intros Hk. eapply HI; eauto. lia.
    + intros cb0 v0 Hv. rewrite installed_app, taken_app, cleaned_app. specialize (HO cb0 v0 Hv). rewrite (held_thr _ _ _ _ _ _ _ Ht). unfold wthr. rewrite H, H0. unfold installed, taken, cleaned in *. cbn [stk est sumf west wfr]. rewrite (skipn_nth _ _ _ H1). cbn [wl].
      assert (Hz : hitk cb0 v0 (keys s) k v = b2z ((cb =? cb0)%nat && (v =? v0)%nat)) by (unfold hitk; rewrite H3; reflexivity). lia.
  - split; [apply INF_thr; [exact HI|]; discriminate|]. intros cb0 v Hv. rewrite app_nil_r. specialize (HO cb0 v Hv). rewrite (held_thr _ _ _ _ _ _ _ Ht). unfold wthr. rewrite H, H0. cbn [stk est sumf west].
    rewrite (skipn_all2 st) by (apply nth_error_None; exact H1). cbn [wl]. lia.
  - split; [apply INF_thr; [eapply INF_ext; [reflexivity|reflexivity|exact HI]|]|].
    + cbn. intros y m k' st' j E. inversion E; subst. intros _ Hj. eapply K5; eauto.
    + intros cb0 v Hv. rewrite installed_app, taken_app, cleaned_app. specialize (HO cb0 v Hv). rewrite (held_thr _ _ _ _ _ _ _ Ht), (held_ctx _ _ _ _ _ _ _ H2). unfold wthr. rewrite H, H0. unfold installed, taken, cleaned in *. cbn [stk est sumf west storage skipn wl].
      rewrite (skipn_all2 st) by (apply nth_error_None; exact H1). cbn [wl keys set_ctx]. lia.
  - split; [apply INF_thr; [exact HI|]; discriminate|]. intros cb0 v Hv. rewrite installed_app, taken_app, cleaned_app. specialize (HO cb0 v Hv). rewrite (held_thr _ _ _ _ _ _ _ Ht). unfold wthr. rewrite H, H0. unfold installed, taken, cleaned in *. cbn [stk est sumf west]. lia.
  - destruct HW as (_ & _ & H3 & _). destruct (H3 t th x Ht ltac:(rewrite H0; reflexivity)) as (c & Hc & _ & _ & Hph). rewrite H0 in Hph. cbn in Hph. destruct Hph as (Hst & _).
    split; [apply INF_thr; [eapply INF_ext; [| |exact HI]; destruct pl; reflexivity|destruct pl; discriminate]|]. intros cb0 v Hv. rewrite app_nil_r. specialize (HO cb0 v Hv). rewrite (held_thr _ _ _ _ _ _ _ Ht). unfold wthr. rewrite H, H0.
    assert (G : held cb0 v (match pl with Win => set_slot (set_ctx s x None) t None | _ => set_ctx s x None end, ths) = held cb0 v (s, ths)).
    { apply ctx_list_spec in Hc. unfold held. destruct pl; cbn; rewrite (sumf_upd _ _ _ _ _ Hc); cbn [wctx]; rewrite Hst; cbn; lia. }
    rewrite G. destruct pl; cbn [stk est sumf west]; lia.
Qed.

Lemma tss_own pl n sched c tr : exec (calm_step pl) (tss_init n) sched = Some (c, tr) -> BASE pl c /\ OWN c tr.
Proof.
  apply (exec_inv (calm_step pl) (fun c tr => BASE pl c /\ OWN c tr)).
  - split; [apply base_init|]. split.
    + intros t th x m k st j Ht. cbn [snd tss_init] in Ht. apply nth_repeat in Ht. subst th. discriminate.
    + intros cb v Hv. unfold held, tss_init. cbn. rewrite sumf_repeat. unfold wthr. cbn. lia.
  - intros c0 tr0 a c1 e (HB & HO) Hs. unfold calm_step in Hs. destruct (calm c0 a) eqn:Hc; [|discriminate]. split; [eapply base_step; eauto|].
    destruct c0 as [s ths]. destruct HB as (HW & HK). destruct (tss_effects _ _ _ _ _ _ Hs) as (th & th' & Ht & E & He). destruct c1 as [s1 ths1]. cbn [fst snd] in *. subst ths1.
    eapply own_step; eauto. intros p q -> Hp. apply del_action in Hs. destruct a as [|u p0| | | | | | | |]; try discriminate Hs. injection Hs as ->. cbn [calm fst snd] in Hc. destruct Hp as (Hp & _). rewrite Hp in Hc. apply negb_true_iff in Hc. exact Hc.
Qed.
