(** Properties of thread-specific storage and thread-exit functions (C41-C46). *)
From Coq Require Import List Bool Arith ZArith Lia.
From Verif Require Import ListSum Exec TssModel TssProof TssKeys TssOwn TssExit TssRace.
Import ListNotations.

(** The value thread [t] last installed through pointer [p]; 0 (null) if there is none or it was released. *)
Definition last_set (t p : nat) (tr : list tev) : nat :=
  fold_left (fun v e => match e with
                        | ESet u q _ w => if (u =? t) && (q =? p) then w else v
                        | ERel u q _ _ => if (u =? t) && (q =? p) then 0 else v
                        | _ => v
                        end) tr 0.

Lemma split_snoc {A} (l1 l2 a : list A) x b : l1 ++ l2 = a ++ x :: b -> (exists b', l1 = a ++ x :: b' /\ b = b' ++ l2) \/ (exists a', a = l1 ++ a' /\ l2 = a' ++ x :: b).
Proof.
  revert a. induction l1 as [|y l1 IH]; intros a H; cbn in H; [right; exists a; auto|]. destruct a as [|z a]; cbn in H; inversion H; subst; [left; exists l1; auto|].
  destruct (IH a H2) as [(b' & -> & ->)|(a' & -> & E)]; [left; exists b'; auto|right; exists a'; auto].
Qed.

(** Every prefix of an execution's history is the history of an execution. *)
Lemma one_event pl s t th s' th' e : tss_eff pl s t th s' th' e -> e = [] \/ exists x, e = [x].
Proof. intros He. destruct He; eauto; destruct H0 as [->|(m & ->)]; eauto. Qed.

(** What holds of the history before an event, from an invariant. *)
Lemma before_event pl n (P : tss_st -> list tev -> Prop) (Q : list tev -> tev -> Prop) :
  P (tss_init n) [] -> (forall c tr a c' e, P c tr -> tss_step pl c a = Some (c', e) -> P c' (tr ++ e)) ->
  (forall c tr a c' e, P c tr -> tss_step pl c a = Some (c', [e]) -> Q tr e) ->
  forall sched c tr a e b, exec (tss_step pl) (tss_init n) sched = Some (c, tr) -> tr = a ++ e :: b -> Q a e.
Proof.
  intros P0 Ps Pq sched c tr a e b H E.
  assert (G : P c tr /\ forall a e b, tr = a ++ e :: b -> Q a e).
  { revert H. apply (exec_inv (tss_step pl) (fun c tr => P c tr /\ forall a e b, tr = a ++ e :: b -> Q a e)).
    - split; [exact P0|]. intros a0 e0 b0 E0. destruct a0; discriminate.
    - intros c0 tr0 a0 c1 e1 (HP & HQ) Hs. split; [eauto|]. intros a2 e2 b2 E2. apply split_snoc in E2. destruct E2 as [(b' & E2 & _)|(a' & -> & E2)]; [eauto|].
      destruct c0 as [s ths]. destruct (tss_effects _ _ _ _ _ _ Hs) as (th & th' & _ & _ & He). destruct (one_event _ _ _ _ _ _ _ He) as [->|(x & ->)]; [destruct a'; discriminate|].
      destruct a'; [|destruct a'; discriminate]. inversion E2; subst. rewrite app_nil_r. eauto. }
  eapply (proj2 G). exact E.
Qed.

Lemma get_event pl s ths a c' t p v : tss_step pl (s, ths) a = Some (c', [EGet t p v]) -> exists q, alive s p q /\ v = get s t (pkey q).
Proof.
  intros Hs. destruct (tss_effects _ _ _ _ _ _ Hs) as (th & th' & _ & _ & He). remember [EGet t p v] as e. destruct He; try discriminate; try (destruct H0 as [->|(m & ->)]; discriminate).
  inversion Heqe; subst. exists q. auto.
Qed.

(** ** C41 *)
(** What get() returns is determined by the history of the calling thread and of this pointer alone, on every platform, also for pointers that reuse the key of a
    destroyed one; values disappear when the thread's values are taken away for destruction. *)
Theorem C41_exact pl n sched c tr a t p v b :
  exec (tss_step pl) (tss_init n) sched = Some (c, tr) -> tr = a ++ EGet t p v :: b -> v = seen pl t p a.
Proof.
  intros H E.
  apply (before_event pl n (fun c tr => BASE pl c /\ SEE pl (fst c) tr) (fun a e => match e with EGet t p v => v = seen pl t p a | _ => True end)) with (sched := sched) (c := c) (tr := tr) (e := EGet t p v) (b := b); auto.
  - split; [apply base_init|]. split; [intros u [|q] r (A & _); discriminate|reflexivity].
  - intros c0 tr0 a0 c1 e (HB & HS) Hs. split; [eapply base_step; eauto|]. destruct c0 as [s ths]. destruct HB as (HW & HK). destruct (tss_effects _ _ _ _ _ _ Hs) as (th & th' & Ht & Et & He). eapply see_step; eauto.
  - intros c0 tr0 a0 c1 e (HB & HS) Hs. destruct e; auto. destruct c0 as [s ths]. destruct (get_event _ _ _ _ _ _ _ _ Hs) as (q & Hp & ->). apply HS. exact Hp.
Qed.

(** The values of a thread are only taken away after it began to exit. *)
Lemma taken_after_exit pl n sched c tr a t b e : exec (tss_step pl) (tss_init n) sched = Some (c, tr) -> tr = a ++ e :: b -> (e = ETls t \/ e = EDet t) -> exited t a = true.
Proof.
  intros H E He.
  apply (before_event pl n (fun c tr => BASE pl c /\ ALLTI pl c tr) (fun a e => match e with ETls t | EDet t => exited t a = true | _ => True end)) with (sched := sched) (c := c) (tr := tr) (b := b) in E; auto.
  - destruct He as [->| ->]; exact E.
  - split; [apply base_init|apply TI_init].
  - intros c0 tr0 a0 c1 e1 (HB & HA) Hs. split; [eapply base_step; eauto|]. destruct c0 as [s ths]. destruct HB as (HW & HK). destruct (tss_effects _ _ _ _ _ _ Hs) as (th & th' & Ht & Et & He'). destruct c1 as [s1 ths1]. cbn [fst snd] in *. subst ths1. eapply TI_step; eauto.
  - intros c0 tr0 a0 c1 e1 (HB & HA) Hs. destruct c0 as [s ths]. destruct (tss_effects _ _ _ _ _ _ Hs) as (th & th' & Ht & Et & He'). destruct (HA _ _ Ht) as (HO & _). unfold ORD in HO.
    remember [e1] as el. destruct He'; try discriminate; try (destruct H1 as [->|(m & ->)]; inversion Heqel; subst; exact I); inversion Heqel; subst; auto; rewrite H1 in HO; apply HO.
Qed.

Lemma fold_same {A B} (f g : A -> B -> A) l : forall v, (forall a x b w, l = a ++ x :: b -> f w x = g w x) -> fold_left f l v = fold_left g l v.
Proof.
  induction l as [|y l IH]; intros v H; cbn; [reflexivity|]. rewrite (H [] y l v eq_refl). apply IH. intros a x b w E. apply (H (y :: a) x b w). rewrite E. reflexivity.
Qed.

Lemma seen_last pl t p tr : (forall a b, tr = a ++ EDet t :: b -> False) -> (pl = Win -> forall a b, tr = a ++ ETls t :: b -> False) -> seen pl t p tr = last_set t p tr.
Proof.
  intros H1 H2. unfold seen, last_set. apply fold_same. intros a x b w E. destruct x; cbn; try reflexivity.
  - destruct pl; try reflexivity. destruct (Nat.eqb_spec t0 t) as [->|]; [exfalso; eapply H2; eauto|reflexivity].
  - destruct (Nat.eqb_spec t0 t) as [->|]; [exfalso; eapply H1; eauto|reflexivity].
Qed.

Lemma exited_app t a b : exited t a = true -> exited t (a ++ b) = true.
Proof. unfold exited. rewrite existsb_app. intros ->. reflexivity. Qed.

Theorem C41_isolated pl n sched c tr a t p v b :
  exec (tss_step pl) (tss_init n) sched = Some (c, tr) -> tr = a ++ EGet t p v :: b -> exited t a = false -> v = last_set t p a.
Proof.
  intros H E Hx. rewrite (C41_exact _ _ _ _ _ _ _ _ _ _ H E). apply seen_last.
  - intros a' b' Ea. subst a. rewrite E, <- app_assoc in H. assert (exited t a' = true) by (eapply taken_after_exit; [exact H|cbn; reflexivity|auto]). rewrite exited_app in Hx by assumption. discriminate.
  - intros _ a' b' Ea. subst a. rewrite E, <- app_assoc in H. assert (exited t a' = true) by (eapply taken_after_exit; [exact H|cbn; reflexivity|auto]). rewrite exited_app in Hx by assumption. discriminate.
Qed.

(** A new pointer is null in every thread, even when it reuses the key of a destroyed one. *)
Theorem C41_fresh pl n sched c tr a t p v b :
  exec (tss_step pl) (tss_init n) sched = Some (c, tr) -> tr = a ++ EGet t p v :: b -> (forall cb w, ~ In (ESet t p cb w) a) -> v = 0.
Proof.
  intros H E Hn. rewrite (C41_exact _ _ _ _ _ _ _ _ _ _ H E). unfold seen. clear -Hn.
  assert (G : forall l v, incl l a -> v = 0 -> fold_left (see1 pl t p) l v = 0).
  { induction l as [|e l IH]; intros w Hi Hw; cbn; [exact Hw|]. apply IH; [intros x Hx; apply Hi; right; exact Hx|]. subst w.
    destruct e as [| | |u q cb w| | | | | | | | | |]; cbn; try reflexivity; try (destruct (_ && _); reflexivity); try (destruct pl; try destruct (_ =? _); reflexivity); try (destruct (_ =? _); reflexivity).
    destruct (Nat.eqb_spec u t) as [->|]; cbn; [|reflexivity]. destruct (Nat.eqb_spec q p) as [->|]; [|reflexivity]. exfalso. eapply Hn. apply Hi. left. reflexivity. }
  apply G; [apply incl_refl|reflexivity].
Qed.

(** A run in which two threads use two pointers, one of which reuses the key of a destroyed pointer. *)
Definition iso_sched : list tact2 :=
  [ANew 0 (Some 7) true; AReset 0 0 5 FNone; AReset 1 0 6 FNone; AGet 0 0; AGet 1 0; ADel 0 0; AStep 0; ARet 0; AStep 0; ARet 0; AStep 0;
   ANew 1 (Some 8) true; AGet 0 1; AGet 1 1; AReset 1 1 9 FNone; AGet 0 1; AGet 1 1].
Example C41_ex : exists c, exec (tss_step (Posix 4)) (tss_init 2) iso_sched =
  Some (c, [ENew 0 0 (Some 7); ESet 0 0 (Some 7) 5; ESet 1 0 (Some 7) 6; EGet 0 0 5; EGet 1 0 6; EDel 0 0; ECall 0 7 5; ECall 0 7 6; ENew 1 1 (Some 8); EGet 0 1 0; EGet 1 1 0; ESet 1 1 (Some 8) 9; EGet 0 1 0; EGet 1 1 9]).
Proof. eexists. vm_compute. reflexivity. Qed.

(** ** C42 *)
Local Open Scope Z_scope.
(** Every installed value is cleaned, taken out again, or still in place - provided no pointer is destroyed while an exiting thread has its value in hand ([calm_step]). *)
Theorem C42_balance_partial pl n sched c tr cb v :
  exec (calm_step pl) (tss_init n) sched = Some (c, tr) -> v <> 0%nat -> installed cb v tr = cleaned cb v tr + taken cb v tr + held cb v c.
Proof. intros H Hv. destruct (tss_own _ _ _ _ _ H) as (_ & _ & HO). apply HO. exact Hv. Qed.

Lemma wl_pos cb v ks l : forall k, 0 <= wl cb v ks k l.
Proof.
  induction l as [|x l IH]; intros k; cbn [wl]; [lia|]. specialize (IH (S k)). assert (0 <= hitk cb v ks k x); [|lia].
  unfold hitk, b2z. destruct (nth_error ks k) as [[[c|] fl]|]; try lia. destruct (_ && _); lia.
Qed.

Lemma held_nonneg cb v c : v <> 0%nat -> 0 <= held cb v c.
Proof.
  intros Hv. unfold held. assert (0 <= sumf (wctx cb v (keys (fst c))) (ctxs (fst c))) by (apply sumf_nonneg; intros [d|]; cbn; [apply wl_pos|lia]).
  assert (0 <= sumf (wthr cb v (keys (fst c))) (snd c)); [|lia]. apply sumf_nonneg. intros th. unfold wthr.
  assert (0 <= sumf (wfr cb v) (stk th)) by (apply sumf_nonneg; intros [|cb' vs]; cbn; [lia|]; destruct (_ =? _)%nat; [|lia]; apply sumf_nonneg; intros x; unfold b2z; destruct (x =? v)%nat; lia).
  assert (0 <= west cb v (keys (fst c)) (est th)) by (destruct (est th); cbn; try lia; apply wl_pos). lia.
Qed.

(** No value is cleaned more often than it was installed, and none that was never installed with this cleanup function (or only taken out again) is passed to it. *)
Theorem C42_not_twice_partial pl n sched c tr cb v :
  exec (calm_step pl) (tss_init n) sched = Some (c, tr) -> v <> 0%nat -> cleaned cb v tr + taken cb v tr <= installed cb v tr.
Proof. intros H Hv. pose proof (C42_balance_partial pl n sched c tr cb v H Hv). pose proof (held_nonneg cb v c Hv). lia. Qed.

Lemma no_stack pl s ths t th : WFC pl s ths -> nth_error ths t = Some th -> est th = Done -> stk th = [].
Proof. intros (_ & _ & _ & _ & H5) Ht Hd. specialize (H5 t th Ht). rewrite Hd in H5. apply H5. Qed.

(** After all threads have exited nothing is left (Windows; POSIX: if no context is left over after the last round of key destructors). *)
Theorem C42_all_exited_partial pl n sched c tr cb v :
  exec (calm_step pl) (tss_init n) sched = Some (c, tr) -> v <> 0%nat ->
  (forall t th, nth_error (snd c) t = Some th -> est th = Done /\ (match pl with Win => True | Posix lim => (dets t tr < lim)%nat | PosixTls => False end)) ->
  installed cb v tr = cleaned cb v tr + taken cb v tr.
Proof.
  intros H Hv Hd. pose proof (C42_balance_partial pl n sched c tr cb v H Hv) as E. destruct (tss_own _ _ _ _ _ H) as ((HW & HK) & _).
  assert (HA : ALLTI pl c tr).
  { revert H. intros H. assert (G : BASE pl c /\ ALLTI pl c tr); [|apply G]. revert H. apply (exec_inv (calm_step pl) (fun c tr => BASE pl c /\ ALLTI pl c tr)); [split; [apply base_init|apply TI_init]|].
    intros c0 tr0 a0 c1 e1 (HB & HA) Hs. unfold calm_step in Hs. destruct (calm c0 a0); [|discriminate]. split; [eapply base_step; eauto|]. destruct c0 as [s ths]. destruct HB as (HW0 & HK0). destruct (tss_effects _ _ _ _ _ _ Hs) as (th & th' & Ht & Et & He').
    destruct c1 as [s1 ths1]. cbn [fst snd] in *. subst ths1. eapply TI_step; eauto. }
  assert (Hslot : forall t, slot (fst c) t = None).
  { intros t. destruct (nth_error (snd c) t) as [th|] eqn:Et.
    - destruct (Hd t th Et) as (D1 & D2). destruct pl; [|destruct (HA t th Et) as (_ & _ & _ & R & _); unfold RND in R; rewrite D1 in R; destruct R as [R|R]; [exact R|lia]|contradiction].
      pose proof HW as (_ & _ & _ & _ & H5). specialize (H5 t th Et). rewrite D1 in H5. apply H5. reflexivity.
    - unfold slot. pose proof HW as (H1 & _). apply nth_error_None in Et. rewrite <- H1 in Et. rewrite (proj2 (nth_error_None _ _) Et). reflexivity. }
  assert (held cb v c = 0); [|lia]. unfold held.
  assert (Z1 : sumf (wctx cb v (keys (fst c))) (ctxs (fst c)) = sumf (fun _ => 0) (ctxs (fst c))).
  { apply sumf_ext_nth. intros i [d|] Hi; [|reflexivity]. exfalso. apply ctx_list_spec in Hi. pose proof HW as (_ & _ & _ & H4 & _). destruct (H4 i d Hi) as [G|(th & G1 & G2)]; [rewrite Hslot in G; discriminate|].
    destruct (Hd _ _ G1) as (D1 & _). rewrite D1 in G2. discriminate. }
  assert (Z2 : sumf (wthr cb v (keys (fst c))) (snd c) = sumf (fun _ => 0) (snd c)).
  { apply sumf_ext_nth. intros i th Hi. destruct (Hd i th Hi) as (D1 & _). unfold wthr. rewrite D1, (no_stack _ _ _ _ _ HW Hi D1). reflexivity. }
  assert (Z0 : forall A (l : list A), sumf (fun _ => 0) l = 0) by (intros A l; induction l; cbn; lia). rewrite Z1, Z2, !Z0. reflexivity.
Qed.

(** thread_specific_ptr asks for cleanup at destruction (P:44 P:50). *)
Definition asks (a : tact2) : Prop := match a with ANew _ _ fl => fl = true | _ => True end.
Definition KEYS (s : tsh) : Prop := forall k cb fl, nth_error (keys s) k = Some (Some cb, fl) -> fl = true /\ exists p q, alive s p q /\ pkey q = k /\ pcb q = Some cb.
Lemma new_action pl s ths a c' t p cb : tss_step pl (s, ths) a = Some (c', [ENew t p cb]) -> asks a -> exists fl, a = ANew t cb fl /\ fl = true /\ fst c' = new_key s cb true.
Proof.
  intros H Ha. destruct (tss_effects _ _ _ _ _ _ H) as (th & th' & Ht & E & He). revert H. cbn [tss_step]. rewrite Ht. intros H.
  destruct a as [u cb' fl|u q|u q|u q|u q v f|u f|u m f|u|u|u]; cbn [thread_of] in H; try (destruct (user th); [|discriminate]); cbn [tss_user] in H.
  - inversion H; subst. cbn in Ha. subst fl. exists true. auto.
  - destruct (nth_error (tptrs s) q) as [r|]; [|discriminate]. destruct (palive r); [|discriminate]. destruct (delete_key s q r). inversion H.
  - destruct (nth_error (tptrs s) q) as [r|]; [|discriminate]. destruct (palive r); inversion H.
  - destruct (nth_error (tptrs s) q) as [r|]; [|discriminate]. destruct (palive r); [|discriminate]. destruct (_ =? _)%nat; inversion H.
  - destruct (nth_error (tptrs s) q) as [r|]; [|discriminate]. destruct (palive r); [|discriminate]. destruct (_ =? _)%nat; [inversion H|]. destruct f; [inversion H| |]; destruct (can_fail _ _ _); inversion H.
  - destruct f; [|destruct (can_fail _ _ _); inversion H..]. destruct (ensure s u) as [s1 x]. destruct (ctx_of s1 x); inversion H.
  - destruct f; [|destruct (can_fail _ _ _); inversion H..]. destruct (ensure s u) as [s1 x]. destruct (ctx_of s1 x); inversion H.
  - destruct (stk th) as [|[] ?]; inversion H.
  - destruct (stk th); inversion H.
  - unfold tss_run in H. destruct (stk th) as [|[|cb' [|v vs]] r]; try discriminate; try (inversion H; fail). destruct (est th) as [|[|m]|x m [|f fs]|x m k st|x m [|w ms]|]; try discriminate; try (inversion H; fail).
    + destruct (slot s u); inversion H.
    + destruct (ctx_of s x) as [d|]; [|discriminate]. destruct (atexit d); inversion H.
    + destruct (nth_error st k) as [[|v]|]; [inversion H| |].
      * destruct (nth_error (keys s) k) as [[[cb'|] fl]|]; inversion H.
      * destruct (ctx_of s x) as [d|]; [|discriminate]. destruct (storage d); inversion H.
    + destruct pl; inversion H.
Qed.

Lemma keys_step pl s ths a c' e : BASE pl (s, ths) -> KEYS s -> asks a -> tss_step pl (s, ths) a = Some (c', e) -> KEYS (fst c').
Proof.
  intros (HW & HK) HY Ha Hs. destruct (tss_effects _ _ _ _ _ _ Hs) as (th & th' & Ht & E & He). cbn [fst snd] in *.
  assert (Same : forall s1, keys s1 = keys s -> tptrs s1 = tptrs s -> KEYS s1) by (intros s1 E1 E2 k cb fl; unfold alive; rewrite E1, E2; apply HY).
  remember (fst c') as s'. remember (thread_of a) as t. destruct He; try (apply Same; reflexivity); try (apply Same; apply set_value_keys); try (apply Same; apply ensure_nreg).
  - subst t. destruct (new_action _ _ _ _ _ _ _ _ Hs Ha) as (fl & _ & _ & En). rewrite <- Heqs' in En. rewrite En. clear Heqs' En. intros k cb0 fl0 Hk.
    assert (Hnew : forall p q, alive s p q -> alive (new_key s cb true) p q).
    { intros p q (A & B). split; [|exact B]. unfold new_key. destruct (freed s); cbn; rewrite nth_error_app1 by (apply nth_error_Some; congruence); exact A. }
    assert (Hlast : alive (new_key s cb true) (length (tptrs s)) (TP (match freed s with k :: _ => k | [] => length (keys s) end) cb true)).
    { split; [|reflexivity]. unfold new_key. destruct (freed s); cbn; rewrite nth_error_app2, Nat.sub_diag by lia; reflexivity. }
    pose proof HK as (K1 & K2 & K3 & K4 & K5).
    destruct (Nat.eq_dec k (match freed s with k :: _ => k | [] => length (keys s) end)) as [Ek|Ek].
    + assert (Hk' : nth_error (keys (new_key s cb true)) k = Some (cb, true)).
      { unfold new_key. destruct (freed s) as [|k0 fr]; cbn; subst k; [rewrite nth_error_app2, Nat.sub_diag by lia; reflexivity|]. destruct (nth_error (keys s) k0) as [w|] eqn:Ew; [exact (nth_upd_eq _ _ _ _ Ew)|].
        apply nth_error_None in Ew. specialize (K4 k0 (or_introl eq_refl)). lia. }
      rewrite Hk' in Hk. inversion Hk; subst. split; [reflexivity|]. eexists _, _. split; [exact Hlast|]. auto.
    + assert (Hk' : nth_error (keys s) k = Some (Some cb0, fl0)).
      { revert Hk. unfold new_key. destruct (freed s) as [|k0 fr]; cbn; [|rewrite nth_upd_neq by congruence; auto]. destruct (le_lt_dec (length (keys s)) k) as [Hge|Hlt]; [|rewrite nth_error_app1 by exact Hlt; auto].
        rewrite nth_error_app2 by exact Hge. destruct (k - length (keys s))%nat as [|[|m]] eqn:Em; cbn; try discriminate. exfalso. apply Ek. lia. }
      destruct (HY k cb0 fl0 Hk') as (A & p & q & B & C & D). split; [exact A|]. exists p, q. auto.
  - destruct (delete_facts s p q) as (_ & _ & Et & Hd). destruct HK as (K1 & K2 & _). destruct (K1 p q H0) as ((fl0 & Hkk) & _).
    assert (Hne : forall k cb fl, nth_error (keys (fst (delete_key s p q))) k = Some (Some cb, fl) -> nth_error (keys s) k = Some (Some cb, fl) /\ k <> pkey q).
    { intros k cb fl Hk. destruct Hd as [(f & Hf & Ek & _)|(Hf & Ek & _)].
      - rewrite Ek in Hk. apply nth_upd_inv in Hk. destruct Hk as [(_ & Hk & _)|(Hn & Hk)]; [discriminate|]. split; [exact Hk|congruence].
      - rewrite Ek in Hk. split; [exact Hk|]. intros ->. destruct (HY _ _ _ Hk) as (-> & _). eapply Hf. exact Hk. }
    intros k cb fl Hk. destruct (Hne k cb fl Hk) as (Hk' & Hn). destruct (HY k cb fl Hk') as (A & p' & q' & (B1 & B2) & C & D). split; [exact A|]. exists p', q'. split; [|auto]. split; [|exact B2].
    rewrite Et. rewrite nth_upd_neq; [exact B1|]. intros <-. destruct H0. congruence.
  - destruct pl; apply Same; reflexivity.
Qed.

(** After every pointer with cleanup function [cb] has been destroyed and no cleanup is under way, nothing is left. *)
Theorem C42_destroyed_partial pl n sched c tr cb v :
  exec (calm_step pl) (tss_init n) sched = Some (c, tr) -> Forall asks sched -> v <> 0%nat ->
  (forall p q, nth_error (tptrs (fst c)) p = Some q -> pcb q = Some cb -> palive q = false) ->
  (forall t th vs, nth_error (snd c) t = Some th -> ~ In (FRun cb vs) (stk th)) ->
  installed cb v tr = cleaned cb v tr + taken cb v tr.
Proof.
  intros H Ha Hv Hp Hf. pose proof (C42_balance_partial pl n sched c tr cb v H Hv) as E.
  assert (G : BASE pl c /\ KEYS (fst c)).
  { revert H Ha. intros H Ha. revert H. apply (exec_inv_acts (calm_step pl) asks (fun c tr => BASE pl c /\ KEYS (fst c))); [split; [apply base_init|intros [|k] cb0 fl; discriminate]| |exact Ha].
    intros c0 tr0 a0 c1 e1 (HB & HY) Hask Hs. unfold calm_step in Hs. destruct (calm c0 a0); [|discriminate]. split; [eapply base_step; eauto|]. destruct c0 as [s ths]. eapply keys_step; eauto. }
  destruct G as (HB & HY).
  assert (Hh : forall k x, hitk cb v (keys (fst c)) k x = 0).
  { intros k x. unfold hitk. destruct (nth_error (keys (fst c)) k) as [[[cb'|] fl]|] eqn:Ek; try reflexivity. destruct (Nat.eqb_spec cb' cb) as [->|]; [|reflexivity].
    exfalso. destruct (HY _ _ _ Ek) as (_ & p & q & (B1 & B2) & C & D). rewrite (Hp p q B1 D) in B2. discriminate. }
  assert (Hw : forall l k, wl cb v (keys (fst c)) k l = 0) by (induction l as [|x l IH]; intros k; cbn; [reflexivity|rewrite Hh, IH; reflexivity]).
  assert (held cb v c = 0); [|lia]. unfold held.
  assert (Z1 : sumf (wctx cb v (keys (fst c))) (ctxs (fst c)) = sumf (fun _ => 0) (ctxs (fst c))) by (apply sumf_ext_nth; intros i [d|] Hi; cbn; [apply Hw|reflexivity]).
  assert (Z2 : sumf (wthr cb v (keys (fst c))) (snd c) = sumf (fun _ => 0) (snd c)).
  { apply sumf_ext_nth. intros i th Hi. unfold wthr. assert (W : west cb v (keys (fst c)) (est th) = 0) by (destruct (est th); cbn; try reflexivity; apply Hw). rewrite W.
    specialize (Hf i th). assert (S0 : sumf (wfr cb v) (stk th) = 0); [|lia]. clear -Hf Hi. specialize (fun vs => Hf vs Hi). clear Hi. induction (stk th) as [|f l IH]; [reflexivity|]. cbn. rewrite IH by (intros vs Hx; apply (Hf vs); right; exact Hx).
    destruct f as [|cb' vs]; cbn; [reflexivity|]. destruct (Nat.eqb_spec cb' cb) as [->|]; [exfalso; apply (Hf vs); left; reflexivity|reflexivity]. }
  assert (Z0 : forall A (l : list A), sumf (fun _ => 0) l = 0) by (intros A l; induction l; cbn; lia). rewrite Z1, Z2, !Z0. reflexivity.
Qed.

(** A calm run: values replaced, released, cleaned at thread exit and at destruction. *)
Definition own_sched : list tact2 :=
  ([ANew 0 (Some 7) true; ANew 0 (Some 8) true; AReset 0 0 5 FNone; AReset 0 0 6 FNone; AStep 0; ARet 0; AStep 0; AReset 1 0 9 FNone; AReset 1 1 3 FNone; ARelease 1 1; AReset 0 1 4 FNone;
   AExit 1; AStep 1; AStep 1; AStep 1; ARet 1; AStep 1; AStep 1; AStep 1; ADel 0 0; AStep 0; ARet 0; AStep 0; AExit 0; AStep 0; AStep 0; AStep 0; AStep 0; ARet 0; AStep 0; AStep 0])%nat.
Example C42_ex : exists c tr, exec (calm_step Win) (tss_init 2) own_sched = Some (c, tr) /\ (forall t th, nth_error (snd c) t = Some th -> est th = Done) /\
  installed 7 5 tr = 1 /\ cleaned 7 5 tr = 1 /\ installed 7 9 tr = 1 /\ cleaned 7 9 tr = 1 /\ installed 8 3 tr = 1 /\ taken 8 3 tr = 1 /\ cleaned 8 3 tr = 0 /\ cleaned 7 6 tr = 1 /\ cleaned 8 4 tr = 1 /\ Forall asks own_sched.
Proof.
  eexists _, _. split; [vm_compute; reflexivity|]. split; [intros [|[|[|t]]] th H; vm_compute in H; inversion H; reflexivity|]. vm_compute. repeat split; auto; try (repeat constructor).
Qed.

Definition all_done (c : tss_st) : Prop := forall t th, nth_error (snd c) t = Some th -> est th = Done.
Ltac all_done := intros [|[|[|?]]] ? ?HH; vm_compute in HH; inversion HH; reflexivity.
(** Thread 1 exits holding values of two pointers; while the first is being cleaned, thread 0 destroys the second pointer: its value is never cleaned. *)
Definition leak_sched : list tact2 :=
  ([ANew 0 (Some 7) true; ANew 0 (Some 8) true; AReset 1 0 5 FNone; AReset 1 1 6 FNone; AExit 1; AStep 1; AStep 1; AStep 1; ADel 0 1; AStep 0; ARet 1; AStep 1; AStep 1; AStep 1;
    ADel 0 0; AStep 0; AExit 0])%nat.
Theorem C42_leak_refuted : exists n sched c tr cb v, exec (tss_step Win) (tss_init n) sched = Some (c, tr) /\ Forall asks sched /\ all_done c /\ (forall p q, nth_error (tptrs (fst c)) p = Some q -> palive q = false) /\
  v <> 0%nat /\ installed cb v tr = 1 /\ taken cb v tr = 0 /\ cleaned cb v tr = 0.
Proof.
  exists 2%nat, leak_sched. eexists _, _, 8%nat, 6%nat. split; [vm_compute; reflexivity|]. split; [repeat constructor|]. split; [all_done|]. split; [intros [|[|[|p]]] q Hq; vm_compute in Hq; inversion Hq; reflexivity|].
  vm_compute. repeat split; try discriminate.
Qed.
(** The same, and thread 0 creates a new pointer, which reuses the key: its cleanup function is called with the other pointer's value. *)
Definition alien_sched : list tact2 :=
  ([ANew 0 (Some 7) true; ANew 0 (Some 8) true; AReset 1 0 5 FNone; AReset 1 1 6 FNone; AExit 1; AStep 1; AStep 1; AStep 1; ADel 0 1; AStep 0; ANew 0 (Some 9) true; ARet 1; AStep 1])%nat.
Theorem C42_alien_refuted : exists n sched c tr cb v, exec (tss_step Win) (tss_init n) sched = Some (c, tr) /\ v <> 0%nat /\ installed cb v tr = 0 /\ cleaned cb v tr = 1.
Proof. exists 2%nat, alien_sched. eexists _, _, 9%nat, 6%nat. split; [vm_compute; reflexivity|]. vm_compute. repeat split; try discriminate. Qed.
(** POSIX: a cleanup function that installs a value again each time it is called; after the last round of key destructors a value is left. *)
Definition again_round : list tact2 := ([AStep 0; AStep 0; AStep 0; AStep 0; AReset 0 0 5 FNone; ARet 0; AStep 0; AStep 0])%nat.
Definition again_sched (lim : nat) : list tact2 := ([ANew 0 (Some 7) true; AReset 0 0 5 FNone; AExit 0] ++ concat (repeat again_round lim) ++ [AStep 0])%nat.
Theorem C42_rounds_refuted : exists lim n sched c tr cb v, (0 < lim)%nat /\ exec (calm_step (Posix lim)) (tss_init n) sched = Some (c, tr) /\ all_done c /\
  v <> 0%nat /\ installed cb v tr = 5 /\ taken cb v tr = 0 /\ cleaned cb v tr = 4.
Proof. exists 4%nat, 1%nat, (again_sched 4). eexists _, _, 7%nat, 5%nat. split; [lia|]. split; [vm_compute; reflexivity|]. split; [all_done|]. vm_compute. repeat split; try discriminate. Qed.
(** Compiler TLS: nothing is cleaned when a thread exits, although the pointer is still there. *)
Theorem C42_compiler_tls_refuted : exists n sched c tr cb v, exec (calm_step PosixTls) (tss_init n) sched = Some (c, tr) /\ all_done c /\ v <> 0%nat /\ installed cb v tr = 1 /\ taken cb v tr = 0 /\ cleaned cb v tr = 0.
Proof. exists 1%nat, ([ANew 0 (Some 7) true; AReset 0 0 5 FNone; AExit 0])%nat. eexists _, _, 7%nat, 5%nat. split; [vm_compute; reflexivity|]. split; [all_done|]. vm_compute. repeat split; try discriminate. Qed.

(** ** C43 *)
(** No function runs more often than it was registered (once), and only on the thread that registered it. *)
Theorem C43_at_most_once pl n sched c tr f : exec (tss_step pl) (tss_init n) sched = Some (c, tr) ->
  nruns f tr <= nregs f tr <= 1 /\ (forall t u, In (ERun t f) tr -> In (EReg u f) tr -> t = u).
Proof.
  intros H. destruct (tss_exit _ _ _ _ _ H) as (_ & _ & R1 & R2 & R3 & R4 & R5 & R6 & _). specialize (R6 f). rewrite R1 in *. split.
  - assert (0 <= pend f c) by (unfold pend; apply Z.add_nonneg_nonneg; apply sumf_nonneg; [intros [d|]; cbn; [apply cnt_nonneg|lia]|intros th; apply cnt_nonneg]). unfold b2z in *. destruct (_ <? _)%nat; lia.
  - intros t u Hr Hu. eapply R5; [apply R4; exact Hr|exact Hu].
Qed.

(** The exit of thread [t] is complete: on POSIX, pthread did not run out of rounds. *)
Definition exit_complete (pl : plat) (t : nat) (c : tss_st) (tr : list tev) : Prop :=
  (exists th, nth_error (snd c) t = Some th /\ est th = Done) /\ match pl with Win => True | Posix lim => (dets t tr < lim)%nat | PosixTls => False end.

Lemma done_slot pl t c tr : BASE pl c -> ALLTI pl c tr -> exit_complete pl t c tr -> slot (fst c) t = None.
Proof.
  intros (HW & _) HA ((th & Ht & Hd) & Hc). destruct pl; [|destruct (HA _ _ Ht) as (_ & _ & _ & R & _); unfold RND in R; rewrite Hd in R; destruct R as [R|R]; [exact R|lia]|contradiction].
  destruct HW as (_ & _ & _ & _ & H5). specialize (H5 t th Ht). rewrite Hd in H5. apply H5. reflexivity.
Qed.

Lemma done_no_ctx pl t c tr x d : BASE pl c -> ALLTI pl c tr -> exit_complete pl t c tr -> ctx_of (fst c) x = Some d -> xown d <> t.
Proof.
  intros HB HA Hc Hx E. pose proof (done_slot _ _ _ _ HB HA Hc) as Hs. destruct HB as ((_ & _ & _ & H4 & _) & _). destruct (H4 x d Hx) as [G|(th & G1 & G2)]; rewrite E in *; [congruence|].
  destruct Hc as ((th' & Ht & Hd) & _). assert (th' = th) by congruence. subst. rewrite Hd in G2. discriminate.
Qed.

(** When the exit is complete, every function the thread registered - also from exit functions and, on POSIX, from cleanup functions - has run, exactly once.
    Windows: except those registered from a cleanup function of a thread-specific value ([late]). *)
Theorem C43_all_run_partial pl n sched c tr t f : exec (tss_step pl) (tss_init n) sched = Some (c, tr) ->
  In (EReg t f) tr -> exit_complete pl t c tr -> ~ late pl f tr -> nruns f tr = 1.
Proof.
  intros H Hr Hc Hl. destruct (tss_exit _ _ _ _ _ H) as (HB & HA & R1 & R2 & R3 & R4 & R5 & R6 & R7 & _). specialize (R7 f Hl).
  assert (Hp : pend f c = 0).
  { unfold pend. assert (Z0 : forall A (l : list A), sumf (fun _ => 0) l = 0) by (intros A l; induction l; cbn; lia).
    rewrite (sumf_ext_nth (wat f) (fun _ => 0) (ctxs (fst c))), (sumf_ext_nth (fun th => cnt f (infun (est th))) (fun _ => 0) (snd c)), !Z0; [reflexivity| |].
    - intros u th Hu. apply cnt_out. intros Hi. pose proof (R3 _ _ _ Hu Hi) as E. assert (u = t) by (eapply R5; eauto). subst u. destruct Hc as ((th' & Ht & Hd) & _). assert (th' = th) by congruence. subst. rewrite Hd in Hi. destruct Hi.
    - intros i [d|] Hi; [|reflexivity]. cbn. apply cnt_out. intros Hin. apply ctx_list_spec in Hi. pose proof (R2 _ _ _ Hi Hin) as E. exact (done_no_ctx _ _ _ _ _ _ HB HA Hc Hi (R5 _ _ _ E Hr)). }
  assert (1 <= nregs f tr) by (apply nregs_in; eauto). rewrite R1 in *. unfold b2z in *. destruct (_ <? _)%nat; lia.
Qed.

Lemma app_prefix {A} (l1 l2 l3 l4 : list A) : l1 ++ l2 = l3 ++ l4 -> prefix l1 l3 \/ prefix l3 l1.
Proof.
  revert l3. induction l1 as [|x l1 IH]; intros l3 E; [left; exists l3; reflexivity|]. destruct l3 as [|y l3]; [right; exists (x :: l1); reflexivity|]. cbn in E. inversion E; subst.
  destruct (IH l3 H1) as [(r & ->)|(r & ->)]; [left|right]; exists r; reflexivity.
Qed.

(** Order: the functions registered before the exit run first, in reverse order of registration; at any time those that have run are the first ones of that list,
    or all of them followed by functions registered during the exit. *)
Theorem C43_reverse_order pl n sched c tr t : exec (tss_step pl) (tss_init n) sched = Some (c, tr) -> (t < n)%nat ->
  prefix (runs t tr) (rev (exit_regs t tr)) \/ prefix (rev (exit_regs t tr)) (runs t tr).
Proof.
  intros H Ht. destruct (tss_exit _ _ _ _ _ H) as (_ & HA & _).
  assert (L : length (snd c) = n).
  { revert H. apply (exec_inv_state (tss_step pl) (fun c => length (snd c) = n)); [cbn; apply repeat_length|]. intros [s ths] a c' e E Hs. destruct (tss_effects _ _ _ _ _ _ Hs) as (? & ? & _ & -> & _). rewrite upd_length. exact E. }
  destruct (nth_error (snd c) t) as [th|] eqn:Et; [|apply nth_error_None in Et; lia]. destruct (HA _ _ Et) as (O & _). unfold ORD in O.
  assert (G : prefix (rev (exit_regs t tr)) (runs t tr ++ infun (est th)) \/ runs t tr = []) by (destruct (est th); tauto).
  destruct G as [(r & E)| ->]; [|left; exists (rev (exit_regs t tr)); reflexivity].
  eapply app_prefix. exact E.
Qed.

Lemma exit_regs_in t f tr : In f (exit_regs t tr) -> exists a b, tr = a ++ EReg t f :: b /\ exited t a = false.
Proof.
  induction tr as [|e tr IH]; [intros []|]. cbn [exit_regs]. destruct (is_exit t e) eqn:Ex; [intros []|]. intros H. apply in_app_or in H. destruct H as [H|H].
  - destruct e; cbn in H; try destruct H. destruct (Nat.eqb_spec t0 t) as [->|]; [|destruct H]. destruct H as [->|[]]. exists [], tr. auto.
  - destruct (IH H) as (a & b & -> & Ha). exists (e :: a), b. split; [reflexivity|]. unfold exited in *. cbn. rewrite Ex. exact Ha.
Qed.
Lemma nregs_two f t u a b : 1 <= nregs f b -> 2 <= nregs f (a ++ EReg t f :: b) /\ 2 <= nregs f (b ++ EReg u f :: a).
Proof.
  intros H. assert (N : forall l, 0 <= nregs f l) by (intros l; apply sumf_nonneg; intros []; try lia; unfold b2z; destruct (_ =? _)%nat; lia).
  assert (S1 : forall t l, nregs f (EReg t f :: l) = 1 + nregs f l) by (intros; unfold nregs; cbn; rewrite Nat.eqb_refl; reflexivity). rewrite !nregs_app, !S1. pose proof (N a). lia.
Qed.

(** What is registered before the exit is never late. *)
Lemma early_not_late pl n sched c tr t f : exec (tss_step pl) (tss_init n) sched = Some (c, tr) -> In f (exit_regs t tr) -> ~ late pl f tr.
Proof.
  intros H Hf (-> & u & a' & b' & E' & Htls). destruct (exit_regs_in _ _ _ Hf) as (a & b & E & Hx). destruct (tss_exit _ _ _ _ _ H) as (_ & _ & R1 & _ & _ & _ & R5 & _).
  assert (u = t) by (apply (R5 u t f); [rewrite E'|rewrite E]; apply in_or_app; right; left; reflexivity). subst u.
  assert (Hx' : exited t a' = true).
  { unfold tls in Htls. apply existsb_exists in Htls. destruct Htls as (e & Hi & He). destruct e; try discriminate. cbn in He. apply Nat.eqb_eq in He. rewrite He in Hi. apply in_split in Hi. destruct Hi as (a1 & a2 & ->).
    apply exited_app. eapply taken_after_exit; [exact H| |left; reflexivity]. rewrite E', <- app_assoc. cbn. reflexivity. }
  assert (G : 2 <= nregs f tr); [|rewrite R1 in G; unfold b2z in G; destruct (_ <? _)%nat; lia].
  pose proof E as E2. rewrite E' in E2. symmetry in E2. apply split_snoc in E2. destruct E2 as [(r & Ea & Eb)|(r & Ea & Eb)].
  - rewrite Ea in Hx. rewrite exited_app in Hx by exact Hx'. discriminate.
  - destruct r as [|e r]; [rewrite app_nil_r in Ea; congruence|]. rewrite E. refine (proj1 (nregs_two f t t a _ _)). inversion Eb; subst. apply nregs_in. exists t. apply in_or_app. right. left. reflexivity.
Qed.

(** When the exit is complete, all functions registered before it have run, in reverse order, before any other. *)
Theorem C43_exit_order pl n sched c tr t : exec (tss_step pl) (tss_init n) sched = Some (c, tr) -> exit_complete pl t c tr -> prefix (rev (exit_regs t tr)) (runs t tr).
Proof.
  intros H Hc. destruct (tss_exit _ _ _ _ _ H) as (HB & HA & R1 & R2 & R3 & R4 & R5 & _). destruct Hc as ((th & Ht & Hd) & Hp) eqn:EQ. clear EQ. pose proof (HA _ _ Ht) as (O & _). unfold ORD in O. rewrite Hd in O. cbn [infun] in O. rewrite app_nil_r in O.
  destruct O as (_ & [O|(Z & _)]); [exact O|]. rewrite Z. destruct (exit_regs t tr) as [|f l] eqn:El; [exists []; reflexivity|]. exfalso.
  assert (Hf : In f (exit_regs t tr)) by (rewrite El; left; reflexivity). destruct (exit_regs_in _ _ _ Hf) as (a & b & E & _).
  assert (Hin : In (EReg t f) tr) by (rewrite E; apply in_or_app; right; left; reflexivity).
  assert (Hone : nruns f tr = 1) by (eapply C43_all_run_partial; [exact H|exact Hin|split; [exists th; auto|exact Hp]|eapply early_not_late; eauto]).
  assert (Hr : exists u, In (ERun u f) tr).
  { clear -Hone. unfold nruns in Hone. induction tr as [|e tr IH]; cbn [sumf] in Hone; [lia|]. destruct e; try (destruct IH as (u & Hu); [lia|exists u; right; exact Hu]).
    destruct (Nat.eqb_spec f0 f) as [->|]; [eexists; left; reflexivity|]. destruct IH as (u & Hu); [change (b2z false) with 0 in Hone; lia|exists u; right; exact Hu]. }
  destruct Hr as (u & Hr). assert (u = t) by (eapply R5; eauto). subst u.
  assert (Hi : In f (runs t tr)) by (unfold runs; apply in_flat_map; exists (ERun t f); split; [exact Hr|cbn; rewrite Nat.eqb_refl; left; reflexivity]). rewrite Z in Hi. destruct Hi.
Qed.

(** Two functions registered before the exit; the first to run registers a third. *)
Definition exit_sched : list tact2 :=
  ([AAtExit 0 FNone; AAtExit 0 FNone; AExit 0] ++ [AStep 0; AStep 0; AStep 0; AAtExit 0 FNone; ARet 0; AStep 0; ARet 0; AStep 0; AStep 0; AStep 0] ++ [AStep 0; AStep 0; AStep 0; ARet 0; AStep 0; AStep 0; AStep 0] ++ [AStep 0])%nat.
Example C43_ex : exists c tr, exec (tss_step (Posix 4)) (tss_init 1) exit_sched = Some (c, tr) /\ exit_complete (Posix 4) 0 c tr /\ exit_regs 0 tr = [0; 1]%nat /\ regs 0 tr = [0; 1; 2]%nat /\ runs 0 tr = [1; 0; 2]%nat.
Proof. eexists _, _. split; [vm_compute; reflexivity|]. split; [split; [eexists; split; vm_compute; reflexivity|vm_compute; lia]|]. vm_compute. auto. Qed.

(** Windows: a function registered by the cleanup function of a thread-specific value never runs. *)
Theorem C43_windows_late_refuted : exists n sched c tr t f, exec (tss_step Win) (tss_init n) sched = Some (c, tr) /\ exit_complete Win t c tr /\ In (EReg t f) tr /\ nruns f tr = 0.
Proof.
  exists 1%nat, ([ANew 0 (Some 7) true; AReset 0 0 5 FNone; AExit 0; AStep 0; AStep 0; AStep 0; AAtExit 0 FNone; ARet 0; AStep 0; AStep 0])%nat. eexists _, _, 0%nat, 0%nat. split; [vm_compute; reflexivity|].
  split; [split; [eexists; split; vm_compute; reflexivity|exact I]|]. vm_compute. split; [auto 10|reflexivity].
Qed.
(** POSIX: a function registered in the last round of key destructors never runs. *)
Definition deep_round : list tact2 := ([AStep 0; AStep 0; AStep 0; AAtExit 0 FNone; ARet 0; AStep 0; AStep 0; AStep 0])%nat.
Theorem C43_posix_depth_refuted : exists lim n sched c tr t f, (0 < lim)%nat /\ exec (tss_step (Posix lim)) (tss_init n) sched = Some (c, tr) /\ all_done c /\ In (EReg t f) tr /\ nruns f tr = 0.
Proof.
  exists 4%nat, 1%nat, ([AAtExit 0 FNone; AExit 0] ++ concat (repeat deep_round 4) ++ [AStep 0])%nat. eexists _, _, 0%nat, 4%nat. split; [lia|]. split; [vm_compute; reflexivity|]. split; [all_done|]. vm_compute. split; [auto 20|reflexivity].
Qed.
(** Compiler TLS: nothing runs at all. *)
Theorem C43_compiler_tls_refuted : exists n sched c tr t f, exec (tss_step PosixTls) (tss_init n) sched = Some (c, tr) /\ all_done c /\ In (EReg t f) tr /\ nruns f tr = 0.
Proof. exists 1%nat, ([AAtExit 0 FNone; AExit 0])%nat. eexists _, _, 0%nat, 0%nat. split; [vm_compute; reflexivity|]. split; [all_done|]. vm_compute. auto. Qed.

(** ** C44 *)
Definition exit_work (t : nat) (e : tev) : Prop := match e with ERun u _ | ECall u _ _ => u = t | _ => False end.

Lemma ti_init_step pl n sched c tr a e b (Q : list tev -> tev -> Prop) :
  (forall s ths tr a th th' s' e, BASE pl (s, ths) -> ALLTI pl (s, ths) tr -> nth_error ths (thread_of a) = Some th -> tss_eff pl s (thread_of a) th s' th' [e] -> Q tr e) ->
  exec (tss_step pl) (tss_init n) sched = Some (c, tr) -> tr = a ++ e :: b -> Q a e.
Proof.
  intros HQ H E. apply (before_event pl n (fun c tr => BASE pl c /\ ALLTI pl c tr) Q) with (sched := sched) (c := c) (tr := tr) (b := b); auto.
  - split; [apply base_init|apply TI_init].
  - intros c0 tr0 a0 c1 e1 (HB & HA) Hs. split; [eapply base_step; eauto|]. destruct c0 as [s ths]. destruct HB as (HW & HK). destruct (tss_effects _ _ _ _ _ _ Hs) as (th & th' & Ht & Et & He'). destruct c1 as [s1 ths1]. cbn [fst snd] in *. subst ths1. eapply TI_step; eauto.
  - intros c0 tr0 a0 c1 e1 (HB & HA) Hs. destruct c0 as [s ths]. destruct (tss_effects _ _ _ _ _ _ Hs) as (th & th' & Ht & Et & He'). eapply HQ; eauto.
Qed.

Lemma ntf_app t a b : ntf t (a ++ b) = fold_left (ntf1 t) b (ntf t a). Proof. apply fold_left_app. Qed.
Lemma ntf_stays t b : ~ In (EDet t) b -> fold_left (ntf1 t) b true = true.
Proof.
  induction b as [|e b IH]; intros H; [reflexivity|]. cbn [fold_left]. replace (ntf1 t true e) with true; [apply IH; intros G; apply H; right; exact G|].
  destruct e; try reflexivity; cbn; [destruct (_ =? _)%nat; reflexivity|]. destruct (Nat.eqb_spec t0 t) as [->|]; [exfalso; apply H; left; reflexivity|reflexivity].
Qed.

(** Once a thread has notified, it runs no exit function and cleans no value any more - before pthread starts another round of key destructors. *)
Theorem C44_last pl n sched c tr a t m b e d : exec (tss_step pl) (tss_init n) sched = Some (c, tr) -> tr = a ++ ENotified t m :: b ++ e :: d -> exit_work t e -> In (EDet t) b.
Proof.
  intros H E He. assert (G : ntf t (a ++ ENotified t m :: b) = false).
  { refine (ti_init_step pl n sched c tr (a ++ ENotified t m :: b) e d (fun tr e => forall t, exit_work t e -> ntf t tr = false) _ H _ t He); [|rewrite E, <- app_assoc; reflexivity].
    clear. intros s ths tr a th th' s' e (HW & _) HA Ht Heff t Hw. destruct HW as (_ & _ & _ & _ & H5). cbn [fst snd] in *. specialize (H5 _ _ Ht). destruct (HA _ _ Ht) as (_ & _ & L & _). unfold LST in L. cbn [fst snd] in *.
    remember [e] as el. destruct Heff; inversion Heqel; subst; try (destruct H0 as [E0|(m0 & E0)]; inversion E0; subst; cbn in Hw; contradiction); cbn in Hw; try contradiction; subst t.
    - destruct (ntf (thread_of a) tr); [|reflexivity]. specialize (L eq_refl). destruct (est th); try contradiction; first [congruence | destruct H5; congruence].
    - rewrite H0 in L. destruct (ntf (thread_of a) tr); [specialize (L eq_refl); contradiction|reflexivity].
    - rewrite H0 in L. destruct (ntf (thread_of a) tr); [specialize (L eq_refl); contradiction|reflexivity]. }
  rewrite ntf_app in G. cbn [fold_left ntf1] in G. rewrite Nat.eqb_refl in G.
  assert (D : In (EDet t) b \/ ~ In (EDet t) b) by (clear; induction b as [|x b [IH|IH]]; [right; intros []|left; right; exact IH|]; destruct x; try (right; intros [Hx|Hx]; [discriminate|contradiction]); destruct (Nat.eq_dec t0 t) as [->|]; [left; left; reflexivity|right; intros [Hx|Hx]; [congruence|contradiction]]).
  destruct D as [D|D]; [exact D|]. rewrite (ntf_stays t b D) in G. discriminate.
Qed.

Lemma win_no_det n sched c tr t : exec (tss_step Win) (tss_init n) sched = Some (c, tr) -> ~ In (EDet t) tr.
Proof.
  intros H Hi. apply in_split in Hi. destruct Hi as (a & b & E).
  refine (ti_init_step Win n sched c tr a (EDet t) b (fun _ e => forall t, e <> EDet t) _ H E t eq_refl). clear. intros s ths tr a th th' s' e (HW & _) HA Ht Heff t ->.
  remember [EDet t] as el. destruct Heff; inversion Heqel; subst; try (destruct H0 as [E0|(m0 & E0)]; inversion E0; fail). destruct HW as (_ & _ & _ & _ & H5). specialize (H5 _ _ Ht). rewrite H0 in H5. destruct H5 as (_ & H5). apply H5. reflexivity.
Qed.

(** Windows: the notification comes after all exit functions and all cleanup functions of the thread. *)
Theorem C44_windows_last n sched c tr a t m b e : exec (tss_step Win) (tss_init n) sched = Some (c, tr) -> tr = a ++ ENotified t m :: b -> In e b -> ~ exit_work t e.
Proof.
  intros H E Hi Hw. apply in_split in Hi. destruct Hi as (b1 & b2 & ->). apply (win_no_det _ _ _ _ t H). rewrite E. apply in_or_app. right. right. apply in_or_app. left. eapply C44_last; eauto.
Qed.

(** Notifications are delivered in the order they were registered, each at most once; all of them when the exit is complete. *)
Theorem C44_once pl n sched c tr t : exec (tss_step pl) (tss_init n) sched = Some (c, tr) -> (t < n)%nat -> prefix (notified t tr) (nots t tr) /\ (exit_complete pl t c tr -> notified t tr = nots t tr).
Proof.
  intros H Ht. destruct (tss_exit _ _ _ _ _ H) as (HB & HA & _).
  assert (L : length (snd c) = n).
  { revert H. apply (exec_inv_state (tss_step pl) (fun c => length (snd c) = n)); [cbn; apply repeat_length|]. intros [s ths] a c' e E Hs. destruct (tss_effects _ _ _ _ _ _ Hs) as (? & ? & _ & -> & _). rewrite upd_length. exact E. }
  destruct (nth_error (snd c) t) as [th|] eqn:Et; [|apply nth_error_None in Et; lia]. destruct (HA _ _ Et) as (_ & N & _). unfold NTF in N. split; [exists (pendn pl (fst c) t th); exact N|].
  intros Hc. pose proof (done_slot _ _ _ _ HB HA Hc) as Hs. destruct Hc as ((th' & Ht' & Hd) & _). assert (th' = th) by congruence. subst. unfold pendn, slot_nt in N. rewrite Hd, Hs, app_nil_r in N. auto.
Qed.

(** Calls of notify_all_at_thread_exit by [t] with the lock of mutex [m]; registrations and immediate unlocks. *)
Definition calls (t m : nat) (sched : list tact2) : Z := sumf (fun a => match a with ANotExit u x _ => b2z ((u =? t) && (x =? m))%nat | _ => 0 end) sched.
Definition handed (t m : nat) (tr : list tev) : Z := sumf (fun e => match e with ENot u x => b2z ((u =? t) && (x =? m))%nat | _ => 0 end) tr.
Definition unlocked (t m : nat) (tr : list tev) : Z := sumf (fun e => match e with EUnlk u x => b2z ((u =? t) && (x =? m))%nat | _ => 0 end) tr.
Lemma not_action pl c a c' e t m : tss_step pl c a = Some (c', e) -> calls t m [a] = handed t m e + unlocked t m e.
Proof.
  intros H. destruct c as [s ths]. revert H. cbn [tss_step]. destruct (nth_error ths (thread_of a)) as [th|]; [|discriminate]. intros H.
  destruct a as [u cb' fl|u q|u q|u q|u q v f|u f|u m' f|u|u|u]; cbn [thread_of] in H; try (destruct (user th); [|discriminate]); cbn [tss_user] in H.
  - inversion H; subst. reflexivity.
  - destruct (nth_error (tptrs s) q) as [r|]; [|discriminate]. destruct (palive r); [|discriminate]. destruct (delete_key s q r). inversion H. reflexivity.
  - destruct (nth_error (tptrs s) q) as [r|]; [|discriminate]. destruct (palive r); inversion H. reflexivity.
  - destruct (nth_error (tptrs s) q) as [r|]; [|discriminate]. destruct (palive r); [|discriminate]. destruct (_ =? _)%nat; inversion H; reflexivity.
  - destruct (nth_error (tptrs s) q) as [r|]; [|discriminate]. destruct (palive r); [|discriminate]. destruct (_ =? _)%nat; [inversion H; reflexivity|]. destruct f; [inversion H; reflexivity| |]; destruct (can_fail _ _ _); inversion H; reflexivity.
  - destruct f; [|destruct (can_fail _ _ _); inversion H; reflexivity..]. destruct (ensure s u) as [s1 x]. destruct (ctx_of s1 x); inversion H; reflexivity.
  - destruct f; [|destruct (can_fail _ _ _); inversion H; unfold calls, handed, unlocked; cbn [sumf]; lia..]. destruct (ensure s u) as [s1 x]. destruct (ctx_of s1 x); inversion H. unfold calls, handed, unlocked; cbn [sumf]; lia.
  - destruct (stk th) as [|[] ?]; inversion H; reflexivity.
  - destruct (stk th); inversion H; reflexivity.
  - unfold tss_run in H. destruct (stk th) as [|[|cb' [|v vs]] r]; try discriminate; try (inversion H; reflexivity). destruct (est th) as [|[|k]|x k [|f fs]|x k j st|x k [|w ms]|]; try discriminate; try (inversion H; reflexivity).
    + destruct (slot s u); inversion H; reflexivity.
    + destruct (ctx_of s x) as [d|]; [|discriminate]. destruct (atexit d); inversion H; reflexivity.
    + destruct (nth_error st j) as [[|v]|]; [inversion H; reflexivity| |].
      * destruct (nth_error (keys s) j) as [[[cb'|] fl]|]; inversion H; reflexivity.
      * destruct (ctx_of s x) as [d|]; [|discriminate]. destruct (storage d); inversion H; reflexivity.
    + destruct pl; inversion H; reflexivity.
Qed.

(** Every lock handed to notify_all_at_thread_exit is either registered or, if the registration throws, unlocked at once - never both, never neither. *)
Theorem C44_accounted pl n sched c tr t m : exec (tss_step pl) (tss_init n) sched = Some (c, tr) -> calls t m sched = handed t m tr + unlocked t m tr.
Proof.
  generalize (tss_init n). revert c tr. induction sched as [|a sched IH]; intros c tr c0 H; cbn in H; [inversion H; reflexivity|].
  destruct (tss_step pl c0 a) as [[c1 e]|] eqn:Es; [|discriminate]. destruct (exec (tss_step pl) c1 sched) as [[c2 tr2]|] eqn:Ex; [|discriminate]. inversion H; subst.
  pose proof (IH _ _ _ Ex) as E1. pose proof (not_action _ _ _ _ _ t m Es) as E2. change (a :: sched) with ([a] ++ sched). unfold calls, handed, unlocked in *. rewrite !sumf_app. lia.
Qed.

Definition note_sched : list tact2 :=
  ([ANew 0 (Some 7) true; AReset 0 0 5 FNone; ANotExit 0 3 FPush; ANotExit 0 3 FNone; AAtExit 0 FNone; AExit 0; AStep 0; AStep 0; ANotExit 0 4 FNone; ARet 0; AStep 0; AStep 0; AStep 0; ARet 0; AStep 0; AStep 0; AStep 0; AStep 0])%nat.
Example C44_ex : exists c, exec (tss_step Win) (tss_init 1) note_sched =
  Some (c, [ENew 0 0 (Some 7); ESet 0 0 (Some 7) 5; EUnlk 0 3; ENot 0 3; EReg 0 0; EExit 0; ERun 0 0; ENot 0 4; ETls 0; ECall 0 7 5; ENotified 0 3; ENotified 0 4])%nat.
Proof. eexists. vm_compute. reflexivity. Qed.

(** POSIX: an exit function runs after the notification, when it was registered by another exit function. *)
Theorem C44_posix_order_refuted : exists lim n sched c tr a t m b f d, (0 < lim)%nat /\ exec (tss_step (Posix lim)) (tss_init n) sched = Some (c, tr) /\ tr = a ++ ENotified t m :: b ++ ERun t f :: d.
Proof.
  exists 4%nat, 1%nat, ([ANotExit 0 3 FNone; AAtExit 0 FNone; AExit 0; AStep 0; AStep 0; AStep 0; AAtExit 0 FNone; ARet 0; AStep 0; AStep 0; AStep 0; AStep 0; AStep 0; AStep 0; AStep 0])%nat.
  eexists _, _, [ENot 0 3; EReg 0 0; EExit 0; EDet 0; ERun 0 0; EReg 0 1]%nat, 0%nat, 3%nat, [EDet 0]%nat, 1%nat, []. split; [lia|]. split; [vm_compute; reflexivity|]. reflexivity.
Qed.
(** POSIX: a notification registered in the last round of key destructors never comes, and the mutex stays locked. *)
Definition deep_note : list tact2 := ([AStep 0; AStep 0; AStep 0; AAtExit 0 FNone; ANotExit 0 3 FNone; ARet 0; AStep 0; AStep 0; AStep 0])%nat.
Theorem C44_posix_depth_refuted : exists lim n sched c tr t m, (0 < lim)%nat /\ exec (tss_step (Posix lim)) (tss_init n) sched = Some (c, tr) /\ all_done c /\ In (ENot t m) tr /\ ~ In (ENotified t m) tr.
Proof.
  exists 1%nat, 1%nat, ([AAtExit 0 FNone; AExit 0] ++ deep_note ++ [AStep 0])%nat. eexists _, _, 0%nat, 3%nat. split; [lia|]. split; [vm_compute; reflexivity|]. split; [all_done|]. split; [cbn; auto 20|]. cbn. intuition discriminate.
Qed.
(** Compiler TLS: the notification never comes. *)
Theorem C44_compiler_tls_refuted : exists n sched c tr t m, exec (tss_step PosixTls) (tss_init n) sched = Some (c, tr) /\ all_done c /\ In (ENot t m) tr /\ ~ In (ENotified t m) tr.
Proof. exists 1%nat, ([ANotExit 0 3 FNone; AExit 0])%nat. eexists _, _, 0%nat, 3%nat. split; [vm_compute; reflexivity|]. split; [all_done|]. split; [cbn; auto|]. cbn. intuition discriminate. Qed.

(** ** C45 *)
(** Windows: values are taken away only after the last exit function was called. *)
Definition EARLY (c : tss_st) (tr : list tev) : Prop := forall t th, nth_error (snd c) t = Some th -> match est th with Running | ExAt _ _ _ => tls t tr = false | _ => True end.
Lemma early_step s ths t th s' th' e tr : nth_error ths t = Some th -> (forall n, est th <> Iter n) -> tss_eff Win s t th s' th' e -> EARLY (s, ths) tr -> EARLY (s', upd ths t th') (tr ++ e).
Proof.
  intros Ht Hit He HE u w Hu. cbn [snd] in *. apply nth_upd_inv in Hu. pose proof (ev_own _ _ _ _ _ _ _ He) as Hev. destruct Hu as [(<- & -> & _)|(Hn & Hu)].
  - specialize (HE _ _ Ht). unfold tls in *. rewrite existsb_app.
    assert (F : forall e, e = [] \/ (exists m, e = [EUnlk t m]) -> existsb (is_tls t) e = false) by (intros e0 [->|(m & ->)]; reflexivity).
    destruct He; cbn [push est existsb is_tls orb] in *; try (match goal with H : ?x = [] \/ _ |- _ => rewrite (F x H) end); rewrite ?orb_false_r; try exact HE; try exact I.
    + rewrite H0 in HE. destruct (slot s t); [exact HE|exact I].
    + exfalso. eapply Hit. eassumption.
    + rewrite H0 in HE. exact HE.
    + rewrite H0 in HE. exact HE.
  - specialize (HE _ _ Hu). unfold tls in *. rewrite existsb_app. destruct (other_ev u e) as (_ & _ & _ & _ & _ & T & _); [eapply Forall_impl; [|exact Hev]; cbn; intros x Hx; congruence|]. unfold tls in T. rewrite T, orb_false_r. exact HE.
Qed.

Theorem C45_windows_values_after_functions n sched c tr a t f b : exec (tss_step Win) (tss_init n) sched = Some (c, tr) -> tr = a ++ ERun t f :: b -> tls t a = false.
Proof.
  intros H E. apply (before_event Win n (fun c tr => BASE Win c /\ EARLY c tr) (fun a e => match e with ERun t _ => tls t a = false | _ => True end)) with (sched := sched) (c := c) (tr := tr) (e := ERun t f) (b := b); auto.
  - split; [apply base_init|]. intros u th Hu. cbn [snd tss_init] in Hu. apply nth_error_In, repeat_spec in Hu. subst. reflexivity.
  - intros c0 tr0 a0 c1 e1 (HB & HA) Hs. split; [eapply base_step; eauto|]. destruct c0 as [s ths]. destruct HB as (HW & HK). destruct (tss_effects _ _ _ _ _ _ Hs) as (th & th' & Ht & Et & He'). destruct c1 as [s1 ths1]. cbn [fst snd] in *. subst ths1. eapply early_step; eauto.
    intros k Hk. destruct HW as (_ & _ & _ & _ & H5). specialize (H5 _ _ Ht). rewrite Hk in H5. apply H5. reflexivity.
  - intros c0 tr0 a0 c1 e1 (HB & HA) Hs. destruct e1; auto. destruct c0 as [s ths]. destruct (tss_effects _ _ _ _ _ _ Hs) as (th & th' & Ht & Et & He'). specialize (HA _ _ Ht). remember [ERun t0 f0] as el. remember (thread_of a0) as u.
    destruct He'; inversion Heqel; subst; try (destruct H1 as [E0|(m0 & E0)]; inversion E0; fail). rewrite H1 in HA. exact HA.
Qed.

(** Windows: as long as the destruction of the thread's values has not begun - in particular while exit functions run - get() returns the value last set. *)
Theorem C45_windows n sched c tr a t p v b : exec (tss_step Win) (tss_init n) sched = Some (c, tr) -> tr = a ++ EGet t p v :: b -> tls t a = false -> v = last_set t p a.
Proof.
  intros H E Hx. rewrite (C41_exact _ _ _ _ _ _ _ _ _ _ H E). apply seen_last.
  - intros a' b' Ea. apply (win_no_det _ _ _ _ t H). rewrite E, Ea. apply in_or_app. left. apply in_or_app. right. left. reflexivity.
  - intros _ a' b' Ea. rewrite Ea in Hx. unfold tls in Hx. rewrite existsb_app in Hx. cbn in Hx. rewrite Nat.eqb_refl in Hx. rewrite orb_true_r in Hx. discriminate.
Qed.

Definition use_sched : list tact2 := ([ANew 0 (Some 7) true; AReset 0 0 5 FNone; AAtExit 0 FNone; AExit 0; AStep 0; AStep 0; AGet 0 0])%nat.
Example C45_ex : exists c, exec (tss_step Win) (tss_init 1) use_sched = Some (c, [ENew 0 0 (Some 7); ESet 0 0 (Some 7) 5; EReg 0 0; EExit 0; ERun 0 0] ++ EGet 0 0 5 :: [])%nat.
Proof. eexists. vm_compute. reflexivity. Qed.

(** POSIX: get() returns null in exit functions, the values are out of reach (pthread has cleared the context pointer). *)
Theorem C45_posix_refuted : exists lim n sched c tr a t p f v, (0 < lim)%nat /\ exec (tss_step (Posix lim)) (tss_init n) sched = Some (c, tr) /\ tr = a ++ ERun t f :: EGet t p v :: [] /\ v <> last_set t p a.
Proof.
  exists 4%nat, 1%nat, ([ANew 0 (Some 7) true; AReset 0 0 5 FNone; AAtExit 0 FNone; AExit 0; AStep 0; AStep 0; AStep 0; AGet 0 0])%nat.
  eexists _, _, [ENew 0 0 (Some 7); ESet 0 0 (Some 7) 5; EReg 0 0; EExit 0; EDet 0]%nat, 0%nat, 0%nat, 0%nat, 0%nat. split; [lia|]. split; [vm_compute; reflexivity|]. split; [reflexivity|]. vm_compute. discriminate.
Qed.

(** ** C46 *)
(** In every reachable state, two enabled calls of different threads race only if one of them destroys a pointer, or one creates a pointer while the other cleans up at thread exit. *)
Theorem C46_only_these_partial pl n sched c tr a b : exec (tss_step pl) (tss_init n) sched = Some (c, tr) -> race pl c a b ->
  is_del a \/ is_del b \/ (is_new a /\ is_step b) \/ (is_step a /\ is_new b).
Proof. intros H Hr. destruct (tss_exit _ _ _ _ _ H) as ((HW & _) & _). destruct c as [s ths]. eapply race_cases; eauto. Qed.

Ltac race_now := eexists; vm_compute; reflexivity.
(** reset() of one pointer races with the destruction of another one: both write the storage vector of the resetting thread's context. *)
Theorem C46_reset_destroy_refuted : exists n sched c tr p q, exec (tss_step Win) (tss_init n) sched = Some (c, tr) /\ p <> q /\ race Win c (AReset 1 p 9 FNone) (ADel 0 q).
Proof.
  exists 2%nat, ([ANew 0 (Some 7) true; ANew 0 (Some 8) true; AReset 1 0 5 FNone])%nat. eexists _, _, 0%nat, 1%nat. split; [vm_compute; reflexivity|]. split; [discriminate|].
  split; [race_now|]. split; [race_now|]. split; [discriminate|]. eexists _, _. split; [vm_compute; reflexivity|]. split; [vm_compute; reflexivity|].
  exists (LStor 0), true, true, false, true. vm_compute. auto 10.
Qed.
(** Even get() does. *)
Theorem C46_get_destroy_refuted : exists n sched c tr p q, exec (tss_step Win) (tss_init n) sched = Some (c, tr) /\ p <> q /\ race Win c (AGet 1 p) (ADel 0 q).
Proof.
  exists 2%nat, ([ANew 0 (Some 7) true; ANew 0 (Some 8) true; AReset 1 0 5 FNone])%nat. eexists _, _, 0%nat, 1%nat. split; [vm_compute; reflexivity|]. split; [discriminate|].
  split; [race_now|]. split; [race_now|]. split; [discriminate|]. eexists _, _. split; [vm_compute; reflexivity|]. split; [vm_compute; reflexivity|].
  exists (LStor 0), false, true, false, true. vm_compute. auto 10.
Qed.
(** Creating a pointer races with the exit of a thread that has a value: m_storage_cleanup is read without the mutex while it may be reallocated. *)
Theorem C46_create_exit_refuted : exists n sched c tr, exec (tss_step Win) (tss_init n) sched = Some (c, tr) /\ race Win c (ANew 0 (Some 8%nat) true) (AStep 1).
Proof.
  exists 2%nat, ([ANew 0 (Some 7) true; AReset 1 0 5 FNone; AExit 1; AStep 1; AStep 1])%nat. eexists _, _. split; [vm_compute; reflexivity|].
  split; [race_now|]. split; [race_now|]. split; [discriminate|]. eexists _, _. split; [vm_compute; reflexivity|]. split; [vm_compute; reflexivity|].
  exists LCleanups, true, false, true, false. vm_compute. auto 10.
Qed.
