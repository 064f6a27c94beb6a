(** C89: when the process ends on Windows, on_process_exit returns wherever the other threads were stopped (ExitHeld.v).
    False: a thread stopped while it held the manager's mutex makes the process hang, unless no thread has a context. *)
From Coq Require Import List Bool Arith ZArith Lia.
From Verif Require Import ListSum Exec TssModel TssProof TssKeys TssOwn TssExit PropsTss ProcExit ProcExitProof PropsProcExit TssFail ExitHeld.
Import ListNotations.
Local Open Scope Z_scope.

Lemma h_pe held ctls t0 q a q' e : h_step held ctls t0 q a = Some (q', e) -> pe_step ctls t0 q a = Some (q', e).
Proof. unfold h_step. destruct (held && locks q a); [discriminate|auto]. Qed.
Lemma h_pe_exec held ctls t0 sched : forall q q' tr, exec (h_step held ctls t0) q sched = Some (q', tr) -> exec (pe_step ctls t0) q sched = Some (q', tr).
Proof.
  induction sched as [|a sched IH]; intros q q' tr H; cbn [exec] in *; [exact H|]. destruct (h_step held ctls t0 q a) as [[q1 e1]|] eqn:E1; [|discriminate]. rewrite (h_pe _ _ _ _ _ _ _ E1).
  destruct (exec (h_step held ctls t0) q1 sched) as [[q2 e2]|] eqn:E2; [|discriminate]. rewrite (IH _ _ _ E2). exact H.
Qed.

(** If no thread was stopped inside a section, this is the process exit of C66. *)
Theorem C89_not_held : forall ctls t0 s sched, exec (h_step false ctls t0) (pe_start s) sched = exec (pe_step ctls t0) (pe_start s) sched.
Proof.
  intros ctls t0 s sched. generalize (pe_start s) as q. induction sched as [|a sched IH]; intros q; [reflexivity|]. cbn [exec]. change (h_step false ctls t0 q a) with (pe_step ctls t0 q a).
  destruct (pe_step ctls t0 q a) as [[q1 e1]|]; [|reflexivity]. rewrite IH. reflexivity.
Qed.
Print Assumptions C89_not_held.

(** What is true all the time when the mutex is held: the destructor is at work on the first context [x], which was [c0], and never gets to another one. *)
Definition HI (s : tsh) (x : nat) (c0 : ctx) (q : pst) (tr : list tev) : Prop :=
  (pph q = PWalk -> psh q = s /\ pstk q = []) /\ pph q <> PEnd /\ (forall y, here (pph q) = Some y -> y = x) /\ (nreg s <= nreg (psh q))%nat /\
  (forall c f, ctx_of (psh q) x = Some c -> In f (atexit c) -> In f (atexit c0) \/ (nreg s <= f)%nat) /\
  (forall y fs f, pph q = PAt y fs -> In f fs -> In f (atexit c0) \/ (nreg s <= f)%nat) /\
  (forall u f, In (ERun u f) tr -> In f (atexit c0) \/ (nreg s <= f)%nat).

Lemma HI_keep s x c0 q tr q' e : HI s x c0 q tr -> pph q' = pph q -> (pph q <> PWalk) -> (nreg (psh q) <= nreg (psh q'))%nat ->
  (forall c' f, ctx_of (psh q') x = Some c' -> In f (atexit c') -> (exists c, ctx_of (psh q) x = Some c /\ In f (atexit c)) \/ (nreg s <= f)%nat) -> (forall u f, In (ERun u f) e -> False) -> HI s x c0 q' (tr ++ e).
Proof.
  intros (A & B & C & D & E & F & G) Hp Hw Hn Hc He. rewrite <- Hp in *. split; [intros W; contradiction|]. split; [exact B|]. split; [exact C|]. split; [lia|]. split; [|split].
  - intros c f H1 H2. destruct (Hc c f H1 H2) as [(c1 & H3 & H4)|H3]; [eauto|right; exact H3].
  - exact F.
  - intros u f Hi. apply in_app_or in Hi. destruct Hi as [Hi|Hi]; [eauto|exfalso; eauto].
Qed.

Lemma HI_step s x c0 ctls t0 q a q' e tr : front s = Some x -> ctx_of s x = Some c0 -> HI s x c0 q tr -> h_step true ctls t0 q a = Some (q', e) -> HI s x c0 q' (tr ++ e).
Proof.
  intros Hf Hc0 HH H. pose proof HH as (A & B & C & D & E & F & G). unfold h_step in H. cbn [andb] in H. destruct (locks q a) eqn:El; [discriminate|]. unfold pe_step in H. destruct (crashed q) eqn:Ecr; [discriminate|].
  assert (Hus : forall a, (if puser q then pe_user t0 q a else None) = Some (q', e) -> HI s x c0 q' (tr ++ e)).
  { intros a0 Hu. destruct (puser q) eqn:Ep; [|discriminate]. assert (Hw : pph q <> PWalk) by (intros W; destruct (A W) as (_ & Es); unfold puser in Ep; rewrite Es, W in Ep; discriminate).
    assert (Same : forall st b, HI s x c0 (PS (psh q) st (pph q) b) (tr ++ [])) by (intros st b; eapply HI_keep; [exact HH|reflexivity|exact Hw|cbn; lia|cbn [psh]; intros c' f H1 H2; left; eauto|intros u f []]).
    assert (Val : forall t k v c1 st ev, access_of (psh q) t = ALive c1 (match ctx_of (psh q) c1 with Some d => d | None => X 0 [] [] [] end) -> (forall u f, In (ERun u f) ev -> False) -> HI s x c0 (PS (set_value (psh q) t k v) st (pph q) false) (tr ++ ev)).
    { intros t k v c1 st ev Ha Hev. apply access_live in Ha. destruct Ha as (H1 & H2). rewrite (set_value_live _ _ _ _ _ _ H1 H2). eapply HI_keep; [exact HH|reflexivity|exact Hw|cbn; lia| |exact Hev].
      cbn [psh]. intros c' f H3 H4. rewrite (ctx_set _ _ _ _ _ H2) in H3. left. destruct (Nat.eqb_spec x c1) as [->|]; [inversion H3; subst c'; cbn [atexit] in H4; eauto|eauto]. }
    destruct a0; cbn [pe_user] in Hu; unfold crash in Hu.
    - discriminate.
    - destruct (pstk q) as [|[|] r]; inversion Hu; subst. apply Same.
    - inversion Hu; subst. apply Same.
    - destruct (nth_error (tptrs (psh q)) p) as [o|]; [|discriminate]. destruct (palive o); inversion Hu; subst. apply Same.
    - destruct (nth_error (tptrs (psh q)) p) as [o|]; [|discriminate]. destruct (palive o); [|discriminate]. destruct (access_of (psh q) t0); inversion Hu; subst; try apply Same; (eapply HI_keep; [exact HH|reflexivity|exact Hw|lia|eauto|intros u f [Hi|[]]; discriminate]).
    - destruct (nth_error (tptrs (psh q)) p) as [o|]; [|discriminate]. destruct (palive o); [|discriminate]. destruct (access_of (psh q) t0) as [|y d|] eqn:Ea; [| |inversion Hu; subst; apply Same].
      + inversion Hu; subst. eapply HI_keep; [exact HH|reflexivity|exact Hw|lia|eauto|intros u f []].
      + destruct (getv (storage d) (pkey o) =? 0)%nat; inversion Hu; subst; [eapply HI_keep; [exact HH|reflexivity|exact Hw|lia|eauto|intros u f []]|].
        eapply Val; [|intros u f [Hi|[]]; discriminate]. pose proof (access_live _ _ _ _ Ea) as (_ & Hy). rewrite Ea, Hy. reflexivity.
    - destruct (nth_error (tptrs (psh q)) p) as [o|]; [|discriminate]. destruct (palive o); [|discriminate]. destruct (access_of (psh q) t0) as [|y d|] eqn:Ea; [| |inversion Hu; subst; apply Same].
      + destruct (v =? 0)%nat; inversion Hu; subst; [eapply HI_keep; [exact HH|reflexivity|exact Hw|lia|eauto|intros u f []]|apply Same].
      + destruct (getv (storage d) (pkey o) =? v)%nat; inversion Hu; subst; [eapply HI_keep; [exact HH|reflexivity|exact Hw|lia|eauto|intros u f []]|].
        eapply Val; [|intros u f [Hi|[]]; discriminate]. pose proof (access_live _ _ _ _ Ea) as (_ & Hy). rewrite Ea, Hy. reflexivity.
    - destruct (access_of (psh q) t0) as [|y d|] eqn:Ea; inversion Hu; subst; try apply Same. apply access_live in Ea. destruct Ea as (H1 & H2).
      eapply HI_keep; [exact HH|reflexivity|exact Hw|cbn; lia| |intros u f [Hi|[]]; discriminate]. cbn [psh]. intros c' f H3 H4.
      change (ctx_of (set_ctx (psh q) y (Some (X (xown d) (storage d) (atexit d ++ [nreg (psh q)]) (notif d)))) x = Some c') in H3. rewrite (ctx_set _ _ _ _ _ H2) in H3.
      destruct (Nat.eqb_spec x y) as [->|]; [|left; eauto]. inversion H3; subst c'. cbn [atexit] in H4. apply in_app_or in H4. destruct H4 as [H4|[<-|[]]]; [left; eauto|right; exact D].
    - destruct (access_of (psh q) t0) as [|y d|] eqn:Ea; inversion Hu; subst; try apply Same. apply access_live in Ea. destruct Ea as (H1 & H2).
      eapply HI_keep; [exact HH|reflexivity|exact Hw|cbn; lia| |intros u f [Hi|[]]; discriminate]. cbn [psh]. intros c' f H3 H4. rewrite (ctx_set _ _ _ _ _ H2) in H3.
      destruct (Nat.eqb_spec x y) as [->|]; [|left; eauto]. inversion H3; subst c'. cbn [atexit] in H4. left. eauto.
    - destruct (pstk q); [|discriminate]. destruct (pph q); try discriminate. contradiction.
    - destruct (pstk q); [|discriminate]. destruct (pph q); try discriminate. contradiction. }
  destruct a; try (apply Hus with (1 := H)).
  clear Hus. unfold pe_run in H. unfold locks in El. destruct (pstk q) as [|[|cb [|v vs]] r] eqn:Es; try discriminate.
  - destruct (pph q) as [|y fs|y k st|y ms|] eqn:Ep.
    + destruct (A eq_refl) as (Eps & _). rewrite Eps, Hf in H. rewrite Eps in D, E. inversion H; subst q' e; clear H. split; [discriminate|]. split; [discriminate|]. split; [cbn; congruence|]. split; [cbn; lia|]. split; [exact E|]. split.
      * intros y fs f Hy Hi. inversion Hy; subst. destruct Hi.
      * rewrite app_nil_r. exact G.
    + assert (y = x) by (apply C; reflexivity). subst y. destruct fs as [|f0 fs].
      * destruct (ctx_of (psh q) x) as [c|] eqn:Ex; [|discriminate]. destruct (atexit c) as [|g l] eqn:Eat; inversion H; subst; clear H.
        -- split; [discriminate|]. split; [discriminate|]. split; [cbn; congruence|]. split; [exact D|]. split; [cbn [psh]; rewrite Ex; exact E|]. split; [intros; discriminate|]. rewrite app_nil_r. exact G.
        -- split; [discriminate|]. split; [discriminate|]. split; [cbn; congruence|]. split; [exact D|]. split; [|split; [|rewrite app_nil_r; exact G]].
           ++ cbn [psh]. intros c' f H3 H4. rewrite (ctx_set _ _ _ _ _ Ex), Nat.eqb_refl in H3. inversion H3; subst c'. destruct H4.
           ++ intros y fs f Hy Hi. inversion Hy; subst. change (In f (rev (g :: l))) in Hi. apply in_rev in Hi. apply (E c f); [reflexivity|rewrite Eat; exact Hi].
      * inversion H; subst; clear H. split; [discriminate|]. split; [discriminate|]. split; [cbn; congruence|]. split; [exact D|]. split; [exact E|]. split.
        -- intros y fs' f Hy Hi. inversion Hy; subst. eapply F; [reflexivity|right; exact Hi].
        -- intros u f Hi. apply in_app_or in Hi. destruct Hi as [Hi|[Hi|[]]]; [eauto|]. inversion Hi; subst. eapply F; [reflexivity|left; reflexivity].
    + assert (y = x) by (apply C; reflexivity). subst y.
      assert (K : forall st' ph' ev, (forall y fs, ph' <> PAt y fs) -> ph' <> PWalk -> ph' <> PEnd -> here ph' = Some x -> (forall u f, In (ERun u f) ev -> False) -> HI s x c0 (PS (psh q) st' ph' false) (tr ++ ev)).
      { intros st' ph' ev N1 N2 N3 N4 N5. split; [intros W; contradiction|]. split; [exact N3|]. split; [cbn [pph]; intros; congruence|]. split; [exact D|]. split; [exact E|]. split; [intros y fs f Hy; exfalso; eapply N1; exact Hy|].
        intros u f Hi. apply in_app_or in Hi. destruct Hi as [Hi|Hi]; [eauto|exfalso; eauto]. }
      destruct (nth_error st k) as [[|v]|].
      * inversion H; subst. apply K; try discriminate; auto.
      * destruct (nth_error (keys (psh q)) k) as [[[cb|] fl]|]; inversion H; subst; apply K; try discriminate; auto. intros u f [Hi|[]]. discriminate.
      * destruct (ctx_of (psh q) x) as [c|] eqn:Ex; [|discriminate]. destruct (storage c) as [|w l]; inversion H; subst; clear H; [apply K; try discriminate; auto|].
        split; [discriminate|]. split; [discriminate|]. split; [cbn; congruence|]. split; [exact D|]. split; [|split; [intros; discriminate|rewrite app_nil_r; exact G]].
        cbn [psh]. intros c' f H3 H4. rewrite (ctx_set _ _ _ _ _ Ex), Nat.eqb_refl in H3. inversion H3; subst c'. cbn [atexit] in H4. eapply E; [reflexivity|exact H4].
    + assert (y = x) by (apply C; reflexivity). subst y. destruct ms as [|m ms]; [discriminate|]. inversion H; subst; clear H. split; [discriminate|]. split; [discriminate|]. split; [cbn; congruence|]. split; [exact D|]. split; [exact E|]. split; [intros; discriminate|].
      intros u f Hi. apply in_app_or in Hi. destruct Hi as [Hi|[Hi|[]]]; [eauto|discriminate].
    + contradiction.
  - inversion H; subst; clear H. assert (Hw : pph q <> PWalk) by (intros W; destruct (A W); congruence). eapply HI_keep; [exact HH|reflexivity|exact Hw|cbn; lia|cbn [psh]; eauto|intros u f []].
  - inversion H; subst; clear H. assert (Hw : pph q <> PWalk) by (intros W; destruct (A W); congruence). eapply HI_keep; [exact HH|reflexivity|exact Hw|cbn; lia|cbn [psh]; eauto|intros u f [Hi|[]]; discriminate].
Qed.

Lemma HI_exec s x c0 ctls t0 sched q tr : front s = Some x -> ctx_of s x = Some c0 -> exec (h_step true ctls t0) (pe_start s) sched = Some (q, tr) -> HI s x c0 q tr.
Proof.
  intros Hf Hc. apply (exec_inv (h_step true ctls t0) (HI s x c0)).
  - split; [auto|]. split; [discriminate|]. split; [discriminate|]. split; [cbn; lia|]. split; [cbn [psh pe_start]; intros c f H1 H2; left; congruence|]. split; [intros; discriminate|intros u f []].
  - intros q1 tr1 a q2 e HH Hs. eapply HI_step; eauto.
Qed.

(** With the mutex held and any context left, on_process_exit does not return, whatever the functions called do; no exit function registered before, except those of the oldest context, is ever called. *)
Theorem C89_held_never_returns : forall ctls t0 s x c0 sched q tr, front s = Some x -> ctx_of s x = Some c0 -> exec (h_step true ctls t0) (pe_start s) sched = Some (q, tr) ->
  pph q <> PEnd /\ forall u f, (f < nreg s)%nat -> In (ERun u f) tr -> In f (atexit c0).
Proof.
  intros ctls t0 s x c0 sched q tr Hf Hc H. destruct (HI_exec _ _ _ _ _ _ _ _ Hf Hc H) as (_ & B & _ & _ & _ & _ & G). split; [exact B|]. intros u f Hlt Hi. destruct (G u f Hi) as [G'|G']; [exact G'|lia].
Qed.
Print Assumptions C89_held_never_returns.

(** If the functions called do not call the library: on_process_exit does everything for the oldest context and then waits for ever; nothing is done for the other contexts. *)
Definition rest (s : tsh) (x : nat) (q : pst) : Prop := keys (psh q) = keys s /\ upd (ctxs (psh q)) x None = upd (ctxs s) x None.
Lemma rest_step s x c0 ctls t0 q a q' e tr : front s = Some x -> ctx_of s x = Some c0 -> HI s x c0 q tr -> rest s x q -> QI q -> quiet a -> h_step true ctls t0 q a = Some (q', e) -> rest s x q'.
Proof.
  intros Hf Hc0 (A & B & C & _) (R1 & R2) HQ Hqa H. unfold h_step in H. cbn [andb] in H. destruct (locks q a) eqn:El; [discriminate|]. unfold pe_step in H. destruct (crashed q); [discriminate|].
  destruct a; try contradiction.
  - unfold pe_run in H. unfold locks in El. destruct (pstk q) as [|[|cb [|v vs]] r] eqn:Es; try discriminate; try (inversion H; subst; split; assumption).
    destruct (pph q) as [|y fs|y k st|y ms|] eqn:Ep.
    + destruct (A eq_refl) as (Eps & _). rewrite Eps, Hf in H. inversion H; subst q' e. split; reflexivity.
    + assert (y = x) by (apply C; reflexivity). subst y. destruct fs; [|inversion H; subst; split; assumption]. destruct (ctx_of (psh q) x) as [c|]; [|discriminate]. destruct (atexit c); inversion H; subst; (split; [assumption|]); [assumption|].
      cbn [psh set_ctx ctxs]. rewrite upd_upd. exact R2.
    + assert (y = x) by (apply C; reflexivity). subst y. destruct (nth_error st k) as [[|v]|]; [inversion H; subst; split; assumption|destruct (nth_error (keys (psh q)) k) as [[[cb|] fl]|]; inversion H; subst; split; assumption|].
      destruct (ctx_of (psh q) x) as [c|]; [|discriminate]. destruct (storage c); inversion H; subst; (split; [assumption|]); [assumption|]. cbn [psh set_ctx ctxs]. rewrite upd_upd. exact R2.
    + destruct ms; [discriminate|]. inversion H; subst; split; assumption.
    + contradiction.
  - destruct (puser q); [|discriminate]. cbn [pe_user] in H. destruct (pstk q) as [|[|] r]; inversion H; subst. split; assumption.
Qed.

Lemma to_the_lock s x c0 ctls t0 : front s = Some x -> ctx_of s x = Some c0 -> forall (k : nat) q tr0, left_steps q <= Z.of_nat k -> QI q -> HI s x c0 q tr0 -> rest s x q ->
  exists sched q' tr, Forall quiet sched /\ exec (h_step true ctls t0) q sched = Some (q', tr) /\ locks q' PStep = true /\ crashed q' = false /\ QI q' /\ HI s x c0 q' (tr0 ++ tr) /\ rest s x q' /\ left_calls t0 q = tr ++ left_calls t0 q'.
Proof.
  intros Hf Hc. assert (Cr : forall q, QI q -> crashed q = false) by (intros q HQ; apply HQ). induction k as [|k IH]; intros q tr0 Hk HQ HH HR.
  - (* no step is left: impossible unless at the lock *)
    destruct (locks q PStep) eqn:El; [exists [], q, []; rewrite app_nil_r; exact (conj (Forall_nil _) (conj eq_refl (conj El (conj (Cr q HQ) (conj HQ (conj HH (conj HR eq_refl)))))))|]. exfalso. destruct HH as (_ & B & _).
    destruct (quiet_next ctls t0 q HQ B) as (a & q1 & e1 & Ha & E1). destruct (quiet_step _ _ _ _ _ _ HQ Ha E1) as (HQ1 & _ & D1). pose proof (left_nonneg _ HQ1). cbn in Hk. lia.
  - destruct (locks q PStep) eqn:El; [exists [], q, []; rewrite app_nil_r; exact (conj (Forall_nil _) (conj eq_refl (conj El (conj (Cr q HQ) (conj HQ (conj HH (conj HR eq_refl)))))))|].
    pose proof HH as (_ & B & _). destruct (quiet_next ctls t0 q HQ B) as (a & q1 & e1 & Ha & E1).
    assert (E1' : h_step true ctls t0 q a = Some (q1, e1)).
    { unfold h_step. cbn [andb]. replace (locks q a) with false; [exact E1|]. destruct a; try contradiction; [symmetry; exact El|reflexivity]. }
    destruct (quiet_step _ _ _ _ _ _ HQ Ha E1) as (HQ1 & L1 & D1). destruct (IH q1 (tr0 ++ e1)) as (sched & q' & tr & S1 & S2 & S3 & S4 & S5 & S6 & S7 & S8); [lia|exact HQ1|eapply HI_step; eauto|eapply rest_step; eauto|].
    exists (a :: sched), q', (e1 ++ tr). split; [constructor; assumption|]. split; [cbn [exec]; rewrite E1', S2; reflexivity|]. split; [exact S3|]. split; [exact S4|]. split; [exact S5|]. split; [rewrite app_assoc; exact S6|]. split; [exact S7|].
    rewrite L1, S8, app_assoc. reflexivity.
Qed.

Theorem C89_held_hangs : forall ctls t0 s x c0, front s = Some x -> ctx_of s x = Some c0 ->
  exists sched q, Forall quiet sched /\ exec (h_step true ctls t0) (pe_start s) sched = Some (q, ctx_calls t0 (keys s) c0) /\ crashed q = false /\ forall a, h_step true ctls t0 q a = None.
Proof.
  intros ctls t0 s x c0 Hf Hc. assert (Q0 : QI (pe_start s)) by (split; [reflexivity|split; [left; reflexivity|exact I]]).
  assert (H0 : HI s x c0 (pe_start s) []) by (apply (HI_exec s x c0 ctls t0 []); auto).
  destruct (to_the_lock s x c0 ctls t0 Hf Hc (Z.to_nat (left_steps (pe_start s))) (pe_start s) []) as (sched & q & tr & S1 & S2 & S3 & S4 & S5 & S6 & S7 & S8); auto.
  - pose proof (left_nonneg _ Q0). lia.
  - split; reflexivity.
  - exists sched, q. split; [exact S1|]. assert (Etr : tr = ctx_calls t0 (keys s) c0).
    { destruct (calls_front t0 s x c0 Hf Hc) as (E1 & _). change (left_calls t0 (pe_start s)) with (all_calls t0 (keys s) (ctxs s)) in S8. rewrite E1 in S8.
      unfold locks in S3. destruct (pstk q) eqn:Es; [|discriminate]. destruct (pph q) as [| | |y [|m ms]|] eqn:Ep; try discriminate. destruct S6 as (_ & _ & C & _). specialize (C y). rewrite Ep in C. specialize (C eq_refl). subst y.
      unfold left_calls in S8. rewrite Ep in S8. destruct S7 as (R1 & R2). rewrite R1, R2 in S8. cbn [map app] in S8. symmetry in S8. apply app_inv_tail in S8. exact S8. }
    subst tr. split; [exact S2|]. split; [exact S4|]. intros a. unfold h_step. cbn [andb]. unfold locks in *. destruct (pstk q) eqn:Es; [|discriminate]. destruct (pph q) as [| | |y [|m ms]|] eqn:Ep; try discriminate.
    unfold pe_step. rewrite S4. destruct a; try reflexivity; unfold puser; rewrite Es, Ep; reflexivity.
Qed.
Print Assumptions C89_held_hangs.

(** on_process_exit can return exactly when the mutex is free or no thread has a context. *)
Theorem C89_returns_iff_partial : forall held ctls t0 s, (exists sched q tr, Forall quiet sched /\ exec (h_step held ctls t0) (pe_start s) sched = Some (q, tr) /\ pph q = PEnd) <-> held = false \/ forall o, In o (ctxs s) -> o = None.
Proof.
  intros held ctls t0 s. split.
  - intros (sched & q & tr & _ & H & He). destruct held; [right|left; reflexivity]. destruct (front s) as [x|] eqn:Ef; [|exact (front_none _ _ Ef)]. exfalso. destruct (front_ctx _ _ Ef) as (c & Hc).
    destruct (C89_held_never_returns _ _ _ _ _ _ _ _ Ef Hc H) as (G & _). contradiction.
  - intros [->|Hn].
    + assert (Q0 : QI (pe_start s)) by (split; [reflexivity|split; [left; reflexivity|exact I]]).
      assert (G : forall (k : nat) q, left_steps q <= Z.of_nat k -> QI q -> exists sched q' tr, Forall quiet sched /\ exec (h_step false ctls t0) q sched = Some (q', tr) /\ pph q' = PEnd).
      { assert (Dec : forall ph, {ph = PEnd} + {ph <> PEnd}) by (intros []; (left; reflexivity) || (right; discriminate)).
        induction k as [|k IH]; intros q Hk HQ; (destruct (Dec (pph q)) as [E|E]; [exists [], q, []; auto|]); destruct (quiet_next ctls t0 q HQ E) as (a & q1 & e1 & Ha & E1); destruct (quiet_step _ _ _ _ _ _ HQ Ha E1) as (HQ1 & _ & D1).
        - pose proof (left_nonneg _ HQ1). cbn in Hk. lia.
        - destruct (IH q1) as (sched & q' & tr & S1 & S2 & S3); [lia|exact HQ1|]. exists (a :: sched), q', (e1 ++ tr). split; [constructor; assumption|]. split; [cbn [exec]; change (h_step false ctls t0 q a) with (pe_step ctls t0 q a); rewrite E1, S2; reflexivity|exact S3]. }
      apply (G (Z.to_nat (left_steps (pe_start s)))); [pose proof (left_nonneg _ Q0); lia|exact Q0].
    + exists [PStep]. assert (Ef : front s = None).
      { destruct (front s) as [x|] eqn:Ef; [|reflexivity]. destruct (front_ctx _ _ Ef) as (c & Hc). unfold ctx_of in Hc. destruct (nth_error (ctxs s) x) as [o|] eqn:E; [|discriminate]. rewrite (Hn o (nth_error_In _ _ E)) in Hc. discriminate. }
      eexists. eexists. split; [repeat constructor|]. split; [cbn [exec]; unfold h_step, locks, pe_step; cbn [pe_start crashed pstk pph pe_run psh]; rewrite andb_false_r, Ef; reflexivity|reflexivity].
Qed.
Print Assumptions C89_returns_iff_partial.

(** Every function still registered runs if no other thread was stopped inside a section (C66_all_run_partial carries over). *)
Theorem C89_all_run_partial : forall ctls t0 n sched c tr sched' q tr' t th f,
  exec (tss_step Win) (tss_init n) sched = Some (c, tr) -> exec (h_step false ctls t0) (pe_start (fst c)) sched' = Some (q, tr') -> pph q = PEnd ->
  nth_error (snd c) t = Some th -> est th = Running -> In (EReg t f) tr -> nruns f (tr ++ tr') = 1.
Proof. intros ctls t0 n sched c tr sched' q tr' t th f H H' Hq Ht Hr Hin. rewrite C89_not_held in H'. eapply C66_all_run_partial; eauto. Qed.
Print Assumptions C89_all_run_partial.

(** Thread 1 and then thread 0 register a function; thread 2 is stopped in new_key; thread 0 ends the process: it never returns, and the function thread 0 registered itself is not called. *)
Theorem C89_returns_refuted : exists n sched c tr u a f, exec (tss_step Win) (tss_init n) sched = Some (c, tr) /\ stopped_inside c 0 u a /\ In (EReg 0 f) tr /\
  forall ctls sched' q tr', exec (h_step true ctls 0) (pe_start (fst c)) sched' = Some (q, tr') -> pph q <> PEnd /\ forall v, ~ In (ERun v f) tr'.
Proof.
  exists 3%nat, [AAtExit 1 FNone; AAtExit 0 FNone]. eexists. exists [EReg 1 0; EReg 0 1], 2%nat, (ANew 2 None true), 1%nat. split; [vm_compute; reflexivity|]. split; [|split].
  - split; [discriminate|]. split; [reflexivity|]. split; [eexists; split; reflexivity|]. eexists. eexists. reflexivity.
  - right. left. reflexivity.
  - intros ctls sched' q tr' H. eapply C89_held_never_returns with (x := 0%nat) in H; [|reflexivity|reflexivity]. destruct H as (H1 & H2). split; [exact H1|]. intros v Hi. apply H2 in Hi; [|cbn; lia]. destruct Hi as [Hi|[]]. discriminate.
Qed.
Print Assumptions C89_returns_refuted.

(** The same with a thread that was exiting: stopped at the end of destroy_thread_context, M:189-192. *)
Theorem C89_exiting_thread_refuted : exists n sched c tr u f, exec (tss_step Win) (tss_init n) sched = Some (c, tr) /\ stopped_inside c 0 u (AStep u) /\ In (EReg 0 f) tr /\
  forall ctls sched' q tr', exec (h_step true ctls 0) (pe_start (fst c)) sched' = Some (q, tr') -> pph q <> PEnd /\ forall v, ~ In (ERun v f) tr'.
Proof.
  exists 2%nat, [AAtExit 1 FNone; AAtExit 0 FNone; AExit 1; AStep 1; AStep 1; ARet 1; AStep 1; AStep 1]. eexists. eexists. exists 1%nat, 1%nat. split; [vm_compute; reflexivity|]. split; [|split].
  - split; [discriminate|]. split; [reflexivity|]. split; [eexists; split; reflexivity|]. eexists. eexists. reflexivity.
  - right. left. reflexivity.
  - intros ctls sched' q tr' H. eapply C89_held_never_returns with (x := 0%nat) in H; [|reflexivity|reflexivity]. destruct H as (H1 & H2). split; [exact H1|]. intros v Hi. apply H2 in Hi; [|cbn; lia]. destruct Hi.
Qed.
Print Assumptions C89_exiting_thread_refuted.

(** Every section is a place where this can happen: new_key, delete_key, create_thread_context in each call that runs it (also if the call fails afterwards), the end of destroy_thread_context.  Thread 2 is the one stopped. *)
Definition stops : list tact2 := [ANew 2 None true; ADel 2 0; AReset 2 0 9 FNone; AReset 2 0 9 FPush; AAtExit 2 FNone; AAtExit 2 FPush; ANotExit 2 5 FNone; ANotExit 2 5 FPush; AStep 2].
Theorem C89_any_section_refuted : forall a, In a stops -> exists sched c tr f, exec (tss_step Win) (tss_init 3) sched = Some (c, tr) /\ stopped_inside c 0 2 a /\ In (EReg 0 f) tr /\
  forall ctls sched' q tr', exec (h_step true ctls 0) (pe_start (fst c)) sched' = Some (q, tr') -> pph q <> PEnd /\ forall v, ~ In (ERun v f) tr'.
Proof.
  set (pre := [ANew 0 (Some 7) true; AAtExit 1 FNone; AAtExit 0 FNone]%nat).
  assert (K : forall a more c tr, exec (tss_step Win) (tss_init 3) (pre ++ more) = Some (c, tr) -> stopped_inside c 0 2 a -> In (EReg 0 1) tr -> front (fst c) = Some 0%nat -> (nreg (fst c) > 1)%nat -> (exists d, ctx_of (fst c) 0 = Some d /\ atexit d = [0%nat]) ->
    exists sched c tr f, exec (tss_step Win) (tss_init 3) sched = Some (c, tr) /\ stopped_inside c 0 2 a /\ In (EReg 0 f) tr /\
      forall ctls sched' q tr', exec (h_step true ctls 0) (pe_start (fst c)) sched' = Some (q, tr') -> pph q <> PEnd /\ forall v, ~ In (ERun v f) tr').
  { intros a more c tr H1 H2 H3 H4 H5 (d & H6 & H7). exists (pre ++ more), c, tr, 1%nat. split; [exact H1|]. split; [exact H2|]. split; [exact H3|]. intros ctls sched' q tr' H.
    destruct (C89_held_never_returns _ _ _ _ _ _ _ _ H4 H6 H) as (G1 & G2). split; [exact G1|]. intros v Hi. apply G2 in Hi; [|lia]. rewrite H7 in Hi. destruct Hi as [Hi|[]]. discriminate. }
  intros a Ha. assert (Hcase : In a (removelast stops) \/ a = AStep 2) by (cbn in Ha |- *; intuition auto). clear Ha. destruct Hcase as [Ha| ->].
  - eapply (K a []); [vm_compute; reflexivity| |right; right; left; reflexivity|reflexivity|cbn; lia|eexists; split; reflexivity].
    cbn in Ha. repeat (destruct Ha as [<-|Ha]; [split; [discriminate|]; split; [reflexivity|]; split; [eexists; split; reflexivity|]; eexists; eexists; reflexivity|]). destruct Ha.
  - eapply (K (AStep 2) [ANotExit 2 5 FNone; AExit 2; AStep 2; AStep 2; AStep 2]); [vm_compute; reflexivity| |right; right; left; reflexivity|reflexivity|cbn; lia|eexists; split; reflexivity].
    split; [discriminate|]. split; [reflexivity|]. split; [eexists; split; reflexivity|]. eexists. eexists. reflexivity.
Qed.
Print Assumptions C89_any_section_refuted.

(** Nowhere else: a thread that is not exiting and already has a context is inside a section only while it constructs or destroys a thread_specific_ptr; get() and release() are never inside one. *)
Theorem C89_where : forall c t0 u a th, stopped_inside c t0 u a -> nth_error (snd c) u = Some th -> est th = Running -> slot (fst c) u <> None -> (exists cb fl, a = ANew u cb fl) \/ (exists p, a = ADel u p).
Proof.
  intros c t0 u a th (_ & Hu & (th' & Ht & Hs) & _) Hth Hr Hsl. rewrite Hth in Ht. inversion Ht; subst th'. clear Ht. destruct a; cbn [thread_of] in Hu; subst; cbn [section creates] in Hs; try discriminate; eauto.
  - destruct (slot (fst c) u); [discriminate|contradiction].
  - destruct (slot (fst c) u); [discriminate|contradiction].
  - destruct (slot (fst c) u); [discriminate|contradiction].
  - rewrite Hr in Hs. destruct (stk th); discriminate.
Qed.
Print Assumptions C89_where.

(** A case for C89_held_hangs: thread 1's function is called, its notification carried out, then nothing more. *)
Example C89_example : exists c tr q, exec (tss_step Win) (tss_init 3) [AAtExit 1 FNone; ANotExit 1 4 FNone; AAtExit 0 FNone] = Some (c, tr) /\
  exec (h_step true true 0) (pe_start (fst c)) [PStep; PStep; PStep; PRet; PStep; PStep; PStep] = Some (q, [ERun 0 0; ENotified 0 4]) /\ h_step true true 0 q PStep = None /\ pph q <> PEnd.
Proof. eexists. eexists. eexists. split; [vm_compute; reflexivity|]. split; [vm_compute; reflexivity|]. split; [reflexivity|discriminate]. Qed.
