(** What the lock operations of the Windows mutex and timed_mutex learn from earlier unlocks on weak memory (over WeakWin.v). *)
From Coq Require Import List Bool Arith ZArith Lia.
From Verif Require Import ListSum Exec Events Lin Thr Word MutexSpec MutexSpecFacts WinMutexModel WinMutexProof Hb HbSpin HbWinMutex Weak WeakAuto WeakSem WeakWin.
Import ListNotations.
Local Open Scope Z_scope.

Lemma klearn_mono t R w : kmono w (klearn t R w). Proof. intros u. cbn. apply fset_incl, incl_appr, incl_refl. Qed.

Lemma wwm_eff q t w k p c w' k' p' : HW w -> wloc p -> wwm_run q t w k p c = Some (w', k', p') ->
  kmono w w' /\ incl (trel w 0) (trel w' 0) /\ p' <> WUnl /\ (p = WUnl -> incl (wkn w t) (trel w' 0)) /\
  (forall m o r, p' = WDone m o r -> covered q o r = true -> locked (top w 0) = false /\ incl (trel w 0) (wkn w' t) /\ p <> WUnl).
Proof.
  intros HH Hloc H. destruct c as [ch i]. unfold wwm_run in H. destruct (kdead k) eqn:Hd; [discriminate|].
  assert (Same : hist w' = hist w -> kmono w w' -> p <> WUnl -> p' <> WUnl -> (forall m o r, p' = WDone m o r -> covered q o r = true -> False) ->
    kmono w w' /\ incl (trel w 0) (trel w' 0) /\ p' <> WUnl /\ (p = WUnl -> incl (wkn w t) (trel w' 0)) /\
    (forall m o r, p' = WDone m o r -> covered q o r = true -> locked (top w 0) = false /\ incl (trel w 0) (wkn w' t) /\ p <> WUnl)).
  { intros Eh M N1 N2 N3. split; [exact M|]. split; [unfold trel; rewrite Eh; apply incl_refl|]. split; [exact N2|]. split; [congruence|]. intros m o r E C. destruct (N3 _ _ _ E C). }
  assert (Ld : forall l acq v w1, wload t l acq i w = Some (v, w1) -> hist w1 = hist w /\ kmono w w1) by (intros l acq v w1 E; split; [apply (load_same _ _ _ _ _ _ _ E)|eapply wload_mono; eauto]).
  assert (Rm : forall acq rel f v w1, wrmw t 0 acq rel f i w = Some (v, w1) -> w1 = w' -> p' <> WUnl -> (p = WUnl -> rel = true) ->
    (forall m o r, p' = WDone m o r -> covered q o r = true -> locked v = false /\ acq = true /\ p <> WUnl) ->
    kmono w w' /\ incl (trel w 0) (trel w' 0) /\ p' <> WUnl /\ (p = WUnl -> incl (wkn w t) (trel w' 0)) /\
    (forall m o r, p' = WDone m o r -> covered q o r = true -> locked (top w 0) = false /\ incl (trel w 0) (wkn w' t) /\ p <> WUnl)).
  { intros acq rel f v w1 E -> N1 N2 N3. destruct (rmw0 _ _ _ _ _ _ _ _ HH E) as (x & _ & _ & -> & _ & _ & G1 & G2 & G3). split; [eapply wrmw_mono; eauto|]. split; [exact G1|]. split; [exact N1|].
    split; [intros Ep; apply G2, N2, Ep|]. intros m o r E1 C. destruct (N3 _ _ _ E1 C) as (N4 & N5 & N6). auto. }
  destruct p as [m|m|k0|kd|kd|kd old|c|c|c h|c h h'|old h|kd old h|kd old h|kd r| | |h|m o r]; try discriminate.
  - destruct (wrmw _ _ _ _ _ _ _) as [[v w1]|] eqn:E; [|discriminate]. injection H as <- <- <-. apply (Rm _ _ _ _ _ E eq_refl); try discriminate.
    intros m1 o1 r1 E1 C. inversion E1; subst. destruct (locked v); [discriminate|]. repeat split; discriminate.
  - destruct (wrmw _ _ _ _ _ _ _) as [[v w1]|] eqn:E; [|discriminate]. injection H as <- <- <-. apply (Rm _ _ _ _ _ E eq_refl); try discriminate.
    + destruct (locked v); [|discriminate]. destruct k0, ch as [| | | | |[]]; discriminate.
    + intros m1 o1 r1 E1 C. destruct (locked v); [exfalso; destruct k0, ch as [| | | | |[]]; discriminate|]. repeat split; discriminate.
  - destruct ch; injection H as <- <- <-; (apply Same; [reflexivity|apply kmono_refl|discriminate|discriminate|]; intros m1 o1 r1 E C; inversion E; subst; destruct kd; discriminate).
  - destruct (wload _ _ _ _ _) as [[v w1]|] eqn:E; [|discriminate]. injection H as <- <- <-. destruct (Ld _ _ _ _ E) as (E1 & E2). apply Same; auto; discriminate.
  - destruct (wcas _ _ _ _ _ _ _ _ _ _ _) as [[[[|] v] w1]|] eqn:E; [| |discriminate]; injection H as <- <- <-; destruct (wcas_inv _ _ _ _ _ _ _ _ _ _ _ _ _ _ E) as [(F & Ev & E1)|(F & _ & E1)]; try discriminate F.
    + subst v. apply (Rm _ _ _ _ _ E1 eq_refl); try discriminate; [destruct (locked old); discriminate|].
      intros m1 o1 r1 E2 C. destruct (locked old) eqn:El; [discriminate|]. inversion E2; subst. split; [reflexivity|]. split; [destruct kd; exact C|discriminate].
    + destruct (Ld _ _ _ _ E1) as (E2 & E3). apply Same; auto; discriminate.
  - destruct (wload _ _ _ _ _) as [[v w1]|] eqn:E; [|discriminate]. injection H as <- <- <-. destruct (Ld _ _ _ _ E) as (E1 & E2). apply Same; auto; try discriminate.
    + destruct (v =? 0); [discriminate|]. destruct c as [[]|]; discriminate.
    + intros m1 o1 r1 E3 C. destruct (v =? 0); [discriminate|]. destruct c as [[]|]; discriminate.
  - destruct ch; try (injection H as <- <- <-; apply Same; [reflexivity|apply kmono_refl|discriminate|discriminate|discriminate]).
    destruct c; injection H as <- <- <-; (apply Same; [reflexivity|apply kmono_refl|discriminate|discriminate|discriminate]).
  - assert (G : forall h1, got_event c h1 <> WUnl /\ forall m o r, got_event c h1 <> WDone m o r) by (intros h1; destruct c as [[]|]; split; discriminate).
    destruct (wcas _ _ _ _ _ _ _ _ _ _ _) as [[[[|] v] w1]|] eqn:E; [| |discriminate]; injection H as <- <- <-; destruct (wcas_inv _ _ _ _ _ _ _ _ _ _ _ _ _ _ E) as [(F & Ev & E1)|(F & _ & E1)]; try discriminate F.
    + split; [eapply wcas_mono; eauto|]. destruct (wrmw_inv _ _ _ _ _ _ _ _ _ E1) as (m & _ & _ & _ & _ & _ & Ek & _). rewrite (trel_same w w1 0) by (apply Ek; discriminate).
      split; [apply incl_refl|]. split; [apply G|]. split; [discriminate|]. intros m1 o1 r1 E2. destruct (proj2 (G h) _ _ _ E2).
    + destruct (Ld _ _ _ _ E1) as (E2 & E3). apply Same; auto; discriminate.
  - injection H as <- <- <-. apply Same; [reflexivity|apply kmono_refl|discriminate| |]; destruct c as [[]|]; discriminate.
  - destruct ch; injection H as <- <- <-; (apply Same; [reflexivity|apply kmono_refl|discriminate|discriminate|discriminate]).
  - assert (G : hist w' = hist w /\ kmono w w' /\ ((exists k1 o1 h1, p' = WClear k1 o1 h1) \/ (exists k1 o1 h1, p' = WWait k1 o1 h1) \/ exists k1 r1, p' = WSub k1 r1)).
    { destruct ch; try (destruct (nth_error (kev k) h) as [[[|] R]|]; try discriminate H; injection H as <- <- <-; split; [reflexivity|]; split; [apply klearn_mono|left; eauto]).
      - injection H as <- <- <-. split; [reflexivity|]. split; [apply kmono_refl|eauto].
      - destruct kd; try discriminate; injection H as <- <- <-; (split; [reflexivity|]; split; [apply kmono_refl|eauto]).
      - destruct kd; try discriminate; injection H as <- <- <-; (split; [reflexivity|]; split; [apply kmono_refl|eauto 6]). }
    destruct G as (G1 & G2 & [(? & ? & ? & ->)|[(? & ? & ? & ->)|(? & ? & ->)]]); apply Same; auto; discriminate.
  - destruct (wcas _ _ _ _ _ _ _ _ _ _ _) as [[[[|] v] w1]|] eqn:E; [| |discriminate]; injection H as <- <- <-; destruct (wcas_inv _ _ _ _ _ _ _ _ _ _ _ _ _ _ E) as [(F & Ev & E1)|(F & _ & E1)]; try discriminate F.
    + subst v. apply (Rm _ _ _ _ _ E1 eq_refl); try discriminate; [destruct (locked old); discriminate|].
      intros m1 o1 r1 E2 C. destruct (locked old) eqn:El; [discriminate|]. inversion E2; subst. split; [reflexivity|]. split; [destruct kd; exact C|discriminate].
    + destruct (Ld _ _ _ _ E1) as (E2 & E3). apply Same; auto; discriminate.
  - destruct (wrmw _ _ _ _ _ _ _) as [[v w1]|] eqn:E; [|discriminate]. injection H as <- <- <-. apply (Rm _ _ _ _ _ E eq_refl); try discriminate; [destruct kd, r; discriminate|].
    intros m1 o1 r1 E1 C. exfalso. cbn in Hloc. destruct Hloc as [(-> & _)| ->]; destruct kd; cbn in E1; inversion E1; subst; discriminate.
  - destruct (wrmw _ _ _ _ _ _ _) as [[v w1]|] eqn:E; [|discriminate]. injection H as <- <- <-. apply (Rm _ _ _ _ _ E eq_refl); auto.
    + destruct (_ && _); discriminate.
    + intros m1 o1 r1 E1 C. exfalso. destruct (_ && _); inversion E1; subst; discriminate.
  - destruct (wrmw _ _ _ _ _ _ _) as [[v w1]|] eqn:E; [|discriminate]. injection H as <- <- <-. apply (Rm _ _ _ _ _ E eq_refl); try discriminate; [destruct (evset v); discriminate|].
    intros m1 o1 r1 E1 C. exfalso. destruct (evset v); inversion E1; subst; discriminate.
  - assert (G : w' = w /\ p' = WDone true MUnlock ROk) by (destruct (nth_error (kev k) h) as [[b R]|]; injection H as <- <- <-; auto). destruct G as (-> & ->).
    apply Same; [reflexivity|apply kmono_refl|discriminate|discriminate|]. intros m1 o1 r1 E C. inversion E; subst. discriminate.
Qed.

(** What every unlock() call knew is with the newest value of m_active_count, or the call is about to release it; whoever took the mutex knows it. *)
Definition WWJ (q : bool) (c : (wmem * kst) * list wpc) (tr : trw) : Prop :=
  let '((w, k), ths) := c in
  (forall u K, In (HEv (Call u MUnlock) K) tr -> incl K (trel w 0) \/ (nth_error ths u = Some WUnl /\ incl K (wkn w u))) /\
  (forall t m o r, nth_error ths t = Some (WDone m o r) -> covered q o r = true -> forall u K, In (HEv (Call u MUnlock) K) tr -> incl K (wkn w t)).

Definition WWP q n (c : (wmem * kst) * list wpc) (tr : trw) : Prop := (exists s0, exec (wwm_step q) (wwm_init n) s0 = Some (c, tr)) /\ WWJ q c tr.
Lemma WWP_init q n : WWP q n (wwm_init n) [].
Proof. split; [exists []; reflexivity|]. split; intros; cbn in *; tauto. Qed.
Lemma WWP_step q n : Z.of_nat n < 2 ^ 30 -> forall c tr a c' e, WWP q n c tr -> wwm_step q c a = Some (c', e) -> WWP q n c' (tr ++ e).
Proof.
  intros Hn. intros [[w k] ths] tr a [[w' k'] ths'] e ((s0 & H0) & H1 & H2) Hs. split.
    { exists (s0 ++ [a]). rewrite exec_app, H0. cbn [exec]. rewrite Hs, app_nil_r. reflexivity. }
    destruct (wwm_lin _ _ _ _ _ _ _ Hn H0) as (_ & HI & Hcap & HH). destruct (WI_excl _ _ HI Hcap) as (Hfree & Hexcl).
    assert (HL : forall t p, nth_error ths t = Some p -> wloc p) by (destruct HI as (_ & _ & _ & _ & HL); exact HL).
    apply wwm_case in Hs. destruct Hs as [t o p p' Ht Hc|t o r p p' Ht Hr|t c p w1 k1 p' Ht Hr Hn1|t|t l o i v w1 Hl Hc].
    + destruct p as [m|m|k0|kd|kd|kd old|c|c|c h0|c h0 h'|old h0|kd old h0|kd old h0|kd r| | |h0|m o0 r0]; try discriminate. cbn in Hc. destruct (mpre m o) eqn:Hpre; [|discriminate]. injection Hc as <-.
      split.
      * intros u K Hin. apply in_app_or in Hin. destruct Hin as [Hin|[F|[]]].
        -- destruct (H1 u K Hin) as [|(G1 & G2)]; [left; auto|right]. split; [|exact G2]. rewrite nth_upd_neq; [exact G1|]. intros ->. congruence.
        -- injection F as -> -> <-. right. split; [apply (nth_upd_eq _ _ _ _ Ht)|apply incl_refl].
      * intros t1 m1 o1 r1 Ht1 Hcov u K Hin. destruct (nth_upd_inv _ _ _ _ _ Ht1) as [(<- & F & _)|(Hne & Hu)]; [destruct o; discriminate|].
        apply in_app_or in Hin. destruct Hin as [Hin|[F|[]]]; [eapply H2; eauto|]. injection F as -> -> <-. exfalso. apply Hne.
        symmetry. eapply Hexcl; [exact Hu|exact Ht| |cbn in *; exact Hpre]. cbn. destruct o1, r1; cbn in Hcov; try discriminate; reflexivity.
    + destruct p as [m|m|k0|kd|kd|kd old|c|c|c h0|c h0 h'|old h0|kd old h0|kd old h0|kd r0| | |h0|m o0 r0]; try discriminate. cbn in Hr. injection Hr as -> -> <-.
      assert (Hu : forall u K, In (HEv (Call u MUnlock) K) (tr ++ [HEv (Ret t o r) (wkn w t)]) -> In (HEv (Call u MUnlock) K) tr).
      { intros u K Hin. apply in_app_or in Hin. destruct Hin as [|[F|[]]]; [auto|discriminate]. }
      split.
      * intros u K Hin. destruct (H1 u K (Hu _ _ Hin)) as [|(G1 & G2)]; [left; auto|right]. split; [|exact G2]. rewrite nth_upd_neq; [exact G1|]. intros ->. congruence.
      * intros t1 m1 o1 r1 Ht1 Hcov u K Hin. destruct (nth_upd_inv _ _ _ _ _ Ht1) as [(<- & F & _)|(Hne & Hu1)]; [discriminate|]. eapply H2; eauto.
    + rewrite app_nil_r. destruct (wwm_eff _ _ _ _ _ _ _ _ _ HH (HL _ _ Ht) Hn1) as (M & Rl & Nu & Ru & Ac). split.
      * intros u K Hin. destruct (H1 u K Hin) as [|(G1 & G2)]; [left; eapply incl_tran; eauto|].
        destruct (Nat.eq_dec u t) as [->|Hne].
        -- left. eapply incl_tran; [exact G2|]. apply Ru. congruence.
        -- right. split; [rewrite nth_upd_neq by auto; exact G1|]. eapply incl_tran; [exact G2|apply M].
      * intros t1 m1 o1 r1 Ht1 Hcov u K Hin. destruct (nth_upd_inv _ _ _ _ _ Ht1) as [(<- & <- & _)|(Hne & Hu1)].
        -- destruct (Ac _ _ _ eq_refl Hcov) as (Hl & Hi & Hp). destruct (H1 u K Hin) as [|(G1 & G2)]; [eapply incl_tran; eauto|]. exfalso. pose proof (Hfree Hl _ _ G1) as F. discriminate.
        -- eapply incl_tran; [|apply M]. eapply H2; eauto.
    + assert (Hu : forall u K, In (HEv (Call u MUnlock) K) (tr ++ [HWork t (nid w)]) -> In (HEv (Call u MUnlock) K) tr).
      { intros u K Hin. apply in_app_or in Hin. destruct Hin as [|[F|[]]]; [auto|discriminate]. }
      split.
      * intros u K Hin. destruct (H1 u K (Hu _ _ Hin)) as [|(G1 & G2)]; [left; assumption|right; split; [auto|eapply incl_tran; [exact G2|apply wwork_mono]]].
      * intros t1 m o r Ht Hc u K Hin. eapply incl_tran; [|apply wwork_mono]. eapply H2; eauto.
    + rewrite app_nil_r. destruct (wclient_inv _ _ _ _ _ _ _ Hc) as (M & Ek & _). assert (Et : trel w1 0 = trel w 0) by (apply trel_same, Ek; lia). split.
      * intros u K Hin. rewrite Et. destruct (H1 u K Hin) as [|(G1 & G2)]; [left; assumption|right; split; [auto|eapply incl_tran; [exact G2|apply M]]].
      * intros t1 m o1 r Ht Hcv u K Hin. eapply incl_tran; [|apply M]. eapply H2; eauto.
Qed.
Lemma WWP_exec q n sched c tr : Z.of_nat n < 2 ^ 30 -> exec (wwm_step q) (wwm_init n) sched = Some (c, tr) -> WWJ q c tr.
Proof. intros Hn H. exact (proj2 (exec_inv (wwm_step q) (WWP q n) (wwm_init n) sched c tr (WWP_init q n) (WWP_step q n Hn) H)). Qed.

Lemma wwm_pub q n sched c tr a t o r K' b : Z.of_nat n < 2 ^ 30 -> exec (wwm_step q) (wwm_init n) sched = Some (c, tr) ->
  tr = a ++ HEv (Ret t o r) K' :: b -> covered q o r = true -> forall u K, In (HEv (Call u MUnlock) K) a -> incl K K'.
Proof.
  intros Hn H E0 Hc.
  refine (exec_events (wwm_step q) (WWP q n) (fun a x => match x with HEv (Ret t o r) K' => covered q o r = true -> forall u K, In (HEv (Call u MUnlock) K) a -> incl K K' | _ => True end) (wwm_init n) (WWP_init q n) (WWP_step q n Hn) _ sched c tr a _ b H E0 Hc); clear H E0 Hc a t o r K' b c tr sched.
  - intros [[w k] ths] tr a [[w' k'] ths'] es d x b (_ & H1 & H2) Hs Ees. destruct x as [|[|t o r] K']; try exact I. intros Hcov u K Hin.
    apply wwm_case in Hs. destruct Hs as [t1 o1 p p' Ht Hc|t1 o1 r1 p p' Ht Hr|t1 c p w1 k1 p' Ht Hr Hn1|t1|t1 l o1 i v w1 Hl Hc].
    + destruct d as [|? [|]]; discriminate.
    + destruct d as [|? [|]]; [|discriminate|discriminate]. cbn in Ees. injection Ees as <- <- <- <- _. rewrite app_nil_r in Hin.
      destruct p; try discriminate. cbn in Hr. injection Hr as -> -> _. eapply H2; eauto.
    + destruct d; discriminate.
    + destruct d as [|? [|]]; discriminate.
    + destruct d; discriminate.
Qed.

(** Knowledge only grows; a thread knows its own earlier work. *)
Lemma wwm_mono q n s0 w k ths tr a w' k' ths' e : Z.of_nat n < 2 ^ 30 -> exec (wwm_step q) (wwm_init n) s0 = Some (((w, k), ths), tr) -> wwm_step q ((w, k), ths) a = Some (((w', k'), ths'), e) -> kmono w w'.
Proof.
  intros Hn H0 Hs. destruct (wwm_lin _ _ _ _ _ _ _ Hn H0) as (_ & HI & _ & HH). destruct HI as (_ & _ & _ & _ & HL).
  apply wwm_case in Hs. destruct Hs as [t1 o1 p p' Ht Hc|t1 o1 r1 p p' Ht Hr|t1 c p w1 k1 p' Ht Hr Hn1|t1|t1 l o1 i v w1 Hl Hc]; try apply kmono_refl.
  - apply (wwm_eff _ _ _ _ _ _ _ _ _ HH (HL _ _ Ht) Hn1).
  - apply wwork_mono.
  - apply (wclient_inv _ _ _ _ _ _ _ Hc).
Qed.
Lemma wwm_own q n sched c tr a u o K b j : Z.of_nat n < 2 ^ 30 -> exec (wwm_step q) (wwm_init n) sched = Some (c, tr) ->
  tr = a ++ HEv (Call u o) K :: b -> In (HWork u j) a -> In j K.
Proof.
  intros Hn H E0 Hj.
  refine (exec_events (wwm_step q) (fun c tr => (exists s0, exec (wwm_step q) (wwm_init n) s0 = Some (c, tr)) /\ forall u j, In (HWork u j) tr -> In j (wkn (fst (fst c)) u))
    (fun a x => match x with HEv (Call u o) K => forall j, In (HWork u j) a -> In j K | _ => True end) (wwm_init n) _ _ _ sched c tr a _ b H E0 j Hj); clear H E0 Hj a u o K b j c tr sched.
  - split; [exists []; reflexivity|]. intros u j [].
  - intros [[w k] ths] tr a [[w' k'] ths'] e ((s0 & H0) & H1) Hs. split.
    { exists (s0 ++ [a]). rewrite exec_app, H0. cbn [exec]. rewrite Hs, app_nil_r. reflexivity. }
    pose proof (wwm_mono _ _ _ _ _ _ _ _ _ _ _ _ Hn H0 Hs) as M. cbn [fst] in *. intros u j Hin. apply in_app_or in Hin. destruct Hin as [Hin|Hin]; [apply M, H1, Hin|].
    apply wwm_case in Hs. destruct Hs as [t1 o1 p p' Ht Hc|t1 o1 r1 p p' Ht Hr|t1 c p w1 k1 p' Ht Hr Hn1|t1|t1 l o1 i v w1 Hl Hc]; cbn in Hin; try (destruct Hin as [F|[]]; discriminate F); try destruct Hin as [].
    + injection H as <- <-. cbn. rewrite fset_eq. left. reflexivity.
    + destruct H.
  - intros [[w k] ths] tr a [[w' k'] ths'] es d x b (_ & H1) Hs Ees. destruct x as [|[u o|] K]; try exact I. intros j Hin. cbn [fst] in H1.
    apply wwm_case in Hs. destruct Hs as [t1 o1 p p' Ht Hc|t1 o1 r1 p p' Ht Hr|t1 c p w1 k1 p' Ht Hr Hn1|t1|t1 l o1 i v w1 Hl Hc].
    + destruct d as [|? [|]]; [|discriminate|discriminate]. cbn in Ees. injection Ees as <- <- <- _. rewrite app_nil_r in Hin. auto.
    + destruct d as [|? [|]]; discriminate.
    + destruct d; discriminate.
    + destruct d as [|? [|]]; discriminate.
    + destruct d; discriminate.
Qed.
