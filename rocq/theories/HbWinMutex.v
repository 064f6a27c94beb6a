(** Memory orders of the Windows mutex and timed_mutex
    (/repo/include/boost/sync/detail/mutexes/basic_mutex_windows.hpp "B:", timed_mutex_windows.hpp "T:"), over WinMutexModel.v.
    Objects: 0 = m_active_count, 1 = m_event, 2 + h = the kernel event with handle h (SetEvent releases, a wait that consumes
    the signal acquires, as the Windows documentation of synchronisation functions says). *)
From Coq Require Import List Bool Arith ZArith Lia.
From Verif Require Import ListSum Exec Events Lin Thr Word MutexSpec WinMutexModel WinMutexProof Hb.
Import ListNotations.
Local Open Scope Z_scope.

(** Model machinery: the thread of a step; no counterpart in /repo. *)
Definition wm_who (a : tact mop wchoice) : nat := match a with TCall t _ => t | TRun t _ => t end.

(** [q]: do the two compare-exchanges that may take the lock (B:134, B:150) have acquire order?  In the code: no ([false]). *)
Definition wm_mem (q : bool) (s : wsh) (p : wpc) (ch : wchoice) : list mact :=
  match p with
  | WTry _ | WFirst _ => [MRmw true false 0]                                        (* B:97: bit_test_and_set(acquire) *)
  | WLoad _ => [MLoad true 0]                                                       (* B:161 T:113 T:165: load(acquire) *)
  | WMark _ old | WClear _ old _ =>                                                 (* B:134, B:150: relaxed, relaxed *)
      if (word s =? old) && negb (spurious ch) then [MRmw q false 0] else [MLoad false 0]
  | WEvLoad _ => [MLoad true 1]                                                     (* B:102: load(acquire) *)
  | WEvCas _ _ => match m_event s with None => [MRmw true false 1] | Some _ => [MLoad false 1] end   (* B:111: acquire, relaxed *)
  | WWait _ _ h => match ch with
                   | CFail | CTimeout | CSlice => []
                   | _ => [MRmw true false (2 + h)%nat]                             (* the wait is satisfied *)
                   end
  | WSub _ _ => [MRmw false false 0]                                                (* B:181 ...: opaque_sub(relaxed) *)
  | WUnl => [MRmw false true 0]                                                     (* B:85: fetch_add(release) *)
  | WBts => [MRmw false false 0]                                                    (* B:88: bit_test_and_set(relaxed) *)
  | WSet h => [MRmw false true (2 + h)%nat]                                         (* B:90: SetEvent *)
  | WRest _ | WClock _ | WEvCreate _ | WEvClose _ _ _ | WTimer _ _ | WDone _ _ _ => []
  end.
(** Memory operations of a step of B:76-184, T:80-224. *)
Definition wm_acts (q : bool) (c : wsh * list wpc) (a : tact mop wchoice) : list mact :=
  match a with
  | TCall _ _ => []
  | TRun t ch => match nth_error (snd c) t with Some p => wm_mem q (fst c) p ch | None => [] end
  end.
(** B:76-184, T:80-224 with happens-before. *)
Definition wm_hstep (q : bool) := hstep wm_step wm_who (wm_acts q).

(** A successful call that is covered: always try_lock; lock and the timed forms only if [q]. Proof or specification device; no counterpart in /repo. *)
Definition covered (q : bool) (o : mop) (r : mres) : bool :=
  match o, r with
  | MTryLock, RTrue => true
  | MLock, ROk | MTimed, RTrue => q
  | _, _ => false
  end.
(** Proof or specification device; no counterpart in /repo. *)
Definition trw := list (hev (event mop mres)).

Lemma mem_nostore q s p ch : forallb nostore (wm_mem q s p ch) = true.
Proof.
  destruct p; cbn; auto; try (destruct ((word s =? old) && negb (spurious ch)); reflexivity).
  - destruct (m_event s); reflexivity.
  - destruct ch; reflexivity.
Qed.

Lemma wm_eff q s p ch s' p' : wm_run1 s p ch = Some (s', p') -> wloc p ->
  p' <> WUnl /\
  (forall m o r, p' = WDone m o r -> covered q o r = true -> locked (word s) = false /\ wm_mem q s p ch = [MRmw true false 0] /\ p <> WUnl).
Proof.
  intros H Hloc. unfold wm_run1 in H. destruct (dead s); [discriminate|].
  destruct p as [m|m|k0|k|k|k old|c|c|c h|c h h'|old h|k old h|k old h|k r| | |h|m o r]; try discriminate; cbn [wm_mem].
  - unfold bts in H. fold (locked (word s)) in H. injection H as <- <-. destruct (locked (word s)); (split; [discriminate|]); intros m1 o1 r1 E Hc; inversion E; subst; [discriminate|]. repeat split; discriminate.
  - unfold bts in H. fold (locked (word s)) in H. injection H as <- <-. destruct (locked (word s)); split.
    + destruct k0, ch as [| | | | |[]]; discriminate.
    + intros m1 o1 r1 E Hc. exfalso. destruct k0, ch as [| | | | |[]]; discriminate.
    + discriminate.
    + repeat split; discriminate.
  - destruct ch; inversion H; subst; (split; [discriminate|intros m1 o1 r1 E Hc; inversion E; subst; destruct k; discriminate]).
  - inversion H; subst. split; [discriminate|]. intros m1 o1 r1 E; discriminate.
  - destruct ((word s =? old) && negb (spurious ch)) eqn:Eb; inversion H; subst.
    + apply andb_prop in Eb. destruct Eb as (Eb & _). apply Z.eqb_eq in Eb. subst old. destruct (locked (word s)) eqn:El; (split; [discriminate|]); intros m1 o1 r1 E Hc; [discriminate|].
      inversion E; subst. assert (q = true) as -> by (destruct k; exact Hc). split; [reflexivity|split; [reflexivity|discriminate]].
    + split; [discriminate|]. intros m1 o1 r1 E; discriminate.
  - destruct (m_event s); inversion H; subst; (split; [|intros m1 o1 r1 E]); try discriminate; destruct c as [[]|]; discriminate.
  - destruct ch; try (inversion H; subst; split; [discriminate|intros m1 o1 r1 E; discriminate]).
    destruct c; inversion H; subst; (split; [discriminate|intros m1 o1 r1 E; discriminate]).
  - destruct (m_event s); inversion H; subst; (split; [|intros m1 o1 r1 E]); try discriminate; destruct c as [[]|]; discriminate.
  - inversion H; subst; (split; [|intros m1 o1 r1 E]); try discriminate; destruct c as [[]|]; discriminate.
  - destruct ch; inversion H; subst; (split; [discriminate|intros m1 o1 r1 E; discriminate]).
  - assert (F : (exists k1 old1 h1, p' = WClear k1 old1 h1) \/ (exists k1 old1 h1, p' = WWait k1 old1 h1) \/ (exists k1 r1, p' = WSub k1 r1)).
    { destruct ch; try (destruct (nth_error (events s) h) as [[]|]; inversion H; subst; left; eauto; fail).
      - inversion H; subst; eauto.
      - destruct k; inversion H; subst; eauto.
      - destruct k; inversion H; subst; eauto 6. }
    destruct F as [(? & ? & ? & ->)|[(? & ? & ? & ->)|(? & ? & ->)]]; (split; [discriminate|intros m1 o1 r1 E; discriminate]).
  - destruct ((word s =? old) && negb (spurious ch)) eqn:Eb; inversion H; subst.
    + apply andb_prop in Eb. destruct Eb as (Eb & _). apply Z.eqb_eq in Eb. subst old. destruct (locked (word s)) eqn:El; (split; [discriminate|]); intros m1 o1 r1 E Hc; [discriminate|].
      inversion E; subst. assert (q = true) as -> by (destruct k; exact Hc). split; [reflexivity|split; [reflexivity|discriminate]].
    + split; [discriminate|]. intros m1 o1 r1 E; discriminate.
  - inversion H; subst. split; [destruct k, r; discriminate|]. intros m1 o1 r1 E Hc. exfalso. cbn in Hloc.
    destruct Hloc as [(-> & _)| ->]; destruct k; cbn in E; inversion E; subst; discriminate.
  - inversion H; subst. destruct (negb (evset (word s)) && (lock_val <? word s)); (split; [discriminate|intros m1 o1 r1 E Hc]); inversion E; subst; discriminate.
  - unfold bts in H. fold (evset (word s)) in H. injection H as <- <-. destruct (evset (word s)); (split; [discriminate|intros m1 o1 r1 E Hc]); inversion E; subst; discriminate.
  - inversion H; subst. split; [discriminate|]. intros m1 o1 r1 E Hc. inversion E; subst. discriminate.
Qed.

(** Proof or specification device; no counterpart in /repo. *)
Definition WJ (q : bool) (c : (wsh * list wpc) * hst) (tr : trw) : Prop :=
  (forall u K, In (HEv (Call u MUnlock) K) tr -> incl K (mem (snd c) 0) \/ (nth_error (snd (fst c)) u = Some WUnl /\ incl K (kn (snd c) u))) /\
  (forall t m o r, nth_error (snd (fst c)) t = Some (WDone m o r) -> covered q o r = true -> forall u K, In (HEv (Call u MUnlock) K) tr -> incl K (kn (snd c) t)).

Lemma WI_excl s ths : WI (s, ths) -> wcap (s, ths) ->
  (locked (word s) = false -> forall t p, nth_error ths t = Some p -> hold p = false) /\
  (forall t u p r, nth_error ths t = Some p -> nth_error ths u = Some r -> hold p = true -> hold r = true -> t = u).
Proof.
  intros ((L & E & H1 & H2 & _) & _) Hcap. destruct (sum_reg_small _ Hcap) as (Hsm & _). cbn [snd] in Hsm. split.
  - intros Hl t p Ht. rewrite H1, wd_locked in Hl by exact Hsm. subst L. pose proof (hz_elem _ _ _ Ht) as G. unfold hz at 1 in G. destruct (hold p); [cbn in *; lia|reflexivity].
  - intros t u p r Ht Hu Hp Hr. destruct (Nat.eq_dec t u) as [|Hn]; [auto|exfalso].
    pose proof (sumf_two hz ths t u p r (fun x => proj1 (hz_nn x)) Hn Ht Hu) as G. unfold hz at 1 2 in G. rewrite Hp, Hr in G. cbn in G. destruct L; cbn in *; lia.
Qed.

Lemma wm_len c a c' e : wm_step c a = Some (c', e) -> length (snd c') = length (snd c).
Proof.
  apply tstep_length. intros s ths t p ch c1 Hr. unfold wm_run in Hr. destruct (wm_run1 s p ch) as [[s' q]|]; inversion Hr; subst. apply upd_length.
Qed.
Lemma wm_reach n c : Z.of_nat n < 2 ^ 30 -> hreach wm_step (wm_init n) c -> WI c /\ wcap c.
Proof.
  intros Hn (sched & tr & H). split; [exact (proj2 (wm_lin _ _ _ _ Hn H))|].
  unfold wcap. enough (length (snd c) = n) as -> by exact Hn. revert H. apply (exec_inv_state wm_step (fun c => length (snd c) = n)).
  - cbn. apply repeat_length.
  - intros c1 a c2 e <- Hs. eapply wm_len; eauto.
Qed.

Lemma WJ_run q n : Z.of_nat n < 2 ^ 30 -> forall sched c tr, exec (wm_hstep q) (wm_init n, hst0) sched = Some (c, tr) ->
  WJ q c tr /\ forall a e K' b, tr = a ++ HEv e K' :: b -> match e with Ret t o r => covered q o r = true -> forall u K, In (HEv (Call u MUnlock) K) a -> incl K K' | _ => True end.
Proof.
  intros Hn. apply (hb_events wm_step wm_who (wm_acts q) (WJ q) (fun a e K' => match e with Ret t o r => covered q o r = true -> forall u K, In (HEv (Call u MUnlock) K) a -> incl K K' | _ => True end)).
  - split; intros; cbn in *; tauto.
  - intros [s ths] h tr t k _ (H1 & H2). cbn [fst snd] in *.
    assert (Hw : forall u, incl (kn h u) (kn (work t k h) u)).
    { intros u. cbn. destruct (Nat.eq_dec t u) as [->|Hne]; [rewrite fset_eq; apply incl_tl, incl_refl|rewrite fset_neq by auto; apply incl_refl]. }
    assert (Hu : forall u K, In (HEv (Call u MUnlock) K) (tr ++ [HWork t k]) -> In (HEv (Call u MUnlock) K) tr).
    { intros u K Hin. apply in_app_or in Hin. destruct Hin as [|[F|[]]]; [auto|discriminate]. }
    split; cbn [fst snd].
    + intros u K Hin. destruct (H1 u K (Hu _ _ Hin)) as [|(G1 & G2)]; [left; auto|right; split; [auto|eapply incl_tran; eauto]].
    + intros t1 m o r Ht Hc u K Hin. eapply incl_tran; [|apply Hw]. eapply H2; eauto.
  - intros [s ths] h tr a c' es HR (H1 & H2) Hs. cbn [fst snd] in *.
    destruct (wm_reach _ _ Hn HR) as (HI & Hcap). destruct (WI_excl _ _ HI Hcap) as (Hfree & Hexcl).
    apply tstep_cases in Hs. destruct Hs as [(t & o & p & p' & -> & Ht & Hc & -> & ->)|[(t & ch & p & o & r & p' & -> & Ht & Hc & -> & ->)|(t & ch & p & -> & Ht & Hret & Hc & ->)]].
    + cbn [wm_acts wm_who performs fold_left map]. destruct p as [m|m|k0|k|k|k old|c|c|c h0|c h0 h'|old h0|k old h0|k old h0|k r| | |h0|m o0 r0]; try discriminate. cbn in Hc. destruct (mpre m o) eqn:Hpre; [|discriminate]. injection Hc as <-.
      split; cbn [fst snd].
      * intros u K Hin. apply in_app_or in Hin. destruct Hin as [Hin|[F|[]]].
        -- destruct (H1 u K Hin) as [|(G1 & G2)]; [left; auto|right]. split; [|exact G2]. rewrite nth_upd_neq; [exact G1|]. intros ->. congruence.
        -- injection F as -> -> <-. right. split; [apply (nth_upd_eq _ _ _ _ Ht)|apply incl_refl].
      * intros t1 m1 o1 r1 Ht1 Hcov u K Hin. destruct (nth_upd_inv _ _ _ _ _ Ht1) as [(<- & F & _)|(Hne & Hu)]; [destruct o; discriminate|].
        apply in_app_or in Hin. destruct Hin as [Hin|[F|[]]]; [eapply H2; eauto|]. injection F as -> -> <-. exfalso. apply Hne.
        symmetry. eapply Hexcl; [exact Hu|exact Ht| |cbn in *; exact Hpre]. cbn. destruct o1, r1; cbn in Hcov; try discriminate; reflexivity.
    + cbn [wm_acts wm_who map snd]. rewrite Ht. destruct p as [m|m|k0|k|k|k old|c|c|c h0|c h0 h'|old h0|k old h0|k old h0|k r0| | |h0|m o0 r0]; try discriminate. cbn in Hc. injection Hc as -> -> <-. cbn [wm_mem performs fold_left].
      assert (Hu : forall K0 u K, In (HEv (Call u MUnlock) K) (tr ++ [HEv (Ret t o r) K0]) -> In (HEv (Call u MUnlock) K) tr).
      { intros K0 u K Hin. apply in_app_or in Hin. destruct Hin as [|[F|[]]]; [auto|discriminate]. }
      split; cbn [fst snd].
      * intros u K Hin. destruct (H1 u K (Hu _ _ _ Hin)) as [|(G1 & G2)]; [left; auto|right]. split; [|exact G2]. rewrite nth_upd_neq; [exact G1|]. intros ->. congruence.
      * intros t1 m1 o1 r1 Ht1 Hcov u K Hin. destruct (nth_upd_inv _ _ _ _ _ Ht1) as [(<- & F & _)|(Hne & Hu1)]; [discriminate|]. eapply H2; eauto.
    + cbn [wm_acts wm_who map snd fst]. rewrite Ht, app_nil_r. unfold wm_run in Hc. destruct (wm_run1 s p ch) as [[s' p']|] eqn:Er; [|discriminate]. injection Hc as <-.
      assert (Hloc : wloc p) by (destruct HI as (_ & _ & _ & _ & HL); eapply HL; eauto).
      destruct (wm_eff q _ _ _ _ _ Er Hloc) as (Hnu & Hacq).
      assert (Hmem : incl (mem h 0) (mem (performs t (wm_mem q s p ch) h) 0)) by (apply performs_mem, mem_nostore).
      split; cbn [fst snd].
      * intros u K Hin. destruct (H1 u K Hin) as [|(G1 & G2)]; [left; eapply incl_tran; eauto|].
        destruct (Nat.eq_dec u t) as [->|Hne].
        -- left. assert (p = WUnl) as -> by congruence. cbn. apply incl_appl. exact G2.
        -- right. split; [rewrite nth_upd_neq by auto; exact G1|]. eapply incl_tran; [exact G2|apply performs_mono].
      * intros t1 m1 o1 r1 Ht1 Hcov u K Hin. destruct (nth_upd_inv _ _ _ _ _ Ht1) as [(<- & <- & _)|(Hne & Hu1)].
        -- destruct (Hacq _ _ _ eq_refl Hcov) as (Hl & Hm & Hp). rewrite Hm. cbn. rewrite fset_eq. apply incl_appl.
           destruct (H1 u K Hin) as [|(G1 & G2)]; [auto|]. exfalso. pose proof (Hfree Hl _ _ G1) as F. discriminate.
        -- eapply incl_tran; [|apply performs_mono]. eapply H2; eauto.
  - intros [s ths] h tr a c' es d e b HR (H1 & H2) Hs He. cbn [fst snd] in *. destruct e as [|t0 o0 r0]; [exact I|]. intros Hcov u K Hin.
    apply tstep_cases in Hs. destruct Hs as [(t & o & p & p' & -> & Ht & Hc & -> & ->)|[(t & ch & p & o & r & p' & -> & Ht & Hc & -> & ->)|(t & ch & p & -> & Ht & Hret & Hc & ->)]].
    + destruct d as [|? [|]]; discriminate.
    + destruct d as [|? [|]]; [|discriminate|discriminate]. cbn in He. injection He as -> -> -> _. cbn [map] in Hin. rewrite app_nil_r in Hin.
      cbn [wm_acts wm_who snd]. rewrite Ht. destruct p; try discriminate. cbn in Hc. injection Hc as -> -> _. cbn. eapply H2; eauto.
    + destruct d; discriminate.
Qed.

