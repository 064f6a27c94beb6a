(** Property theorems: one-time initialisation on weakly ordered memory (C71). *)
From Coq Require Import List Bool Arith ZArith Lia.
From Verif Require Import ListSum Exec Events Lin Hb Weak WeakAuto WeakOnce.
Import ListNotations.
Local Open Scope Z_scope.

(** [acq] = false: the unprotected test (W:87, T:305) is an ordinary read, as in the code; [acq] = true: it has acquire order. *)

(** All callers that do not get the initial value get the same value: the initialisation succeeds once, and nobody sees parts of it. *)
Theorem C71_one_value : forall acq n sched c tr t o v K u o' v' K', exec (uonce_step acq) (uonce_init n) sched = Some (c, tr) ->
  In (HEv (Ret t o (URead v)) K) tr -> In (HEv (Ret u o' (URead v')) K') tr -> v <> 0 -> v' <> 0 -> v = v'.
Proof.
  intros acq n sched c tr t o v K u o' v' K' H H1 H2 Hv Hv'. destruct (UH_exec _ _ _ _ _ H) as (_ & G). destruct (G _ _ _ _ H1 Hv) as (d0 & x & E & _ & -> & _). destruct (G _ _ _ _ H2 Hv') as (d1 & y & E' & _ & -> & _).
  rewrite E in E'. injection E' as _ ->. reflexivity.
Qed.
Print Assumptions C71_one_value.

(** With acquire order in the test, nobody who calls an initialising function gets the initial value. *)
Definition upast (acq : bool) (c : wmem * list upc) : Prop := forall t p, nth_error (snd c) t = Some p -> match p with UGet UInit b | UDone UInit b (URead _) => acq = true -> b = true | _ => True end.
Lemma upast_exec acq n sched c tr : exec (uonce_step acq) (uonce_init n) sched = Some (c, tr) -> upast acq c.
Proof.
  apply (exec_inv_state (uonce_step acq) (upast acq)).
  - intros t p Hp. apply nth_error_In, repeat_spec in Hp. subst. exact I.
  - intros [w ths] a [w' ths'] e HU Hs t p Hn. cbn [snd] in *. pose proof (HU t) as Ht0. cbn [snd] in Ht0. apply wstep_cases in Hs.
    destruct Hs as [(u & o1 & q & p' & -> & Ht & Hc & F & _)|[(u & ch & q & o1 & r & p' & -> & Ht & Hr & F & _)|[(u & ch & q & -> & Ht & Hr & Hrun & _)|[(u & -> & F & _)|(u & l & o1 & i & v1 & w1 & -> & Hl & Hc & F & _)]]]]; try (injection F as -> ->); try (eapply Ht0; eassumption).
    + destruct (nth_upd_inv _ _ _ _ _ Hn) as [(-> & -> & _)|(_ & Hn')]; [|eapply Ht0; eassumption]. destruct q; try discriminate. destruct o1; injection Hc as <-; exact I.
    + destruct (nth_upd_inv _ _ _ _ _ Hn) as [(-> & -> & _)|(_ & Hn')]; [|eapply Ht0; eassumption]. destruct q; try discriminate. injection Hr as _ _ <-. exact I.
    + assert (G : exists p', ths' = upd ths u p' /\ (match p' with UGet UInit b | UDone UInit b (URead _) => acq = true -> b = true | _ => True end)).
      { pose proof (HU u _ Ht) as Hq. destruct ch as [o1 i]. destruct q; cbn [uonce_run] in Hrun; try discriminate.
        - destruct (wload _ _ _ _ _) as [[v1 w1]|]; [|discriminate]. injection Hrun as _ <-. eexists. split; [reflexivity|]. destruct (v1 =? 2); cbn; auto.
        - destruct (wcas _ _ _ _ _ _ _ _ _ _ _) as [[[[] v1] w1]|]; try discriminate; injection Hrun as _ <-; eexists; (split; [reflexivity|]); [exact I|destruct (v1 =? 2); cbn; auto].
        - destruct o1; [destruct (wstore _ _ _ _ _ _) as [w1|]; [|discriminate]|]; injection Hrun as _ <-; eexists; (split; [reflexivity|]); exact I.
        - destruct (wrmw _ _ _ _ _ _ _) as [[v1 w1]|]; [|discriminate]. injection Hrun as _ <-. eexists. split; [reflexivity|]. cbn. auto.
        - destruct (wrmw _ _ _ _ _ _ _) as [[v1 w1]|]; [|discriminate]. injection Hrun as _ <-. eexists. split; [reflexivity|]. exact I.
        - destruct (wload _ _ _ _ _) as [[v1 w1]|]; [|discriminate]. injection Hrun as _ <-. eexists. split; [reflexivity|]. exact Hq. }
      destruct G as (p' & -> & G). destruct (nth_upd_inv _ _ _ _ _ Hn) as [(-> & -> & _)|(_ & Hn')]; [exact G|eapply Ht0; eassumption].
Qed.
Theorem C71_with_acquire_partial : forall n sched c tr t v K, exec (uonce_step true) (uonce_init n) sched = Some (c, tr) -> In (HEv (Ret t UInit (URead v)) K) tr -> v <> 0.
Proof.
  intros n sched c tr t v K H Hin. apply in_split in Hin. destruct Hin as (a & b & E). destruct (exec_cut _ _ _ _ _ _ _ _ H E) as (s1 & x & s2 & c1 & c2 & x1 & d & es & d' & y1 & H1 & Hs & _ & Ees & _).
  destruct c1 as [w ths]. destruct (u_ret _ _ _ _ _ _ _ _ _ _ _ _ Hs Ees) as (s & Ht & _). pose proof (upast_exec _ _ _ _ _ H1 _ _ Ht) as P. cbn in P. rewrite (P eq_refl) in Ht. eapply u_done_sync; [eapply UI_exec; eauto|exact Ht].
Qed.
Print Assumptions C71_with_acquire_partial.

(** As the code is, a caller that finds the flag not set, and so goes through the interlocked operations, gets the value: the first return after that. *)
Definition returns_of (t : nat) (tr : list (hev (event uop ures))) : list ures := flat_map (fun e => match e with HEv (Ret u _ r) _ => if (u =? t)%nat then [r] else [] | _ => [] end) tr.
Lemma slow_path acq t sched : forall c c' tr, UI c -> (forall v o, nth_error (snd c) t = Some (UDone o false (URead v)) -> False) -> (forall o, nth_error (snd c) t = Some (UGet o false) -> False) -> nth_error (snd c) t <> Some UChk -> nth_error (snd c) t <> Some URest ->
  exec (uonce_step acq) c sched = Some (c', tr) -> match returns_of t tr with URead v :: _ => v <> 0 | _ => True end.
Proof.
  induction sched as [|a sched IH]; intros c c' tr HU N1 N2 N3 N4 H; cbn [exec] in H; [injection H as <- <-; exact I|].
  destruct (uonce_step acq c a) as [[c1 e1]|] eqn:Es; [|discriminate]. destruct (exec _ c1 sched) as [[c2 e2]|] eqn:Ex; [|discriminate]. injection H as <- <-. pose proof (UI_step _ _ _ _ _ HU Es) as HU1.
  specialize (IH c1 c2 e2 HU1). unfold returns_of in *. rewrite flat_map_app. destruct c as [w ths]. cbn [snd] in *. pose proof Es as Hs. apply wstep_cases in Hs.
  assert (K : forall ths1, c1 = (fst c1, ths1) -> nth_error ths1 t = nth_error ths t -> match flat_map (fun e : hev (event uop ures) => match e with HEv (Ret u _ r) _ => if (u =? t)%nat then [r] else [] | _ => [] end) e2 with URead v :: _ => v <> 0 | _ => True end).
  { intros ths1 E1 E2. apply IH; auto; rewrite E1; cbn [snd]; rewrite E2; auto. }
  destruct Hs as [(u & o1 & q & p' & -> & Ht & Hc & -> & ->)|[(u & ch & q & o1 & r & p' & -> & Ht & Hr & -> & ->)|[(u & ch & q & -> & Ht & Hr & Hrun & ->)|[(u & -> & -> & ->)|(u & l & o1 & i & v1 & w1 & -> & Hl & Hc & -> & ->)]]]]; cbn [flat_map app].
  - destruct (Nat.eq_dec u t) as [->|Hn]; [exfalso; destruct q; try discriminate; apply N4; exact Ht|]. eapply K; [reflexivity|]. apply nth_upd_neq. exact Hn.
  - destruct (Nat.eqb_spec u t) as [->|Hn]; cbn [app].
    + destruct q; try discriminate. injection Hr as <- <- <-. destruct r0; [|exact I]. destruct b; [eapply u_done_sync; [exact HU|exact Ht]|exfalso; eapply N1; exact Ht].
    + eapply K; [reflexivity|]. apply nth_upd_neq. exact Hn.
  - destruct (Nat.eq_dec u t) as [->|Hn].
    + destruct c1 as [w' ths']. cbn [fst snd] in *. assert (G : exists p', ths' = upd ths t p' /\ (forall v o, p' <> UDone o false (URead v)) /\ (forall o, p' <> UGet o false) /\ p' <> UChk /\ p' <> URest).
      { destruct ch as [o1 i]. destruct q; cbn [uonce_run] in Hrun; try discriminate.
        - contradiction.
        - destruct (wcas _ _ _ _ _ _ _ _ _ _ _) as [[[[] v1] w1]|]; try discriminate; injection Hrun as _ <-; eexists; (split; [reflexivity|]); [|destruct (v1 =? 2)]; repeat split; discriminate.
        - destruct o1; [destruct (wstore _ _ _ _ _ _) as [w1|]; [|discriminate]|]; injection Hrun as _ <-; eexists; (split; [reflexivity|]); repeat split; discriminate.
        - destruct (wrmw _ _ _ _ _ _ _) as [[v1 w1]|]; [|discriminate]. injection Hrun as _ <-. eexists. split; [reflexivity|]. repeat split; discriminate.
        - destruct (wrmw _ _ _ _ _ _ _) as [[v1 w1]|]; [|discriminate]. injection Hrun as _ <-. eexists. split; [reflexivity|]. repeat split; discriminate.
        - destruct (wload _ _ _ _ _) as [[v1 w1]|]; [|discriminate]. injection Hrun as _ <-. eexists. split; [reflexivity|]. destruct b; [|exfalso; eapply N2; eauto]. repeat split; discriminate. }
      destruct G as (p' & -> & G1 & G2 & G3 & G4). pose proof (nth_upd_eq _ _ p' _ Ht) as Hnew. apply IH; auto; cbn [snd]; rewrite Hnew; try congruence; intros; try (eapply G1; congruence); try (eapply G2; congruence).
    + destruct c1 as [w' ths']. eapply K; [reflexivity|]. assert (G : exists p', ths' = upd ths u p').
      { destruct ch as [o1 i]. destruct q; cbn [uonce_run] in Hrun; try discriminate.
        - destruct (wload _ _ _ _ _) as [[v1 w1]|]; [|discriminate]. injection Hrun as _ <-. eauto.
        - destruct (wcas _ _ _ _ _ _ _ _ _ _ _) as [[[[] v1] w1]|]; try discriminate; injection Hrun as _ <-; eauto.
        - destruct o1; [destruct (wstore _ _ _ _ _ _) as [w1|]; [|discriminate]|]; injection Hrun as _ <-; eauto.
        - destruct (wrmw _ _ _ _ _ _ _) as [[v1 w1]|]; [|discriminate]. injection Hrun as _ <-. eauto.
        - destruct (wrmw _ _ _ _ _ _ _) as [[v1 w1]|]; [|discriminate]. injection Hrun as _ <-. eauto.
        - destruct (wload _ _ _ _ _) as [[v1 w1]|]; [|discriminate]. injection Hrun as _ <-. eauto. }
      destruct G as (p' & ->). apply nth_upd_neq. exact Hn.
  - eapply K; reflexivity.
  - eapply K; reflexivity.
Qed.
Theorem C71_slow_path_partial : forall acq n s1 c tr1 t s2 c' tr2, exec (uonce_step acq) (uonce_init n) s1 = Some (c, tr1) -> nth_error (snd c) t = Some UCas ->
  exec (uonce_step acq) c s2 = Some (c', tr2) -> match returns_of t tr2 with URead v :: _ => v <> 0 | _ => True end.
Proof. intros acq n s1 c tr1 t s2 c' tr2 H Ht H2. eapply slow_path; eauto; [eapply UI_exec; eauto| | | |]; rewrite Ht; congruence. Qed.
Print Assumptions C71_slow_path_partial.

(** As the code is: a call that happens after another thread's completed call gets the same value, whichever function it is: a thread that was given a thread_specific_ptr by the
    thread that made it, through any synchronisation, may use it. *)
Theorem C71_happens_before_partial : forall acq n sched c tr a u o v K b t o' Kc d o2 v2 K2 e, exec (uonce_step acq) (uonce_init n) sched = Some (c, tr) ->
  tr = a ++ HEv (Ret u o (URead v)) K :: b ++ HEv (Call t o') Kc :: d ++ HEv (Ret t o2 (URead v2)) K2 :: e -> v <> 0 -> incl K Kc -> v2 = v.
Proof.
  intros acq n sched c tr a u o v K b t o' Kc d o2 v2 K2 e H E Hv Hk.
  assert (E1 : tr = (a ++ HEv (Ret u o (URead v)) K :: b) ++ HEv (Call t o') Kc :: (d ++ HEv (Ret t o2 (URead v2)) K2 :: e)) by (rewrite E, <- app_assoc; reflexivity).
  destruct (exec_cut _ _ _ _ _ _ _ _ H E1) as (s1 & x & s2 & c1 & c2 & x1 & d1 & es & d' & y1 & H1 & Hs & H2 & Ees & Ea & Eb).
  destruct c1 as [w ths]. pose proof Hs as Hs0. apply wstep_cases in Hs0.
  destruct Hs0 as [(t1 & o1 & p & p' & -> & Ht & Hc & -> & ->)|[(t1 & ch & p & o1 & r1 & p' & -> & Ht & Hr & -> & ->)|[(t1 & ch & p & _ & _ & _ & _ & ->)|[(t1 & _ & _ & ->)|(t1 & l & o1 & i & v1 & w1 & _ & _ & _ & _ & ->)]]]]; try (destruct d1 as [|? [|]]; discriminate).
  assert (d1 = [] /\ d' = [] /\ t1 = t /\ o1 = o' /\ wkn w t = Kc) as (-> & -> & -> & -> & <-) by (destruct d1 as [|? [|]]; inversion Ees; subst; auto). rewrite app_nil_r in Ea.
  destruct (UH_exec _ _ _ _ _ H1) as (HU & HH). destruct (HH u o v K) as (d0 & y & Ey & _ & -> & Hy); [rewrite <- Ea; apply in_or_app; right; left; reflexivity|exact Hv|]. cbn [fst] in Ey.
  assert (U : uknows t y (w, upd ths t p')).
  { split; [eapply UI_step; eauto|]. cbn [fst snd]. split; [eauto|]. split; [apply Hk; exact Hy|]. intros o3 s3 v3 Hn. rewrite (nth_upd_eq _ _ _ _ Ht) in Hn. injection Hn as ->. destruct p; try discriminate. destruct o'; discriminate. }
  cbn [app] in Eb. symmetry in Eb. destruct (exec_cut _ _ _ _ _ _ _ _ H2 Eb) as (s3 & x3 & s4 & c3 & c4 & x4 & d3 & es3 & d4 & y4 & H3 & Hs3 & _ & Ees3 & _).
  assert (U3 : uknows t y c3) by (revert H3; apply (exec_inv_state (uonce_step acq) (uknows t y)); [exact U|intros; eapply uknows_step; eauto]).
  destruct c3 as [w3 ths3]. destruct (u_ret _ _ _ _ _ _ _ _ _ _ _ _ Hs3 Ees3) as (s & Hd & _). destruct U3 as (_ & _ & _ & U3). eapply U3. exact Hd.
Qed.
Print Assumptions C71_happens_before_partial.

(** As the code is, a caller can pass the test and get the initial value: a null tss_mgr (W:162 W:176 W:190 W:200), the TLS slot number 0 (T:309), which belongs to somebody else.
    Thread 0 initialises; thread 1 reads the flag after that (value 2), and then the old content of the ordinary memory. *)
Definition u_sched (last : nat) : list (@wact uop (option nat * nat)) :=
  [WCall 0 UInit; WRun 0 (None, 0); WRun 0 (None, 0); WRun 0 (Some 7, 0); WRun 0 (None, 1); WRun 0 (None, 1); WRun 0 (None, 0); WCall 1 UInit; WRun 1 (None, 2); WRun 1 (None, last); WRun 1 (None, 0)]%nat.
Theorem C71_stale_refuted : exists sched c tr a K b K' d, exec (uonce_step false) (uonce_init 2) sched = Some (c, tr) /\
  tr = a ++ HEv (Ret 0 UInit (URead 8)) K :: b ++ HEv (Ret 1 UInit (URead 0)) K' :: d.
Proof. exists (u_sched 0). eexists. eexists. eexists [_]. eexists. eexists [_]. eexists. eexists. split; [vm_compute; reflexivity|]. reflexivity. Qed.
Print Assumptions C71_stale_refuted.

(** The same schedule is impossible with acquire order; reading the new content is possible. *)
Example C71_with_acquire_ex : exec (uonce_step true) (uonce_init 2) (u_sched 0) = None /\
  exists c a K b K', exec (uonce_step true) (uonce_init 2) (u_sched 1) = Some (c, a ++ HEv (Ret 0 UInit (URead 8)) K :: b ++ [HEv (Ret 1 UInit (URead 8)) K']).
Proof. split; [vm_compute; reflexivity|]. eexists. eexists [_]. eexists. eexists [_]. eexists. vm_compute. reflexivity. Qed.
(** A failed attempt, a second one that succeeds; the first thread waits for it at the exchange and gets the value. *)
Example C71_slow_path_ex : exists c tr1 c' tr2, exec (uonce_step false) (uonce_init 2)
    [WCall 0 UInit; WRun 0 (None, 0); WRun 0 (None, 0); WRun 0 (None, 0); WRun 0 (None, 1); WRun 0 (None, 0); WCall 0 UInit; WRun 0 (None, 2); WCall 1 UInit; WRun 1 (None, 0); WRun 1 (None, 2)]%nat = Some (c, tr1) /\
  nth_error (snd c) 0 = Some UCas /\ exec (uonce_step false) c [WRun 0 (None, 3); WRun 1 (Some 4, 0); WRun 1 (None, 3); WRun 0 (None, 4); WRun 0 (None, 1); WRun 0 (None, 0)]%nat = Some (c', tr2) /\ returns_of 0 tr1 = [UThrow] /\ returns_of 0 tr2 = [URead 5].
Proof. eexists. eexists. eexists. eexists. split; [vm_compute; reflexivity|]. split; [reflexivity|]. split; [vm_compute; reflexivity|]. split; reflexivity. Qed.
(** Thread 0 makes the pointer and publishes it through a location of the program; thread 1 uses it without initialising. *)
Example C71_happens_before_ex : exists c a K b Kc d K2, exec (uonce_step false) (uonce_init 2)
    [WCall 0 UInit; WRun 0 (None, 0); WRun 0 (None, 0); WRun 0 (Some 7, 0); WRun 0 (None, 1); WRun 0 (None, 1); WRun 0 (None, 0); WClient 0 5 (CStore true 1) 0; WClient 1 5 (CLoad true) 1; WCall 1 UUse; WRun 1 (None, 1); WRun 1 (None, 0)]%nat =
  Some (c, a ++ HEv (Ret 0 UInit (URead 8)) K :: b ++ HEv (Call 1 UUse) Kc :: d ++ [HEv (Ret 1 UUse (URead 8)) K2]) /\ incl K Kc.
Proof. eexists. eexists [_]. eexists. eexists []. eexists. eexists []. eexists. split; [vm_compute; reflexivity|]. intros x Hx. cbn in Hx |- *. tauto. Qed.
