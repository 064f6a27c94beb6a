(** C47, C54, C55: one-time initialisation and the waitable timers of threads. *)
From Coq Require Import List Bool Arith ZArith Lia.
From Verif Require Import ListSum Exec Events OnceModel OnceProof OnceCtx OnceKey OnceMore.
Import ListNotations.
Local Open Scope Z_scope.

Lemma in_dones m tr : 0 < dones m tr -> exists u k, In (EDone u m k) tr.
Proof.
  intros H. unfold dones in H. destruct (sumf_pos_ex (fun e => match e with EDone _ j _ => bz (j =? m)%nat | _ => 0 end) tr) as (i & e & Hi & He).
  - exact H.
  - apply nth_error_In in Hi. destruct e; try lia. destruct (Nat.eqb_spec m0 m); [subst; eauto|cbn in He; lia].
Qed.
Lemma dones_in m tr u k : In (EDone u m k) tr -> 1 <= dones m tr.
Proof.
  intros H. apply In_nth_error in H. destruct H as (i & Hi). pose proof (sumf_elem (fun e => match e with EDone _ j _ => bz (j =? m)%nat | _ => 0 end) tr i _ (fun e => ltac:(destruct e; try apply bz_nonneg; lia)) Hi) as G. cbn in G. rewrite Nat.eqb_refl in G. exact G.
Qed.
Lemma single {A} (x : A) d y b : [x] = d ++ y :: b -> d = [] /\ x = y.
Proof. destruct d as [|z d]; intros H; inversion H; auto. destruct d; discriminate. Qed.

(** ** C47: waitable timers *)
(** When a thread begins the initialisation of a module, it is not complete and every earlier attempt has failed: at no time are two attempts running. *)
Theorem C47_attempts_exclude nm n sched s tr a t m b : exec once_step (once_init nm n) sched = Some (s, tr) -> tr = a ++ EBegin t m :: b -> dones m a = 0 /\ begins m a = fails m a.
Proof.
  intros H E. apply (exec_events once_step OI (fun a e => match e with EBegin t m => dones m a = 0 /\ begins m a = fails m a | _ => True end) (once_init nm n)) with (sched := sched) (c := s) (tr := tr) (x := EBegin t m) (b := b); auto.
  - apply OI_init.
  - intros; eapply OI_step; eauto.
  - intros c0 t0 a0 c1 es d x b0 (I1 & I2 & I3) Hs Ees. destruct x; auto. destruct c0 as [p ths]. pose proof (once_effects _ _ _ _ _ Hs) as He. destruct c1 as [p1 ths1]. cbn [fst snd] in *.
    destruct He as [u pc pc' p' e Ht Em Hin Hpast Hev Hd Hu|c x Hc|u j x pc Ht Hpc Hm Hi|u j x Ht Hm Hi|u j x pc pc' p' key h Ht Hpin Hin Hpast Hm Em|u j x Ht Hm|u j x Ht Hm]; try (destruct d; discriminate); try (apply single in Ees; destruct Ees as (-> & Ex); inversion Ex; subst).
    + exfalso. assert (G : about m0 (EBegin t1 m0) = false) by (eapply zero_about; [apply Hev|]; rewrite Ees; apply in_or_app; right; left; reflexivity). cbn in G. rewrite Nat.eqb_refl in G. discriminate.
    + exfalso. assert (G : about m0 (EBegin t1 m0) = false) by (eapply zero_about; [apply closes_quiet|]; rewrite Ees; apply in_or_app; right; left; reflexivity). cbn in G. rewrite Nat.eqb_refl in G. discriminate.
    + destruct (I1 _ _ Hm) as (A & B & C & D). rewrite Hi in *. cbn [Nat.eqb bz] in *. rewrite app_nil_r. split; lia.
Qed.

(** It completes at most once. *)
Theorem C47_completes_once nm n sched s tr m : (m < nm)%nat -> exec once_step (once_init nm n) sched = Some (s, tr) -> dones m tr <= 1 /\ begins m tr <= dones m tr + fails m tr + 1.
Proof.
  intros Hm H. assert (L : length (mods (fst s)) = nm).
  { revert H. apply (exec_inv_state once_step (fun s => length (mods (fst s)) = nm)); [cbn; apply repeat_length|]. intros c1 a c2 e L Hs. destruct c1 as [p ths]. pose proof (once_effects _ _ _ _ _ Hs) as He. destruct c2 as [p1 ths1]. cbn [fst snd] in *. destruct He; cbn [set_mod set_tlcs mods]; rewrite ?upd_length; try congruence. rewrite H4, upd_length. exact L. }
  destruct (once_oi _ _ _ _ _ H) as (I1 & _). destruct (nth_error (mods (fst s)) m) as [x|] eqn:Em; [|apply nth_error_None in Em; lia]. destruct (I1 m x Em) as (A & B & C & D). split; destruct (_ =? 1)%nat, (_ =? 2)%nat; cbn [bz] in *; lia.
Qed.

(** The end of an attempt, successful or not, is announced by the thread that began it; nothing else happened to the module in between. *)
Theorem C47_own_attempt nm n sched s tr a e t m b : exec once_step (once_init nm n) sched = Some (s, tr) -> tr = a ++ e :: b -> (e = EFail t m \/ exists k, e = EDone t m k) ->
  exists a1 a2, a = a1 ++ EBegin t m :: a2 /\ forall x, In x a2 -> about m x = false.
Proof.
  intros H E Hc. apply (exec_events once_step ALL (fun a e => match e with EFail t m | EDone t m _ => running t m a | _ => True end) (once_init nm n)) with (sched := sched) (c := s) (tr := tr) (a := a) (x := e) (b := b) in E; [|apply ALL_init|intros; eapply ALL_step; eauto| |exact H].
  - destruct Hc as [->|(k & ->)]; exact E.
  - clear. intros c0 t0 a0 c1 es d x b0 (HO & HC & HR & HW) Hs Ees. destruct c0 as [p ths]. pose proof (once_effects _ _ _ _ _ Hs) as He. destruct c1 as [p1 ths1]. cbn [fst snd] in *.
    destruct He as [u pc pc' p' e Ht Em Hin Hpast Hev Hd Hu|c y Hc|u j y pc Ht Hpc Hm Hi|u j y Ht Hm Hi|u j y pc pc' p' key h Ht Hpin Hin Hpast Hm Em|u j y Ht Hm|u j y Ht Hm]; try (destruct d; discriminate); try (apply single in Ees; destruct Ees as (-> & Ex); inversion Ex; subst; try exact I; rewrite app_nil_r; refine (proj1 (HR u _ _ Ht _)); cbn; apply Nat.eqb_refl).
    + assert (G : forall j, about j x = false) by (intros j; eapply zero_about; [apply Hev|]; rewrite Ees; apply in_or_app; right; left; reflexivity). destruct x; auto; specialize (G m); cbn in G; rewrite Nat.eqb_refl in G; discriminate.
    + assert (G : forall j, about j x = false) by (intros j; eapply zero_about; [apply closes_quiet|]; rewrite Ees; apply in_or_app; right; left; reflexivity). destruct x; auto; specialize (G m); cbn in G; rewrite Nat.eqb_refl in G; discriminate.
Qed.

(** No caller goes on to use the slot before the initialisation of its module is complete, and it uses the key that was published. *)
Theorem C47_use_after_done nm n sched s tr a t m k b : exec once_step (once_init nm n) sched = Some (s, tr) -> tr = a ++ EUse t m k :: b -> exists u, In (EDone u m k) a.
Proof.
  intros H E. apply (exec_events once_step OI (fun a e => match e with EUse t m k => exists u, In (EDone u m k) a | _ => True end) (once_init nm n)) with (sched := sched) (c := s) (tr := tr) (x := EUse t m k) (b := b); auto.
  - apply OI_init.
  - intros; eapply OI_step; eauto.
  - intros c0 t0 a0 c1 es d x b0 (I1 & I2 & I3) Hs Ees. destruct x; auto. destruct c0 as [p ths]. pose proof (once_effects _ _ _ _ _ Hs) as He. destruct c1 as [p1 ths1]. cbn [fst snd] in *.
    destruct He as [u pc pc' p' e Ht Em Hin Hpast Hev Hd Hu|c x Hc|u j x pc Ht Hpc Hm Hi|u j x Ht Hm Hi|u j x pc pc' p' key h Ht Hpin Hin Hpast Hm Em|u j x Ht Hm|u j x Ht Hm]; try (destruct d; discriminate); try (apply single in Ees; destruct Ees as (-> & Ex); inversion Ex; subst).
    + destruct (Hu t1 m0 k0) as (-> & Hp & y & Hy & <-); [rewrite Ees; apply in_or_app; right; left; reflexivity|]. destruct (I2 _ _ _ Ht Hp) as (y' & Hy' & Hi). assert (y' = y) by congruence. subst y'. destruct (I1 _ _ Hy) as (A & B & C & D). rewrite Hi in C. cbn in C.
      destruct (in_dones m0 t0) as (v & k' & Hv); [lia|]. destruct (I3 _ _ _ Hv) as (z & Hz & _ & Ek). assert (z = y) by congruence. subst z. exists v. apply in_or_app. left. rewrite Ek. exact Hv.
    + exfalso. eapply (proj2 (proj2 (closes_quiet c x))). rewrite Ees. apply in_or_app. right. left. reflexivity.
Qed.

(** A failed attempt does not block the next caller: whenever no attempt is running and none has succeeded, a caller at the exchange begins a new one. *)
Theorem C47_retry nm n sched s tr t m o : exec once_step (once_init nm n) sched = Some (s, tr) -> nth_error (snd s) t = Some (OCas m) -> (m < length (mods (fst s)))%nat -> dones m tr = 0 -> begins m tr = fails m tr ->
  exists s', once_step s (OStep t o) = Some (s', [EBegin t m]).
Proof.
  intros H Ht Hm Hd Hb. destruct (once_oi _ _ _ _ _ H) as (I1 & _). destruct s as [p ths]. cbn [fst snd] in *. destruct (nth_error (mods p) m) as [x|] eqn:Em; [|apply nth_error_None in Em; lia].
  destruct (I1 m x Em) as (A & B & C & D). cbn [once_step]. rewrite Ht. cbn [once_step1]. rewrite Em. destruct (ini x) as [|[|i]]; cbn [Nat.eqb bz] in *; [eauto|lia|]. destruct i; cbn in *; lia.
Qed.
(** And while one is running, its thread can always take a step ... *)
Theorem C47_attempt_enabled nm n sched s tr t pc m : exec once_step (once_init nm n) sched = Some (s, tr) -> nth_error (snd s) t = Some pc -> inside m pc = true -> exists r, once_step s (OStep t None) = Some r.
Proof.
  intros H Ht Hp. destruct (once_all _ _ _ _ _ H) as (_ & _ & HR & _). destruct (HR _ _ _ Ht Hp) as (_ & L). destruct s as [p ths]. cbn [fst snd] in *. destruct (nth_error (mods p) m) as [x|] eqn:Em; [|apply nth_error_None in Em; lia].
  cbn [once_step]. rewrite Ht. destruct pc; cbn in Hp; try discriminate; apply Nat.eqb_eq in Hp; subst; cbn [once_step1]; rewrite ?Em; eauto.
Qed.
Definition rank (pc : opc) : nat := match pc with OOpen _ => 8 | OAlloc _ => 7 | OCreate _ _ => 6 | ODrop _ _ => 5 | OQuery _ => 4 | OAlloc2 _ => 3 | OPut _ _ => 2 | OPub _ | OUndo _ => 1 | _ => 0 end%nat.
Lemma rank_step p t pc o p' pc' e m : inside m pc = true -> once_step1 p t pc o = Some (p', pc', e) -> (inside m pc' = true /\ (rank pc' < rank pc)%nat) \/ In (EFail t m) e \/ exists k, In (EDone t m k) e.
Proof.
  intros Hp H. destruct pc; cbn in Hp; try discriminate; apply Nat.eqb_eq in Hp; subst; cbn [once_step1] in H;
    repeat match goal with Hx : context [match ?y with _ => _ end] |- _ => destruct y eqn:?; try discriminate end; inversion H; subst; cbn; rewrite ?Nat.eqb_refl; eauto 6; left; split; auto; lia.
Qed.
(** ... and ends it after at most eight of them, whatever the other threads did before. *)
Theorem C47_attempt_bounded s t pc m os s' tr' : nth_error (snd s) t = Some pc -> inside m pc = true -> exec once_step s (map (OStep t) os) = Some (s', tr') -> (8 <= length os)%nat ->
  In (EFail t m) tr' \/ exists k, In (EDone t m k) tr'.
Proof.
  intros Ht Hp H L. assert (R : (rank pc <= length os)%nat) by (destruct pc; cbn in Hp |- *; try discriminate; lia). assert (R1 : (1 <= rank pc)%nat) by (destruct pc; cbn in Hp |- *; try discriminate; lia). clear L.
  revert s pc tr' Ht Hp H R R1. induction os as [|o os IH]; intros s pc tr' Ht Hp H R R1; cbn [length] in R; [lia|]. cbn [map exec] in H. destruct (once_step s (OStep t o)) as [[s1 e1]|] eqn:Es; [|discriminate]. destruct (exec once_step s1 (map (OStep t) os)) as [[s2 e2]|] eqn:Ex; [|discriminate]. inversion H; subst. clear H.
  destruct s as [p ths]. cbn [snd] in Ht. cbn [once_step] in Es. rewrite Ht in Es. destruct (once_step1 p t pc o) as [[[p' pc'] e']|] eqn:E1; [|discriminate]. inversion Es; subst. destruct (rank_step _ _ _ _ _ _ _ m Hp E1) as [(A & B)|[A|(k & A)]].
  - destruct (IH (p', upd ths t pc') pc' e2) as [G|(k & G)]; auto; try (cbn [snd]; eapply nth_upd_eq; exact Ht); try lia.
    + destruct pc'; cbn in A |- *; try discriminate; lia.
    + left. apply in_or_app; auto.
    + right. exists k. apply in_or_app; auto.
  - left. apply in_or_app; auto.
  - right. exists k. apply in_or_app; auto.
Qed.

(** Two threads; the first attempt fails, the other one retries, both get timers. *)
Definition once_sched : list oact :=
  (let s t l := map (OStep t) l in
   OCall 0 0 :: OCall 1 0 :: s 0 [None; None; None; None] ++ s 1 [None; None] ++ s 0 [None] ++ s 1 [None; None; Some 7; Some 0; None; None; Some 0; Some 0; Some 0; Some 0; Some 0] ++
   [OCall 0 0] ++ s 0 [None; Some 0; Some 0; Some 0; Some 0; Some 0])%nat.
Example C47_ex : exists s, exec once_step (once_init 1 2) once_sched = Some (s,
  [EBegin 0 0; EFail 0 0; EBegin 1 0; EDone 1 0 7; EUse 1 0 7; EOpen 0 HThread; EOpen 0 HWait; EOpen 0 HTimer; ERet 1 0 0; EUse 0 0 7; EOpen 1 HThread; EOpen 1 HWait; EOpen 1 HTimer; ERet 0 0 1])%nat.
Proof. eexists. vm_compute. reflexivity. Qed.

(** ** C47: init_tss_once *)
Lemma w_all n sched c tr : exec w_step (w_init n) sched = Some (c, tr) -> WI c tr.
Proof. apply exec_inv; [apply WI_init|intros; eapply WI_step; eauto]. Qed.
(** The process-wide storage manager is created by at most one thread. *)
Theorem C47_tss_once n sched c tr : exec w_step (w_init n) sched = Some (c, tr) -> wbegins tr <= 1 /\ wends tr <= wbegins tr.
Proof.
  intros H. pose proof (w_all _ _ _ _ H) as W. destruct c as [s ths]. destruct W as (A & B & C & D & _). rewrite C, D. destruct (wflag s) as [|[|[|i]]]; cbn; lia.
Qed.
(** Every caller goes on only after the manager and the notification key exist, and all callers see the same manager. *)
Theorem C47_tss_ready n sched c tr a t mgr key b : exec w_step (w_init n) sched = Some (c, tr) -> tr = a ++ WProceed t mgr key :: b ->
  exists u, mgr = Some u /\ key = true /\ In (WBegin u) a /\ In (WEnd u) a.
Proof.
  intros H E. apply (exec_events w_step WI (fun a e => match e with WProceed t mgr key => exists u, mgr = Some u /\ key = true /\ In (WBegin u) a /\ In (WEnd u) a | _ => True end) (w_init n)) with (sched := sched) (c := c) (tr := tr) (x := WProceed t mgr key) (b := b); auto.
  - apply WI_init.
  - intros; eapply WI_step; eauto.
  - intros c0 t0 a0 c1 es d x b0 HW Hs Ees. destruct x; auto. destruct c0 as [s ths]. destruct HW as (A & B & C & D & F & G). destruct a0 as [u|u]; cbn [w_step] in Hs; destruct (nth_error ths u) as [pc|] eqn:Et; try discriminate.
    + destruct pc; inversion Hs; subst. destruct d; discriminate.
    + destruct (w_step1 s u pc) as [[[s' pc'] e']|] eqn:Es; inversion Hs; subst. destruct (F u pc Et) as (_ & F2 & _). destruct pc; cbn [w_step1] in Es; try discriminate;
        repeat match goal with Hx : context [match ?y with _ => _ end] |- _ => destruct y eqn:?; try discriminate end; inversion Es; subst; try (destruct d; discriminate); try (apply single in H4; destruct H4 as (-> & Ex); inversion Ex; subst); try (apply single in H2; destruct H2 as (-> & Ex); inversion Ex; subst); try (apply single in H3; destruct H3 as (-> & Ex); inversion Ex; subst); try (apply single in H1; destruct H1 as (-> & Ex); inversion Ex; subst).
      rewrite app_nil_r. apply G. apply F2. reflexivity.
Qed.
Corollary C47_tss_same_manager n sched c tr t u mgr mgr' key key' : exec w_step (w_init n) sched = Some (c, tr) -> In (WProceed t mgr key) tr -> In (WProceed u mgr' key') tr -> mgr = mgr'.
Proof.
  intros H A B. apply in_split in A, B. destruct A as (a1 & b1 & E1). destruct B as (a2 & b2 & E2). destruct (C47_tss_ready _ _ _ _ _ _ _ _ _ H E1) as (x & -> & _ & X & _). destruct (C47_tss_ready _ _ _ _ _ _ _ _ _ H E2) as (y & -> & _ & Y & _).
  destruct (C47_tss_once _ _ _ _ H) as (L & _). assert (X' : In (WBegin x) tr) by (rewrite E1; apply in_or_app; auto). assert (Y' : In (WBegin y) tr) by (rewrite E2; apply in_or_app; auto).
  destruct (Nat.eq_dec x y) as [->|Hn]; [reflexivity|exfalso]. apply In_nth_error in X', Y'. destruct X' as (i & Hi), Y' as (j & Hj). assert (Hij : i <> j) by (intros ->; congruence).
  pose proof (sumf_two (fun e => match e with WBegin _ => 1 | _ => 0 end) tr i j _ _ (fun e => ltac:(destruct e; lia)) Hij Hi Hj) as G. cbn in G. unfold wbegins in L. lia.
Qed.
Example C47_tss_ex : exists c, exec w_step (w_init 2) [WCall 0; WCall 1; WStep 0; WStep 1; WStep 0; WStep 1; WStep 0; WStep 0; WStep 0; WStep 1; WStep 1; WStep 0]%nat = Some (c, [WBegin 0; WEnd 0; WProceed 1 (Some 0) true; WProceed 0 (Some 0) true])%nat.
Proof. eexists. vm_compute. reflexivity. Qed.

(** ** C54: one TLS slot for the whole process *)
(** If the semaphore can be created and its count read, all modules publish the same key. *)
Theorem C54_one_key nm n sched s tr t m k u m' k' : exec sure_step (once_init nm n) sched = Some (s, tr) -> In (EDone t m k) tr -> In (EDone u m' k') tr -> k = k'.
Proof.
  intros H A B. destruct (once_ag _ _ _ _ _ H) as ((_ & _ & I3) & HA). destruct s as [p ths]. destruct HA as (_ & _ & _ & _ & _ & _ & _ & A8 & _). destruct (I3 _ _ _ A) as (x & X1 & X2 & <-). destruct (I3 _ _ _ B) as (y & Y1 & Y2 & <-). pose proof (A8 _ _ X1 X2). pose proof (A8 _ _ Y1 Y2). congruence.
Qed.
(** One slot is allocated for good; others exist only while a thread is about to find out that it lost the race. *)
Theorem C54_slots nm n sched s tr : exec sure_step (once_init nm n) sched = Some (s, tr) -> (forall t pc m k, nth_error (snd s) t = Some pc -> pc <> OCreate m k /\ pc <> ODrop m k) -> (length (tslots (fst s)) <= 1)%nat.
Proof.
  intros H Hn. destruct (once_ag _ _ _ _ _ H) as (_ & HA). destruct s as [p ths]. destruct HA as (_ & _ & _ & _ & A5 & _). cbn [fst snd] in *.
  assert (Z : sumf (fun pc => bz (some (pendk pc))) ths = 0). { clear A5 H. revert Hn. induction ths as [|pc ths IH]; intros Hn; [reflexivity|]. cbn [sumf]. rewrite IH; [|exact (fun t => Hn (S t))]. destruct pc; cbn; try reflexivity; exfalso; [apply (proj1 (Hn 0%nat _ m k eq_refl))|apply (proj2 (Hn 0%nat _ m k eq_refl))]; reflexivity. }
  rewrite Z in A5. destruct (sem p); cbn in A5; lia.
Qed.
(** Every open handle of the semaphore is kept by a module, one each. *)
Theorem C54_semaphore_handles nm n sched s tr : exec sure_step (once_init nm n) sched = Some (s, tr) -> Z.of_nat (semh (fst s)) = sumf (fun x => bz (holder x)) (mods (fst s)).
Proof. intros H. destruct (once_ag _ _ _ _ _ H) as (_ & HA). destruct s as [p ths]. apply HA. Qed.
Lemma sure_exec nm n sched s tr : exec sure_step (once_init nm n) sched = Some (s, tr) -> exec once_step (once_init nm n) sched = Some (s, tr).
Proof.
  generalize (once_init nm n) as c. revert s tr. induction sched as [|a sched IH]; intros s tr c; cbn [exec]; [auto|]. destruct (sure_step c a) as [[c1 e1]|] eqn:E; [|discriminate]. rewrite (sure_once _ _ _ E). destruct (exec sure_step c1 sched) as [[c2 e2]|] eqn:E2; [|discriminate]. rewrite (IH _ _ _ E2). auto.
Qed.
(** A thread gets the same timer in every module. *)
Theorem C54_same_timer nm n sched s tr t m c m' c' : exec sure_step (once_init nm n) sched = Some (s, tr) -> In (ERet t m c) tr -> In (ERet t m' c') tr -> c = c'.
Proof.
  intros H A B. destruct (once_ag _ _ _ _ _ H) as (_ & HA). destruct (once_cx _ _ _ _ _ (sure_exec _ _ _ _ _ H)) as (_ & HC). destruct s as [p ths]. destruct HA as (_ & _ & _ & _ & _ & _ & _ & A8 & _). destruct HC as (_ & _ & _ & _ & _ & C6).
  destruct (C6 _ _ _ A) as (x & X1 & X2 & X3). destruct (C6 _ _ _ B) as (y & Y1 & Y2 & Y3). pose proof (A8 _ _ X1 X2). pose proof (A8 _ _ Y1 Y2). congruence.
Qed.
Definition two_mods : list oact :=
  (let s t l := map (OStep t) l in
   OCall 0 0 :: OCall 1 1 :: s 0 [None; None; None; Some 7] ++ s 1 [None; None; None; Some 8] ++ s 1 [Some 0] ++ s 0 [Some 0; None; Some 0; None; None; Some 0; Some 0; Some 0; Some 0; Some 0] ++ s 1 [None; None] ++ [OCall 0 1] ++ s 0 [None; None])%nat.
Example C54_ex : exists s, exec sure_step (once_init 2 2) two_mods = Some (s,
  [EBegin 0 0; EBegin 1 1; EDone 0 0 8; EUse 0 0 8; EOpen 0 HThread; EOpen 0 HWait; EOpen 0 HTimer; ERet 0 0 0; EDone 1 1 8; EUse 0 1 8; ERet 0 1 0])%nat /\ tslots (fst s) = [8%nat] /\ semh (fst s) = 2%nat.
Proof. eexists. vm_compute. auto. Qed.
(** If the count of the semaphore cannot be read, modules use different slots and a thread has several timers. *)
Theorem C54_one_key_refuted : exists nm n sched s tr t m c m' c', exec once_step (once_init nm n) sched = Some (s, tr) /\ In (ERet t m c) tr /\ In (ERet t m' c') tr /\ c <> c'.
Proof.
  exists 2%nat, 1%nat, (let s t l := map (OStep t) l in OCall 0 0 :: s 0 [None; None; None; Some 7; Some 0; None; None; Some 0; Some 0; Some 0; Some 0; Some 0] ++ [OCall 0 1] ++ s 0 [None; None; Some 0; None; Some 8; None; None; Some 0; Some 0; Some 0; Some 0; Some 0])%nat.
  eexists _, _, 0%nat, 0%nat, 0%nat, 1%nat, 1%nat. split; [vm_compute; reflexivity|]. vm_compute. split; [auto 20|]. split; [auto 20|discriminate].
Qed.
(** Then a failed attempt also leaks its handle of the semaphore: the next attempt overwrites tls_key_holder. *)
Theorem C54_handle_leak_refuted : exists nm n sched s tr, exec once_step (once_init nm n) sched = Some (s, tr) /\ Z.of_nat (semh (fst s)) > sumf (fun x => bz (holder x)) (mods (fst s)).
Proof.
  exists 2%nat, 1%nat, (let s t l := map (OStep t) l in OCall 0 0 :: s 0 [None; None; None; Some 7; Some 0; None; None; Some 0; Some 0; Some 0; Some 0; Some 0] ++ [OCall 0 1] ++ s 0 [None; None; Some 0; None; None; None] ++ [OCall 0 1] ++ s 0 [None; None; Some 0; Some 0])%nat.
  eexists _, _. split; [vm_compute; reflexivity|]. vm_compute. reflexivity.
Qed.

(** ** C55: each thread has its own timer; handles are closed exactly once *)
Theorem C55_own_timer nm n sched s tr t m c u m' : exec once_step (once_init nm n) sched = Some (s, tr) -> In (ERet t m c) tr -> In (ERet u m' c) tr -> t = u.
Proof.
  intros H A B. destruct (once_cx _ _ _ _ _ H) as (_ & HC). destruct s as [p ths]. destruct HC as (_ & C2 & _ & _ & _ & C6).
  destruct (C6 _ _ _ A) as (x & _ & _ & X). destruct (C6 _ _ _ B) as (y & _ & _ & Y). apply tls_get_in in X, Y. destruct (C2 _ _ _ X) as (z & Z1 & Z2 & _). destruct (C2 _ _ _ Y) as (w & W1 & W2 & _). congruence.
Qed.
(** Repeated calls return the same timer. *)
Theorem C55_same_timer nm n sched s tr t m c c' : exec once_step (once_init nm n) sched = Some (s, tr) -> In (ERet t m c) tr -> In (ERet t m c') tr -> c = c'.
Proof.
  intros H A B. destruct (once_cx _ _ _ _ _ H) as (_ & HC). destruct s as [p ths]. destruct HC as (_ & _ & _ & _ & _ & C6).
  destruct (C6 _ _ _ A) as (x & X1 & _ & X). destruct (C6 _ _ _ B) as (y & Y1 & _ & Y). congruence.
Qed.
(** The timer a thread was given stays open as long as the thread lives. *)
Theorem C55_open_while_alive nm n sched s tr t m c : exec once_step (once_init nm n) sched = Some (s, tr) -> In (ERet t m c) tr -> nth_error (snd s) t <> Some OGone -> opened c HTimer tr = 1 /\ closed c HTimer tr = 0.
Proof.
  intros H A Hg. destruct (once_cx _ _ _ _ _ H) as (_ & HC). destruct s as [p ths]. destruct HC as (_ & C2 & _ & C4 & _ & C6). cbn [snd] in Hg.
  destruct (C6 _ _ _ A) as (x & _ & _ & X). apply tls_get_in in X. destruct (C2 _ _ _ X) as (z & Z1 & Z2 & [F|(_ & F)]); [|congruence]. specialize (C4 c HTimer). rewrite Z1 in C4. unfold full in F. injection F as F1 F2 F3 F4. cbn [flag] in C4. rewrite F3, F4 in C4. destruct C4 as (D1 & D2 & _). specialize (D2 eq_refl). cbn in D1. lia.
Qed.
(** No handle is closed twice, or closed without having been opened. *)
Theorem C55_closed_at_most_once nm n sched s tr c h : exec once_step (once_init nm n) sched = Some (s, tr) -> 0 <= closed c h tr <= opened c h tr /\ opened c h tr <= 1.
Proof.
  intros H. destruct (once_cx _ _ _ _ _ H) as (_ & HC). destruct s as [p ths]. destruct HC as (_ & _ & C3 & C4 & _). specialize (C4 c h). destruct (nth_error (tlcs p) c) as [x|] eqn:E; [|lia]. destruct C4 as (D1 & D2 & D3). pose proof (bz_nonneg (flag h x)). destruct (calive x) eqn:Ea.
  - specialize (D2 eq_refl). destruct (flag h x); cbn in *; lia.
  - destruct (C3 _ _ E) as [V|(V & _)]; [|congruence]. unfold void in V. injection V as V1 V2 V3 V4. replace (flag h x) with false in * by (destruct h; cbn; congruence). cbn in D1. lia.
Qed.
(** When no call is in progress, every handle ever opened is closed again or belongs to the context in the slot of its thread: nothing is leaked by a failed attempt to make a context. *)
Theorem C55_no_leak nm n sched s tr c h : exec once_step (once_init nm n) sched = Some (s, tr) -> (forall t pc, nth_error (snd s) t = Some pc -> pcctx pc = None) ->
  opened c h tr = closed c h tr \/ exists t k, In (t, k, c) (tlsv (fst s)).
Proof.
  intros H Hn. destruct (once_all _ _ _ _ _ H) as (_ & HC & _ & HW & _). destruct s as [p ths]. destruct HC as (_ & _ & C3 & C4 & _). cbn [fst snd] in *. specialize (C4 c h). destruct (nth_error (tlcs p) c) as [x|] eqn:E; [|left; lia]. destruct (C3 _ _ E) as [V|(V & _)].
  - left. unfold void in V. injection V as V1 V2 V3 V4. replace (flag h x) with false in * by (destruct h; cbn; congruence). cbn in C4. lia.
  - right. destruct (HW _ _ E V) as [(pc & P1 & P2)|(k & K)]; [|exists (cown x), k; exact K]. rewrite (Hn _ _ P1) in P2. discriminate.
Qed.
(** After the thread is gone the callback is due, and it closes everything. *)
Theorem C55_cleanup nm n sched s tr t k c : exec once_step (once_init nm n) sched = Some (s, tr) -> In (t, k, c) (tlsv (fst s)) -> nth_error (snd s) t = Some OGone ->
  (forall h, opened c h tr = 1 /\ closed c h tr = 1) \/ exists s' e, once_step s (OCallback c) = Some (s', e) /\ forall h, opened c h (tr ++ e) = 1 /\ closed c h (tr ++ e) = 1.
Proof.
  intros H A Hg. pose proof (once_all _ _ _ _ _ H) as HALL. destruct HALL as (_ & HC & _ & HW & HM). destruct s as [p ths]. pose proof HC as (_ & C2 & C3 & C4 & _). cbn [fst snd] in *. destruct (C2 _ _ _ A) as (x & X1 & X2 & [F|(F & _)]).
  - right. unfold full in F. injection F as V1 V2 V3 V4. cbn [once_step]. rewrite X1, X2, Hg, V2. eexists _, _. split; [reflexivity|]. intros h. rewrite opened_app, closed_app. destruct (closes_count c x c h) as (-> & ->). rewrite Nat.eqb_refl. specialize (C4 c h). rewrite X1 in C4. destruct C4 as (D1 & D2 & _). specialize (D2 V4). replace (flag h x) with true in * by (destruct h; cbn; congruence). cbn [bz] in *. lia.
  - left. intros h. pose proof (HM _ _ _ h A) as E. cbn [fst] in E. specialize (C4 c h). rewrite X1 in C4. unfold void in F. injection F as V1 V2 V3 V4. replace (flag h x) with false in * by (destruct h; cbn; congruence). cbn in C4. lia.
Qed.
(** One context is made, used twice and cleaned up; another attempt fails half-way and cleans up after itself. *)
Definition ctx_sched : list oact :=
  (let s t l := map (OStep t) l in
   OCall 0 0 :: s 0 [None; None; None; Some 7; Some 0; None; None; Some 0; Some 0; Some 0; None; None] ++ OCall 0 0 :: s 0 [None; Some 0; Some 0; Some 0; Some 0; Some 0] ++ OCall 0 0 :: s 0 [None; None] ++ [OExit 0; OCallback 1])%nat.
Example C55_ex : exists s, exec once_step (once_init 1 1) ctx_sched = Some (s,
  [EBegin 0 0; EDone 0 0 7; EUse 0 0 7; EOpen 0 HThread; EOpen 0 HWait; EClose 0 HWait; EClose 0 HThread; EThrow 0; EUse 0 0 7; EOpen 1 HThread; EOpen 1 HWait; EOpen 1 HTimer; ERet 0 0 1; EUse 0 0 7; ERet 0 0 1;
   EClose 1 HWait; EClose 1 HThread; EClose 1 HTimer])%nat.
Proof. eexists. vm_compute. reflexivity. Qed.
