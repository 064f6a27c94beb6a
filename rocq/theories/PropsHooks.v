(** Property theorems: the thread and process exit notifications on Windows (C72). *)
From Coq Require Import List Bool Arith ZArith Lia.
From Verif Require Import ListSum Exec TssModel TssProof TssKeys TssOwn TssExit ProcExit ProcExitProof PropsTss PropsProcExit HooksModel HooksProof.
Import ListNotations.

(** * on_thread_exit and on_process_exit are called as tss_windows_hooks.hpp demands *)

Lemma calls_split t h l tr : calls t tr = h :: l -> exists a d, tr = a ++ VHook t h :: d /\ calls t d = l.
Proof.
  induction tr as [|e tr IH]; [discriminate|]. change (e :: tr) with ([e] ++ tr). rewrite calls_app. destruct e as [u n|u h'|e]; cbn [calls flat_map app]; intros H.
  - destruct (IH H) as (a & d & -> & Hd). exists (VNote u n :: a), d. split; [reflexivity|exact Hd].
  - destruct (Nat.eqb_spec u t) as [->|]; cbn [app] in H.
    + injection H as -> H. exists [], tr. split; [reflexivity|exact H].
    + destruct (IH H) as (a & d & -> & Hd). exists (VHook u h' :: a), d. split; [reflexivity|exact Hd].
  - destruct (IH H) as (a & d & -> & Hd). exists (VLib e :: a), d. split; [reflexivity|exact Hd].
Qed.

(** Every thread that ends has had on_thread_exit called on it (H:54-59: "must not be omitted", "in the context of the thread that is ending"); all builds but the one for old MinGW versions. *)
Theorem C72_thread_exit : forall b ctls n sched c tr t, b <> BMingwOld -> exec (hk_step b ctls) (hk_init n) sched = Some (c, tr) ->
  In (VNote t NThrOut) tr -> thread_ended c t -> In (VHook t HThrOut) tr.
Proof.
  intros b ctls n sched c tr t Hb H Hn (Hq & _). destruct (CI_exec _ _ _ _ _ _ H) as (_ & B & _). destruct (B _ _ Hq) as (m & _ & B2 & B3 & _). rewrite <- (B2 _ Hn) in B3. rewrite app_nil_r in B3.
  apply calls_in. rewrite B3. destruct b; cbn; auto; contradiction.
Qed.
Print Assumptions C72_thread_exit.

(** When the process has ended, on_thread_exit and then on_process_exit have been called on the thread that ended it (H:40-45); all builds but the one for MinGW. *)
Theorem C72_process_exit : forall b ctls n sched c tr, b <> BMingw -> exec (hk_step b ctls) (hk_init n) sched = Some (c, tr) -> ended c ->
  exists t a d f, hend c = Some t /\ tr = a ++ VHook t HThrOut :: d ++ VHook t HProcOut :: f.
Proof.
  intros b ctls n sched c tr Hb H (t & Ht & Hq & _). destruct (CI_exec _ _ _ _ _ _ H) as (_ & B & _). destruct (B _ _ Hq) as (m & _ & _ & B3 & [(_ & B4)|(-> & _)]); [contradiction|]. rewrite app_nil_r in B3.
  assert (G : exists l, calls t tr = HThrOut :: HProcOut :: l) by (rewrite B3; destruct b; cbn; eauto; contradiction). destruct G as (l & G).
  destruct (calls_split _ _ _ _ G) as (a & d & E & Hd). destruct (calls_split _ _ _ _ Hd) as (d1 & f & -> & _). exists t, a, d1, f. split; [exact Ht|exact E].
Qed.
Print Assumptions C72_process_exit.

(** Each thread gets exactly the calls listed for its notification, whatever the build. *)
Theorem C72_calls : forall b ctls n sched c tr t, exec (hk_step b ctls) (hk_init n) sched = Some (c, tr) ->
  (forall m, In (VNote t m) tr -> exists l, calls t tr ++ l = hooks b m /\ (thread_ended c t -> l = [])) /\ ((forall m, ~ In (VNote t m) tr) -> calls t tr = []).
Proof.
  intros b ctls n sched c tr t H. destruct (CI_exec _ _ _ _ _ _ H) as (A & B & C & _). split.
  - intros m Hm. destruct (nth_error (hq c) t) as [[l|]|] eqn:E.
    + destruct (B _ _ E) as (m' & _ & B2 & B3 & _). rewrite (B2 _ Hm). exists l. split; [exact B3|]. intros (Hq & _). congruence.
    + destruct (A _ E) as (_ & A2). destruct (A2 _ Hm).
    + destruct (C _ E) as (_ & A2). destruct (A2 _ Hm).
  - intros N. destruct (nth_error (hq c) t) as [[l|]|] eqn:E; [|apply (A _ E)|apply (C _ E)]. destruct (B _ _ E) as (m' & B1 & _). destruct (N _ B1).
Qed.
Print Assumptions C72_calls.

(** on_process_exit is not followed by an on_thread_exit (H:42 "only after the last call to on_thread_exit"), if it is called when the other threads have been stopped. *)
Theorem C72_last : forall b ctls n sched c tr a t d u, b = BDll \/ b = BMsvcDll \/ b = BMingw -> exec (hk_step b ctls) (hk_init n) sched = Some (c, tr) ->
  tr = a ++ VHook t HProcOut :: d -> ~ In (VHook u HThrOut) d.
Proof.
  intros b ctls n sched c tr a t d u Hb H E. assert (R : runs_on b = false) by (destruct Hb as [ -> | [ -> | -> ] ]; reflexivity).
  destruct (LI_exec _ _ _ _ _ _ R H) as (_ & _ & C). eapply C. exact E.
Qed.
Print Assumptions C72_last.

(** The hooks are called without delay: whenever the thread is not inside user code or the library, the next one is possible; a second on_thread_exit finds nothing to do. *)
Theorem C72_progress : forall b ctls n sched c tr t h r th, Forall nolate sched -> exec (hk_step b ctls) (hk_init n) sched = Some (c, tr) ->
  nth_error (hq c) t = Some (Some (h :: r)) -> may_run b c t = true -> nth_error (snd (hlib c)) t = Some th -> stk th = [] -> est th = Running \/ est th = Done ->
  match hfin c with None => True | Some (t0, q) => t = t0 /\ pph q = PEnd /\ pstk q = [] /\ crashed q = false /\ h = HProcOut end -> exists c' e, hk_step b ctls c (KHook t) = Some (c', VHook t h :: e).
Proof.
  intros b ctls n sched c tr t h r th Hl H Hq M Ht Hs He Hf. destruct (hk_project _ _ _ _ _ _ Hl H) as (s1 & tr1 & H1 & _). cbn [hk_step]. rewrite Ht, Hq, M, Hs.
  destruct (hfin c) as [[t0 q]|].
  - destruct Hf as (-> & Pe & Ps & Pc & ->). rewrite Nat.eqb_refl, Pe. unfold pe_step. rewrite Pc. unfold puser, pe_user. rewrite Ps, Pe. destruct He as [-> | ->]; eauto.
  - destruct h; [eauto|destruct He as [-> | ->]; eauto|eauto|]. destruct He as [He|He]; rewrite He.
    + destruct (hlib c) as [s ths]. cbn [fst snd] in *. unfold tss_step. cbn [thread_of]. rewrite Ht. unfold user. rewrite Hs, ?He. unfold tss_user. rewrite Hs. eauto.
    + destruct (tss_exit _ _ _ _ _ H1) as (HB & HA & _). rewrite (done_slot Win t _ _ HB HA); [eauto|]. split; [eauto|exact I].
Qed.
Print Assumptions C72_progress.

(** * What the program can rely on *)

Lemma proc_begun b ctls n sched c tr t : exec (hk_step b ctls) (hk_init n) sched = Some (c, tr) -> In (VHook t HProcOut) tr -> hfin c <> None.
Proof.
  intros H. revert t. revert H. apply (exec_inv (hk_step b ctls) (fun c tr => forall t, In (VHook t HProcOut) tr -> hfin c <> None)); [intros t []|].
  intros c1 t1 a c2 e HI Hs t Hi. apply hk_cases in Hs. apply in_app_or in Hi. destruct Hi as [Hi|Hi].
  - pose proof (HI _ Hi) as F0. destruct Hs; cbn [hfin]; congruence.
  - destruct Hs; cbn [hfin]; try discriminate.
    + destruct (evs_hook _ _ _ Hi).
    + destruct Hi as [Hi|[]]; discriminate.
    + destruct Hi as [Hi|[]]; congruence.
    + destruct Hi as [Hi|Hi]; [discriminate|destruct (evs_hook _ _ _ Hi)].
Qed.

Local Open Scope Z_scope.
(** When the process has ended, every function registered before on_process_exit began has run exactly once, if the other threads had ended or had been stopped outside on_thread_exit; except,
    as always on Windows, those registered by a cleanup function while the thread was ending (C43).  All builds but the one for MinGW. *)
Theorem C72_all_run_partial : forall b ctls n s1 c1 tr1 s2 c tr2 t f, b <> BMingw -> Forall nolate (s1 ++ s2) ->
  exec (hk_step b ctls) (hk_init n) s1 = Some (c1, tr1) -> hfin c1 = None -> exec (hk_step b ctls) c1 s2 = Some (c, tr2) -> ended c ->
  (forall u th, nth_error (snd (hlib c)) u = Some th -> est th = Running \/ est th = Done) -> In (VLib (EReg t f)) tr1 -> ~ late Win f (libs (tr1 ++ tr2)) -> nruns f (libs (tr1 ++ tr2)) = 1.
Proof.
  intros b ctls n s1 c1 tr1 s2 c tr2 t f Hb Hl H1 F1 H2 He Hset Hin Hlt. apply Forall_app in Hl. destruct Hl as (Hl1 & Hl2).
  assert (H : exec (hk_step b ctls) (hk_init n) (s1 ++ s2) = Some (c, tr1 ++ tr2)) by (rewrite exec_app, H1, H2; reflexivity).
  destruct (hk_project _ _ _ _ _ _ Hl1 H1) as (a1 & x1 & P1 & E1). rewrite F1 in E1. destruct (hk_project_from _ _ _ _ _ _ F1 Hl2 H2) as (a2 & x2 & P2 & E2).
  destruct (hfin c) as [[t0 q]|] eqn:Fc.
  2: { exfalso. destruct (C72_process_exit _ _ _ _ _ _ Hb H He) as (t0 & a & d & g & _ & E). apply (proc_begun _ _ _ _ _ _ t0 H); [|exact Fc]. rewrite E. apply in_or_app. right. right. apply in_or_app. right. left. reflexivity. }
  assert (Pe : pph q = PEnd) by (destruct He as (t1 & _ & _ & He); rewrite Fc in He; exact He).
  destruct E2 as (a3 & x3 & P3 & E3). assert (P : exec (tss_step Win) (tss_init n) (a1 ++ a2) = Some (hlib c, x1 ++ x2)) by (rewrite exec_app, P1, P2; reflexivity).
  rewrite libs_app, E1, E3, app_assoc in *. destruct (tss_exit _ _ _ _ _ P) as (HB & HA & R1 & R2 & R3 & R4 & R5 & R6 & R7 & _). destruct (pe_account _ _ _ _ _ _ P3) as (_ & B2 & _ & _ & B5).
  assert (Hreg : In (EReg t f) (x1 ++ x2)).
  { apply in_or_app. left. rewrite <- E1. unfold libs. apply in_flat_map. exists (VLib (EReg t f)). split; [exact Hin|left; reflexivity]. }
  assert (L : ~ late Win f (x1 ++ x2)) by (intros L; apply Hlt; apply late_app; exact L).
  assert (G1 : 1 <= nregs f (x1 ++ x2)) by (apply nregs_in; eauto). specialize (R7 f L). specialize (R1 f).
  assert (Lf : (f < nreg (fst (hlib c)))%nat) by (unfold b2z in R1; destruct (Nat.ltb_spec f (nreg (fst (hlib c)))); [assumption|lia]).
  specialize (B2 f Lf). rewrite nruns_app. assert (Z0 : forall A (l : list A), sumf (fun _ => 0) l = 0) by (intros A l; induction l; cbn; lia).
  assert (I0 : sumf (fun th => cnt f (infun (est th))) (snd (hlib c)) = 0).
  { rewrite (sumf_ext_nth _ (fun _ => 0)); [apply Z0|]. intros u th Hu. destruct (Hset _ _ Hu) as [-> | ->]; reflexivity. }
  assert (Q0 : pw f q = 0).
  { unfold pw. rewrite Pe. rewrite (sumf_ext_nth _ (fun _ => 0)); [rewrite Z0; reflexivity|]. intros i o Hi. rewrite (B5 Pe o (nth_error_In _ _ Hi)). reflexivity. }
  unfold pend in R7. unfold b2z in R1. destruct (Nat.ltb_spec f (nreg (fst (hlib c)))); lia.
Qed.
Print Assumptions C72_all_run_partial.

(** Thread [t] has left its own code. *)
Lemma exit_keeps s ths a s' ths' e t th th' : tss_step Win (s, ths) a = Some ((s', ths'), e) -> nth_error ths t = Some th -> nth_error ths' t = Some th' -> est th <> Running -> est th' <> Running.
Proof.
  intros H Ht Ht' N. destruct (tss_effects _ _ _ _ _ _ H) as (w & w' & Ew & E & He). cbn [fst snd] in *. subst ths'.
  destruct (nth_upd_inv _ _ _ _ _ Ht') as [(<- & -> & _)|(_ & Ht2)]; [|congruence]. assert (w = th) by congruence. subst w. inversion He; subst; cbn [est push]; try assumption; try discriminate; congruence.
Qed.
Lemma exit_begun b ctls n sched c tr : exec (hk_step b ctls) (hk_init n) sched = Some (c, tr) -> hfin c = None -> forall t th, In (VHook t HThrOut) tr -> nth_error (snd (hlib c)) t = Some th -> est th <> Running.
Proof.
  apply (exec_inv (hk_step b ctls) (fun c tr => hfin c = None -> forall t th, In (VHook t HThrOut) tr -> nth_error (snd (hlib c)) t = Some th -> est th <> Running)); [intros _ t th []|].
  intros c1 t1 a c2 e HI Hs F2 t th Hi Ht. apply hk_cases in Hs. destruct c1 as [[s ths] hqs he hf]. cbn [hlib hq hend hfin fst snd] in *.
  destruct Hs as [a l e1 F S M|u m he' F S M|u h r F S M N D|u r l e1 F S M St|u r F S M|u r q q' e1 F S M P St|u q q' e1 a F St|? ? ? ? ? ? F R|? ? ? ? ? ? F R]; cbn [hlib hq hend hfin fst snd] in *; try discriminate; subst hf; specialize (HI eq_refl).
  - apply in_app_or in Hi. destruct Hi as [Hi|Hi]; [|destruct (evs_hook _ _ _ Hi)]. destruct l as [s' ths']. cbn [snd] in Ht. assert (L : (t < length ths)%nat).
    { assert (E : length ths' = length ths) by (destruct (tss_effects _ _ _ _ _ _ S) as (? & ? & _ & E & _); cbn [snd] in E; rewrite E; apply upd_length). rewrite <- E. apply nth_error_Some. congruence. }
    destruct (nth_error ths t) as [w|] eqn:Ew; [|apply nth_error_None in Ew; lia]. eapply exit_keeps; eauto.
  - apply in_app_or in Hi. destruct Hi as [Hi|[Hi|[]]]; [eauto|discriminate].
  - apply in_app_or in Hi. destruct Hi as [Hi|[Hi|[]]]; [eauto|]. injection Hi as -> ->. destruct (D eq_refl) as (w & Ew & Ed). congruence.
  - destruct l as [s' ths']. cbn [snd] in Ht. apply in_app_or in Hi. destruct Hi as [Hi|[Hi|Hi]]; [|injection Hi as ->|destruct (evs_hook _ _ _ Hi)].
    + assert (L : (t < length ths)%nat).
      { assert (E : length ths' = length ths) by (destruct (tss_effects _ _ _ _ _ _ St) as (? & ? & _ & E & _); cbn [snd] in E; rewrite E; apply upd_length). rewrite <- E. apply nth_error_Some. congruence. }
      destruct (nth_error ths t) as [w|] eqn:Ew; [|apply nth_error_None in Ew; lia]. eapply exit_keeps; eauto.
    + unfold tss_step in St. cbn [thread_of] in St. destruct (nth_error ths t) as [w|] eqn:Ew; [|discriminate]. destruct (user w); [|discriminate]. unfold tss_user in St. destruct (stk w); [|discriminate]. injection St as _ <- _.
      rewrite (nth_upd_eq _ _ _ _ Ew) in Ht. injection Ht as <-. cbn [est]. destruct (slot s t); discriminate.
Qed.

(** When a thread has ended, every function it registered has run, exactly once and on that thread, before the process ends; with the exception of C43.  All builds but the one for old MinGW versions. *)
Theorem C72_thread_run_partial : forall b ctls n sched c tr t f, b <> BMingwOld -> exec (hk_step b ctls) (hk_init n) sched = Some (c, tr) -> hfin c = None ->
  In (VNote t NThrOut) tr -> thread_ended c t -> In (VLib (EReg t f)) tr -> ~ late Win f (libs tr) -> nruns f (libs tr) = 1 /\ In (VLib (ERun t f)) tr.
Proof.
  intros b ctls n sched c tr t f Hb H F Hn He Hr Hl. pose proof (C72_thread_exit _ _ _ _ _ _ _ Hb H Hn He) as Hh.
  destruct He as (_ & th & Ht & _ & He). pose proof (exit_begun _ _ _ _ _ _ H F _ _ Hh Ht) as Hd. destruct He as [He|He]; [contradiction|].
  assert (P : exists s1, exec (tss_step Win) (tss_init n) s1 = Some (hlib c, libs tr)).
  { assert (Hnl : Forall nolate sched).
    { clear -H F. revert H. change (hk_init n) with (hk_init n). assert (G : forall sched c0 tr, exec (hk_step b ctls) c0 sched = Some (c, tr) -> Forall nolate sched).
      { induction sched0 as [|a sched0 IH]; intros c0 tr0 H; [constructor|]. cbn [exec] in H. destruct (hk_step b ctls c0 a) as [[c1 e1]|] eqn:Es; [|discriminate]. destruct (exec _ c1 sched0) as [[c2 e2]|] eqn:Ex; [|discriminate]. injection H as -> <-.
        constructor; [|eapply IH; eauto]. apply hk_cases in Es. destruct Es as [| | | | | | |t t0 q q' e a F1 R St|t t0 q q' a hs F1 R St]; try exact I; exfalso.
        - assert (K : forall sched c0 tr, hfin c0 <> None -> exec (hk_step b ctls) c0 sched = Some (c, tr) -> hfin c <> None).
          { clear. induction sched as [|a sched IH]; intros c0 tr0 N H; cbn [exec] in H; [injection H as <- _; exact N|]. destruct (hk_step b ctls c0 a) as [[c1 e1]|] eqn:Es; [|discriminate]. destruct (exec _ c1 sched) as [[c2 e2]|] eqn:Ex; [|discriminate]. injection H as -> <-. eapply IH; [|exact Ex]. apply hk_cases in Es. destruct Es; cbn [hfin]; congruence. }
          eapply K; [|exact Ex|exact F]. discriminate.
        - assert (K : forall sched c0 tr, hfin c0 <> None -> exec (hk_step b ctls) c0 sched = Some (c, tr) -> hfin c <> None).
          { clear. induction sched as [|a' sched IH]; intros c0 tr0 N H; cbn [exec] in H; [injection H as <- _; exact N|]. destruct (hk_step b ctls c0 a') as [[c1 e1]|] eqn:Es; [|discriminate]. destruct (exec _ c1 sched) as [[c2 e2]|] eqn:Ex; [|discriminate]. injection H as -> <-. eapply IH; [|exact Ex]. apply hk_cases in Es. destruct Es; cbn [hfin]; congruence. }
          eapply K; [|exact Ex|exact F]. discriminate. }
      apply G. }
    destruct (hk_project _ _ _ _ _ _ Hnl H) as (s1 & x1 & P & E). rewrite F in E. subst. eauto. }
  destruct P as (s1 & P). assert (Hin : forall e, In (VLib e) tr <-> In e (libs tr)).
  { intros e. unfold libs. rewrite in_flat_map. split; [intros Hi; exists (VLib e); split; [exact Hi|left; reflexivity]|]. intros (x & Hx & Hi). destruct x as [| |x]; [destruct Hi|destruct Hi|]. destruct Hi as [->|[]]. exact Hx. }
  assert (R : nruns f (libs tr) = 1) by (eapply C43_all_run_partial; [exact P|apply Hin; exact Hr|split; [eauto|exact I]|exact Hl]). split; [exact R|]. apply Hin.
  assert (G : exists u, In (ERun u f) (libs tr)).
  { clear -R. unfold nruns in R. induction (libs tr) as [|e l IH]; cbn [sumf] in R; [lia|]. destruct e; try (destruct IH as (u & Hu); [lia|exists u; right; exact Hu]).
    destruct (Nat.eqb_spec f0 f) as [->|]; [eexists; left; reflexivity|]. destruct IH as (u & Hu); [change (b2z false) with 0 in R; lia|exists u; right; exact Hu]. }
  destruct G as (u & Hu). destruct (C43_at_most_once _ _ _ _ _ f P) as (_ & O). rewrite <- (O _ _ Hu (proj1 (Hin _) Hr)). exact Hu.
Qed.
Print Assumptions C72_thread_run_partial.

(** * Where the builds fall short *)

(** MinGW: on_thread_exit is never called for the thread that ends the process, and on_process_exit is never called (H:43 H:57 "must not be omitted"): what that thread, and every other thread
    still running, registered does not run. *)
Theorem C72_mingw_refuted : exists ctls n sched c tr, exec (hk_step BMingw ctls) (hk_init n) sched = Some (c, tr) /\ ended c /\ (forall t h, ~ In (VHook t h) tr) /\ exists t f, In (VLib (EReg t f)) tr /\ hend c = Some t /\ nruns f (libs tr) = 0.
Proof.
  exists false, 1%nat, [KLib (AAtExit 0 FNone); KNote 0 NProcOut]. eexists _, _. split; [vm_compute; reflexivity|]. split; [|split].
  - exists 0%nat. split; [reflexivity|]. split; [reflexivity|]. eexists. split; [reflexivity|]. split; [reflexivity|left; reflexivity].
  - intros t h [Hi|[Hi|[]]]; discriminate.
  - exists 0%nat, 0%nat. split; [left; reflexivity|]. split; reflexivity.
Qed.
Print Assumptions C72_mingw_refuted.

(** Old MinGW: nothing runs when a thread ends; its exit functions run at the end of the process, on another thread. *)
Theorem C72_old_mingw_refuted : exists ctls n s1 c1 tr1 s2 c tr2 t u f, exec (hk_step BMingwOld ctls) (hk_init n) s1 = Some (c1, tr1) /\ In (VNote t NThrOut) tr1 /\ thread_ended c1 t /\ In (VLib (EReg t f)) tr1 /\ nruns f (libs tr1) = 0 /\
  exec (hk_step BMingwOld ctls) c1 s2 = Some (c, tr2) /\ ended c /\ In (VLib (ERun u f)) tr2 /\ u <> t.
Proof.
  exists false, 2%nat, [KLib (AAtExit 1 FNone); KNote 1 NThrOut]. eexists _, _. exists [KNote 0 NProcOut; KHook 0; KHook 0; KFin PStep; KFin PStep; KFin PStep; KFin PRet; KFin PStep; KFin PStep; KFin PStep; KFin PStep].
  eexists _, _, 1%nat, 0%nat, 0%nat. split; [vm_compute; reflexivity|]. split; [right; left; reflexivity|]. split; [split; [reflexivity|]; eexists; split; [reflexivity|split; [reflexivity|left; reflexivity]]|]. split; [left; reflexivity|]. split; [reflexivity|].
  split; [vm_compute; reflexivity|]. split; [exists 0%nat; repeat split; reflexivity|]. split; [cbn; tauto|discriminate].
Qed.
Print Assumptions C72_old_mingw_refuted.

(** The static library in an executable: exit() calls on_process_exit while other threads still run.  One of them ends afterwards, so on_process_exit was not the last (H:42) ... *)
Theorem C72_static_last_refuted : exists ctls n sched c tr a t d u, exec (hk_step BMsvcExe ctls) (hk_init n) sched = Some (c, tr) /\ tr = a ++ VHook t HProcOut :: d /\ In (VHook u HThrOut) d /\ t <> u.
Proof.
  exists false, 2%nat, [KNote 0 NProcOut; KHook 0; KHook 0; KFin PStep; KLate 1 PThreadExit]. eexists _, _, [_; _; _], 0%nat, _, 1%nat. split; [vm_compute; reflexivity|]. split; [reflexivity|]. split; [cbn; tauto|discriminate].
Qed.
Print Assumptions C72_static_last_refuted.
(** ... and a thread that calls the library then, or (with a thread-local context pointer) merely ends, crashes. *)
Theorem C72_static_crash_refuted : exists n s1 c1 tr1, exec (hk_step BMsvcExe true) (hk_init n) s1 = Some (c1, tr1) /\
  (exists c tr t0 q, exec (hk_step BMsvcExe true) c1 [KLate 1 PThreadExit] = Some (c, tr) /\ hfin c = Some (t0, q) /\ crashed q = true) /\
  (exists c tr t0 q, exec (hk_step BMsvcExe true) c1 [KLate 2 PAtExit] = Some (c, tr) /\ hfin c = Some (t0, q) /\ crashed q = true) /\
  (exists t0 q, hfin c1 = Some (t0, q) /\ crashed q = false).
Proof.
  exists 3%nat, [KLib (AAtExit 1 FNone); KNote 0 NProcOut; KHook 0; KHook 0; KFin PStep; KFin PStep; KFin PStep; KFin PRet; KFin PStep; KFin PStep; KFin PStep; KFin PStep]. eexists _, _. split; [vm_compute; reflexivity|]. split; [|split].
  - eexists _, _, _, _. split; [vm_compute; reflexivity|]. split; reflexivity.
  - eexists _, _, _, _. split; [vm_compute; reflexivity|]. split; reflexivity.
  - eexists _, _. split; reflexivity.
Qed.
Print Assumptions C72_static_crash_refuted.

(** * Cases that meet the hypotheses *)
(** Shared library: thread 1 registers a function and ends; thread 0 registers one and ends the process while thread 2, with a function of its own, is stopped. *)
Definition dll_sched1 : list hact := [KLib (AAtExit 1 FNone); KLib (AAtExit 0 FNone); KLib (AAtExit 2 FNone); KNote 1 NThrOut; KHook 1; KLib (AStep 1); KLib (AStep 1); KLib (ARet 1); KLib (AStep 1); KLib (AStep 1); KLib (AStep 1)].
Definition dll_sched2 : list hact := [KNote 0 NProcOut; KHook 0; KLib (AStep 0); KLib (AStep 0); KLib (ARet 0); KLib (AStep 0); KLib (AStep 0); KLib (AStep 0); KHook 0; KFin PStep; KFin PStep; KFin PStep; KFin PRet; KFin PStep; KFin PStep; KFin PStep; KFin PStep].
Example C72_dll_ex : exists c1 tr1 c tr2, exec (hk_step BDll false) (hk_init 3) dll_sched1 = Some (c1, tr1) /\ hfin c1 = None /\ In (VNote 1 NThrOut) tr1 /\ thread_ended c1 1 /\ In (VLib (EReg 1 0)) tr1 /\ exec (hk_step BDll false) c1 dll_sched2 = Some (c, tr2) /\ ended c /\
  (forall u th, nth_error (snd (hlib c)) u = Some th -> est th = Running \/ est th = Done) /\ Forall nolate (dll_sched1 ++ dll_sched2) /\
  filter (fun e => match e with ERun _ _ => true | _ => false end) (libs (tr1 ++ tr2)) = [ERun 1 0; ERun 0 1; ERun 0 2]%nat.
Proof.
  eexists _, _, _, _. split; [vm_compute; reflexivity|]. split; [reflexivity|]. split; [cbn; tauto|]. split; [split; [reflexivity|]; eexists; split; [reflexivity|split; [reflexivity|right; reflexivity]]|]. split; [cbn; tauto|]. split; [vm_compute; reflexivity|].
  split; [exists 0%nat; repeat split; reflexivity|]. split; [intros [|[|[|[|u]]]] th H; cbn in H; inversion H; subst; cbn; auto|]. split; [repeat constructor|]. vm_compute. reflexivity.
Qed.
(** Static library in a DLL: all hooks are called twice where the table says so. *)
Example C72_static_dll_ex : exists c tr, exec (hk_step BMsvcDll true) (hk_init 2) [KLib (AAtExit 1 FNone); KNote 1 NThrOut; KHook 1; KLib (AStep 1); KLib (AStep 1); KLib (ARet 1); KLib (AStep 1); KLib (AStep 1); KLib (AStep 1); KHook 1; KNote 0 NProcOut; KHook 0; KHook 0; KFin PStep; KHook 0] = Some (c, tr) /\
  ended c /\ calls 1 tr = [HThrOut; HThrOut] /\ calls 0 tr = [HThrOut; HProcOut; HProcOut] /\ nruns 0 (libs tr) = 1.
Proof. eexists _, _. split; [vm_compute; reflexivity|]. split; [exists 0%nat; repeat split; reflexivity|]. repeat split; vm_compute; reflexivity. Qed.

(** * on_tls_prepare *)
Local Close Scope Z_scope.
Lemma callbacks_app l r : ~ In 0 l -> callbacks (l ++ r) = l ++ callbacks r.
Proof. induction l as [|x l IH]; [reflexivity|]. intros H. cbn [app callbacks]. destruct x as [|x]; [exfalso; apply H; left; reflexivity|]. f_equal. apply IH. intros Hi. apply H. right. exact Hi. Qed.
Definition set_ptr (v : nat) : bool := negb (v =? 0).
Lemma filter_set l : ~ In 0 (filter set_ptr l).
Proof. intros H. apply filter_In in H. destruct H as (_ & H). discriminate. Qed.
Lemma filter_length_le {A} (g : A -> bool) l : length (filter g l) <= length l.
Proof. induction l as [|x l IH]; cbn; [lia|]. destruct (g x); cbn; lia. Qed.
Lemma firstn_snoc {A} (l : list A) i x : nth_error l i = Some x -> firstn (S i) l = firstn i l ++ [x].
Proof. revert i. induction l as [|y l IH]; intros [|i] H; cbn in *; try discriminate; [injection H as ->; reflexivity|]. f_equal. apply IH. exact H. Qed.
(** After [i] steps: the set pointers among the first [i] entries, in order, at the front; everything from [i] on untouched. *)
Lemma prepare_loop_spec fuel : forall mem0 mem i d stop, length mem0 - i <= fuel -> stop < length mem0 -> i <= stop -> length mem = length mem0 -> d = length (filter set_ptr (firstn i mem0)) ->
  (exists r, mem = filter set_ptr (firstn i mem0) ++ r) -> (forall j, i <= j -> nth_error mem j = nth_error mem0 j) ->
  exists r, fst (prepare_loop fuel mem i d stop) = filter set_ptr (firstn stop mem0) ++ r /\ snd (prepare_loop fuel mem i d stop) = length (filter set_ptr (firstn stop mem0)) /\ length (fst (prepare_loop fuel mem i d stop)) = length mem0 /\
    (forall j, stop <= j -> nth_error (fst (prepare_loop fuel mem i d stop)) j = nth_error mem0 j).
Proof.
  induction fuel as [|fuel IH]; intros mem0 mem i d stop Hf Hs Hi Hl Hd (r & Hr) Hk; [lia|]. cbn [prepare_loop]. destruct (Nat.ltb_spec i stop) as [Hlt|Hge].
  - assert (Ei : exists v, nth_error mem0 i = Some v) by (destruct (nth_error mem0 i) eqn:E; [eauto|apply nth_error_None in E; lia]). destruct Ei as (v & Ev).
    assert (En : nth i mem 0 = v) by (apply nth_error_nth; rewrite Hk by lia; exact Ev). rewrite En. pose proof (firstn_snoc _ _ _ Ev) as Ef.
    assert (Ed : d <= i) by (rewrite Hd; etransitivity; [apply filter_length_le|rewrite firstn_length; lia]).
    destruct v as [|v].
    + apply IH; try lia; auto.
      * rewrite Ef, filter_app. cbn. rewrite app_nil_r. exact Hd.
      * exists r. rewrite Ef, filter_app. cbn. rewrite app_nil_r. exact Hr.
      * intros j Hj. apply Hk. lia.
    + apply IH; try lia; auto.
      * rewrite upd_length. exact Hl.
      * rewrite Ef, filter_app, app_length, Hd. cbn. lia.
      * rewrite Ef, filter_app. cbn. destruct r as [|x r].
        { exfalso. rewrite app_nil_r in Hr. assert (length mem = d) by (rewrite Hr, Hd; reflexivity). lia. }
        exists r. rewrite Hr, Hd. rewrite <- app_assoc. cbn [app]. clear. induction (filter set_ptr (firstn i mem0)) as [|y l IHl]; [reflexivity|]. cbn. f_equal. exact IHl.
      * intros j Hj. destruct (Nat.eq_dec d j) as [->|Hn]; [lia|]. rewrite nth_upd_neq by exact Hn. apply Hk. lia.
  - assert (i = stop) by lia. subst i. cbn [fst snd]. exists r. auto.
Qed.
(** After on_tls_prepare the loader calls exactly the callbacks between __xl_a and __xl_z, in their order, no matter how many null pointers the linker put between them, and stops
    before __xl_z; the loop writes nothing outside this memory. *)
Theorem C72_prepare : forall mem z, callbacks (prepare (mem ++ [z])) = filter set_ptr mem /\ length (prepare (mem ++ [z])) = length (mem ++ [z]) /\ (In 0 mem -> nth_error (prepare (mem ++ [z])) (length mem) = Some z).
Proof.
  intros mem z. unfold prepare. destruct (prepare_loop_spec (length (mem ++ [z])) (mem ++ [z]) (mem ++ [z]) 0 0 (length (mem ++ [z]) - 1)) as (r & E1 & E2 & E3 & E4); try reflexivity; rewrite ?app_length; cbn [length]; try lia; [eexists; reflexivity|].
  rewrite app_length in *. cbn [length] in *. replace (length mem + 1 - 1) with (length mem) in * by lia.
  assert (Ff : firstn (length mem) (mem ++ [z]) = mem) by (rewrite firstn_app, Nat.sub_diag, firstn_all, app_nil_r; reflexivity). rewrite Ff in *.
  destruct (prepare_loop _ _ _ _ _) as [m d]. cbn [fst snd] in *. subst d. destruct r as [|x r].
  { exfalso. rewrite app_nil_r in E1. pose proof (filter_length_le set_ptr mem). rewrite E1 in E3. lia. }
  assert (Eu : upd m (length (filter set_ptr mem)) 0 = filter set_ptr mem ++ 0 :: r).
  { rewrite E1. clear. induction (filter set_ptr mem) as [|y l IHl]; [reflexivity|]. cbn. f_equal. exact IHl. }
  rewrite Eu. split; [|split].
  - rewrite callbacks_app by apply filter_set. cbn. apply app_nil_r.
  - rewrite <- E3, E1, !app_length. reflexivity.
  - intros H0. rewrite <- Eu. assert (L : length (filter set_ptr mem) < length mem).
    { clear -H0. induction mem as [|y l IHl]; [destruct H0|]. cbn [filter length]. destruct H0 as [->|H0]; [cbn; pose proof (filter_length_le set_ptr l); lia|]. destruct (set_ptr y); cbn [length]; specialize (IHl H0); lia. }
    rewrite nth_upd_neq by lia. rewrite E4 by lia. rewrite nth_error_app2, Nat.sub_diag by lia. reflexivity.
Qed.
Print Assumptions C72_prepare.
Example C72_prepare_ex : prepare [0; 5; 0; 0; 7; 8; 0; 9] = [5; 7; 8; 0; 7; 8; 0; 9] /\ callbacks [0; 5; 0; 0; 7; 8; 0; 9] = [].
Proof. split; reflexivity. Qed.
