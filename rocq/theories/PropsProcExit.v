(** C66: process exit on Windows (ProcExit.v).  What is still registered or stored when the process ends is disposed of exactly once, and the functions called for it may use the library.
    The first half holds for threads that were not stopped in the middle of their exit; the second half, and "on the thread that registered it" (C43), are false. *)
From Coq Require Import List Bool Arith ZArith Lia.
From Verif Require Import ListSum Exec TssModel TssProof TssKeys TssOwn TssExit PropsTss ProcExit ProcExitProof.
Import ListNotations.
Local Open Scope Z_scope.

(** Every exit function registered by a thread that had not begun to exit has run exactly once when on_process_exit returns,
    whatever the functions called meanwhile do (as long as none of them crashes: [exec] goes no further then, and [pph q = PEnd] is not reached). *)
Theorem C66_all_run_partial ctls t0 n sched c tr sched' q tr' t th f :
  exec (tss_step Win) (tss_init n) sched = Some (c, tr) -> exec (pe_step ctls t0) (pe_start (fst c)) sched' = Some (q, tr') -> pph q = PEnd ->
  nth_error (snd c) t = Some th -> est th = Running -> In (EReg t f) tr -> nruns f (tr ++ tr') = 1.
Proof.
  intros H H' Hq Ht Hr Hin. destruct (tss_exit _ _ _ _ _ H) as (HB & HA & R1 & R2 & R3 & R4 & R5 & R6 & R7 & _). destruct (pe_account _ _ _ _ _ _ H') as (_ & B2 & _ & _ & B5).
  assert (Z0 : forall A (l : list A), sumf (fun _ => 0) l = 0) by (intros A l; induction l; cbn; lia).
  assert (Hlt : (f < nreg (fst c))%nat).
  { assert (1 <= nregs f tr) by (apply nregs_in; eauto). rewrite R1 in *. unfold b2z in *. destruct (Nat.ltb_spec f (nreg (fst c))); lia. }
  assert (Hl : ~ late Win f tr).
  { assert (Hx : exited t tr = false).
    { destruct (exited t tr) eqn:Ex; [|reflexivity]. exfalso. destruct (HA _ _ Ht) as (O & _). unfold ORD in O. rewrite Hr in O. destruct O as (O & _). congruence. }
    eapply early_not_late; [exact H|]. instantiate (1 := t). clear -Hin Hx. induction tr as [|e tr IH]; [destruct Hin|]. unfold exited in *. cbn in Hx |- *. apply orb_false_iff in Hx. destruct Hx as (Hx1 & Hx2).
    rewrite Hx1. apply in_or_app. destruct Hin as [->|Hin]; [left; cbn; rewrite Nat.eqb_refl; left; reflexivity|right; apply IH; assumption]. }
  specialize (R7 f Hl). specialize (B2 f Hlt). rewrite nruns_app.
  assert (P0 : sumf (fun th => cnt f (infun (est th))) (snd c) = 0).
  { rewrite (sumf_ext_nth _ (fun _ => 0)); [apply Z0|]. intros u th' Hu. apply cnt_out. intros Hi. pose proof (R3 _ _ _ Hu Hi) as E. assert (u = t) by (eapply R5; eauto). subst u. assert (th' = th) by congruence. subst. rewrite Hr in Hi. destruct Hi. }
  assert (Q0 : pw f q = 0).
  { unfold pw. rewrite Hq. rewrite (sumf_ext_nth _ (fun _ => 0)); [rewrite Z0; reflexivity|]. intros i o Hi. rewrite (B5 Hq o (nth_error_In _ _ Hi)). reflexivity. }
  unfold pend in R7. rewrite R1 in R7. unfold b2z in R7. destruct (Nat.ltb_spec f (nreg (fst c))); lia.
Qed.
Print Assumptions C66_all_run_partial.

(** If the functions called do not themselves call the library, on_process_exit cannot crash, returns after boundedly many steps, and does exactly this:
    for every context left, oldest first, the exit functions in reverse order of registration, then the cleanup functions of the values in key order, then the notifications. *)
Theorem C66_exact ctls t0 s sched q tr : Forall quiet sched -> exec (pe_step ctls t0) (pe_start s) sched = Some (q, tr) ->
  crashed q = false /\
  (exists r, all_calls t0 (keys s) (ctxs s) = tr ++ r /\ (pph q = PEnd -> r = [])) /\
  Z.of_nat (length sched) <= sumf cweight (ctxs s) + 1 /\
  (pph q <> PEnd -> exists a q' e, quiet a /\ pe_step ctls t0 q a = Some (q', e)).
Proof.
  intros Hs H. assert (Q0 : QI (pe_start s)) by (split; [reflexivity|split; [left; reflexivity|exact I]]).
  destruct (quiet_run _ _ _ _ _ _ Q0 Hs H) as (HQ & HL & HM). split; [apply HQ|]. split; [|split].
  - exists (left_calls t0 q). split; [exact HL|]. intros E. unfold left_calls. rewrite E. reflexivity.
  - pose proof (left_nonneg q HQ) as N. change (left_steps (pe_start s)) with (0 + (sumf cweight (ctxs s) + 1)) in HM. lia.
  - intros Hn. apply quiet_next; assumption.
Qed.
Print Assumptions C66_exact.

Lemma tls_cleaned t0 ks cb v l : v <> 0%nat -> forall k, cleaned cb v (tls_calls t0 ks k l) = wl cb v ks k l.
Proof.
  intros Hv. induction l as [|x l IH]; intros k; [reflexivity|]. cbn [tls_calls wl]. rewrite cleaned_app, IH. f_equal. unfold hitk. destruct (Nat.eqb_spec x 0) as [->|Hx].
  - destruct (nth_error ks k) as [[[c|] fl]|]; try reflexivity. unfold cleaned, b2z. cbn [sumf]. destruct v; [contradiction|]. rewrite andb_false_r. reflexivity.
  - destruct (nth_error ks k) as [[[c|] fl]|]; try reflexivity. unfold cleaned. cbn [sumf]. lia.
Qed.
Lemma map_cleaned cb v (g : nat -> tev) l : (forall x, match g x with ECall _ _ _ => False | _ => True end) -> cleaned cb v (map g l) = 0.
Proof. intros Hg. induction l as [|x l IH]; [reflexivity|]. cbn [map]. unfold cleaned in *. cbn [sumf]. rewrite IH. specialize (Hg x). destruct (g x); try contradiction; lia. Qed.
Lemma all_cleaned t0 ks cb v l : v <> 0%nat -> cleaned cb v (all_calls t0 ks l) = sumf (wctx cb v ks) l.
Proof.
  intros Hv. induction l as [|o l IH]; [reflexivity|]. unfold all_calls in *. cbn [flat_map sumf]. rewrite cleaned_app, IH. f_equal. destruct o as [c|]; [|reflexivity]. cbn [wctx]. unfold ctx_calls. rewrite !cleaned_app, tls_cleaned by exact Hv.
  rewrite !map_cleaned by (intros; exact I). lia.
Qed.
(** No function of the library was under way in this thread when it was stopped. *)
Definition settled (th : thr) : Prop := (est th = Running \/ est th = Done) /\ forall cb vs, ~ In (FRun cb vs) (stk th).

(** Then every value ever installed has been cleaned or taken out again, once, when on_process_exit returns. *)
Theorem C66_values_partial ctls t0 n sched c tr sched' q tr' cb v :
  exec (calm_step Win) (tss_init n) sched = Some (c, tr) -> (forall t th, nth_error (snd c) t = Some th -> settled th) ->
  Forall quiet sched' -> exec (pe_step ctls t0) (pe_start (fst c)) sched' = Some (q, tr') -> pph q = PEnd -> v <> 0%nat ->
  installed cb v (tr ++ tr') = cleaned cb v (tr ++ tr') + taken cb v (tr ++ tr').
Proof.
  intros H Hset Hq H' He Hv. pose proof (C42_balance_partial Win n sched c tr cb v H Hv) as E. destruct (C66_exact _ _ _ _ _ _ Hq H') as (_ & (r & Er & Hr) & _). rewrite (Hr He), app_nil_r in Er.
  rewrite installed_app, cleaned_app, taken_app. rewrite <- Er, all_cleaned by exact Hv.
  assert (W : sumf (wthr cb v (keys (fst c))) (snd c) = 0).
  { rewrite (sumf_ext_nth _ (fun _ => 0)); [clear; induction (snd c); cbn; lia|]. intros t th Ht. destruct (Hset t th Ht) as (Hes & Hn). unfold wthr.
    assert (west cb v (keys (fst c)) (est th) = 0) by (destruct Hes as [-> | ->]; reflexivity). rewrite H0. assert (S0 : sumf (wfr cb v) (stk th) = 0); [|lia]. clear -Hn. induction (stk th) as [|f l IH]; [reflexivity|]. cbn [sumf].
    rewrite IH by (intros cb0 vs Hi; apply (Hn cb0 vs); right; exact Hi). destruct f as [|cb0 vs]; [reflexivity|]. exfalso. apply (Hn cb0 vs). left. reflexivity. }
  assert (I0 : installed cb v (all_calls t0 (keys (fst c)) (ctxs (fst c))) = 0 /\ taken cb v (all_calls t0 (keys (fst c)) (ctxs (fst c))) = 0).
  { assert (G : forall e, In e (all_calls t0 (keys (fst c)) (ctxs (fst c))) -> match e with ESet _ _ _ _ | ERel _ _ _ _ => False | _ => True end).
    { intros e Hi. unfold all_calls in Hi. apply in_flat_map in Hi. destruct Hi as ([d|] & _ & Hi); [|destruct Hi]. unfold ctx_calls in Hi. apply in_app_or in Hi. destruct Hi as [Hi|Hi]; [apply in_map_iff in Hi; destruct Hi as (? & <- & _); exact I|].
      apply in_app_or in Hi. destruct Hi as [Hi|Hi]; [|apply in_map_iff in Hi; destruct Hi as (? & <- & _); exact I]. revert Hi. generalize 0%nat. generalize (storage d). intros l. induction l as [|x l IH]; intros k Hi; [destruct Hi|]. cbn [tls_calls] in Hi.
      apply in_app_or in Hi. destruct Hi as [Hi|Hi]; [|eapply IH; exact Hi]. destruct (x =? 0)%nat; [destruct Hi|]. destruct (nth_error _ k) as [[[cb0|] fl]|]; try destruct Hi as [<-|[]]; try exact I; destruct Hi. }
    revert G. generalize (all_calls t0 (keys (fst c)) (ctxs (fst c))). intros l G. unfold installed, taken. induction l as [|e l IH]; [auto|]. destruct IH as (IH1 & IH2); [intros; apply G; right; assumption|]. cbn [sumf]. rewrite IH1, IH2. specialize (G e (or_introl eq_refl)). destruct e; try contradiction; auto. }
  destruct I0 as (I1 & I2). rewrite I1, I2. unfold held in E. lia.
Qed.
Print Assumptions C66_values_partial.

(** If all threads have exited before (the DLL's entry point calls on_thread_exit for the last one first, tss_windows_dll.cpp:44-49), nothing is left: on_process_exit returns at once
    and no function runs on a thread other than its own; it may be called again, and on_thread_exit too, without any effect (tss_windows_hooks.hpp). *)
Theorem C66_orderly ctls t0 n sched c tr sched' q tr' :
  exec (tss_step Win) (tss_init n) sched = Some (c, tr) -> all_done c -> exec (pe_step ctls t0) (pe_start (fst c)) (PStep :: sched') = Some (q, tr') ->
  Forall (fun a => a = PAgain \/ a = PThreadExit) sched' -> tr' = [] /\ pph q = PEnd /\ crashed q = false.
Proof.
  intros H Hd H' Hs. destruct (tss_exit _ _ _ _ _ H) as (HB & HA & _).
  assert (Hslot : forall t, slot (fst c) t = None).
  { intros t. destruct (nth_error (snd c) t) as [th|] eqn:Et.
    - destruct HB as ((_ & _ & _ & _ & H5) & _). specialize (H5 t th Et). specialize (Hd t th Et). rewrite Hd in H5. apply H5. reflexivity.
    - unfold slot. destruct HB as ((H1 & _) & _). apply nth_error_None in Et. rewrite <- H1 in Et. rewrite (proj2 (nth_error_None _ _) Et). reflexivity. }
  assert (Hctx : front (fst c) = None).
  { destruct (front (fst c)) as [x|] eqn:Ef; [|reflexivity]. destruct (front_ctx _ _ Ef) as (d & Hx). exfalso. destruct HB as ((_ & _ & _ & H4 & _) & _). destruct (H4 x d Hx) as [G|(th & G1 & G2)]; [rewrite Hslot in G; discriminate|]. specialize (Hd _ _ G1). rewrite Hd in G2. discriminate. }
  cbn [exec] in H'. unfold pe_step at 1 in H'. cbn [crashed pe_start pe_run pstk pph psh] in H'. rewrite Hctx in H'.
  destruct (exec (pe_step ctls t0) (PS (free_index ctls (fst c)) [] PEnd false) sched') as [[q2 e2]|] eqn:E2; [|discriminate]. cbn [app] in H'. inversion H'; subst; clear H'.
  assert (Hs2 : access_of (free_index ctls (fst c)) t0 = ANone).
  { unfold access_of. assert (G : slot (free_index ctls (fst c)) t0 = None); [|rewrite G; reflexivity]. destruct ctls; [apply Hslot|]. unfold slot, free_index. cbn [slots]. destruct (nth_error (map _ (slots (fst c))) t0) as [[y|]|] eqn:G; try reflexivity. apply nth_map_inv in G. destruct G as (? & _ & G). discriminate. }
  revert tr' E2. induction sched' as [|a sched' IH]; intros tr' E2; cbn [exec] in E2; [inversion E2; subst; auto|]. inversion Hs as [|? ? Ha Hs']; subst. clear Hs.
  assert (G : pe_step ctls t0 (PS (free_index ctls (fst c)) [] PEnd false) a = Some (PS (free_index ctls (fst c)) [] PEnd false, [])) by (destruct Ha as [-> | ->]; unfold pe_step; cbn [crashed puser pstk pph pe_user psh]; rewrite ?Hs2; reflexivity).
  rewrite G in E2. destruct (exec (pe_step ctls t0) _ sched') as [[q3 e3]|] eqn:E3; [|discriminate]. inversion E2; subst. apply (IH Hs' _ eq_refl).
Qed.
Print Assumptions C66_orderly.

(** While the exiting thread has a context of its own, the functions called may read and replace thread-specific values and register further functions. *)
Theorem C66_own_context_safe t0 q a q' e x c : access_of (psh q) t0 = ALive x c -> crashed q = false -> match a with PGet _ | PRelease _ | PReset _ _ | PAtExit | PNotExit _ => True | _ => False end ->
  pe_user t0 q a = Some (q', e) -> crashed q' = false.
Proof.
  intros Ea Hc Ha H. destruct q as [s st ph b]. cbn [psh crashed pstk pph] in *. subst b. destruct a; try contradiction; unfold pe_user in H; cbn [psh pstk pph] in H; rewrite ?Ea in H.
  1-3: destruct (nth_error (tptrs s) p) as [o|]; [|discriminate]; destruct (palive o); [|discriminate].
  all: rewrite ?Ea in H; try (destruct (_ =? _)%nat); inversion H; reflexivity.
Qed.
Print Assumptions C66_own_context_safe.

(** Two threads with exit functions and values; thread 0 ends the process: everything of both threads is disposed of, in this order. *)
Definition two_sched : list tact2 := ([ANew 0 (Some 7) true; AAtExit 1 FNone; AAtExit 1 FNone; AReset 1 0 5 FNone; AAtExit 0 FNone; AReset 0 0 6 FNone; ANotExit 1 3 FNone])%nat.
Definition two_exit : list pact := [PStep; PStep; PStep; PRet; PStep; PRet; PStep; PStep; PStep; PRet; PStep; PStep; PStep; PStep; PStep; PStep; PRet; PStep; PStep; PStep; PRet; PStep; PStep; PStep].
Example C66_two : exists c tr q, exec (tss_step Win) (tss_init 2) two_sched = Some (c, tr) /\
  exec (pe_step false 0) (pe_start (fst c)) two_exit = Some (q, [ERun 0 1; ERun 0 0; ECall 0 7 5; ENotified 0 3; ERun 0 2; ECall 0 7 6])%nat /\ pph q = PEnd /\ Forall quiet two_exit /\
  (forall t th, nth_error (snd c) t = Some th -> settled th).
Proof.
  eexists _, _, _. split; [vm_compute; reflexivity|]. split; [vm_compute; reflexivity|]. split; [reflexivity|]. split; [repeat constructor|].
  intros [|[|[|t]]] th H; cbn in H; inversion H; subst; (split; [left; reflexivity|intros ? ? []]).
Qed.

(** A function runs on a thread other than the one that registered it. *)
Theorem C66_other_thread_refuted : exists ctls n sched c tr sched' (q : pst) tr' (t u f : nat), exec (tss_step Win) (tss_init n) sched = Some (c, tr) /\ exec (pe_step ctls t) (pe_start (fst c)) sched' = Some (q, tr') /\ In (EReg u f) tr /\ In (ERun t f) tr' /\ t <> u.
Proof.
  exists false, 2%nat, [AAtExit 1 FNone]. eexists _, _. exists [PStep; PStep; PStep]. eexists _, _, 0%nat, 1%nat, 0%nat. split; [vm_compute; reflexivity|]. split; [vm_compute; reflexivity|]. split; [left; reflexivity|]. split; [left; reflexivity|discriminate].
Qed.
Print Assumptions C66_other_thread_refuted.

(** An exit function crashes if it registers another function, stores a thread-specific value, or creates or destroys a thread_specific_ptr, and runs on a thread that has no context: tss_mgr is null. *)
Theorem C66_library_call_refuted : exists ctls n sched c tr sched' q tr' t, exec (tss_step Win) (tss_init n) sched = Some (c, tr) /\ exec (pe_step ctls t) (pe_start (fst c)) sched' = Some (q, tr') /\ crashed q = false /\ forall a, In a [PAtExit; PNotExit 1; PReset 0 5; PNew None true; PDel 0] -> exists q2 e, pe_step ctls t q a = Some (q2, e) /\ crashed q2 = true.
Proof.
  exists false, 2%nat, ([ANew 0 (Some 7) true; AAtExit 1 FNone])%nat. eexists _, _. exists [PStep; PStep; PStep]. eexists _, _, 0%nat. split; [vm_compute; reflexivity|]. split; [vm_compute; reflexivity|]. split; [reflexivity|].
  intros a Ha. cbn [In] in Ha. repeat (destruct Ha as [<-|Ha]; [eexists _, _; split; [vm_compute; reflexivity|reflexivity]|]). destruct Ha.
Qed.
Print Assumptions C66_library_call_refuted.

(** Even on the thread that registered it: destroying a thread_specific_ptr from an exit function that is left for on_process_exit crashes, although the same call is fine when the thread exits first. *)
Theorem C66_destroy_ptr_refuted : exists ctls n sched c tr sched' q tr' t f, exec (tss_step Win) (tss_init n) sched = Some (c, tr) /\ In (EReg t f) tr /\ exec (pe_step ctls t) (pe_start (fst c)) sched' = Some (q, tr') /\ crashed q = true /\ exists sched2 c2 tr2, exec (tss_step Win) c sched2 = Some (c2, tr2) /\ In (EExit t) tr2 /\ In (EDel t 0) tr2 /\ all_done c2.
Proof.
  exists false, 1%nat, ([ANew 0 (Some 7) true; AAtExit 0 FNone])%nat. eexists _, _. exists [PStep; PStep; PStep; PDel 0]. eexists _, _, 0%nat, 0%nat. split; [vm_compute; reflexivity|]. split; [right; left; reflexivity|]. split; [vm_compute; reflexivity|]. split; [reflexivity|].
  exists ([AExit 0; AStep 0; AStep 0; ADel 0 0; AStep 0; ARet 0; AStep 0; AStep 0; AStep 0])%nat. eexists _, _. split; [vm_compute; reflexivity|]. split; [left; reflexivity|]. split; [right; right; left; reflexivity|]. intros [|[|t]] th H; cbn in H; inversion H; reflexivity.
Qed.
Print Assumptions C66_destroy_ptr_refuted.

(** A thread stopped in the middle of its exit: the functions of the round under way are lost. *)
Theorem C66_stopped_refuted : exists ctls n sched c tr sched' q tr' t0 t f, exec (tss_step Win) (tss_init n) sched = Some (c, tr) /\ exec (pe_step ctls t0) (pe_start (fst c)) sched' = Some (q, tr') /\ pph q = PEnd /\ crashed q = false /\ In (EReg t f) tr /\ nruns f (tr ++ tr') = 0.
Proof.
  exists false, 2%nat, ([AAtExit 1 FNone; AAtExit 1 FNone; AExit 1; AStep 1; AStep 1])%nat. eexists _, _. exists [PStep; PStep; PStep; PStep; PStep]. eexists _, _, 0%nat, 1%nat, 0%nat. split; [vm_compute; reflexivity|]. split; [vm_compute; reflexivity|].
  split; [reflexivity|]. split; [reflexivity|]. split; [left; reflexivity|vm_compute; reflexivity].
Qed.
Print Assumptions C66_stopped_refuted.

(** With compiler TLS the context pointer of the exiting thread is left dangling: on_thread_exit, called after on_process_exit, crashes; without, it has no effect. *)
Theorem C66_late_thread_exit_refuted : exists n sched c tr sched', exec (tss_step Win) (tss_init n) sched = Some (c, tr) /\ (exists q tr', exec (pe_step true 0) (pe_start (fst c)) sched' = Some (q, tr') /\ pph q = PEnd /\ crashed q = true) /\ (exists q tr', exec (pe_step false 0) (pe_start (fst c)) sched' = Some (q, tr') /\ pph q = PEnd /\ crashed q = false).
Proof.
  exists 1%nat, [AAtExit 0 FNone]. eexists _, _. exists [PStep; PStep; PStep; PRet; PStep; PStep; PStep; PStep; PThreadExit]. split; [vm_compute; reflexivity|]. split; eexists _, _; (split; [vm_compute; reflexivity|split; reflexivity]).
Qed.
Print Assumptions C66_late_thread_exit_refuted.
