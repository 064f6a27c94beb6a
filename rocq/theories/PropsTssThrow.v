(** Property theorems: cleanup functions and exit functions that throw (C84). *)
From Coq Require Import List Bool Arith ZArith Lia.
From Verif Require Import ListSum Exec TssModel TssProof TssKeys TssOwn TssExit TssThrow PropsTss.
Import ListNotations.

(** C84: an execution in which user functions throw shows, up to the end of the program, a history that is also possible without exceptions, and reaches the same state:
    an exception that leaves reset() has the effect of a return. *)
Theorem C84_as_without_exceptions : forall pl n xs x tr, exec (xstep (tss_step pl)) (xinit n) xs = Some (x, tr) ->
  exists sched, exec (tss_step pl) (tss_init n) sched = Some (xbase x, lib tr).
Proof. intros pl n xs x tr. apply (x_sim pl); auto. Qed.
Print Assumptions C84_as_without_exceptions.

(** Hence C41: get() returns what the history of the thread and the pointer says, whatever threw before. *)
Theorem C84_value_exact : forall pl n xs x tr a t p v b, exec (xstep (tss_step pl)) (xinit n) xs = Some (x, tr) ->
  lib tr = a ++ EGet t p v :: b -> v = seen pl t p a.
Proof. intros pl n xs x tr a t p v b H E. destruct (C84_as_without_exceptions _ _ _ _ _ H) as (sched & Hs). eapply C41_exact; eauto. Qed.
Print Assumptions C84_value_exact.

Local Open Scope Z_scope.
(** Hence C42: every installed value is cleaned, taken out again, or still in place, whatever threw before. *)
Theorem C84_balance_partial : forall pl n xs x tr cb v, exec (xstep (calm_step pl)) (xinit n) xs = Some (x, tr) -> v <> 0%nat ->
  installed cb v (lib tr) = cleaned cb v (lib tr) + taken cb v (lib tr) + held cb v (xbase x).
Proof.
  intros pl n xs x tr cb v H Hv.
  assert (S : exists sched, exec (calm_step pl) (tss_init n) sched = Some (xbase x, lib tr)).
  { eapply (x_sim pl); [|reflexivity|reflexivity|exact H]. intros c a r Hc. unfold calm_step in Hc. destruct (calm c a); [exact Hc|discriminate]. }
  destruct S as (sched & Hs). eapply C42_balance_partial; eauto.
Qed.
Print Assumptions C84_balance_partial.

(** Hence C43: exit functions run at most once each. *)
Theorem C84_exit_functions_once : forall pl n xs x tr f, exec (xstep (tss_step pl)) (xinit n) xs = Some (x, tr) -> nruns f (lib tr) <= 1.
Proof. intros pl n xs x tr f H. destruct (C84_as_without_exceptions _ _ _ _ _ H) as (sched & Hs). destruct (C43_at_most_once _ _ _ _ _ f Hs) as ((H1 & H2) & _). lia. Qed.
Print Assumptions C84_exit_functions_once.
Local Close Scope Z_scope.

(** Whenever a user function called by the library throws, either the exception leaves reset() and nothing stored is changed by it, or the program is ended. *)
Theorem C84_outcomes : forall pl n xs x tr t th r, exec (xstep (tss_step pl)) (xinit n) xs = Some (x, tr) -> xdead x = false ->
  nth_error (snd (xbase x)) t = Some th -> stk th = FUser :: r ->
  exists x', (xstep (tss_step pl) x (XThrow t) = Some (x', [XLeft t]) /\ xdead x' = false /\ fst (xbase x') = fst (xbase x)) \/
             (xstep (tss_step pl) x (XThrow t) = Some (x', [XTerm t]) /\ xdead x' = true /\ forall a, xstep (tss_step pl) x' a = None).
Proof.
  intros pl n xs x tr t th r H Hd Ht Hs. assert (Ho : okx x) by (eapply (okx_reach pl); eauto). unfold xstep. rewrite Hd.
  destruct (throw_total x t th r Ho Ht Hs) as [(os & _ & x' & E & E1 & E2)|(_ & x' & E & E1 & _)]; exists x'.
  - left. auto.
  - right. split; [exact E|]. split; [exact E1|]. intros a. rewrite E1. reflexivity.
Qed.
Print Assumptions C84_outcomes.

(** The thread can call the library: its own function or a user function called by the library is running. *)
Definition can_call (x : xst) (t : nat) (th : thr) : Prop := nth_error (snd (xbase x)) t = Some th /\ user th = true.

Lemma org_of x t th : okx x -> nth_error (snd (xbase x)) t = Some th -> exists os, nth_error (xorg x) t = Some os.
Proof.
  intros (HL & _) Ht. destruct (nth_error (xorg x) t) eqn:E; [eauto|]. apply nth_error_None in E.
  assert (t < length (snd (xbase x))) by (apply nth_error_Some; rewrite Ht; discriminate). lia.
Qed.

Lemma upd_upd {A} (l : list A) t a b : upd (upd l t a) t b = upd l t b.
Proof. revert t. induction l as [|y l IH]; intros [|t]; cbn; auto. f_equal. apply IH. Qed.

(** reset() whose cleanup function throws: the old value has been given to the cleanup function once, the exception is in the caller, and the new value is in place. *)
Theorem C84_reset_throws : forall pl n xs x tr t th p q cb v, exec (xstep (tss_step pl)) (xinit n) xs = Some (x, tr) -> xdead x = false -> can_call x t th ->
  nth_error (tptrs (fst (xbase x))) p = Some q -> palive q = true -> pcb q = Some cb ->
  let old := get (fst (xbase x)) t (pkey q) in old <> 0 -> old <> v ->
  exists x', exec (xstep (tss_step pl)) x [XDo (AReset t p v FNone); XDo (AStep t); XThrow t] = Some (x', [XE (ESet t p (Some cb) v); XE (ECall t cb old); XLeft t]) /\
    xdead x' = false /\ get (fst (xbase x')) t (pkey q) = v /\ nth_error (snd (xbase x')) t = Some th.
Proof.
  intros pl n xs x tr t th p q cb v H Hd (Ht & Hu) Hp Ha Hc old Ho Hv.
  assert (Hx : okx x) by (eapply (okx_reach pl); eauto). destruct (org_of _ _ _ Hx Ht) as (os & Eo).
  destruct x as [[s ths] org dead]. cbn [xbase xorg xdead fst snd] in *. subst dead.
  assert (E1 : (old =? v) = false) by (apply Nat.eqb_neq; exact Hv). assert (E0 : (old =? 0) = false) by (apply Nat.eqb_neq; exact Ho).
  assert (LL : forall k, (S k <? k) = false) by (intros; apply Nat.ltb_ge; lia). assert (LT : forall k, (k <? S k) = true) by (intros; apply Nat.ltb_lt; lia).
  cbn [exec]. unfold xstep at 1. cbn [xdead xbase xorg thread_of]. unfold tss_step at 1. cbn [thread_of]. rewrite Ht, Hu. cbn [tss_user]. rewrite Hp, Ha. fold old. rewrite E1, Hc, E0, Eo.
  unfold push. cbn [app]. unfold stk_of. cbn [snd]. rewrite Ht, (nth_upd_eq _ _ _ _ Ht). cbn [stk]. unfold next_org at 1. cbn [length]. rewrite LL, LT.
  unfold xstep at 1. cbn [xdead xbase xorg thread_of]. unfold tss_step at 1. cbn [thread_of]. rewrite (nth_upd_eq _ _ _ _ Ht). cbn [tss_run stk est].
  rewrite (nth_upd_eq _ _ _ _ Eo). unfold stk_of. cbn [snd]. rewrite upd_upd, !(nth_upd_eq _ _ _ _ Ht). cbn [stk]. unfold next_org. cbn [length]. rewrite LL, LT.
  unfold xstep. cbn [xdead]. unfold throw_at. cbn [xbase xorg]. rewrite (nth_upd_eq _ _ _ _ Ht). rewrite upd_upd, (nth_upd_eq _ _ _ _ Eo). cbn [stk est].
  eexists. split; [reflexivity|]. cbn [xdead xbase fst snd]. split; [reflexivity|]. split.
  - destruct (C84_as_without_exceptions _ _ _ _ _ H) as (sched & Hs). cbn [xbase] in Hs.
    unfold old, get in Ho. destruct (slot s t) as [y|] eqn:Esl; [|contradiction]. destruct (ctx_of s y) as [c|] eqn:Ecx; [|contradiction].
    unfold get, set_value, ensure. rewrite Esl, Ecx. unfold set_ctx, slot, ctx_of. cbn [slots ctxs]. unfold slot in Esl.
    destruct (nth_error (slots s) t) as [[y'|]|]; try discriminate. inversion Esl; subst y'. unfold ctx_of in Ecx. destruct (nth_error (ctxs s) y) as [[c'|]|] eqn:Ec; try discriminate.
    rewrite (nth_upd_eq _ _ _ _ Ec). cbn [storage]. clear. generalize (storage c) as l, (pkey q) as k. unfold getv.
    assert (G : forall k l, nth k (setv l k v) 0 = v) by (induction k as [|k IH]; intros [|a l]; cbn; auto). intros; apply G.
  - rewrite upd_upd, (nth_upd_eq _ _ _ _ Ht). destruct th; reflexivity.
Qed.
Print Assumptions C84_reset_throws.

(** ~thread_specific_ptr whose cleanup function throws ends the program, and so does a thread's exit whose exit function throws. *)
Theorem C84_destructor_terminates : forall pl n xs x tr t th p q cb v vs, exec (xstep (tss_step pl)) (xinit n) xs = Some (x, tr) -> xdead x = false -> can_call x t th ->
  nth_error (tptrs (fst (xbase x))) p = Some q -> palive q = true -> nth_error (keys (fst (xbase x))) (pkey q) = Some (Some cb, true) ->
  concat (map (vals1 (pkey q)) (ctxs (fst (xbase x)))) = v :: vs ->
  exists x', exec (xstep (tss_step pl)) x [XDo (ADel t p); XDo (AStep t); XThrow t] = Some (x', [XE (EDel t p); XE (ECall t cb v); XTerm t]) /\ xdead x' = true.
Proof.
  intros pl n xs x tr t th p q cb v vs H Hd (Ht & Hu) Hp Ha Hk Hv.
  assert (Hx : okx x) by (eapply (okx_reach pl); eauto). destruct (org_of _ _ _ Hx Ht) as (os & Eo).
  destruct x as [[s ths] org dead]. cbn [xbase xorg xdead fst snd] in *. subst dead.
  assert (LL : forall k, (S k <? k) = false) by (intros; apply Nat.ltb_ge; lia). assert (LT : forall k, (k <? S k) = true) by (intros; apply Nat.ltb_lt; lia).
  cbn [exec]. unfold xstep at 1. cbn [xdead xbase xorg thread_of]. unfold tss_step at 1. cbn [thread_of]. rewrite Ht, Hu. cbn [tss_user]. rewrite Hp, Ha. unfold delete_key. rewrite Hk, Hv, Eo.
  unfold push. cbn [app]. unfold stk_of. cbn [snd]. rewrite Ht, (nth_upd_eq _ _ _ _ Ht). cbn [stk]. unfold next_org at 1. cbn [length]. rewrite LL, LT.
  unfold xstep at 1. cbn [xdead xbase xorg thread_of]. unfold tss_step at 1. cbn [thread_of]. rewrite (nth_upd_eq _ _ _ _ Ht). cbn [tss_run stk est].
  rewrite (nth_upd_eq _ _ _ _ Eo). unfold stk_of. cbn [snd]. rewrite upd_upd, !(nth_upd_eq _ _ _ _ Ht). cbn [stk]. unfold next_org. cbn [length]. rewrite LL, LT.
  unfold xstep. cbn [xdead]. unfold throw_at. cbn [xbase xorg]. rewrite (nth_upd_eq _ _ _ _ Ht). rewrite upd_upd, (nth_upd_eq _ _ _ _ Eo). cbn [stk est].
  eexists. split; reflexivity.
Qed.
Print Assumptions C84_destructor_terminates.

Theorem C84_exit_terminates : forall pl n xs x tr t th c' e, exec (xstep (tss_step pl)) (xinit n) xs = Some (x, tr) -> xdead x = false ->
  nth_error (snd (xbase x)) t = Some th -> stk th = [] -> tss_step pl (xbase x) (AStep t) = Some (c', e) -> (exists th', nth_error (snd c') t = Some th' /\ stk th' <> []) ->
  exists x', exec (xstep (tss_step pl)) x [XDo (AStep t); XThrow t] = Some (x', map XE e ++ [XTerm t]) /\ xdead x' = true.
Proof.
  intros pl n xs x tr t th c' e H Hd Ht Hs Hst (th' & Ht' & Hn).
  assert (Hx : okx x) by (eapply (okx_reach pl); eauto). destruct (org_of _ _ _ Hx Ht) as (os & Eo).
  pose proof (proj2 Hx _ _ _ Ht Eo) as Ho. rewrite Hs in Ho. destruct os; [|contradiction].
  assert (Ex : xstep (tss_step pl) x (XDo (AStep t)) = Some (XS c' (upd (xorg x) t (next_org (AStep t) [] (stk th') [])) false, map XE e)).
  { unfold xstep. rewrite Hd. cbn [thread_of]. rewrite Hst, Eo. unfold stk_of. rewrite Ht, Ht', Hs. reflexivity. }
  assert (Hx' : okx (XS c' (upd (xorg x) t (next_org (AStep t) [] (stk th') [])) false)) by (eapply (okx_step pl); eauto).
  pose proof (proj2 Hx' t th' (next_org (AStep t) [] (stk th') []) Ht' (nth_upd_eq _ _ _ _ Eo)) as Hk.
  assert (F : stk th' = [FUser]).
  { destruct (stk th') as [|f r]; [contradiction|]. unfold next_org in Hk. cbn in Hk. destruct f; [|contradiction]. destruct Hk as (Hk & _). destruct r as [|[|] r]; [reflexivity|cbn in Hk; contradiction|cbn in Hk; contradiction]. }
  cbn [exec]. rewrite Ex. unfold xstep. cbn [xdead]. unfold throw_at. cbn [xbase xorg]. destruct c' as [s' ths']. cbn [snd] in Ht'. rewrite Ht', (nth_upd_eq _ _ _ _ Eo), F. cbn.
  eexists. split; reflexivity.
Qed.
Print Assumptions C84_exit_terminates.

(** A cleanup function that throws in reset(), is caught, and a later cleanup that calls reset() of another pointer whose cleanup function throws through both. *)
Definition th_sched : list xact :=
  [XDo (ANew 0 (Some 7) true); XDo (ANew 0 (Some 8) true); XDo (AReset 0 0 5 FNone); XDo (AReset 0 1 4 FNone); XDo (AReset 0 0 6 FNone); XDo (AStep 0); XThrow 0; XDo (AGet 0 0);
   XDo (AReset 0 0 9 FNone); XDo (AStep 0); XDo (AReset 0 1 3 FNone); XDo (AStep 0); XThrow 0; XThrow 0; XDo (AGet 0 0); XDo (AGet 0 1)].
Example C84_ex : exists x, exec (xstep (tss_step Win)) (xinit 1) th_sched =
  Some (x, [XE (ENew 0 0 (Some 7)); XE (ENew 0 1 (Some 8)); XE (ESet 0 0 (Some 7) 5); XE (ESet 0 1 (Some 8) 4); XE (ESet 0 0 (Some 7) 6); XE (ECall 0 7 5); XLeft 0; XE (EGet 0 0 6);
            XE (ESet 0 0 (Some 7) 9); XE (ECall 0 7 6); XE (ESet 0 1 (Some 8) 3); XE (ECall 0 8 4); XLeft 0; XLeft 0; XE (EGet 0 0 9); XE (EGet 0 1 3)]) /\ xdead x = false.
Proof. eexists. split; vm_compute; reflexivity. Qed.

(** The exception does not reach the code that destroys the pointer, and the values of the other threads are not cleaned any more. *)
Theorem C84_destructor_refuted : exists n xs x tr cb v, exec (xstep (tss_step (Posix 4))) (xinit n) xs = Some (x, tr) /\ xdead x = true /\ v <> 0 /\
  installed cb v (lib tr) = 1%Z /\ taken cb v (lib tr) = 0%Z /\ cleaned cb v (lib tr) = 0%Z /\ (forall a, xstep (tss_step (Posix 4)) x a = None).
Proof.
  exists 2, [XDo (ANew 0 (Some 7) true); XDo (AReset 0 0 5 FNone); XDo (AReset 1 0 6 FNone); XDo (ADel 0 0); XDo (AStep 0); XThrow 0]. eexists _, _. exists 7, 6.
  split; [vm_compute; reflexivity|]. split; [reflexivity|]. split; [discriminate|]. repeat (split; [vm_compute; reflexivity|]). intros a. reflexivity.
Qed.
Print Assumptions C84_destructor_refuted.

(** A cleanup function that throws when its thread exits ends the program; the cleanup functions of the thread's other values are not called. *)
Theorem C84_exit_refuted : exists n xs x tr cb v, exec (xstep (tss_step Win)) (xinit n) xs = Some (x, tr) /\ xdead x = true /\ v <> 0 /\
  installed cb v (lib tr) = 1%Z /\ taken cb v (lib tr) = 0%Z /\ cleaned cb v (lib tr) = 0%Z /\ (forall a, xstep (tss_step Win) x a = None).
Proof.
  exists 1, [XDo (ANew 0 (Some 7) true); XDo (ANew 0 (Some 8) true); XDo (AReset 0 0 5 FNone); XDo (AReset 0 1 6 FNone); XDo (AExit 0); XDo (AStep 0); XDo (AStep 0); XDo (AStep 0); XThrow 0]. eexists _, _. exists 8, 6.
  split; [vm_compute; reflexivity|]. split; [reflexivity|]. split; [discriminate|]. repeat (split; [vm_compute; reflexivity|]). intros a. reflexivity.
Qed.
Print Assumptions C84_exit_refuted.
