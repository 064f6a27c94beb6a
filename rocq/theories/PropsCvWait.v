(** Property theorems: control flow of the waiting functions (C28, C29). *)
From Coq Require Import List Bool ZArith Lia.
From Verif Require Import CvWaitModel.
Import ListNotations.

(** ** Support: Hoare rules and log extension *)
Definition tri {A} (P : st -> Prop) (m : M A) (Q : A -> st -> Prop) (X : st -> Prop) : Prop :=
  forall s, P s -> match m s with (Val a, s') => Q a s' | (Exn, s') => X s' | _ => True end.

Lemma tri_ret {A} (a : A) (P : st -> Prop) (Q : A -> st -> Prop) (X : st -> Prop) : (forall s, P s -> Q a s) -> tri P (ret a) Q X.
Proof. intros H s. cbn. auto. Qed.
Lemma tri_throw {A} (P : st -> Prop) (Q : A -> st -> Prop) (X : st -> Prop) : (forall s, P s -> X s) -> tri P throw Q X.
Proof. intros H s. cbn. auto. Qed.
Lemma tri_bind {A B} P (m : M A) (f : A -> M B) R Q X : tri P m R X -> (forall a, tri (R a) (f a) Q X) -> tri P (bind m f) Q X.
Proof.
  intros H1 H2 s Hs. specialize (H1 s Hs). unfold bind. destruct (m s) as [r s']. destruct r; try exact I.
  - apply H2, H1. - exact H1.
Qed.
Lemma tri_finally {A} P (m : M A) d R Y Q (X : st -> Prop) :
  tri P m R Y -> (forall a, tri (R a) d (fun _ => Q a) X) -> tri Y d (fun _ => X) (fun _ => True) -> tri P (finally m d) Q X.
Proof.
  intros H1 H2 H3 s Hs. specialize (H1 s Hs). unfold finally. destruct (m s) as [r s']. destruct r; try exact I.
  - specialize (H2 a s' H1). destruct (d s') as [[ ] s2]; auto.
  - specialize (H3 s' H1). destruct (d s') as [[ ] s2]; auto.
Qed.
Lemma tri_noexcept {A} P (m : M A) Q X X' : tri P m Q X -> tri P (noexcept m) Q X'.
Proof. intros H s Hs. specialize (H s Hs). unfold noexcept. destruct (m s) as [[ ] s']; auto. Qed.
Lemma tri_conseq {A} (P P' : st -> Prop) (m : M A) (Q Q' : A -> st -> Prop) (X X' : st -> Prop) :
  tri P' m Q' X' -> (forall s, P s -> P' s) -> (forall a s, Q' a s -> Q a s) -> (forall s, X' s -> X s) -> tri P m Q X.
Proof. intros H H1 H2 H3 s Hs. specialize (H s (H1 s Hs)). destruct (m s) as [[ ] s']; auto. Qed.

(** Events of the log are well-behaved: the caller's lock is only ever re-acquired with the internal mutex released, and the
    predicate is only evaluated with the caller's lock held. *)
Definition ok_ev (e : ev) : Prop := match e with EvLockUser i => i = false | EvPred _ u => u = true | _ => True end.
(** Between the calls: caller's lock [u], internal mutex [i], relocker flag [r]. *)
Definition at_state (u i r : bool) (s : st) : Prop := user s = u /\ intl s = i /\ rel s = r /\ Forall ok_ev (log s) /\ ~ In EvLockFailed (log s).
Definition held (s : st) : Prop := user s = true /\ intl s = false /\ Forall ok_ev (log s) /\ ~ In EvLockFailed (log s).
Definition gave_up (s : st) : Prop := intl s = false /\ Forall ok_ev (log s) /\ In EvLockFailed (log s).
Definition out (s : st) : Prop := held s \/ gave_up s.

Lemma snoc_ok l e : Forall ok_ev l -> ok_ev e -> Forall ok_ev (l ++ [e]).
Proof. intros. apply Forall_app. auto. Qed.
Lemma snoc_nin l e : ~ In EvLockFailed l -> e <> EvLockFailed -> ~ In EvLockFailed (l ++ [e]).
Proof. intros H H1 H2. apply in_app_or in H2. destruct H2 as [H2|[->|[]]]; auto. Qed.

Ltac st_ok := unfold at_state, held in *; cbn [user intl rel log orc] in *; intuition (subst; auto using snoc_ok, snoc_nin; try discriminate).

Lemma ask_at u i r X : tri (at_state u i r) ask (fun _ => at_state u i r) X.
Proof. intros s Hs. unfold ask. destruct (orc s); [exact I|]. st_ok. Qed.
Lemma emit_at u i r e X : ok_ev e -> e <> EvLockFailed -> tri (at_state u i r) (emit e) (fun _ => at_state u i r) X.
Proof. intros He Hn s (H1 & H2 & H3 & H4 & H5). cbn. refine (conj H1 (conj H2 (conj H3 (conj (snoc_ok _ _ H4 He) (snoc_nin _ _ H5 Hn))))). Qed.
Lemma set_rel_at u i r r' X : tri (at_state u i r) (set_rel r') (fun _ => at_state u i r') X.
Proof. intros s Hs. cbn. st_ok. Qed.
Lemma set_user_at u i r u' X : tri (at_state u i r) (set_user u') (fun _ => at_state u' i r) X.
Proof. intros s Hs. cbn. st_ok. Qed.
Lemma set_intl_at u i r i' X : tri (at_state u i r) (set_intl i') (fun _ => at_state u i' r) X.
Proof. intros s Hs. cbn. st_ok. Qed.
Lemma get_intl_at u i r X : tri (at_state u i r) get_intl (fun b s => b = i /\ at_state u i r s) X.
Proof. intros s Hs. cbn. split; [st_ok|assumption]. Qed.
Lemma get_user_at u i r X : tri (at_state u i r) get_user (fun b s => b = u /\ at_state u i r s) X.
Proof. intros s Hs. cbn. split; [st_ok|assumption]. Qed.
Lemma get_rel_at u i r X : tri (at_state u i r) get_rel (fun b s => b = r /\ at_state u i r s) X.
Proof. intros s Hs. cbn. split; [st_ok|assumption]. Qed.

Lemma pre_pure {A} (b0 : bool) (P : st -> Prop) b (m : M A) Q X : (b = b0 -> tri P m Q X) -> tri (fun s => b = b0 /\ P s) m Q X.
Proof. intros H s (Hb & Hs). exact (H Hb s Hs). Qed.

Lemma fault_at {A} u i r (Q : A -> st -> Prop) (X : st -> Prop) : (forall s, at_state u i r s -> X s) -> tri (at_state u i r) fault Q X.
Proof. intros H. eapply tri_bind; [apply emit_at; [exact I|discriminate]|]. intros ?. apply tri_throw. exact H. Qed.
Lemma kernel_at b d u i r X : tri (at_state u i r) (kernel b d) (fun _ => at_state u i r) X.
Proof.
  eapply tri_bind; [apply get_user_at|]. intros u'. apply pre_pure. intros _. eapply tri_bind; [apply get_intl_at|]. intros i'. apply pre_pure. intros _.
  eapply tri_bind; [apply emit_at; [exact I|discriminate]|]. intros ?. eapply tri_bind; [apply ask_at|]. intros x.
  eapply tri_bind; [apply emit_at; [exact I|discriminate]|]. intros ?. apply tri_ret. auto.
Qed.
Lemma lock_intl_at u r : tri (at_state u false r) lock_intl (fun _ => at_state u true r) (at_state u false r).
Proof.
  eapply tri_bind; [apply ask_at|]. intros x. destruct x as [|[|x]]; [apply set_intl_at|apply fault_at; auto|apply set_intl_at].
Qed.
Lemma unlock_user_at i r : tri (at_state true i r) unlock_user (fun _ => at_state false i r) (at_state true i r).
Proof.
  eapply tri_bind; [apply ask_at|]. intros x.
  assert (H : tri (at_state true i r) (i0 <- get_intl ;; emit (EvUnlockUser i0) ;;; set_user false) (fun _ => at_state false i r) (at_state true i r)).
  { eapply tri_bind; [apply get_intl_at|]. intros b. apply pre_pure. intros Hb. rewrite ?Hb. eapply tri_bind; [apply emit_at; [exact I|discriminate]|]. intros ?. apply set_user_at. }
  destruct x as [|[|x]]; [exact H|apply fault_at; auto|exact H].
Qed.
(** Re-locking: succeeds, or records the failure and throws. *)
Lemma lock_user_at r : tri (at_state false false r) lock_user (fun _ => at_state true false r) gave_up.
Proof.
  eapply tri_bind; [apply ask_at|]. intros x.
  assert (H : tri (at_state false false r) (i0 <- get_intl ;; emit (EvLockUser i0) ;;; set_user true) (fun _ => at_state true false r) gave_up).
  { eapply tri_bind; [apply get_intl_at|]. intros b. apply pre_pure. intros Hb. rewrite ?Hb. eapply tri_bind; [apply emit_at; [reflexivity|discriminate]|]. intros ?. apply set_user_at. }
  destruct x as [|[|x]]; [exact H| |exact H].
  intros s Hs. cbn. unfold at_state, gave_up in *. cbn. repeat split; [tauto|apply snoc_ok; [tauto|exact I]|apply in_or_app; right; left; reflexivity].
Qed.
Lemma with_internal_at {A} u r (m : M A) (Q : A -> st -> Prop) (X : st -> Prop) R Y :
  tri (at_state u true r) m R Y ->
  (forall a, tri (R a) unlock_intl (fun _ => Q a) X) -> tri Y unlock_intl (fun _ => X) (fun _ => True) ->
  (forall s, at_state u false r s -> X s) -> tri (at_state u false r) (with_internal m) Q X.
Proof.
  intros H1 H2 H3 H4. apply (tri_bind _ _ _ (fun _ => at_state u true r)).
  - apply (tri_conseq _ _ _ _ _ _ _ (lock_intl_at u r)); auto.
  - intros ?. eapply tri_finally; eauto.
Qed.
Lemma check_at u r : tri (at_state u false r) check_notified (fun _ => at_state u false r) (at_state u false r).
Proof.
  apply (with_internal_at u r _ _ _ (fun _ => at_state u true r) (at_state u true r)).
  - eapply tri_bind; [apply ask_at|]. intros x. eapply tri_bind; [apply get_intl_at|]. intros j. apply pre_pure. intros _.
    eapply tri_bind; [apply emit_at; [exact I|discriminate]|]. intros ?. apply tri_ret. auto.
  - intros a. apply set_intl_at.
  - apply set_intl_at.
  - auto.
Qed.
Lemma initiate_at u r : tri (at_state u false r) initiate_wait (fun _ => at_state u false r) (at_state u false r).
Proof.
  apply (with_internal_at u r _ _ _ (fun _ => at_state u true r) (at_state u true r)).
  - eapply tri_bind; [apply ask_at|]. intros x.
    assert (He : tri (at_state u true r) (i <- get_intl ;; emit (EvEnlist i)) (fun _ => at_state u true r) (at_state u true r))
      by (eapply tri_bind; [apply get_intl_at|]; intros j; apply pre_pure; intros _; apply emit_at; [exact I|discriminate]).
    destruct x as [|[|x]]; [exact He|apply fault_at; auto|exact He].
  - intros a. apply set_intl_at.
  - apply set_intl_at.
  - auto.
Qed.
Lemma note_at u i r x X : tri (at_state u i r) (note x) (fun _ => at_state u i r) X.
Proof. destruct x; [apply tri_ret; auto|eapply tri_bind; [apply emit_at; [exact I|discriminate]|intros; apply tri_ret; auto]]. Qed.
Lemma blocked_tri {A} P (Q : A -> st -> Prop) X : tri P (fun s => (Blocked, s)) Q X.
Proof. intros s _. exact I. Qed.

Lemma b_priv_wait_at fuel r : tri (at_state false false r) (b_priv_wait fuel) (fun _ => at_state false false r) (at_state false false r).
Proof.
  induction fuel as [|fuel IH]; [apply blocked_tri|]. cbn [b_priv_wait].
  eapply tri_bind; [apply kernel_at|]. intros [| |].
  - eapply tri_bind; [apply check_at|]. intros [|]; [apply tri_ret; auto|exact IH].
  - eapply tri_bind; [apply check_at|]. intros ?. apply tri_throw. auto.
  - eapply tri_bind; [apply check_at|]. intros ?. apply tri_throw. auto.
Qed.
Lemma b_priv_timed_at fuel n r : tri (at_state false false r) (b_priv_timed fuel n) (fun _ => at_state false false r) (at_state false false r).
Proof.
  revert n. induction fuel as [|fuel IH]; intros n; [apply blocked_tri|]. cbn [b_priv_timed]. destruct n as [|n].
  - eapply tri_bind; [apply check_at|]. intros [|]; [apply tri_ret; auto|apply note_at].
  - eapply tri_bind; [apply kernel_at|].
    assert (H : tri (at_state false false r) (check_notified ;;; throw) (fun _ : status => at_state false false r) (at_state false false r))
      by (eapply tri_bind; [apply check_at|]; intros ?; apply tri_throw; auto).
    intros [| |]; [|apply IH|exact H].
    eapply tri_bind; [apply check_at|]. intros [|]; [apply tri_ret; auto|apply IH].
Qed.
Lemma b_priv_timer_at fuel d r : tri (at_state false false r) (b_priv_timer fuel d) (fun _ => at_state false false r) (at_state false false r).
Proof.
  induction fuel as [|fuel IH]; [apply blocked_tri|]. cbn [b_priv_timer].
  eapply tri_bind; [apply kernel_at|].
  assert (H : tri (at_state false false r) (check_notified ;;; throw) (fun _ : status => at_state false false r) (at_state false false r))
    by (eapply tri_bind; [apply check_at|]; intros ?; apply tri_throw; auto).
  intros [| |]; [| |exact H].
  - eapply tri_bind; [apply check_at|]. intros [|]; [apply tri_ret; auto|apply IH].
  - eapply tri_bind; [apply check_at|]. intros [|]; [apply tri_ret; auto|apply note_at].
Qed.

(** The relocker: whatever happens inside, the lock is held again afterwards or its re-acquisition threw. *)
Lemma relocker_unlock_at i : tri (at_state true i false) relocker_unlock (fun _ => at_state false i true) (at_state true i false).
Proof. eapply tri_bind; [apply unlock_user_at|]. intros ?. apply set_rel_at. Qed.
Lemma at_held_ r s : at_state true false r s -> held s. Proof. st_ok. Qed.
Lemma relocker_dtor_at u r : u = negb r -> tri (at_state u false r) relocker_dtor (fun _ => held) gave_up.
Proof.
  intros ->. eapply tri_bind; [apply get_rel_at|]. intros b. apply pre_pure. intros Hb. rewrite ?Hb. destruct r; cbn [negb].
  - eapply tri_conseq; [apply (lock_user_at true)|auto|intros ? s Hs; eapply at_held_; exact Hs|auto].
  - apply tri_ret. intros s Hs. st_ok.
Qed.
Definition inside (s : st) : Prop := at_state true false false s \/ at_state false false true s.
Lemma relocker_dtor_inside : tri inside relocker_dtor (fun _ => held) gave_up.
Proof. intros s [Hs|Hs]; [apply (relocker_dtor_at true false eq_refl s Hs)|apply (relocker_dtor_at false true eq_refl s Hs)]. Qed.

Lemma with_relocker_ok {A} (m : M A) : tri (at_state true false false) m (fun _ => inside) inside -> tri held (with_relocker m) (fun _ => held) out.
Proof.
  intros H. eapply tri_bind.
  - instantiate (1 := fun _ => at_state true false false). intros s Hs. cbn. st_ok.
  - intros ?. eapply tri_finally; [exact H| |].
    + intros ?. eapply tri_conseq; [apply relocker_dtor_inside|auto|auto|right; assumption].
    + eapply tri_conseq; [apply relocker_dtor_inside|auto|left; assumption|auto].
Qed.

Lemma b_body {A} (w : M A) : tri (at_state false false true) w (fun _ => at_state false false true) (at_state false false true) ->
  tri (at_state true false false) (initiate_wait ;;; noexcept relocker_unlock ;;; w) (fun _ => inside) inside.
Proof.
  intros H. eapply tri_bind; [eapply tri_conseq; [apply (initiate_at true false)|auto|cbn; intros a s Hs; exact Hs|left; assumption]|]. intros ?.
  eapply tri_bind; [eapply tri_noexcept; apply relocker_unlock_at|]. intros ?.
  eapply tri_conseq; [exact H|auto|right; assumption|right; assumption].
Qed.

Definition fine {A} (m : M A) : Prop := tri held m (fun _ => held) out.
Lemma held_at s : held s -> at_state true false (rel s) s. Proof. st_ok. Qed.
Lemma at_held r s : at_state true false r s -> held s. Proof. st_ok. Qed.
Lemma fine_at {A} (m : M A) : (forall r, tri (at_state true false r) m (fun _ => at_state true false r) (at_state true false r)) -> fine m.
Proof.
  intros H s Hs. specialize (H (rel s) s (held_at s Hs)). destruct (m s) as [[ ] s']; auto; [|left]; eapply at_held; eauto.
Qed.
Lemma fine_bind {A B} (m : M A) (f : A -> M B) : fine m -> (forall a, fine (f a)) -> fine (bind m f).
Proof. intros H1 H2. eapply tri_bind; [exact H1|exact H2]. Qed.
Lemma fine_ret {A} (a : A) : fine (ret a). Proof. apply tri_ret. auto. Qed.
Lemma fine_note x : fine (note x). Proof. apply fine_at. intros r. apply note_at. Qed.
Lemma fine_ask : fine ask. Proof. apply fine_at. intros r. apply ask_at. Qed.
Lemma fine_now : fine clock_now.
Proof. apply fine_bind; [apply fine_ask|]. intros x. apply fine_bind; [apply fine_at; intros r; apply emit_at; [exact I|discriminate]|intros; apply fine_ret]. Qed.
Lemma fine_kernel b d : fine (kernel b d). Proof. apply fine_at. intros r. apply kernel_at. Qed.
Lemma fine_blocked {A} : fine (fun s => (@Blocked A, s)). Proof. apply blocked_tri. Qed.
Lemma fine_throw {A} : fine (@throw A). Proof. apply tri_throw. left. assumption. Qed.

Lemma fine_p_wait : fine p_wait.
Proof. apply fine_bind; [apply fine_kernel|]. intros [| |]; [apply fine_ret|apply fine_throw|apply fine_throw]. Qed.
Lemma fine_p_abs d : fine (p_timed_abs d).
Proof.
  apply fine_bind; [apply fine_kernel|]. intros [| |]; [apply fine_ret|apply fine_note|apply fine_throw].
Qed.
Lemma fine_p_rel d : fine (p_timed_rel d).
Proof. apply fine_bind; [apply fine_now|intros; apply fine_p_abs]. Qed.
Lemma fine_p_chrono fuel d : fine (p_timed_chrono fuel d).
Proof.
  induction fuel as [|fuel IH]; [apply fine_blocked|]. cbn [p_timed_chrono]. apply fine_bind; [apply fine_now|]. intros now.
  destruct (now <? d)%Z; [|apply fine_note]. apply fine_bind; [apply fine_p_rel|]. intros [|]; [apply fine_ret|exact IH].
Qed.
Lemma fine_b_wait fuel : fine (b_wait fuel).
Proof. apply with_relocker_ok, b_body, b_priv_wait_at. Qed.
Lemma fine_b_rel fuel n : fine (b_timed_rel fuel n).
Proof. apply with_relocker_ok, b_body, b_priv_timed_at. Qed.
Lemma fine_b_abs fuel d : fine (b_timed_abs fuel d).
Proof.
  apply with_relocker_ok. eapply tri_bind; [apply ask_at|]. intros x.
  assert (H := b_body _ (b_priv_timer_at fuel d true)).
  destruct x as [|[|x]]; [exact H|apply fault_at; left; assumption|exact H].
Qed.
Lemma fine_b_chrono fuel d : fine (b_timed_chrono fuel d).
Proof.
  induction fuel as [|fuel IH]; [apply fine_blocked|]. cbn [b_timed_chrono]. apply fine_bind; [apply fine_now|]. intros now.
  destruct (now <? d)%Z; [|apply fine_note]. apply fine_bind; [apply fine_at; intros r; apply emit_at; [exact I|discriminate]|]. intros ?.
  apply fine_bind; [apply fine_ask|]. intros k. apply fine_bind; [apply fine_b_rel|]. intros [|]; [apply fine_ret|exact IH].
Qed.
Lemma fine_g {A} (w : M A) : tri (at_state false true true) w (fun _ => at_state false true true) (at_state false true true) -> fine (g_shape w).
Proof.
  intros H. apply with_relocker_ok.
  eapply with_internal_at with (R := fun _ => at_state false true true) (Y := fun s => at_state true true false s \/ at_state false true true s).
  - eapply tri_bind; [eapply tri_conseq; [apply (relocker_unlock_at true)|auto|cbn; intros a s Hs; exact Hs|left; assumption]|].
    intros ?. eapply tri_conseq; [exact H|auto|auto|right; assumption].
  - intros a. eapply tri_conseq; [apply (set_intl_at false true true false (fun _ => False))|auto|right; assumption|intros ? []].
  - intros s [Hs|Hs]; cbn; [left|right]; st_ok.
  - left; assumption.
Qed.
Lemma fine_g_wait : fine g_wait.
Proof.
  apply fine_g. eapply tri_bind; [apply kernel_at|]. intros [| |]; [apply tri_ret; auto|apply tri_throw; auto|apply tri_throw; auto].
Qed.
Lemma fine_g_timed d : fine (g_timed d).
Proof.
  apply fine_g. eapply tri_bind; [apply kernel_at|]. intros [| |]; [apply tri_ret; auto|apply note_at|apply tri_throw; auto].
Qed.
Lemma fine_basic_wait i fuel : fine (basic_wait i fuel).
Proof. destruct i; [apply fine_p_wait|apply fine_b_wait|apply fine_g_wait]. Qed.
Lemma fine_basic_timed i k fuel n d : fine (basic_timed i k fuel n d).
Proof. destruct i, k; cbn [basic_timed]; auto using fine_p_rel, fine_p_abs, fine_p_chrono, fine_b_rel, fine_b_abs, fine_b_chrono, fine_g_timed. Qed.
Lemma fine_pred : fine pred.
Proof.
  apply fine_bind; [apply fine_ask|]. intros x s Hs. pose proof Hs as (Hu & _). unfold bind at 1, get_user. rewrite Hu.
  assert (H : forall v, match (emit (EvPred v true) ;;; ret v) s with (Val a, s') => held s' | (Exn, s') => out s' | _ => True end).
  { intros v. cbn. destruct Hs as (? & ? & ? & ?). refine (conj _ (conj _ (conj (snoc_ok _ _ _ _) (snoc_nin _ _ _ _)))); auto; [reflexivity|discriminate]. }
  destruct x as [|[|[|x]]]; [apply H|apply H| |apply H].
  cbn. left. destruct Hs as (? & ? & ? & ?). refine (conj _ (conj _ (conj (snoc_ok _ _ _ _) (snoc_nin _ _ _ _)))); auto; [exact I|discriminate].
Qed.
Lemma fine_wait_pred fuel w : fine w -> fine (wait_pred fuel w).
Proof.
  intros Hw. induction fuel as [|fuel IH]; [apply fine_blocked|]. cbn [wait_pred]. apply fine_bind; [apply fine_pred|]. intros [|]; [apply fine_ret|].
  apply fine_bind; [exact Hw|intros ?; exact IH].
Qed.
Lemma fine_timed_pred fuel w : fine w -> fine (timed_pred fuel w).
Proof.
  intros Hw. induction fuel as [|fuel IH]; [apply fine_blocked|]. cbn [timed_pred]. apply fine_bind; [apply fine_pred|]. intros [|]; [apply fine_ret|].
  apply fine_bind; [exact Hw|intros [|]; [exact IH|apply fine_pred]].
Qed.

(** ** C28 *)
Definition start (o : list nat) : st := ST o true false false [].
Inductive wait_fn := FWait (i : impl) | FTimed (i : impl) (k : tkind) (n : nat) (d : Z) | FWaitPred (i : impl) | FTimedPred (i : impl) (k : tkind) (n : nat) (d : Z).
(** What happens when a waiting function is called with the lock held, for a given sequence of answers: how it ends (returned / threw /
    terminated / still waiting) and the final state. *)
Definition forget {A} (r : res A) : res unit := match r with Val _ => Val tt | Exn => Exn | Term => Term | Blocked => Blocked end.
Definition outcome_of (f : wait_fn) (fuel : nat) (o : list nat) : res unit * st :=
  match f with
  | FWait i => let (r, s) := basic_wait i fuel (start o) in (forget r, s)
  | FTimed i k n d => let (r, s) := basic_timed i k fuel n d (start o) in (forget r, s)
  | FWaitPred i => let (r, s) := wait_pred fuel (basic_wait i fuel) (start o) in (forget r, s)
  | FTimedPred i k n d => let (r, s) := timed_pred fuel (basic_timed i k fuel n d) (start o) in (forget r, s)
  end.

Lemma start_held o : held (start o). Proof. unfold held. cbn. auto. Qed.
Lemma fine_outcome {A} (m : M A) o : fine m -> let (r, s) := m (start o) in (forget r = Val tt -> held s) /\ (forget r = Exn -> out s).
Proof. intros H. specialize (H (start o) (start_held o)). destruct (m (start o)) as [[ ] s]; cbn; split; auto; discriminate. Qed.

Lemma outcome_fine f fuel o : let (r, s) := outcome_of f fuel o in (r = Val tt -> held s) /\ (r = Exn -> out s).
Proof.
  destruct f; cbn [outcome_of].
  - pose proof (fine_outcome _ o (fine_basic_wait i fuel)) as H. destruct (basic_wait i fuel (start o)). exact H.
  - pose proof (fine_outcome _ o (fine_basic_timed i k fuel n d)) as H. destruct (basic_timed i k fuel n d (start o)). exact H.
  - pose proof (fine_outcome _ o (fine_wait_pred fuel _ (fine_basic_wait i fuel))) as H. destruct (wait_pred fuel (basic_wait i fuel) (start o)). exact H.
  - pose proof (fine_outcome _ o (fine_timed_pred fuel _ (fine_basic_timed i k fuel n d))) as H. destruct (timed_pred fuel (basic_timed i k fuel n d) (start o)). exact H.
Qed.

(** Every waiting function of every implementation, every sequence of answers from mutexes, kernel, clock, predicate and other
    threads: when it returns the caller's lock is held and the internal mutex is not; when it throws, likewise, unless what threw
    is the re-acquisition of the caller's lock itself; and the internal mutex is never held while the caller's lock is being re-acquired.
    Partial: see [C28_relock_failure_refuted] for the excluded case. *)
Theorem C28_lock_held_partial : forall f fuel o r s, outcome_of f fuel o = (r, s) ->
  (r = Val tt -> user s = true) /\
  (r = Exn -> user s = true \/ In EvLockFailed (log s)) /\
  (r = Val tt \/ r = Exn -> intl s = false /\ forall i, In (EvLockUser i) (log s) -> i = false).
Proof.
  intros f fuel o r s H. pose proof (outcome_fine f fuel o) as G. rewrite H in G. destruct G as (G1 & G2).
  split; [|split].
  - intros ->. apply (G1 eq_refl).
  - intros ->. destruct (G2 eq_refl) as [G|G]; [left; apply G|right; apply G].
  - intros [-> | ->]; [destruct (G1 eq_refl) as (_ & A & B & _)|destruct (G2 eq_refl) as [(_ & A & B & _)|(A & B & _)]];
      (split; [exact A|]); intros i Hi; rewrite Forall_forall in B; exact (B _ Hi).
Qed.
Print Assumptions C28_lock_held_partial.

(** Non-trivial runs: Windows wait() woken by a stale unit, then failing, then re-locking (throws with the lock held); generic
    timed wait timing out. *)
Example C28_example :
  outcome_of (FWait Windows) 5 [0; 0; 0; 0; 0; 7; 3; 0; 0; 0] =
    (Exn, ST [] true false true [EvEnlist true; EvUnlockUser false; EvKernel 0 false false; EvAnswer KWoken; EvFound false true;
       EvKernel 0 false false; EvAnswer KFailed; EvFound false true; EvLockUser false]) /\
  outcome_of (FTimed Generic Rel 0 5) 5 [0; 0; 2; 0] = (Val tt, ST [] true false true [EvUnlockUser true; EvKernel 5 false true; EvAnswer KExpired; EvTimeout; EvLockUser false]).
Proof. split; reflexivity. Qed.

(** If re-acquiring the caller's lock throws, the exception leaves the wait with the lock not held - and if an exception is already
    being propagated, the program is terminated. *)
Theorem C28_relock_failure_refuted : exists f o s, outcome_of f 5 o = (Exn, s) /\ user s = false /\
  exists o' s', outcome_of f 5 o' = (Term, s').
Proof. exists (FWait Generic), [0; 0; 0; 1], (ST [] false false true [EvUnlockUser true; EvKernel 0 false true; EvAnswer KWoken; EvLockFailed]). split; [reflexivity|]. split; [reflexivity|]. exists [0; 0; 1; 1], (snd (outcome_of (FWait Generic) 5 [0; 0; 1; 1])). vm_compute. reflexivity. Qed.
Print Assumptions C28_relock_failure_refuted.

(** ** C29 *)
(** Log extension by events satisfying [P]. *)
Definition ext {A} (P : ev -> Prop) (m : M A) : Prop := forall s, exists seg, log (snd (m s)) = log s ++ seg /\ Forall P seg.
Lemma ext_nil {A} P (m : M A) : (forall s, log (snd (m s)) = log s) -> ext P m.
Proof. intros H s. exists []. rewrite app_nil_r. auto. Qed.
Lemma ext_bind {A B} P (m : M A) (f : A -> M B) : ext P m -> (forall a, ext P (f a)) -> ext P (bind m f).
Proof.
  intros H1 H2 s. destruct (H1 s) as (g1 & E1 & F1). unfold bind. destruct (m s) as [r s']. cbn in E1. destruct r; cbn [snd]; eauto.
  destruct (H2 a s') as (g2 & E2 & F2). exists (g1 ++ g2). rewrite E2, E1, app_assoc. split; [reflexivity|apply Forall_app; auto].
Qed.
Lemma ext_finally {A} P (m : M A) d : ext P m -> ext P d -> ext P (finally m d).
Proof.
  intros H1 H2 s. destruct (H1 s) as (g1 & E1 & F1). unfold finally. destruct (m s) as [r s']. cbn in E1. destruct (H2 s') as (g2 & E2 & F2).
  destruct r; cbn [snd]; eauto; destruct (d s') as [[ ] s2]; cbn [snd] in *; exists (g1 ++ g2); rewrite E2, E1, app_assoc; (split; [reflexivity|apply Forall_app; auto]).
Qed.
Lemma ext_noexcept {A} P (m : M A) : ext P m -> ext P (noexcept m).
Proof. intros H s. destruct (H s) as (g & E & F). unfold noexcept. destruct (m s) as [[ ] s']; eauto. Qed.
Lemma ext_emit (P : ev -> Prop) e : P e -> ext P (emit e). Proof. intros H s. exists [e]. cbn. auto. Qed.
Lemma ext_ask P : ext P ask. Proof. apply ext_nil. intros s. unfold ask. destruct (orc s); reflexivity. Qed.

Definition no_pred (e : ev) : Prop := match e with EvPred _ _ => False | _ => True end.
Ltac quiet :=
  unfold fault; repeat (first [ apply ext_bind; [|intros ?] | apply ext_finally | apply ext_noexcept | apply ext_ask
                | apply ext_emit; exact I | apply ext_nil; reflexivity | assumption
                | match goal with |- ext _ (match ?x with _ => _ end) => destruct x end
                | match goal with |- ext _ (if ?x then _ else _) => destruct x end ]).

Lemma q_kernel b d : ext no_pred (kernel b d). Proof. unfold kernel. quiet. Qed.
Lemma q_lock_user : ext no_pred lock_user. Proof. unfold lock_user. quiet. Qed.
Lemma q_unlock_user : ext no_pred unlock_user. Proof. unfold unlock_user. quiet. Qed.
Lemma q_internal {A} (m : M A) : ext no_pred m -> ext no_pred (with_internal m).
Proof. intros H. unfold with_internal, lock_intl, unlock_intl. quiet. Qed.
Lemma q_relocker {A} (m : M A) : ext no_pred m -> ext no_pred (with_relocker m).
Proof. intros H. unfold with_relocker, relocker_dtor. quiet; auto using q_lock_user. Qed.
Lemma q_check : ext no_pred check_notified. Proof. apply q_internal. quiet. Qed.
Lemma q_init : ext no_pred initiate_wait. Proof. apply q_internal. quiet. Qed.
Lemma q_runlock : ext no_pred relocker_unlock. Proof. unfold relocker_unlock. quiet; auto using q_unlock_user. Qed.
Lemma q_note x : ext no_pred (note x). Proof. unfold note. quiet. Qed.
Lemma q_now : ext no_pred clock_now. Proof. unfold clock_now. quiet. Qed.
Lemma q_priv_wait fuel : ext no_pred (b_priv_wait fuel).
Proof. induction fuel; cbn [b_priv_wait]; quiet; try apply q_kernel; try apply q_check. Qed.
Lemma q_priv_timed fuel n : ext no_pred (b_priv_timed fuel n).
Proof. revert n; induction fuel; intros n; cbn [b_priv_timed]; quiet; try apply q_kernel; try apply q_check; try apply q_note; auto. Qed.
Lemma q_priv_timer fuel d : ext no_pred (b_priv_timer fuel d).
Proof. induction fuel; cbn [b_priv_timer]; quiet; try apply q_kernel; try apply q_check; try apply q_note. Qed.
Lemma q_b_rel fuel n : ext no_pred (b_timed_rel fuel n).
Proof. apply q_relocker. quiet; auto using q_init, q_runlock, q_priv_timed. Qed.
Ltac quiet2 :=
  unfold fault; repeat (first [ apply q_kernel | apply q_now | apply q_note | apply q_b_rel | apply q_init | apply q_runlock | apply q_priv_wait | apply q_priv_timer | apply q_priv_timed
                | apply ext_bind; [|intros ?] | apply ext_finally | apply ext_noexcept | apply ext_ask
                | apply ext_emit; exact I | apply ext_nil; reflexivity | assumption
                | match goal with |- ext _ (match ?x with _ => _ end) => destruct x end
                | match goal with |- ext _ (if ?x then _ else _) => destruct x end ]).
Lemma q_basic_wait i fuel : ext no_pred (basic_wait i fuel).
Proof.
  destruct i; cbn [basic_wait].
  - unfold p_wait. quiet2.
  - apply q_relocker. quiet2; auto using q_init, q_runlock, q_priv_wait.
  - apply q_relocker, q_internal. quiet2; auto using q_runlock.
Qed.
Lemma q_p_rel d : ext no_pred (p_timed_rel d). Proof. unfold p_timed_rel, p_timed_abs. quiet2; auto using q_now, q_note. Qed.
Lemma q_basic_timed i k fuel n d : ext no_pred (basic_timed i k fuel n d).
Proof.
  destruct i; [destruct k|destruct k|assert (H : ext no_pred (g_timed d)) by (apply q_relocker, q_internal; quiet2; auto using q_runlock, q_note); destruct k; exact H]; cbn [basic_timed].
  - apply q_p_rel.
  - unfold p_timed_abs. quiet2; auto using q_note.
  - induction fuel as [|fuel IH]; cbn [p_timed_chrono]; quiet2; auto using q_now, q_note, q_p_rel.
  - apply q_b_rel.
  - apply q_relocker. quiet2; auto using q_init, q_runlock, q_priv_timer.
  - induction fuel as [|fuel IH]; cbn [b_timed_chrono]; quiet2; auto using q_now, q_note, q_b_rel.
Qed.

(** A wait that reports a timeout has recorded one. *)
Definition tells (w : M status) : Prop := forall s s', w s = (Val Timeout, s') -> exists seg, log s' = log s ++ seg /\ In EvTimeout seg.
Definition mono {A} (m : M A) : Prop := ext (fun _ => True) m.
Lemma mono_of {A} P (m : M A) : ext P m -> mono m.
Proof. intros H s. destruct (H s) as (g & E & F). exists g. split; [exact E|]. apply Forall_forall. auto. Qed.
Lemma tells_bind {A} (m : M A) (f : A -> M status) : mono m -> (forall a, tells (f a)) -> tells (bind m f).
Proof.
  intros H1 H2 s s' H. unfold bind in H. destruct (H1 s) as (g1 & E1 & _). destruct (m s) as [r s1]. cbn in E1. destruct r; try discriminate.
  destruct (H2 a s1 s' H) as (g2 & E2 & I2). exists (g1 ++ g2). rewrite E2, E1, app_assoc. split; [reflexivity|apply in_or_app; auto].
Qed.
Lemma tells_bind_status (m : M status) (f : status -> M status) : mono m -> tells (f NoTimeout) -> tells (f Timeout) -> tells (bind m f).
Proof. intros H1 H2 H3. apply tells_bind; [assumption|]. intros [|]; assumption. Qed.
Lemma tells_finally (m : M status) d : tells m -> mono d -> tells (finally m d).
Proof.
  intros H1 H2 s s' H. unfold finally in H. destruct (m s) as [r s1] eqn:Em. destruct (H2 s1) as (g2 & E2 & _).
  destruct r; destruct (d s1) as [[ ] s2] eqn:Ed; try discriminate. inversion H; subst. destruct (H1 _ _ Em) as (g1 & E1 & I1).
  cbn in E2. exists (g1 ++ g2). rewrite E2, E1, app_assoc. split; [reflexivity|apply in_or_app; auto].
Qed.
Lemma tells_note x : tells (note x).
Proof. intros s s' H. destruct x; cbn in H; inversion H; subst. exists [EvTimeout]. cbn. auto. Qed.
Lemma tells_ret : tells (ret NoTimeout). Proof. intros s s' H. inversion H. Qed.
Lemma tells_throw : tells throw. Proof. intros s s' H. inversion H. Qed.
Lemma tells_blocked : tells (fun s => (Blocked, s)). Proof. intros s s' H. inversion H. Qed.
Lemma m_emit e : mono (emit e). Proof. intros s. exists [e]. cbn. auto. Qed.
Lemma m_ask : mono ask. Proof. apply ext_ask. Qed.
Lemma m_check : mono check_notified. Proof. apply (mono_of _ _ q_check). Qed.
Lemma m_init : mono initiate_wait. Proof. apply (mono_of _ _ q_init). Qed.
Lemma m_runlock : mono (noexcept relocker_unlock). Proof. apply ext_noexcept, (mono_of _ _ q_runlock). Qed.
Lemma m_kernel b d : mono (kernel b d). Proof. apply (mono_of _ _ (q_kernel b d)). Qed.
Lemma m_now : mono clock_now. Proof. apply (mono_of _ _ q_now). Qed.
Lemma m_dtor : mono relocker_dtor.
Proof. apply (mono_of no_pred). unfold relocker_dtor. quiet; auto using q_lock_user. Qed.

Ltac tell := unfold fault; repeat (first [ apply tells_ret | apply tells_throw | apply tells_note | apply tells_blocked | assumption
   | apply tells_bind; [first [apply m_emit | apply m_kernel | apply m_ask | apply m_check | apply m_init | apply m_runlock | apply m_now]|intros ?]
   | match goal with |- tells (match ?x with _ => _ end) => destruct x end
   | match goal with |- tells (if ?x then _ else _) => destruct x end ]).

Lemma tells_relocker (m : M status) : tells m -> tells (with_relocker m).
Proof. intros H. apply tells_bind; [apply ext_nil; reflexivity|]. intros ?. apply tells_finally; [exact H|apply m_dtor]. Qed.
Lemma tells_p_rel d : tells (p_timed_rel d). Proof. unfold p_timed_rel, p_timed_abs. tell. Qed.
Lemma tells_b_rel fuel n : tells (b_timed_rel fuel n).
Proof. apply tells_relocker. tell. revert n; induction fuel as [|fuel IH]; intros n; cbn [b_priv_timed]; tell; auto. Qed.
Lemma tells_basic i k fuel n d : tells (basic_timed i k fuel n d).
Proof.
  destruct i; [destruct k|destruct k|]; cbn [basic_timed].
  - apply tells_p_rel.
  - unfold p_timed_abs. tell.
  - induction fuel as [|fuel IH]; cbn [p_timed_chrono]; tell.
    apply tells_bind_status; [apply (mono_of _ _ (q_p_rel _))|apply tells_ret|exact IH].
  - apply tells_b_rel.
  - apply tells_relocker. tell. all: induction fuel as [|fuel IH]; cbn [b_priv_timer]; tell.
  - induction fuel as [|fuel IH]; cbn [b_timed_chrono]; tell.
    apply tells_bind_status; [apply (mono_of _ _ (q_b_rel _ _))|apply tells_ret|exact IH].
  - assert (H : tells (g_timed d)).
    { apply tells_relocker. unfold with_internal. apply tells_bind; [apply (mono_of no_pred); unfold lock_intl; quiet|]. intros ?.
      apply tells_finally; [|apply ext_nil; reflexivity]. apply tells_bind; [apply (mono_of _ _ q_runlock)|]. intros ?. tell. }
    destruct k; exact H.
Qed.

(** The predicate evaluations recorded in a log, in order. *)
Definition pvals (l : list ev) : list bool := flat_map (fun e => match e with EvPred v _ => [v] | _ => [] end) l.
Lemma pvals_app a b : pvals (a ++ b) = pvals a ++ pvals b. Proof. apply flat_map_app. Qed.
Lemma pvals_quiet l : Forall no_pred l -> pvals l = [].
Proof. induction 1 as [|e l H _ IH]; [reflexivity|]. destruct e; cbn in *; tauto. Qed.
Definition kernel_calls (l : list ev) : nat := length (filter (fun e => match e with EvKernel _ _ _ => true | _ => false end) l).

Lemma pred_run s v s' : pred s = (Val v, s') -> exists u, log s' = log s ++ [EvPred v u].
Proof.
  unfold pred, bind, ask, get_user, emit, ret, throw. destruct (orc s) as [|x r]; [discriminate|]. cbn.
  destruct x as [|[|[|x]]]; intros H; inversion H; subst; cbn; eauto.
Qed.

Lemma timed_pred_run w fuel s v s' : ext no_pred w -> tells w -> timed_pred fuel w s = (Val v, s') ->
  exists seg, log s' = log s ++ seg /\
    (exists vs, pvals seg = vs ++ [v]) /\ (v = false -> In EvTimeout seg) /\ (hd_error (pvals seg) = Some true -> v = true /\ seg = [EvPred true (user s)]).
Proof.
  intros Hw Ht. revert s. induction fuel as [|fuel IH]; intros s H; [discriminate|]. cbn [timed_pred] in H. unfold bind at 1 in H.
  destruct (pred s) as [r s1] eqn:Ep. destruct r as [b| | |]; try discriminate. destruct (pred_run _ _ _ Ep) as (u & E1).
  assert (Hu : u = user s).
  { revert Ep E1. clear. unfold pred, bind, ask, get_user, emit, ret, throw. destruct (orc s) as [|x r]; [discriminate|]. cbn.
    destruct x as [|[|[|x]]]; intros H; inversion H; subst; cbn; intros E; apply app_inj_tail in E; destruct E as (_ & E); congruence. }
  subst u. destruct b.
  - inversion H; subst. eexists. split; [exact E1|]. cbn. repeat split; try discriminate. exists []. reflexivity.
  - unfold bind in H. destruct (Hw s1) as (g2 & E2 & F2). destruct (w s1) as [r2 s2] eqn:Ew. cbn in E2. destruct r2 as [[|]| | |]; try discriminate.
    + destruct (IH s2 H) as (g3 & E3 & (vs & V3) & F3 & _). eexists. split; [rewrite E3, E2, E1, <- !app_assoc; reflexivity|].
      rewrite !pvals_app, V3, (pvals_quiet _ F2). cbn. repeat split; try discriminate.
      * exists (false :: vs). reflexivity.
      * intros Hf. right. apply in_or_app. right. auto.
    + destruct (Ht _ _ Ew) as (g2' & E2' & I2). rewrite E2 in E2'. apply app_inv_head in E2'. subst g2'.
      destruct (pred_run _ _ _ H) as (u & E3). eexists. split; [rewrite E3, E2, E1, <- !app_assoc; reflexivity|].
      rewrite !pvals_app, (pvals_quiet _ F2). cbn. repeat split; try discriminate.
      * exists [false]. reflexivity.
      * intros Hf. right. apply in_or_app. left. assumption.
Qed.

(** wait_for / wait_until / timed_wait with a predicate, all implementations and kinds of time, all sequences of answers: if it returns
    [v], then [v] is the value of the last evaluation of the predicate; if [v] is false some inner wait reported a timeout; if the
    first evaluation was true nothing else was done at all; every evaluation was made with the lock held. *)
Theorem C29_timed_wait_pred : forall i k n d fuel o v s,
  timed_pred fuel (basic_timed i k fuel n d) (start o) = (Val v, s) ->
  last (pvals (log s)) (negb v) = v /\
  (v = false -> In EvTimeout (log s)) /\
  (hd_error (pvals (log s)) = Some true -> v = true /\ log s = [EvPred true true]) /\
  (forall x u, In (EvPred x u) (log s) -> u = true).
Proof.
  intros i k n d fuel o v s H.
  destruct (timed_pred_run _ _ _ _ _ (q_basic_timed i k fuel n d) (tells_basic i k fuel n d) H) as (seg & E & (vs & V) & F & G).
  cbn in E. subst seg. rewrite V in *. split; [rewrite last_last; reflexivity|]. split; [exact F|]. split; [exact G|].
  intros x u Hu. pose proof (fine_timed_pred fuel _ (fine_basic_timed i k fuel n d) (start o) (start_held o)) as Hh. rewrite H in Hh.
  destruct Hh as (_ & _ & Ha & _). rewrite Forall_forall in Ha. exact (Ha _ Hu).
Qed.
Print Assumptions C29_timed_wait_pred.

Lemma wait_pred_run w fuel s s' : ext no_pred w -> wait_pred fuel w s = (Val tt, s') ->
  exists seg, log s' = log s ++ seg /\ (exists n, pvals seg = repeat false n ++ [true]) /\
    (hd_error (pvals seg) = Some true -> kernel_calls seg = O).
Proof.
  intros Hw. revert s. induction fuel as [|fuel IH]; intros s H; [discriminate|]. cbn [wait_pred] in H. unfold bind at 1 in H.
  destruct (pred s) as [r s1] eqn:Ep. destruct r as [b| | |]; try discriminate. destruct (pred_run _ _ _ Ep) as (u & E1). destruct b.
  - inversion H; subst. eexists. split; [exact E1|]. split; [exists O; reflexivity|reflexivity].
  - unfold bind in H. destruct (Hw s1) as (g2 & E2 & F2). destruct (w s1) as [r2 s2] eqn:Ew. cbn in E2. destruct r2 as [[]| | |]; try discriminate.
    destruct (IH s2 H) as (g3 & E3 & (m & V3) & _). eexists. split; [rewrite E3, E2, E1, <- !app_assoc; reflexivity|].
    rewrite !pvals_app, V3, (pvals_quiet _ F2). cbn. split; [exists (S m); reflexivity|discriminate].
Qed.

(** wait(lock, pred): it returns exactly at the first evaluation that gives true, always with the lock held, and never waits if
    that is the first one. *)
Theorem C29_wait_pred : forall i fuel o s, wait_pred fuel (basic_wait i fuel) (start o) = (Val tt, s) ->
  (exists n, pvals (log s) = repeat false n ++ [true]) /\
  (hd_error (pvals (log s)) = Some true -> kernel_calls (log s) = O) /\
  (forall x u, In (EvPred x u) (log s) -> u = true).
Proof.
  intros i fuel o s H. destruct (wait_pred_run _ _ _ _ (q_basic_wait i fuel) H) as (seg & E & V & G). cbn in E. subst seg.
  split; [exact V|]. split; [exact G|].
  intros x u Hu. pose proof (fine_wait_pred fuel _ (fine_basic_wait i fuel) (start o) (start_held o)) as Hh. rewrite H in Hh.
  destruct Hh as (_ & _ & Ha & _). rewrite Forall_forall in Ha. exact (Ha _ Hu).
Qed.
Print Assumptions C29_wait_pred.

Example C29_example :
  timed_pred 9 (basic_timed Posix Abs 9 0 7) (start [0; 0; 0; 2; 0]) =
    (Val false, ST [] true false false [EvPred false true; EvKernel 7 true false; EvAnswer KWoken; EvPred false true;
       EvKernel 7 true false; EvAnswer KExpired; EvTimeout; EvPred false true]) /\
  timed_pred 9 (basic_timed Windows Rel 9 1 0) (start [0; 0; 0; 0; 2; 0; 0; 0; 1]) =
    (Val true, ST [] true false true [EvPred false true; EvEnlist true; EvUnlockUser false; EvKernel 0 false false; EvAnswer KExpired;
       EvFound false true; EvTimeout; EvLockUser false; EvPred true true]).
Proof. split; reflexivity. Qed.
