(** Property theorems: what a wait on a condition variable reports, when it throws, and in which circumstances it waits (C75). *)
From Coq Require Import List Bool ZArith Lia.
From Verif Require Import CvWaitModel PropsCvWait.
Import ListNotations.

(** ** Reading a log *)
(** The answers a waiting function has received: how kernel waits ended, what the looks for a notification found, what the clock said. *)
Definition answers (l : list ev) : list ev :=
  filter (fun e => match e with EvAnswer _ | EvFound _ _ | EvClock _ => true | _ => false end) l.
(** Calls that failed. *)
Definition failure (e : ev) : bool := match e with EvFault | EvLockFailed | EvAnswer KFailed => true | _ => false end.
Definition expiries (l : list ev) : nat := length (filter (fun e => match e with EvAnswer KExpired => true | _ => false end) l).

(** Which function is running: implementation, kind of deadline (none for wait) and the time value it was called with. *)
Record called := CALL { c_impl : impl; c_kind : option tkind; c_time : Z }.

(** What the result has to be based on. *)
Definition woken (i : impl) : list ev := match i with Windows => [EvFound true true] | _ => [EvAnswer KWoken] end.
Definition based_on (c : called) (r : status) (l : list ev) : Prop :=
  match r with
  | NoTimeout => exists p, answers l = p ++ woken (c_impl c)
  | Timeout =>
      match c_impl c, c_kind c with
      | _, None => False
      | Windows, Some Rel => exists p, answers l = p ++ [EvFound false true]
      | Windows, Some Abs => exists p, answers l = p ++ [EvAnswer KExpired; EvFound false true]
      | Posix, Some Chrono | Windows, Some Chrono => exists p m, answers l = p ++ [EvClock m] /\ (c_time c <= m)%Z
      | _, Some _ => exists p, answers l = p ++ [EvAnswer KExpired]
      end
  end.

(** The deadline passed to the kernel after [a] has happened. *)
Definition due (c : called) (a : list ev) (t : Z) : Prop :=
  match c_impl c, c_kind c with
  | _, None => True
  | Posix, Some Rel => exists a' n, a = a' ++ [EvClock n] /\ (t = n + c_time c)%Z
  | Posix, Some Chrono => exists a' m n, a = a' ++ [EvClock m; EvClock n] /\ (m < c_time c)%Z /\ (t = n + (c_time c - m))%Z
  | Windows, Some Rel | Windows, Some Chrono => True
  | _, Some _ => t = c_time c
  end.
Definition is_posix (i : impl) : bool := match i with Posix => true | _ => false end.
Definition is_generic (i : impl) : bool := match i with Generic => true | _ => false end.
(** Being woken: what makes a wait return without a timeout. *)
Definition wake (i : impl) (e : ev) : bool :=
  match e with EvFound true _ => negb (is_posix i || is_generic i) | EvAnswer KWoken => is_posix i || is_generic i | _ => false end.
(** Woken and the predicate not evaluated since. *)
Definition ripe (i : impl) (l : list ev) : bool := fold_left (fun b e => match e with EvPred _ _ => false | _ => b || wake i e end) l false.
(** What must hold when [e] happens after [a]. *)
Definition proper (c : called) (a : list ev) (e : ev) : Prop :=
  match e with
  | EvKernel t u h => u = is_posix (c_impl c) /\ h = is_generic (c_impl c) /\ due c a t /\ ripe (c_impl c) a = false
  | EvFor z => exists a' m, a = a' ++ [EvClock m] /\ (m < c_time c)%Z /\ (z = c_time c - m)%Z
  | EvUnlockUser h => match c_impl c with Posix => False | Windows => h = false /\ exists a', a = a' ++ [EvEnlist true] | Generic => h = true end
  | EvEnlist h => h = true
  | EvFound _ h => h = true
  | _ => True
  end.
Definition proper_log (c : called) (l : list ev) : Prop := forall a e b, l = a ++ e :: b -> proper c a e.

Lemma proper_nil c : proper_log c []. Proof. intros [|x a] e b H; discriminate. Qed.
Lemma proper_snoc c l e : proper_log c l -> proper c l e -> proper_log c (l ++ [e]).
Proof.
  intros H He a x b E. assert (Hb : b = [] \/ exists b' y, b = b' ++ [y]) by (destruct b as [|z b0]; [left; reflexivity|right; destruct (@exists_last _ (z :: b0) ltac:(discriminate)) as (b' & y & Eb); exists b', y; exact Eb]).
  destruct Hb as [-> | (b' & y & ->)].
  - apply app_inj_tail in E. destruct E as (<- & <-). exact He.
  - change (a ++ x :: b' ++ [y]) with (a ++ (x :: b') ++ [y]) in E. rewrite app_assoc in E. apply app_inj_tail in E. destruct E as (-> & _). eapply H. reflexivity.
Qed.

Lemma answers_snoc l e : answers (l ++ [e]) = answers l ++ answers [e]. Proof. unfold answers. apply filter_app. Qed.
Definition faultless (l : list ev) : Prop := forall e, In e l -> failure e = false.
Definition faulty (l : list ev) : Prop := exists e, In e l /\ failure e = true.
Lemma faultless_snoc l e : faultless l -> failure e = false -> faultless (l ++ [e]).
Proof. intros H He x Hx. apply in_app_or in Hx. destruct Hx as [Hx|[<- |[]]]; auto. Qed.
Lemma faulty_l l e : faulty l -> faulty (l ++ [e]).
Proof. intros (x & Hx & Hf). exists x. split; [apply in_or_app; auto|exact Hf]. Qed.
Lemma faulty_r l e : failure e = true -> faulty (l ++ [e]).
Proof. intros Hf. exists e. split; [apply in_or_app; right; left; reflexivity|exact Hf]. Qed.
Lemma ripe_snoc i l e : ripe i (l ++ [e]) = match e with EvPred _ _ => false | _ => ripe i l || wake i e end.
Proof. unfold ripe. rewrite fold_left_app. reflexivity. Qed.

(** ** Weakest preconditions; postconditions speak about the caller's lock, the internal mutex, the relocker flag and the log, for every outcome *)
Definition pst := bool -> bool -> bool -> list ev -> Prop.
Definition wp {A} (m : M A) (V : A -> pst) (E T Z : pst) : pst := fun u i r l => forall o,
  match m (ST o u i r l) with
  | (Val a, s) => V a (user s) (intl s) (rel s) (log s)
  | (Exn, s) => E (user s) (intl s) (rel s) (log s)
  | (Term, s) => T (user s) (intl s) (rel s) (log s)
  | (Blocked, s) => Z (user s) (intl s) (rel s) (log s)
  end.
Section WP.
  Context {A : Type} (V : A -> pst) (E T Z : pst) (u i r : bool) (l : list ev).
  Lemma wp_ret a : V a u i r l -> wp (ret a) V E T Z u i r l. Proof. intros H o. exact H. Qed.
  Lemma wp_throw : E u i r l -> wp throw V E T Z u i r l. Proof. intros H o. exact H. Qed.
  Lemma wp_blocked : Z u i r l -> wp (fun s => (Blocked, s)) V E T Z u i r l. Proof. intros H o. exact H. Qed.
  Lemma wp_bind {B} (m : M B) f : wp m (fun b => wp (f b) V E T Z) E T Z u i r l -> wp (bind m f) V E T Z u i r l.
  Proof. intros H o. specialize (H o). unfold bind. destruct (m _) as [[a| | |] [o' u' i' r' l']]; cbn [user intl rel log] in *; auto. apply H. Qed.
  Lemma wp_finally (m : M A) d : wp m (fun a => wp d (fun _ => V a) E T Z) (wp d (fun _ => E) T T Z) T Z u i r l -> wp (finally m d) V E T Z u i r l.
  Proof.
    intros H o. specialize (H o). unfold finally. destruct (m _) as [[a| | |] [o' u' i' r' l']]; cbn [user intl rel log] in *; auto;
      specialize (H o'); destruct (d _) as [[| | |] ?]; exact H.
  Qed.
  Lemma wp_noexcept (m : M A) : wp m V T T Z u i r l -> wp (noexcept m) V E T Z u i r l.
  Proof. intros H o. specialize (H o). unfold noexcept. destruct (m _) as [[a| | |] s]; exact H. Qed.
  Lemma wp_fault : E u i r (l ++ [EvFault]) -> wp fault V E T Z u i r l. Proof. intros H o. exact H. Qed.
  Lemma wp_weaken (m : M A) (V' : A -> pst) (E' T' Z' : pst) : wp m V' E' T' Z' u i r l ->
    (forall a u i r l, V' a u i r l -> V a u i r l) -> (forall u i r l, E' u i r l -> E u i r l) -> (forall u i r l, T' u i r l -> T u i r l) ->
    (forall u i r l, Z' u i r l -> Z u i r l) -> wp m V E T Z u i r l.
  Proof. intros H H1 H2 H3 H4 o. specialize (H o). destruct (m _) as [[a| | |] s]; auto. Qed.
End WP.
Section WPU.
  Context (V : unit -> pst) (E T Z : pst) (u i r : bool) (l : list ev).
  Lemma wp_emit e : V tt u i r (l ++ [e]) -> wp (emit e) V E T Z u i r l. Proof. intros H o. exact H. Qed.
  Lemma wp_set_rel b : V tt u i b l -> wp (set_rel b) V E T Z u i r l. Proof. intros H o. exact H. Qed.
  Lemma wp_unlock_intl : V tt u false r l -> wp unlock_intl V E T Z u i r l. Proof. intros H o. exact H. Qed.
  Lemma wp_lock_intl : Z u i r l -> E u i r (l ++ [EvFault]) -> V tt u true r l -> wp lock_intl V E T Z u i r l.
  Proof. intros H1 H2 H3 o. unfold lock_intl, bind, ask. destruct o as [|[|[|x]] o]; assumption. Qed.
  Lemma wp_lock_user : Z u i r l -> E u i r (l ++ [EvLockFailed]) -> V tt true i r (l ++ [EvLockUser i]) -> wp lock_user V E T Z u i r l.
  Proof. intros H1 H2 H3 o. unfold lock_user, bind, ask. destruct o as [|[|[|x]] o]; assumption. Qed.
  Lemma wp_unlock_user : Z u i r l -> E u i r (l ++ [EvFault]) -> V tt false i r (l ++ [EvUnlockUser i]) -> wp unlock_user V E T Z u i r l.
  Proof. intros H1 H2 H3 o. unfold unlock_user, bind, ask. destruct o as [|[|[|x]] o]; assumption. Qed.
End WPU.
Section WPW.
  Context (V : unit -> pst) (E T Z : pst) (u i r : bool) (l : list ev).
  Lemma wp_dtor : (r = false -> V tt u i r l) -> (r = true -> Z u i r l /\ E u i r (l ++ [EvLockFailed]) /\ V tt true i r (l ++ [EvLockUser i])) ->
    wp relocker_dtor V E T Z u i r l.
  Proof.
    intros H1 H2. unfold relocker_dtor. apply wp_bind. intros o. cbn. destruct r.
    - destruct (H2 eq_refl) as (? & ? & ?). apply wp_lock_user; assumption.
    - apply wp_ret. auto.
  Qed.
  Lemma wp_runlock : Z u i r l -> E u i r (l ++ [EvFault]) -> V tt false i true (l ++ [EvUnlockUser i]) -> wp relocker_unlock V E T Z u i r l.
  Proof. intros. unfold relocker_unlock. apply wp_bind, wp_unlock_user; auto. apply wp_set_rel. assumption. Qed.
  Lemma wp_init : Z u i r l -> E u i r (l ++ [EvFault]) -> Z u true r l -> E u false r (l ++ [EvFault]) -> V tt u false r (l ++ [EvEnlist true]) ->
    wp initiate_wait V E T Z u i r l.
  Proof.
    intros H1 H2 H3 H4 H5. unfold initiate_wait, with_internal. apply wp_bind, wp_lock_intl; auto. apply wp_finally. intros o.
    unfold bind, ask. destruct o as [|[|[|x]] o]; cbn; try assumption; apply wp_unlock_intl; assumption.
  Qed.
End WPW.
Lemma wp_ask (V : nat -> pst) (E T Z : pst) u i r l : Z u i r l -> (forall x, V x u i r l) -> wp ask V E T Z u i r l.
Proof. intros H1 H2 [|x o]; cbn; auto. Qed.
Lemma wp_now (V : Z -> pst) (E T Z : pst) u i r l : Z u i r l -> (forall n, V n u i r (l ++ [EvClock n])) -> wp clock_now V E T Z u i r l.
Proof. intros H1 H2 [|x o]; cbn; auto. Qed.
Lemma wp_pred (V : bool -> pst) (E T Z : pst) u i r l : Z u i r l -> E u i r (l ++ [EvFault]) -> (forall b, V b u i r (l ++ [EvPred b u])) -> wp pred V E T Z u i r l.
Proof. intros H1 H2 H3 [|[|[|[|x]]] o]; cbn; auto. Qed.
Lemma wp_kernel b d (V : kans -> pst) (E T Z : pst) u i r l : Z u i r (l ++ [EvKernel d u i]) ->
  (forall a, (b = false -> a <> KExpired) -> V a u i r ((l ++ [EvKernel d u i]) ++ [EvAnswer a])) -> wp (kernel b d) V E T Z u i r l.
Proof.
  intros H1 H2 [|x o]; unfold kernel, bind, get_user, get_intl, emit, ask, ret; cbn [user intl rel log orc]; [exact H1|].
  apply H2. intros ->. destruct x as [|[|[|x]]]; discriminate.
Qed.
Lemma wp_check (V : bool -> pst) (E T Z : pst) u r l : Z u false r l -> E u false r (l ++ [EvFault]) -> Z u true r l ->
  (forall b, V b u false r (l ++ [EvFound b true])) -> wp check_notified V E T Z u false r l.
Proof.
  intros H1 H2 H3 H4. unfold check_notified, with_internal. apply wp_bind, wp_lock_intl; auto. apply wp_finally. apply wp_bind, wp_ask; [assumption|].
  intros x o. apply wp_unlock_intl. apply H4.
Qed.

(** ** All waiting functions *)
Definition postE (c : called) : pst := fun _ _ _ l => proper_log c l /\ faulty l.
Definition postZ (c : called) : pst := fun _ _ _ l => proper_log c l.
Definition postV (c c' : called) (x : status) : pst := fun u i _ l =>
  u = true /\ i = false /\ proper_log c l /\ faultless l /\ based_on c' x l /\ (x = Timeout -> ripe (c_impl c) l = false).
(** The same while the caller's lock is released (Windows, inside the relocker's scope). *)
Definition innerV (c c' : called) (x : status) : pst := fun u i r l =>
  u = false /\ i = false /\ r = true /\ proper_log c l /\ faultless l /\ based_on c' x l /\ (x = Timeout -> ripe (c_impl c) l = false).
Definition innerE (c : called) : pst := fun _ i _ l => i = false /\ proper_log c l /\ faulty l.

Ltac split_all := repeat match goal with |- _ /\ _ => split end.
Ltac pl := first [assumption | apply proper_snoc; [pl|cbn [proper]; auto]].
Ltac fl := first [assumption | apply faultless_snoc; [fl|reflexivity]].
Ltac fy := first [assumption | apply faulty_r; reflexivity | apply faulty_l; fy].
Ltac rp := rewrite ?ripe_snoc; repeat match goal with H : ripe _ _ = false |- _ => rewrite H end; try match goal with H : c_impl _ = _ |- _ => rewrite H end; reflexivity.

Lemma based_snoc c x l e : answers [e] = [] -> based_on c x l -> based_on c x (l ++ [e]).
Proof. intros He. unfold based_on. rewrite answers_snoc, He, app_nil_r. auto. Qed.
Lemma wp_note r l (V : status -> pst) (E T Z : pst) u i : V Timeout u i r (l ++ [EvTimeout]) -> wp (note Timeout) V E T Z u i r l.
Proof. intros H o. exact H. Qed.
Lemma wp_relock {A} c c' (x : A -> status) (m : M A) r0 l :
  wp m (fun a => innerV c c' (x a)) (postE c) (postE c) (postZ c) true false false l ->
  wp (with_relocker m) (fun a => postV c c' (x a)) (postE c) (postE c) (postZ c) true false r0 l.
Proof.
  intros H. unfold with_relocker. apply wp_bind, wp_set_rel, wp_finally. eapply wp_weaken; [exact H|..]; auto.
  - intros a u i r l' (-> & -> & -> & Hp & Hf & Hb & Hu). apply wp_dtor; [discriminate|]. intros _. unfold postE, postZ, postV. split_all; auto; try pl; try fy; try fl.
    + apply based_snoc; auto. + intros Hx. specialize (Hu Hx). rp.
  - intros u i r l' (Hp & Hf). apply wp_dtor; unfold postE, postZ; intros ->; split_all; auto; try pl; try fy.
Qed.

Section Windows.
  Context (c : called) (Hc : c_impl c = Windows).
  Lemma kernel_proper l t : (c_kind c = Some Abs -> t = c_time c) -> ripe (c_impl c) l = false -> proper c l (EvKernel t false false).
  Proof. intros H Hr. cbn. unfold due. rewrite Hc in *. cbn. split_all; auto. destruct (c_kind c) as [[| |]|]; auto. Qed.
  Lemma wp_priv_wait fuel l : (c_kind c <> Some Abs) -> proper_log c l -> faultless l -> ripe (c_impl c) l = false ->
    wp (b_priv_wait fuel) (fun _ => innerV c c NoTimeout) (innerE c) (postE c) (postZ c) false false true l.
  Proof.
    intros Hk. revert l. induction fuel as [|fuel IH]; intros l Hp Hf Hr; cbn [b_priv_wait].
    { apply wp_blocked. exact Hp. }
    assert (Hp1 : proper_log c (l ++ [EvKernel 0 false false])) by (apply proper_snoc; [exact Hp|apply kernel_proper; [congruence|rp]]).
    apply wp_bind, wp_kernel; [exact Hp1|]. intros a Ha.
    assert (Hp2 : proper_log c ((l ++ [EvKernel 0 false false]) ++ [EvAnswer a])) by pl.
    destruct a; [|exfalso; apply Ha; reflexivity|].
    - apply wp_bind, wp_check.
      + exact Hp2. + unfold innerE. split_all; [reflexivity|pl|fy]. + exact Hp2.
      + intros [|].
        * apply wp_ret. unfold innerV. split_all; auto; [pl|fl| |discriminate]. cbn. rewrite answers_snoc. eexists. unfold woken. rewrite Hc. reflexivity.
        * apply IH; [pl|fl|rp].
    - apply wp_bind, wp_check.
      + exact Hp2. + unfold innerE. split_all; [reflexivity|pl|fy]. + exact Hp2.
      + intros b. apply wp_throw. unfold innerE. split_all; [reflexivity|pl|fy].
  Qed.

  (** The result a relative wait reports, also when it is part of a wait with a deadline on another clock. *)
  Let rc := CALL Windows (Some Rel) (c_time c).
  Lemma wp_priv_timed fuel n l : c_kind c <> Some Abs -> proper_log c l -> faultless l -> ripe (c_impl c) l = false ->
    wp (b_priv_timed fuel n) (innerV c rc) (innerE c) (postE c) (postZ c) false false true l.
  Proof.
    intros Hk. revert n l. induction fuel as [|fuel IH]; intros n l Hp Hf Hr; cbn [b_priv_timed].
    { apply wp_blocked. exact Hp. }
    destruct n as [|n].
    - apply wp_bind, wp_check.
      + exact Hp. + unfold innerE. split_all; [reflexivity|pl|fy]. + exact Hp.
      + intros [|].
        * apply wp_ret. unfold innerV. split_all; auto; [pl|fl| |discriminate]. cbn. rewrite answers_snoc. eexists. reflexivity.
        * apply wp_note. unfold innerV. split_all; auto; [pl|fl| |intros; rp]. cbn. rewrite !answers_snoc. cbn [answers filter]. rewrite app_nil_r. eexists. reflexivity.
    - assert (Hp1 : proper_log c (l ++ [EvKernel 0 false false])) by (apply proper_snoc; [exact Hp|apply kernel_proper; [congruence|rp]]).
      apply wp_bind, wp_kernel; [exact Hp1|]. intros a _.
      assert (Hp2 : proper_log c ((l ++ [EvKernel 0 false false]) ++ [EvAnswer a])) by pl.
      destruct a.
      + apply wp_bind, wp_check.
        * exact Hp2. * unfold innerE. split_all; [reflexivity|pl|fy]. * exact Hp2.
        * intros [|].
          -- apply wp_ret. unfold innerV. split_all; auto; [pl|fl| |discriminate]. cbn. rewrite answers_snoc. eexists. reflexivity.
          -- apply IH; [pl|fl|rp].
      + apply IH; [pl|fl|rp].
      + apply wp_bind, wp_check.
        * exact Hp2. * unfold innerE. split_all; [reflexivity|pl|fy]. * exact Hp2.
        * intros b. apply wp_throw. unfold innerE. split_all; [reflexivity|pl|fy].
  Qed.
  Lemma wp_priv_timer fuel l : c_kind c = Some Abs -> proper_log c l -> faultless l -> ripe (c_impl c) l = false ->
    wp (b_priv_timer fuel (c_time c)) (innerV c c) (innerE c) (postE c) (postZ c) false false true l.
  Proof.
    intros Hk. revert l. induction fuel as [|fuel IH]; intros l Hp Hf Hr; cbn [b_priv_timer].
    { apply wp_blocked. exact Hp. }
    assert (Hp1 : proper_log c (l ++ [EvKernel (c_time c) false false])) by (apply proper_snoc; [exact Hp|apply kernel_proper; [congruence|rp]]).
    apply wp_bind, wp_kernel; [exact Hp1|]. intros a _.
    assert (Hp2 : proper_log c ((l ++ [EvKernel (c_time c) false false]) ++ [EvAnswer a])) by pl.
    destruct a; apply wp_bind, wp_check; try exact Hp2; try (unfold innerE; split_all; [reflexivity|pl|fy]).
    - intros [|].
      + apply wp_ret. unfold innerV. split_all; auto; [pl|fl| |discriminate]. cbn. rewrite answers_snoc, Hc. eexists. reflexivity.
      + apply IH; [pl|fl|rp].
    - intros [|].
      + apply wp_ret. unfold innerV. split_all; auto; [pl|fl| |discriminate]. cbn. rewrite answers_snoc, Hc. eexists. reflexivity.
      + apply wp_note. unfold innerV. split_all; auto; [pl|fl| |intros; rp]. cbn. rewrite !answers_snoc, Hc, Hk. cbn [answers filter]. rewrite <- !app_assoc. cbn. eexists. reflexivity.
    - intros b. apply wp_throw. unfold innerE. split_all; [reflexivity|pl|fy].
  Qed.
  Lemma innerE_post u i r l : innerE c u i r l -> postE c u i r l. Proof. intros (_ & H). exact H. Qed.

  (** Registering and releasing the caller's lock before the wait proper. *)
  Lemma wp_enter {A} (x : A -> status) c' (m : M A) l : proper_log c l -> faultless l -> ripe (c_impl c) l = false ->
    (forall l', proper_log c l' -> faultless l' -> ripe (c_impl c) l' = false -> wp m (fun a => innerV c c' (x a)) (innerE c) (postE c) (postZ c) false false true l') ->
    wp (initiate_wait ;;; noexcept relocker_unlock ;;; m) (fun a => innerV c c' (x a)) (postE c) (postE c) (postZ c) true false false l.
  Proof.
    intros Hp Hf Hr Hm. apply wp_bind, wp_init; try exact Hp; try (unfold postE; split; [pl|fy]).
    apply wp_bind, wp_noexcept, wp_runlock; try (unfold postE; split; [pl|fy]); [unfold postZ; pl|].
    eapply wp_weaken; [apply Hm|..]; auto using innerE_post.
    - apply proper_snoc; [pl|]. cbn. rewrite Hc. split; [reflexivity|]. exists l. reflexivity.
    - fl.
    - rp.
  Qed.
  Lemma wp_b_wait fuel r l : c_kind c <> Some Abs -> proper_log c l -> faultless l -> ripe (c_impl c) l = false ->
    wp (b_wait fuel) (fun _ => postV c c NoTimeout) (postE c) (postE c) (postZ c) true false r l.
  Proof. intros. apply (wp_relock c c (fun _ => NoTimeout)), (wp_enter (fun _ => NoTimeout)); auto. intros. apply wp_priv_wait; auto. Qed.
  Lemma wp_b_rel fuel n r l : c_kind c <> Some Abs -> proper_log c l -> faultless l -> ripe (c_impl c) l = false ->
    wp (b_timed_rel fuel n) (postV c rc) (postE c) (postE c) (postZ c) true false r l.
  Proof. intros. apply (wp_relock c rc (fun x => x)), (wp_enter (fun x => x)); auto. intros. apply wp_priv_timed; auto. Qed.
  Lemma wp_b_abs fuel r l : c_kind c = Some Abs -> proper_log c l -> faultless l -> ripe (c_impl c) l = false ->
    wp (b_timed_abs fuel (c_time c)) (postV c c) (postE c) (postE c) (postZ c) true false r l.
  Proof.
    intros Hk Hp Hf Hr. apply (wp_relock c c (fun x => x)). apply wp_bind, wp_ask; [exact Hp|]. intros x.
    assert (H : wp (initiate_wait ;;; noexcept relocker_unlock ;;; b_priv_timer fuel (c_time c)) (innerV c c) (postE c) (postE c) (postZ c) true false false l)
      by (apply (wp_enter (fun x => x)); auto; intros; apply wp_priv_timer; auto).
    destruct x as [|[|x]]; try exact H. apply wp_fault. unfold postE. split; [pl|fy].
  Qed.
  Lemma wp_b_chrono fuel r l : c_kind c = Some Chrono -> proper_log c l -> faultless l -> ripe (c_impl c) l = false ->
    wp (b_timed_chrono fuel (c_time c)) (postV c c) (postE c) (postE c) (postZ c) true false r l.
  Proof.
    intros Hk. revert r l. induction fuel as [|fuel IH]; intros r l Hp Hf Hr; cbn [b_timed_chrono].
    { apply wp_blocked. exact Hp. }
    apply wp_bind, wp_now; [exact Hp|]. intros m. destruct (m <? c_time c)%Z eqn:Em; [apply Z.ltb_lt in Em|apply Z.ltb_ge in Em].
    - assert (Hp1 : proper_log c ((l ++ [EvClock m]) ++ [EvFor (c_time c - m)])) by (apply proper_snoc; [pl|]; cbn; exists l, m; auto).
      apply wp_bind, wp_emit, wp_bind, wp_ask; [exact Hp1|]. intros n.
      apply wp_bind. eapply wp_weaken; [apply wp_b_rel; [congruence|exact Hp1|fl|rp]|..]; auto.
      intros x u i r' l' (-> & -> & Hp' & Hf' & Hb & Hu). destruct x.
      + apply wp_ret. unfold postV. split_all; auto. cbn in *. rewrite Hc. exact Hb.
      + apply IH; auto.
    - apply wp_note. unfold postV. split_all; auto; [pl|fl| |intros; rp]. cbn. rewrite Hc, Hk, !answers_snoc. cbn [answers filter]. rewrite app_nil_r. exists (answers l), m. auto.
  Qed.
End Windows.

Section Posix.
  Context (c : called) (Hc : c_impl c = Posix).
  Lemma wp_p_wait r l : c_kind c = None -> proper_log c l -> faultless l -> ripe (c_impl c) l = false -> wp p_wait (fun _ => postV c c NoTimeout) (postE c) (postE c) (postZ c) true false r l.
  Proof.
    intros Hk Hp Hf Hr. unfold p_wait.
    assert (Hp1 : proper_log c (l ++ [EvKernel 0 true false])) by (apply proper_snoc; [exact Hp|]; cbn; unfold due; rewrite Hc, Hk in *; auto).
    apply wp_bind, wp_kernel; [exact Hp1|]. intros a Ha. destruct a; [|exfalso; apply Ha; reflexivity|].
    - apply wp_ret. unfold postV. split_all; auto; [pl|fl| |discriminate]. cbn. rewrite !answers_snoc, Hc. eexists. reflexivity.
    - apply wp_throw. unfold postE. split; [pl|fy].
  Qed.
  (** The result a wait until a system time reports, also when it is part of another wait. *)
  Let ac := CALL Posix (Some Abs) (c_time c).
  Lemma wp_p_abs t r l : due c l t -> proper_log c l -> faultless l -> ripe (c_impl c) l = false -> wp (p_timed_abs t) (postV c ac) (postE c) (postE c) (postZ c) true false r l.
  Proof.
    intros Hd Hp Hf Hr. unfold p_timed_abs.
    assert (Hp1 : proper_log c (l ++ [EvKernel t true false])) by (apply proper_snoc; [exact Hp|]; cbn; rewrite Hc in *; auto).
    apply wp_bind, wp_kernel; [exact Hp1|]. intros a _. destruct a.
    - apply wp_ret. unfold postV. split_all; auto; [pl|fl| |discriminate]. cbn. rewrite !answers_snoc. eexists. reflexivity.
    - apply wp_note. unfold postV. split_all; auto; [pl|fl| |intros; rp]. cbn. rewrite !answers_snoc. cbn [answers filter]. rewrite app_nil_r. eexists. reflexivity.
    - apply wp_throw. unfold postE. split; [pl|fy].
  Qed.
  Lemma wp_p_rel r l : c_kind c = Some Rel -> proper_log c l -> faultless l -> ripe (c_impl c) l = false -> wp (p_timed_rel (c_time c)) (postV c c) (postE c) (postE c) (postZ c) true false r l.
  Proof.
    intros Hk Hp Hf Hr. unfold p_timed_rel. apply wp_bind, wp_now; [exact Hp|]. intros n. eapply wp_weaken; [apply wp_p_abs; [|pl|fl|rp]|..]; auto.
    - unfold due. rewrite Hc, Hk. exists l, n. auto.
    - unfold postV. intros x u i r' l' (? & ? & ? & ? & Hb & Hu). split_all; auto.
      destruct x; cbn in *; rewrite Hc; [|rewrite Hk]; exact Hb.
  Qed.
  Lemma wp_p_abs' r l : c_kind c = Some Abs -> proper_log c l -> faultless l -> ripe (c_impl c) l = false -> wp (p_timed_abs (c_time c)) (postV c c) (postE c) (postE c) (postZ c) true false r l.
  Proof.
    intros Hk Hp Hf Hr. eapply wp_weaken; [apply wp_p_abs; [|exact Hp|exact Hf|exact Hr]|..]; auto.
    - unfold due. rewrite Hc, Hk. reflexivity.
    - unfold postV. intros x u i r' l' (? & ? & ? & ? & Hb & Hu). split_all; auto. destruct x; cbn in *; rewrite Hc; [|rewrite Hk]; exact Hb.
  Qed.
  Lemma wp_p_chrono fuel r l : c_kind c = Some Chrono -> proper_log c l -> faultless l -> ripe (c_impl c) l = false ->
    wp (p_timed_chrono fuel (c_time c)) (postV c c) (postE c) (postE c) (postZ c) true false r l.
  Proof.
    intros Hk. revert r l. induction fuel as [|fuel IH]; intros r l Hp Hf Hr; cbn [p_timed_chrono].
    { apply wp_blocked. exact Hp. }
    apply wp_bind, wp_now; [exact Hp|]. intros m. destruct (m <? c_time c)%Z eqn:Em; [apply Z.ltb_lt in Em|apply Z.ltb_ge in Em].
    - apply wp_bind. unfold p_timed_rel. apply wp_bind, wp_now; [unfold postZ; pl|]. intros n.
      eapply wp_weaken; [apply wp_p_abs; [|pl|fl|rp]|..]; auto.
      + unfold due. rewrite Hc, Hk. exists l, m, n. rewrite <- app_assoc. cbn. auto.
      + intros x u i r' l' (-> & -> & Hp' & Hf' & Hb & Hu). destruct x.
        * apply wp_ret. unfold postV. split_all; auto. cbn in *. rewrite Hc. exact Hb.
        * apply IH; auto.
    - apply wp_note. unfold postV. split_all; auto; [pl|fl| |intros; rp]. cbn. rewrite Hc, Hk, !answers_snoc. cbn [answers filter]. rewrite app_nil_r. exists (answers l), m. auto.
  Qed.
End Posix.

Section Generic.
  Context (c : called) (Hc : c_impl c = Generic).
  Lemma wp_g {A} (x : A -> status) (inner : M A) r l : proper_log c l -> faultless l -> ripe (c_impl c) l = false ->
    (forall l', proper_log c l' -> faultless l' -> ripe (c_impl c) l' = false ->
       wp inner (fun a u i r' l2 => u = false /\ i = true /\ r' = true /\ proper_log c l2 /\ faultless l2 /\ based_on c (x a) l2 /\ (x a = Timeout -> ripe (c_impl c) l2 = false)) (postE c) (postE c) (postZ c) false true true l') ->
    wp (g_shape inner) (fun a => postV c c (x a)) (postE c) (postE c) (postZ c) true false r l.
  Proof.
    intros Hp Hf Hr Hm. unfold g_shape. apply (wp_relock c c x). unfold with_internal. apply wp_bind, wp_lock_intl; [exact Hp|unfold postE; split; [pl|fy]|].
    apply wp_finally. apply wp_bind, wp_runlock; [exact Hp|apply wp_unlock_intl; unfold postE; split; [pl|fy]|].
    eapply wp_weaken; [apply Hm|..]; auto.
    - apply proper_snoc; [pl|]. cbn. rewrite Hc. reflexivity.
    - fl.
    - rp.
    - intros a u i r' l2 (-> & -> & -> & ? & ? & ? & Hu). apply wp_unlock_intl. unfold innerV. split_all; auto.
    - intros u i r' l2 H. apply wp_unlock_intl. exact H.
  Qed.
  Lemma wp_g_wait r l : c_kind c = None -> proper_log c l -> faultless l -> ripe (c_impl c) l = false -> wp g_wait (fun _ => postV c c NoTimeout) (postE c) (postE c) (postZ c) true false r l.
  Proof.
    intros Hk Hp Hf Hr. apply (wp_g (fun _ => NoTimeout)); auto. clear Hp Hf Hr. intros l1 Hp Hf Hr.
    assert (Hp1 : proper_log c (l1 ++ [EvKernel 0 false true])) by (apply proper_snoc; [exact Hp|]; cbn; unfold due; rewrite Hc, Hk in *; auto).
    apply wp_bind, wp_kernel; [exact Hp1|]. intros a Ha. destruct a; [|exfalso; apply Ha; reflexivity|].
    - apply wp_ret. split_all; auto; [pl|fl| |discriminate]. cbn. rewrite !answers_snoc, Hc. eexists. reflexivity.
    - apply wp_throw. unfold postE. split; [pl|fy].
  Qed.
  Lemma wp_g_timed r l : c_kind c <> None -> proper_log c l -> faultless l -> ripe (c_impl c) l = false -> wp (g_timed (c_time c)) (postV c c) (postE c) (postE c) (postZ c) true false r l.
  Proof.
    intros Hk Hp Hf Hr. apply (wp_g (fun x => x)); auto. clear Hp Hf Hr. intros l1 Hp Hf Hr.
    assert (Hp1 : proper_log c (l1 ++ [EvKernel (c_time c) false true])) by (apply proper_snoc; [exact Hp|]; cbn; unfold due; rewrite Hc in *; cbn; destruct (c_kind c); auto).
    apply wp_bind, wp_kernel; [exact Hp1|]. intros a _. destruct a.
    - apply wp_ret. split_all; auto; [pl|fl| |discriminate]. cbn. rewrite !answers_snoc, Hc. eexists. reflexivity.
    - apply wp_note. split_all; auto; [pl|fl| |intros; rp]. cbn. rewrite Hc. destruct (c_kind c) as [k|]; [|congruence].
      rewrite !answers_snoc. cbn [answers filter]. rewrite app_nil_r. eexists. reflexivity.
    - apply wp_throw. unfold postE. split; [pl|fy].
  Qed.
End Generic.

Lemma wp_basic_wait i fuel d r l : let c := CALL i None d in proper_log c l -> faultless l -> ripe (c_impl c) l = false ->
  wp (basic_wait i fuel) (fun _ => postV c c NoTimeout) (postE c) (postE c) (postZ c) true false r l.
Proof. intros c Hp Hf Hr. destruct i; cbn [basic_wait]; [apply wp_p_wait|apply wp_b_wait|apply wp_g_wait]; auto; discriminate. Qed.
Lemma wp_basic_timed i k fuel n d r l : let c := CALL i (Some k) d in proper_log c l -> faultless l -> ripe (c_impl c) l = false ->
  wp (basic_timed i k fuel n d) (postV c c) (postE c) (postE c) (postZ c) true false r l.
Proof.
  intros c Hp Hf Hr. destruct i; [destruct k|destruct k|]; cbn [basic_timed].
  - apply (wp_p_rel c); auto. - apply (wp_p_abs' c); auto. - apply (wp_p_chrono c); auto.
  - apply (wp_b_rel c); auto. discriminate. - apply (wp_b_abs c); auto. - apply (wp_b_chrono c); auto.
  - destruct k; apply (wp_g_timed c); auto; discriminate.
Qed.

(** The predicate forms. *)
Definition loopV (c : called) : pst := fun u i _ l => u = true /\ i = false /\ proper_log c l /\ faultless l.
Lemma wp_wait_pred c fuel (w : M unit) r l :
  (forall r l, proper_log c l -> faultless l -> ripe (c_impl c) l = false -> wp w (fun _ => loopV c) (postE c) (postE c) (postZ c) true false r l) ->
  proper_log c l -> faultless l -> wp (wait_pred fuel w) (fun _ => loopV c) (postE c) (postE c) (postZ c) true false r l.
Proof.
  intros Hw. revert r l. induction fuel as [|fuel IH]; intros r l Hp Hf; cbn [wait_pred]; [apply wp_blocked; exact Hp|].
  apply wp_bind, wp_pred; [exact Hp|unfold postE; split; [pl|fy]|]. intros [|].
  - apply wp_ret. unfold loopV. split_all; auto; [pl|fl].
  - apply wp_bind. eapply wp_weaken; [apply Hw; [pl|fl|rp]|..]; auto. intros _ u i r' l' (-> & -> & Hp' & Hf'). apply IH; assumption.
Qed.
Lemma wp_timed_pred c fuel (w : M status) r l :
  (forall r l, proper_log c l -> faultless l -> ripe (c_impl c) l = false -> wp w (fun _ => loopV c) (postE c) (postE c) (postZ c) true false r l) ->
  proper_log c l -> faultless l -> wp (timed_pred fuel w) (fun _ => loopV c) (postE c) (postE c) (postZ c) true false r l.
Proof.
  intros Hw. revert r l. induction fuel as [|fuel IH]; intros r l Hp Hf; cbn [timed_pred]; [apply wp_blocked; exact Hp|].
  apply wp_bind, wp_pred; [exact Hp|unfold postE; split; [pl|fy]|]. intros [|].
  - apply wp_ret. unfold loopV. split_all; auto; [pl|fl].
  - apply wp_bind. eapply wp_weaken; [apply Hw; [pl|fl|rp]|..]; auto. intros [|] u i r' l' (-> & -> & Hp' & Hf'); [apply IH; assumption|].
    apply wp_pred; [exact Hp'|unfold postE; split; [pl|fy]|]. intros b. unfold loopV. split_all; auto; [pl|fl].
Qed.

(** Slices of a relative wait on Windows. *)
Lemma expiries_snoc l e : expiries (l ++ [e]) = (expiries l + expiries [e])%nat.
Proof. unfold expiries. rewrite filter_app, app_length. reflexivity. Qed.
Ltac ex := rewrite ?expiries_snoc; cbn [expiries filter length app]; lia.
Definition upto (n : nat) : pst := fun _ _ _ l => (expiries l <= n)%nat.
Lemma wp_slices fuel n k l : (expiries l + n <= k)%nat ->
  wp (b_priv_timed fuel n) (fun x _ _ _ l' => (expiries l' <= k)%nat /\ (x = Timeout -> expiries l' = (expiries l + n)%nat)) (upto k) (upto k) (upto k) false false true l.
Proof.
  unfold upto. revert n l. induction fuel as [|fuel IH]; intros n l Hn; cbn [b_priv_timed]; [apply wp_blocked; lia|]. destruct n as [|n].
  - apply wp_bind, wp_check; try ex. intros [|]; [apply wp_ret|apply wp_note]; (split; [ex|]); [discriminate|intros _; ex].
  - apply wp_bind, wp_kernel; [ex|]. intros a _. destruct a.
    + apply wp_bind, wp_check; try ex. intros [|]; [apply wp_ret; split; [ex|discriminate]|].
      eapply wp_weaken; [apply IH; ex|..]; auto. cbn beta. intros x _ _ _ l' (H1 & H2). split; [exact H1|]. intros Hx. rewrite (H2 Hx). ex.
    + eapply wp_weaken; [apply IH; ex|..]; auto. cbn beta. intros x _ _ _ l' (H1 & H2). split; [exact H1|]. intros Hx. rewrite (H2 Hx). ex.
    + apply wp_bind, wp_check; try ex. intros b. apply wp_throw. ex.
Qed.
Lemma wp_rel_slices fuel n k l : (expiries l + n <= k)%nat ->
  wp (b_timed_rel fuel n) (fun x _ _ _ l' => (expiries l' <= k)%nat /\ (x = Timeout -> expiries l' = (expiries l + n)%nat)) (upto k) (upto k) (upto k) true false false l.
Proof.
  intros Hn. unfold b_timed_rel, with_relocker. apply wp_bind, wp_set_rel, wp_finally.
  assert (Hd : forall u i r l', (expiries l' <= k)%nat -> wp relocker_dtor (fun _ => upto k) (upto k) (upto k) (upto k) u i r l').
  { intros u i r l' H. apply wp_dtor; unfold upto; intros ->; split_all; ex. }
  apply wp_bind, wp_init; unfold upto at 1; try ex; try (apply Hd; ex).
  apply wp_bind, wp_noexcept, wp_runlock; unfold upto at 1; try ex.
  eapply wp_weaken; [apply wp_slices with (k := k); ex|..]; auto; cbn beta.
  - intros x u i r l' (H1 & H2). apply wp_dtor; intros ->; unfold upto; split_all; try ex; intros Hx; rewrite ?expiries_snoc, (H2 Hx); ex.
Qed.

(** ** C75 *)
(** wait() returns only because it was woken: on POSIX and in the generic version because the kernel (inner) wait ended without a timeout or
    an error, on Windows because it found a notification for its waiting state - and that was the last thing it was told. *)
Theorem C75_wait_result : forall i fuel o s, basic_wait i fuel (start o) = (Val tt, s) ->
  exists p, answers (log s) = p ++ match i with Windows => [EvFound true true] | _ => [EvAnswer KWoken] end.
Proof.
  intros i fuel o s H. pose proof (wp_basic_wait i fuel 0 false [] (proper_nil _) ltac:(intros ? []) eq_refl o) as G. unfold start in H. rewrite H in G.
  destruct G as (_ & _ & _ & _ & G & _). exact G.
Qed.
Print Assumptions C75_wait_result.

(** A timed wait reports what happened: "no timeout" for the same reasons as wait(); "timeout" only if the deadline has passed according to
    the last thing it was told - the kernel wait expired, the clock of the deadline was read at or after the deadline, and on Windows no
    notification was found afterwards. *)
Theorem C75_timed_result : forall i k fuel n d o x s, basic_timed i k fuel n d (start o) = (Val x, s) ->
  match x with
  | NoTimeout => exists p, answers (log s) = p ++ match i with Windows => [EvFound true true] | _ => [EvAnswer KWoken] end
  | Timeout =>
      match i, k with
      | Windows, Rel => exists p, answers (log s) = p ++ [EvFound false true]
      | Windows, Abs => exists p, answers (log s) = p ++ [EvAnswer KExpired; EvFound false true]
      | Posix, Chrono | Windows, Chrono => exists p m, answers (log s) = p ++ [EvClock m] /\ (d <= m)%Z
      | _, _ => exists p, answers (log s) = p ++ [EvAnswer KExpired]
      end
  end.
Proof.
  intros i k fuel n d o x s H. pose proof (wp_basic_timed i k fuel n d false [] (proper_nil _) ltac:(intros ? []) eq_refl o) as G. unfold start in H. rewrite H in G.
  destruct G as (_ & _ & _ & _ & G & _). destruct x; exact G.
Qed.
Print Assumptions C75_timed_result.

(** A relative wait on Windows that reports a timeout has let every slice of its timeout expire, and never waits for more of them. *)
Theorem C75_slices : forall fuel n d o r s, basic_timed Windows Rel fuel n d (start o) = (r, s) ->
  (expiries (log s) <= n)%nat /\ (r = Val Timeout -> expiries (log s) = n).
Proof.
  intros fuel n d o r s H. cbn [basic_timed] in H. pose proof (wp_rel_slices fuel n n [] ltac:(cbn; lia) o) as G. unfold start in H. rewrite H in G.
  destruct r; unfold upto in G; [|split; [exact G|discriminate]..]. destruct G as (G1 & G2). split; [exact G1|]. intros E. inversion E; subst. auto.
Qed.
Print Assumptions C75_slices.

Lemma ripe_stays i l b : Forall no_pred l -> fold_left (fun b e => match e with EvPred _ _ => false | _ => b || wake i e end) l b = b || existsb (wake i) l.
Proof.
  intros H. revert b. induction H as [|e l He _ IH]; intros b; cbn; [rewrite orb_false_r; reflexivity|]. destruct e; try contradiction; rewrite IH, orb_assoc; reflexivity.
Qed.
Lemma ripe_after i a e b : wake i e = true -> ripe i (a ++ e :: b) = false -> exists v u, In (EvPred v u) b.
Proof.
  intros He Hr. destruct (existsb (fun x => match x with EvPred _ _ => true | _ => false end) b) eqn:Ex.
  - apply existsb_exists in Ex. destruct Ex as (x & Hx & Hp). destruct x; try discriminate. eauto.
  - exfalso. assert (Hb : Forall no_pred b).
    { apply Forall_forall. intros x Hx. destruct x; try exact I. exfalso. assert (existsb (fun x => match x with EvPred _ _ => true | _ => false end) b = true) by (apply existsb_exists; eexists; split; [exact Hx|reflexivity]). congruence. }
    unfold ripe in Hr. rewrite fold_left_app in Hr. cbn [fold_left] in Hr. rewrite (ripe_stays i b _ Hb) in Hr.
    destruct e; try discriminate; rewrite He in Hr; rewrite orb_true_r in Hr; discriminate.
Qed.

(** Conversely a timed wait that is woken - on Windows: that finds a notification, which it thereby takes from the other waiters - reports it. *)
Theorem C75_wakeup_reported : forall i k fuel n d o x s, basic_timed i k fuel n d (start o) = (Val x, s) ->
  (x = NoTimeout <-> match i with Windows => In (EvFound true true) (log s) | _ => In (EvAnswer KWoken) (log s) end).
Proof.
  intros i k fuel n d o x s H. pose proof (wp_basic_timed i k fuel n d false [] (proper_nil _) ltac:(intros ? []) eq_refl o) as G.
  destruct (q_basic_timed i k fuel n d (start o)) as (seg & El & Fl). unfold start in *. rewrite H in G, El. cbn in El. subst seg.
  destruct G as (_ & _ & _ & _ & Gb & G). cbn [c_impl] in G. split.
  - intros ->. destruct Gb as (p & Gb). cbn [c_impl] in Gb.
    assert (Hi : forall e, In e (answers (log s)) -> In e (log s)) by (intros e He; apply filter_In in He; apply He).
    destruct i; apply Hi; rewrite Gb; apply in_or_app; right; left; reflexivity.
  - intros Hin. destruct x; [reflexivity|]. specialize (G eq_refl). unfold ripe in G. rewrite (ripe_stays i _ _ Fl) in G. cbn in G.
    assert (Ht : existsb (wake i) (log s) = true); [|congruence]. apply existsb_exists. destruct i; (eexists; split; [exact Hin|reflexivity]).
Qed.
Print Assumptions C75_wakeup_reported.

(** The call a waiting function stands for. *)
Definition call_of (f : wait_fn) : called :=
  match f with
  | FWait i | FWaitPred i => CALL i None 0
  | FTimed i k _ d | FTimedPred i k _ d => CALL i (Some k) d
  end.
Lemma all_fns f fuel o r s : outcome_of f fuel o = (r, s) ->
  proper_log (call_of f) (log s) /\ (r = Val tt -> faultless (log s)) /\ (r = Exn \/ r = Term -> faulty (log s)).
Proof.
  intros H.
  assert (K : forall (A : Type) (m : M A), wp m (fun _ => loopV (call_of f)) (postE (call_of f)) (postE (call_of f)) (postZ (call_of f)) true false false [] ->
    (let (x, s') := m (start o) in (forget x, s')) = (r, s) ->
    proper_log (call_of f) (log s) /\ (r = Val tt -> faultless (log s)) /\ (r = Exn \/ r = Term -> faulty (log s))).
  { intros A m Hm E. specialize (Hm o). unfold start in E. destruct (m (ST o true false false [])) as [x s1]. inversion E; subst. destruct x; cbn [forget].
    - destruct Hm as (_ & _ & Hp & Hf). split_all; auto. intros [E'|E']; discriminate.
    - destruct Hm as (Hp & Hf). split_all; auto. discriminate.
    - destruct Hm as (Hp & Hf). split_all; auto. discriminate.
    - split_all; [exact Hm|discriminate|]. intros [E'|E']; discriminate. }
  assert (Hw : forall i r0 l, let c := CALL i None 0 in proper_log c l -> faultless l -> ripe (c_impl c) l = false ->
    wp (basic_wait i fuel) (fun _ => loopV c) (postE c) (postE c) (postZ c) true false r0 l).
  { intros i r0 l c Hp Hf Hr. eapply wp_weaken; [apply (wp_basic_wait i fuel 0); assumption|..]; auto. intros _ u j r1 l' (? & ? & ? & ? & _). unfold loopV. auto. }
  assert (Ht : forall i k n d r0 l, let c := CALL i (Some k) d in proper_log c l -> faultless l -> ripe (c_impl c) l = false ->
    wp (basic_timed i k fuel n d) (fun _ => loopV c) (postE c) (postE c) (postZ c) true false r0 l).
  { intros i k n d r0 l c Hp Hf Hr. eapply wp_weaken; [apply wp_basic_timed; assumption|..]; auto. intros x u j r1 l' (? & ? & ? & ? & _). unfold loopV. auto. }
  assert (Hn : faultless []) by (intros ? []).
  destruct f as [i|i k n d|i|i k n d]; cbn [outcome_of call_of] in *; eapply K; try exact H.
  - apply Hw; [apply proper_nil|exact Hn|reflexivity].
  - apply (Ht i k n d); [apply proper_nil|exact Hn|reflexivity].
  - apply wp_wait_pred; [apply Hw|apply proper_nil|exact Hn].
  - apply wp_timed_pred; [apply (Ht i k n d)|apply proper_nil|exact Hn].
Qed.

(** Every waiting function, with or without a predicate: it returns only if no call it made has failed, and throws (or terminates the
    program) only if one has. *)
Theorem C75_throws_only_on_failure : forall f fuel o r s, outcome_of f fuel o = (r, s) ->
  let failed e := e = EvFault \/ e = EvLockFailed \/ e = EvAnswer KFailed in
  (r = Val tt -> forall e, In e (log s) -> ~ failed e) /\ (r = Exn \/ r = Term -> exists e, In e (log s) /\ failed e).
Proof.
  intros f fuel o r s H failed. destruct (all_fns _ _ _ _ _ H) as (_ & H1 & H2). split.
  - intros Hr e He [-> | [-> | ->]]; specialize (H1 Hr _ He); discriminate.
  - intros Hr. destruct (H2 Hr) as (e & He & Hf). exists e. split; [exact He|]. unfold failed. destruct e as [| | | |[| |]| | | | | | |]; try discriminate; auto.
Qed.
Print Assumptions C75_throws_only_on_failure.

(** However the function ends, also while it is still waiting: a kernel wait is only entered with the caller's lock released, except on
    POSIX, where the kernel releases it, and with the internal mutex released, except in the generic version, where the inner condition variable
    releases it; the caller's lock is only released when this thread can already be notified: registered as a waiter (Windows) or holding the
    internal mutex a notifier needs (generic); registering and looking for notifications happen under the internal mutex. *)
Theorem C75_while_waiting : forall f fuel o r s, outcome_of f fuel o = (r, s) -> let i := c_impl (call_of f) in
  (forall t u h, In (EvKernel t u h) (log s) -> (u = true <-> i = Posix) /\ (h = true <-> i = Generic)) /\
  (forall a h b, log s = a ++ EvUnlockUser h :: b ->
     match i with Posix => False | Windows => h = false /\ exists a', a = a' ++ [EvEnlist true] | Generic => h = true end) /\
  (forall h, In (EvEnlist h) (log s) -> h = true) /\ (forall x h, In (EvFound x h) (log s) -> h = true).
Proof.
  intros f fuel o r s H i. destruct (all_fns _ _ _ _ _ H) as (Hp & _). split_all.
  - intros t u h Hin. destruct (in_split _ _ Hin) as (a & b & E). destruct (Hp _ _ _ E) as (-> & -> & _). fold i. destruct i; cbn; split; split; congruence.
  - intros a h b E. exact (Hp _ _ _ E).
  - intros h Hin. destruct (in_split _ _ Hin) as (a & b & E). exact (Hp _ _ _ E).
  - intros x h Hin. destruct (in_split _ _ Hin) as (a & b & E). exact (Hp _ _ _ E).
Qed.
Print Assumptions C75_while_waiting.

(** A thread that has been woken does not wait again before it has evaluated the predicate (so never, in the forms without a predicate),
    whether the function has returned or not. *)
Theorem C75_woken_does_not_wait : forall f fuel o r s a e b t u h rest, outcome_of f fuel o = (r, s) ->
  log s = a ++ e :: b ++ EvKernel t u h :: rest ->
  (match c_impl (call_of f) with Windows => exists g, e = EvFound true g | _ => e = EvAnswer KWoken end) ->
  exists v w, In (EvPred v w) b.
Proof.
  intros f fuel o r s a e b t u h rest H E He. destruct (all_fns _ _ _ _ _ H) as (Hp & _).
  destruct (Hp (a ++ e :: b) (EvKernel t u h) rest) as (_ & _ & _ & Hr); [rewrite E, <- app_assoc; reflexivity|].
  eapply ripe_after; [|exact Hr]. destruct (c_impl (call_of f)); [rewrite He|destruct He as (g & ->)|rewrite He]; reflexivity.
Qed.
Print Assumptions C75_woken_does_not_wait.

(** The deadlines passed on: an absolute system time is passed on unchanged (generic version: every kind of time value is passed on to the inner
    condition variable); on POSIX a duration is added to the system clock read just before; for a time point [d] of another clock that clock is
    read, says [m] before [d], and the remaining [d - m] is waited for: until [n + (d - m)] of the system clock (POSIX), or as a relative wait
    (Windows). *)
Theorem C75_deadlines : forall f fuel o r s, outcome_of f fuel o = (r, s) -> let d := c_time (call_of f) in
  (forall a t u h b, log s = a ++ EvKernel t u h :: b ->
     match c_impl (call_of f), c_kind (call_of f) with
     | Posix, Some Rel => exists a' n, a = a' ++ [EvClock n] /\ (t = n + d)%Z
     | Posix, Some Chrono => exists a' m n, a = a' ++ [EvClock m; EvClock n] /\ (m < d)%Z /\ (t = n + (d - m))%Z
     | Posix, Some Abs | Windows, Some Abs | Generic, Some _ => t = d
     | _, _ => True
     end) /\
  (forall a z b, log s = a ++ EvFor z :: b -> exists a' m, a = a' ++ [EvClock m] /\ (m < d)%Z /\ (z = d - m)%Z).
Proof.
  intros f fuel o r s H d. destruct (all_fns _ _ _ _ _ H) as (Hp & _). split.
  - intros a t u h b E. destruct (Hp _ _ _ E) as (_ & _ & G & _). unfold due in G. fold d in G. destruct (c_impl (call_of f)), (c_kind (call_of f)) as [[| |]|]; auto.
  - intros a z b E. exact (Hp _ _ _ E).
Qed.
Print Assumptions C75_deadlines.

(** Both results are possible in every implementation and for every time: a timed wait that nobody wakes ends when its time is over, reporting the timeout of the kernel wait (all [n] slices of it) without an exception;
    one that is woken first reports no timeout.  The lock is held afterwards. *)
Lemma slices_expire : forall n fuel o u r l, (n < fuel)%nat ->
  exists l', b_priv_timed fuel n (ST (repeat 2 n ++ 0 :: 0 :: o) u false r l) = (Val Timeout, ST o u false r (l ++ l')) /\ expiries l' = n /\ ~ In EvFault l'.
Proof.
  induction n as [|n IH]; intros [|fuel] o u r l Hf; try lia.
  - eexists. split; [cbn; rewrite <- !app_assoc; reflexivity|]. split; [reflexivity|]. cbn. intuition discriminate.
  - destruct (IH fuel o u r ((l ++ [EvKernel 0 u false]) ++ [EvAnswer KExpired]) ltac:(lia)) as (l' & H1 & H2 & H3). exists (EvKernel 0 u false :: EvAnswer KExpired :: l'). split; [|split].
    + cbn [b_priv_timed repeat app]. unfold kernel, bind, get_user, get_intl, emit, ask, ret. cbn [orc user intl rel log]. rewrite H1, <- !app_assoc. reflexivity.
    + cbn. rewrite <- H2. reflexivity.
    + cbn. intuition discriminate.
Qed.
Lemma chrono_late f d o u i r l x : (Z.of_nat x <? d)%Z = false -> b_timed_chrono (S f) d (ST (x :: o) u i r l) = (Val Timeout, ST o u i r ((l ++ [EvClock (Z.of_nat x)]) ++ [EvTimeout])).
Proof. intros H. cbn [b_timed_chrono]. unfold clock_now, bind, ask, emit, ret. cbn [orc user intl rel log]. rewrite H. reflexivity. Qed.
Lemma chrono_early f d o u i r l x k y s : (Z.of_nat x <? d)%Z = true -> b_timed_rel f k (ST o u i r ((l ++ [EvClock (Z.of_nat x)]) ++ [EvFor (d - Z.of_nat x)])) = (Val y, s) ->
  b_timed_chrono (S f) d (ST (x :: k :: o) u i r l) = match y with NoTimeout => (Val NoTimeout, s) | Timeout => b_timed_chrono f d s end.
Proof. intros H G. cbn [b_timed_chrono]. unfold clock_now, bind, ask, emit, ret. cbn [orc user intl rel log]. rewrite H. cbn [orc user intl rel log]. rewrite G. destruct y; reflexivity. Qed.
Ltac steps := lazy -[Z.add Z.sub Z.to_nat Z.of_nat Z.ltb]; change (Z.of_nat 0) with 0%Z.
Ltac run := steps; reflexivity.
Theorem C75_timeout_possible : forall i k n d, (0 < n)%nat -> (0 < d)%Z -> exists fuel o s, basic_timed i k fuel n d (start o) = (Val Timeout, s) /\
  expiries (log s) = match i, k with Windows, Rel => n | _, _ => 1%nat end /\ ~ In EvFault (log s) /\ user s = true /\ intl s = false.
Proof.
  intros i k n d Hn Hd. assert (L0 : (0 <? d)%Z = true) by (apply Z.ltb_lt; lia). assert (Ld : (Z.of_nat (Z.to_nat d) <? d)%Z = false) by (apply Z.ltb_ge; lia).
  destruct i; [| |exists 0%nat, [0; 0; 2; 0]%nat; eexists; split; [destruct k; run|cbn; intuition discriminate]].
  - destruct k; [exists 0%nat, [0; 2]%nat|exists 0%nat, [2]%nat|exists 2%nat, [0; 0; 2; Z.to_nat d]%nat]; eexists.
    1,2: split; [run|]; cbn; intuition discriminate.
    split; [steps; rewrite L0; steps; rewrite Ld; run|].
    cbn. intuition discriminate.
  - destruct k.
    + exists (S n), (0 :: 0 :: 0 :: (repeat 2 n ++ [0; 0; 0]))%nat.
      destruct (slices_expire n (S n) [0]%nat false true (([] ++ [EvEnlist true]) ++ [EvUnlockUser false]) ltac:(lia)) as (l' & H1 & H2 & H3).
      exists (ST [] true false true (((([] ++ [EvEnlist true]) ++ [EvUnlockUser false]) ++ l') ++ [EvLockUser false])). split; [|split; [|split; [|split; reflexivity]]].
      * lazy -[b_priv_timed repeat app]. rewrite H1. reflexivity.
      * cbn [log]. rewrite expiries_snoc. change (expiries ((([] ++ [EvEnlist true]) ++ [EvUnlockUser false]) ++ l')) with (expiries l'). rewrite H2. cbn. lia.
      * cbn [log]. rewrite !in_app_iff. cbn. intuition discriminate.
    + exists 1%nat, [0; 0; 0; 0; 2; 0; 0; 0]%nat. eexists. split; [run|]. cbn. intuition discriminate.
    + exists 3%nat, [0; 1; 0; 0; 0; 2; 0; 0; 0; Z.to_nat d]%nat.
      eexists. split; [unfold start; cbn [basic_timed]; erewrite chrono_early; [|exact L0|run]; cbv beta iota; rewrite chrono_late by exact Ld; reflexivity|]. cbn. intuition discriminate.
Qed.
Print Assumptions C75_timeout_possible.

Theorem C75_wakeup_possible : forall i k n d, (0 < n)%nat -> (0 < d)%Z -> exists fuel o s, basic_timed i k fuel n d (start o) = (Val NoTimeout, s) /\
  expiries (log s) = 0%nat /\ In (EvAnswer KWoken) (log s) /\ ~ In EvFault (log s) /\ user s = true /\ intl s = false.
Proof.
  intros i k n d Hn Hd. destruct n as [|n]; [lia|]. assert (L0 : (0 <? d)%Z = true) by (apply Z.ltb_lt; lia).
  destruct i; [| |exists 0%nat, [0; 0; 0; 0]%nat; eexists; split; [destruct k; run|cbn; intuition discriminate]].
  - destruct k; [exists 0%nat, [0; 0]%nat|exists 0%nat, [0]%nat|exists 1%nat, [0; 0; 0]%nat]; eexists.
    1,2: split; [run|]; cbn; intuition discriminate.
    split; [steps; rewrite L0; run|].
    cbn. intuition discriminate.
  - destruct k; [exists 1%nat, [0; 0; 0; 0; 0; 1; 0]%nat|exists 1%nat, [0; 0; 0; 0; 0; 0; 1; 0]%nat|exists 2%nat, [0; 1; 0; 0; 0; 0; 0; 1; 0]%nat]; eexists.
    1,2: split; [run|]; cbn; intuition discriminate.
    split; [unfold start; cbn [basic_timed]; erewrite chrono_early; [|exact L0|run]; reflexivity|].
    cbn. intuition discriminate.
Qed.
Print Assumptions C75_wakeup_possible.

(** A wait until time 10 of another clock on POSIX: the clock says 4, the system clock 100, the kernel wait expires, the clock says 9, the system
    clock 105, it is woken.  On Windows: the clock says 4, the two slices of the relative wait expire, nothing is found, the clock says 10. *)
Example C75_example :
  outcome_of (FTimed Posix Chrono 0 10) 9 [4; 100; 2; 9; 105; 0] =
    (Val tt, ST [] true false false [EvClock 4; EvClock 100; EvKernel 106 true false; EvAnswer KExpired; EvTimeout;
                                     EvClock 9; EvClock 105; EvKernel 106 true false; EvAnswer KWoken]) /\
  basic_timed Windows Chrono 9 0 10 (start [4; 2; 0; 0; 0; 2; 2; 0; 0; 0; 10]) =
    (Val Timeout, ST [] true false true [EvClock 4; EvFor 6; EvEnlist true; EvUnlockUser false; EvKernel 0 false false; EvAnswer KExpired; EvKernel 0 false false;
                                         EvAnswer KExpired; EvFound false true; EvTimeout; EvLockUser false; EvClock 10; EvTimeout]).
Proof. split; reflexivity. Qed.
