(** C86: the members of the lock classes compile exactly for the mutexes that have the functions named after them; the conversions that move a lock from one class to another without try_to_lock never do. *)
From Coq Require Import List Bool Arith ZArith Lia.
From Verif Require Import ConfigModel IfaceModel LockIface PropsIface.
Import ListNotations.

(** The kind of ownership, and the function of a mutex for an operation on it, by the naming scheme of the library. *)
Inductive mode := Ex | Sh | Up.
Definition mode_of (k : lk) : mode := match k with Unique | Guard | UnlockGuard => Ex | Shared | SharedGuard => Sh | Upgrade => Up end.
Definition fn_lock (o : mode) : mfun := match o with Ex => lock | Sh => lock_shared | Up => lock_upgrade end.
Definition fn_try (o : mode) : mfun := match o with Ex => try_lock | Sh => try_lock_shared | Up => try_lock_upgrade end.
Definition fn_unlock (o : mode) : mfun := match o with Ex => unlock | Sh => unlock_shared | Up => unlock_upgrade end.
Definition fn_timed (o : mode) : mfun := match o with Ex => timed_lock | Sh => timed_lock_shared | Up => timed_lock_upgrade end.
Definition fn_for (o : mode) : mfun := match o with Ex => try_lock_for | Sh => try_lock_shared_for | Up => try_lock_upgrade_for end.
Definition fn_until (o : mode) : mfun := match o with Ex => try_lock_until | Sh => try_lock_shared_until | Up => try_lock_upgrade_until end.
Definition fn_try_conv (a b : mode) : option mfun :=
  match a, b with Up, Ex => Some try_unlock_upgrade_and_lock | Sh, Ex => Some try_unlock_shared_and_lock | Sh, Up => Some try_unlock_shared_and_lock_upgrade | _, _ => None end.
Definition fn_timed_conv (a b : mode) : option mfun :=
  match a, b with Sh, Ex => Some timed_unlock_shared_and_lock | Sh, Up => Some timed_unlock_shared_and_lock_upgrade | _, _ => None end.

(** The three movable lock classes, and the plain conversions the headers declare. *)
Definition movable (k : lk) : Prop := k = Unique \/ k = Shared \/ k = Upgrade.
Definition declared_conv (a b : lk) : Prop := (a = Upgrade /\ b = Unique) \/ (a = Unique /\ b = Shared) \/ (a = Upgrade /\ b = Shared) \/ (a = Unique /\ b = Upgrade).

Lemma any_time_spec h t : any_time h t = supported h t.
Proof. destruct h as [[] [] [] []], t as [[]|[]|[]| | | | | |[]| |]; reflexivity. Qed.
Lemma dur_time_spec h t : dur_time h t = supported h t && is_dur t.
Proof. destruct h as [[] [] [] []], t as [[]|[]|[]| | | | | |[]| |]; reflexivity. Qed.
Lemma point_time_spec h t : point_time h t = supported h t && is_point t.
Proof. destruct h as [[] [] [] []], t as [[]|[]|[]| | | | | |[]| |]; reflexivity. Qed.
Lemma andt b : b && true = b. Proof. destruct b; reflexivity. Qed.
Ltac mb := cbn [member_ok bodies forallb handover when]; rewrite ?any_time_spec, ?dur_time_spec, ?point_time_spec; cbn [member_ok bodies forallb may_access lk_eqb existsb friends orb andb].

(** ** C86 *)
(** Every member of unique_lock, shared_lock and upgrade_lock other than the conversions, for any mutex class, compiles exactly if the mutex has the function for that kind of ownership
    (and the time argument is supported and of the right kind).  From depth 3 on the depth does not matter. *)
Theorem C86_members_exact h mx k n : movable k -> 3 <= n ->
  let o := mode_of k in
  (forall x, In x [XDefault; XAdopt; XDefer; XMove; XAssign; XQuery; XRelease] -> member_ok n h mx k x = true) /\
  (forall x, In x [XMutex; XLock] -> member_ok n h mx k x = mx (fn_lock o) TNone) /\
  (forall x, In x [XTryTo; XTryLock] -> member_ok n h mx k x = mx (fn_try o) TNone) /\
  (forall x, In x [XUnlock; XDestroy] -> member_ok n h mx k x = mx (fn_unlock o) TNone) /\
  (forall t x, In x [XTimed t; XTimedLock t] -> member_ok n h mx k x = supported h t && mx (fn_timed o) t) /\
  (forall t, member_ok n h mx k (XTryLockFor t) = supported h t && is_dur t && mx (fn_for o) t) /\
  (forall t, member_ok n h mx k (XTryLockUntil t) = supported h t && is_point t && mx (fn_until o) t).
Proof.
  intros Hk Hn. do 3 (destruct n as [|n]; [lia|]). cbv zeta.
  assert (E : k = Unique \/ k = Shared \/ k = Upgrade) by exact Hk.
  destruct E as [->|[->| ->]]; cbn [mode_of fn_lock fn_try fn_unlock fn_timed fn_for fn_until];
    repeat apply conj; intros; try match goal with H : In _ _ |- _ => simpl in H; repeat (destruct H as [H|H]; [subst|]); [..|contradiction] end;
    try (match goal with t : ty |- _ => destruct (supported h t) eqn:Es, (is_dur t) eqn:Ed, (is_point t) eqn:Ep end; cbn [andb]; do 3 (mb; rewrite ?Es, ?Ed, ?Ep; cbn [andb when forallb]); rewrite ?andt; reflexivity);
    mb; rewrite ?andt; reflexivity.
Qed.
Print Assumptions C86_members_exact.

(** The guards need the two functions they call, and unlock_guard has no adopting constructor. *)
Theorem C86_guards_exact h mx n : 1 <= n ->
  member_ok n h mx Guard XMutex = mx lock TNone /\ member_ok n h mx Guard XDestroy = mx unlock TNone /\ member_ok n h mx Guard XAdopt = true /\
  member_ok n h mx SharedGuard XMutex = mx lock_shared TNone /\ member_ok n h mx SharedGuard XDestroy = mx unlock_shared TNone /\ member_ok n h mx SharedGuard XAdopt = true /\
  member_ok n h mx UnlockGuard XMutex = mx unlock TNone /\ member_ok n h mx UnlockGuard XDestroy = mx lock TNone /\ member_ok n h mx UnlockGuard XAdopt = false.
Proof. intro Hn. destruct n as [|n]; [lia|]. repeat split; mb; rewrite ?andt; reflexivity. Qed.
Print Assumptions C86_guards_exact.

(** The conversions with try_to_lock and with a time: as named, where they are declared; none in other directions. *)
Theorem C86_try_conversions_exact h mx a b n : movable a -> movable b -> 3 <= n ->
  member_ok n h mx b (XFromTry a) = match fn_try_conv (mode_of a) (mode_of b) with Some f => mx f TNone | None => false end /\
  forall t, member_ok n h mx b (XFromTimed a t) = match fn_timed_conv (mode_of a) (mode_of b) with Some f => supported h t && mx f t | None => false end.
Proof.
  intros Ha Hb Hn. do 3 (destruct n as [|n]; [lia|]).
  destruct Ha as [->|[->| ->]], Hb as [->|[->| ->]]; cbn [mode_of fn_try_conv fn_timed_conv]; (split; [|intro t]); mb; rewrite ?andt; try reflexivity;
    destruct (supported h t) eqn:Es; cbn [andb]; do 3 (mb; rewrite ?Es; cbn [andb when forallb]); rewrite ?andt; reflexivity.
Qed.
Print Assumptions C86_try_conversions_exact.

(** The plain conversions and the assignments made of them never compile, whatever the mutex offers: they name private members of another class. *)
Theorem C86_plain_conversions_never h mx a b n : a <> b -> member_ok n h mx b (XFrom a) = false /\ member_ok n h mx b (XAssignFrom a) = false.
Proof.
  intro Hab. assert (Hf : forall n, member_ok n h mx b (XFrom a) = false) by (intro i; destruct i as [|i]; [reflexivity|]; destruct a, b; try contradiction; mb; reflexivity).
  split; [apply Hf|]. destruct n as [|n]; [reflexivity|]. destruct a, b; try contradiction; cbn [member_ok bodies forallb]; rewrite ?Hf; reflexivity.
Qed.
Print Assumptions C86_plain_conversions_never.

(** The full claim, that every declared member compiles for a mutex that has all functions, is false: for each declared conversion one overload is viable and its body does not compile. *)
Theorem C86_conversions_refuted : exists (mx : mutex_class) (h : supports), (forall f t, mx f t = true) /\
  forall a b, declared_conv a b -> length (bodies h b (XFrom a)) = 1 /\ length (bodies h b (XAssignFrom a)) = 1 /\
  forall n, member_ok n h mx b (XFrom a) = false /\ member_ok n h mx b (XAssignFrom a) = false.
Proof.
  exists (fun _ _ => true), (Sup true true true true). split; [reflexivity|]. intros a b Hd.
  assert (Hne : a <> b) by (destruct Hd as [[-> ->]|[[-> ->]|[[-> ->]|[-> ->]]]]; discriminate).
  split; [|split].
  - destruct Hd as [[-> ->]|[[-> ->]|[[-> ->]|[-> ->]]]]; reflexivity.
  - destruct Hd as [[-> ->]|[[-> ->]|[[-> ->]|[-> ->]]]]; reflexivity.
  - intro n. exact (C86_plain_conversions_never _ _ a b n Hne).
Qed.
Print Assumptions C86_conversions_refuted.

(** ** The mutexes of the library *)
Definition is_mutex (o : obj) : Prop := o = OMutex \/ o = OTimedMutex \/ o = OSpin \/ o = OShared.

Lemma lib_plain m h o f : is_mutex o -> lib_mutex m h o f TNone =
  match f with lock | try_lock | unlock => true | lock_shared | try_lock_shared | unlock_shared => match o with OShared => true | _ => false end | _ => false end.
Proof.
  intro Ho. unfold lib_mutex. destruct f; cbn [name_of]; try reflexivity; rewrite C85_calls_exact by discriminate; cbn [a_time];
    match goal with |- context [match select m o with FManualFutex => ?x | _ => _ end] => replace (match select m o with FManualFutex => x | _ => x end) with x by (destruct (select m o); reflexivity) end;
    destruct Ho as [->|[->|[->| ->]]]; reflexivity.
Qed.
Lemma lib_timed m h o f t : is_mutex o -> t <> TNone -> lib_mutex m h o f t =
  match f, o with timed_lock, OTimedMutex => supported h t && (is_dur t || is_point t) | try_lock_for, OTimedMutex => supported h t && is_dur t | try_lock_until, OTimedMutex => supported h t && is_point t | _, _ => false end.
Proof.
  intros Ho Ht. unfold lib_mutex.
  assert (Hs : forall x y : option ret, match select m o with FManualFutex => x | _ => y end = y).
  { intros x y. rewrite select_sel. destruct Ho as [->|[->|[->| ->]]]; unfold sel; try destruct (c_platform _); try destruct (c_timedlock _); try destruct (c_spinbool _); reflexivity. }
  destruct f; cbn [name_of]; try reflexivity; rewrite C85_calls_exact by discriminate; cbn [a_time];
    match goal with |- context [documented h ?c o ?n ?a] =>
      replace (match select m o with FManualFutex => match t with TClock _ => None | _ => documented h c o n a end | _ => documented h c o n a end) with (documented h c o n a) by (symmetry; apply Hs) end;
    unfold documented; destruct Ho as [->|[->|[->| ->]]]; cbn [doc a_lock a_time lock_fits andb time_fits]; try reflexivity;
    try (destruct t; try reflexivity; congruence);
    match goal with |- (match (if ?b then _ else _) with Some _ => true | None => false end) = _ => destruct b; reflexivity end.
Qed.

(** In every configuration: unique_lock, lock_guard and unlock_guard work with all four mutexes; shared_lock and shared_lock_guard with shared_spin_mutex only; upgrade_lock with none. *)
Theorem C86_library_locks m h k o n : is_mutex o -> 3 <= n ->
  (member_ok n h (lib_mutex m h o) k XMutex = true /\ member_ok n h (lib_mutex m h o) k XDestroy = true) <->
  match mode_of k with Ex => True | Sh => o = OShared | Up => False end.
Proof.
  intros Ho Hn. do 3 (destruct n as [|n]; [lia|]).
  destruct k; mb; rewrite ?andt, ?lib_plain by exact Ho; destruct Ho as [->|[->|[->| ->]]]; cbn; intuition congruence.
Qed.
Print Assumptions C86_library_locks.

(** Timed locking through a lock object: unique_lock of timed_mutex, with supported times, and no other. *)
Theorem C86_library_timed m h k o t n : movable k -> is_mutex o -> 3 <= n ->
  member_ok n h (lib_mutex m h o) k (XTimedLock t) = (match k, o with Unique, OTimedMutex => supported h t && (is_dur t || is_point t) | _, _ => false end) /\
  member_ok n h (lib_mutex m h o) k (XTryLockFor t) = (match k, o with Unique, OTimedMutex => supported h t && is_dur t | _, _ => false end) /\
  member_ok n h (lib_mutex m h o) k (XTryLockUntil t) = (match k, o with Unique, OTimedMutex => supported h t && is_point t | _, _ => false end).
Proof.
  intros Hk Ho Hn. destruct (C86_members_exact h (lib_mutex m h o) k n Hk Hn) as (_ & _ & _ & _ & Ht & Hf & Hu).
  rewrite (Ht t (XTimedLock t)) by (simpl; auto). rewrite Hf, Hu.
  assert (Hc : t = TNone \/ t <> TNone) by (destruct t; (left; reflexivity) || (right; discriminate)).
  destruct Hc as [->|Hc].
  - cbn. destruct Hk as [->|[->| ->]], Ho as [->|[->|[->| ->]]]; repeat split.
  - rewrite !lib_timed by assumption. destruct Hk as [->|[->| ->]], Ho as [->|[->|[->| ->]]]; cbn; rewrite ?andb_false_r; repeat split;
      destruct (supported h t), (is_dur t), (is_point t); reflexivity.
Qed.
Print Assumptions C86_library_timed.

(** No conversion between lock classes compiles for a mutex of the library. *)
Theorem C86_library_conversions m h o a b n : is_mutex o -> movable a -> movable b -> a <> b -> 3 <= n ->
  member_ok n h (lib_mutex m h o) b (XFrom a) = false /\ member_ok n h (lib_mutex m h o) b (XFromTry a) = false /\ forall t, member_ok n h (lib_mutex m h o) b (XFromTimed a t) = false.
Proof.
  intros Ho Ha Hb Hne Hn. destruct (C86_try_conversions_exact h (lib_mutex m h o) a b n Ha Hb Hn) as [H1 H2].
  split; [exact (proj1 (C86_plain_conversions_never h _ a b n Hne))|]. split; [|intro t]; [rewrite H1|rewrite H2].
  - destruct Ha as [->|[->| ->]], Hb as [->|[->| ->]]; reflexivity.
  - destruct Ha as [->|[->| ->]], Hb as [->|[->| ->]]; cbn; rewrite ?andb_false_r; reflexivity.
Qed.
Print Assumptions C86_library_conversions.

(** A mutex class of the user with exclusive and shared ownership and one conversion; on it shared_lock works and the conversion with try_to_lock does, the one without does not.  unique_lock of timed_mutex on Linux. *)
Definition rw_mutex : mutex_class := fun f t => match f, t with (lock | unlock | try_lock | lock_shared | unlock_shared | try_unlock_shared_and_lock | unlock_and_lock_shared), TNone => true | _, _ => false end.
Example C86_example :
  member_ok 4 std_only rw_mutex Shared XMutex = true /\ member_ok 4 std_only rw_mutex Shared XTryLock = false /\
  member_ok 4 std_only rw_mutex Unique (XFromTry Shared) = true /\ member_ok 4 std_only rw_mutex Shared (XFrom Unique) = false /\
  member_ok 4 std_only (lib_mutex linux_gcc std_only OTimedMutex) Unique (XTimed (TClock LibStd)) = true /\
  member_ok 4 std_only (lib_mutex linux_gcc std_only OTimedMutex) Unique (XTimed (TClock LibBoost)) = false /\
  member_ok 4 std_only (lib_mutex linux_gcc std_only OMutex) Unique (XTryLockFor (TDur LibStd)) = false.
Proof. repeat split. Qed.
Print Assumptions C86_example.
