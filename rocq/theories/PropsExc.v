(** Property theorems: what the exceptions say about the error (C81). *)
From Coq Require Import List Bool ZArith Lia.
From Verif Require Import ErrModel ExcModel.
Import ListNotations.
Local Open Scope Z_scope.

(** The exception is of the class named at the place that throws, its code is of the system category, and native_error() is the number
    the failed call reported: an errno value unchanged, a Win32 code unchanged up to the conversion to int, which loses nothing. *)
Theorem C81_number : forall std p s v x c, In s sites -> thrown std p s v = Some (x, c) ->
  x = s_class s /\ cat c = System /\
  (s_arg s = FromInt -> native_error c = v) /\
  (s_arg s = FromDword -> 0 <= v < 2 ^ 32 -> - 2 ^ 31 <= native_error c < 2 ^ 31 /\ native_error c mod 2 ^ 32 = v) /\
  (forall e, s_arg s = FromErrc e -> native_error c = errv p e).
Proof.
  intros std p s v x c _ H. unfold thrown in H. destruct (select _ _ _ _); [|discriminate]. injection H as <- <-.
  cbn. split; [reflexivity|]. split; [reflexivity|]. unfold native_error, make; cbn. split; [|split].
  - intros ->; reflexivity.
  - intros -> Hv. cbn. unfold to_int. destruct (Z.leb_spec (2 ^ 31) v).
    + split; [lia|]. replace (v - 2 ^ 32) with (v + (-1) * 2 ^ 32) by lia. rewrite Z.mod_add by lia. apply Z.mod_small; lia.
    + split; [lia|]. apply Z.mod_small; lia.
  - intros e ->; reflexivity.
Qed.
Print Assumptions C81_number.

(** With Boost.System every throw compiles. *)
Theorem C81_compiles : forall p s v, In s sites -> exists c, thrown false p s v = Some (s_class s, c).
Proof.
  intros p [f l x a] v _. unfold thrown; cbn. destruct x, a; cbn; eauto.
Qed.
Print Assumptions C81_compiles.

(** With BOOST_SYNC_USE_STD_SYSTEM_ERROR, a documented option, exactly the throws of a member of errc as something else than
    resource_error do not compile. *)
Theorem C81_std_compiles_partial : forall p s v, In s sites ->
  (thrown true p s v = None <-> (exists e, s_arg s = FromErrc e) /\ s_class s <> Xresource).
Proof.
  intros p [f l x a] v _. unfold thrown; cbn.
  destruct x, a; cbn; split; try (intros E; discriminate); try (intros _; split; [eauto|discriminate]);
    intros [[e' E] N]; try discriminate; try reflexivity; try congruence.
Qed.
Print Assumptions C81_std_compiles_partial.

(** These are all the throws of the lock objects: with that option no function of unique_lock, shared_lock and upgrade_lock that
    checks its state can be instantiated; nor can the waits of the Mach semaphore. *)
Theorem C81_std_compiles_refuted :
  (forall p s v, In s sites -> In (s_file s) [unique_lock_hpp; shared_lock_hpp; upgrade_lock_hpp] -> thrown true p s v = None) /\
  (forall p v, exists s, In s sites /\ s_file s = unique_lock_hpp /\ s_line s = 189%nat /\ thrown true p s v = None) /\
  (forall p v, exists s, In s sites /\ s_file s = basic_semaphore_mach_hpp /\ thrown true p s v = None).
Proof.
  assert (X : Forall (fun s => In (s_file s) [unique_lock_hpp; shared_lock_hpp; upgrade_lock_hpp] ->
              (exists e, s_arg s = FromErrc e) /\ s_class s = Xlock) sites).
  { unfold sites.
    repeat (apply Forall_cons; [cbn; intros F; first [split; [eexists; reflexivity | reflexivity]
      | exfalso; repeat (destruct F as [F|F]; [discriminate|]); exact F]|]). apply Forall_nil. }
  rewrite Forall_forall in X. split; [|split].
  - intros p s v Hs F. destruct (X s Hs F) as [E K]. apply (proj2 (C81_std_compiles_partial p s v Hs)). split; [exact E|congruence].
  - intros p v. exists (mk unique_lock_hpp 189 Xlock (FromErrc operation_not_permitted)). split; [|repeat split; reflexivity].
    apply (nth_error_In sites 63); reflexivity.
  - intros p v. exists (mk basic_semaphore_mach_hpp 79 Xwait (FromErrc invalid_argument)). split; [|repeat split; reflexivity].
    apply (nth_error_In sites 42); reflexivity.
Qed.
Print Assumptions C81_std_compiles_refuted.

(** On a POSIX platform, whatever the numbers, the code of an exception compares equal to a condition exactly if that is the condition
    that occurred. *)
Theorem C81_posix_condition : forall p, posix_like p -> forall std s v x c e, In s sites -> is_windows_header (s_file s) = false ->
  thrown std p s v = Some (x, c) -> (compares_equal p c e <-> happened p (s_arg s) v e).
Proof.
  intros p P std s v x c e Hs W H. unfold thrown in H. destruct (select _ _ _ _); [|discriminate]. injection H as <- <-.
  assert (D : s_arg s <> FromDword).
  { revert s Hs W. apply (proj1 (Forall_forall (fun s => is_windows_header (s_file s) = false -> s_arg s <> FromDword) sites)).
    unfold sites. repeat (apply Forall_cons; [cbn; intros; discriminate|]). apply Forall_nil. }
  cbn. destruct (s_arg s) as [| |y]; cbn.
  - apply P.
  - congruence.
  - rewrite (P _ _). split; [|intros ->; reflexivity]. intros E.
    assert (A : sysmap p (errv p y) = Some e) by (apply P; exact E).
    assert (B : sysmap p (errv p y) = Some y) by (apply P; reflexivity). congruence.
Qed.
Print Assumptions C81_posix_condition.

(** The throws of the Windows headers, all of codes of GetLastError, on any platform. *)
Theorem C81_windows_condition : forall p std s v, In s sites -> is_windows_header (s_file s) = true ->
  exists c, thrown std p s v = Some (s_class s, c) /\ (forall e, compares_equal p c e <-> happened p (s_arg s) v e).
Proof.
  intros p std s v Hs W.
  assert (D : s_arg s = FromDword).
  { revert s Hs W. apply (proj1 (Forall_forall (fun s => is_windows_header (s_file s) = true -> s_arg s = FromDword) sites)).
    unfold sites. repeat (apply Forall_cons; [cbn; intros; first [reflexivity|discriminate]|]). apply Forall_nil. }
  unfold thrown. rewrite D. destruct (s_class s); cbn; (eexists; split; [reflexivity|]); intros e; reflexivity.
Qed.
Print Assumptions C81_windows_condition.

(** On Windows the lock objects put errno values into system_category: no throw of a lock object compares equal to the condition named
    in the source, and a missing mutex compares equal to "function not supported". *)
Theorem C81_windows_lock_refuted :
  (forall s v, In s sites -> In (s_file s) [unique_lock_hpp; shared_lock_hpp; upgrade_lock_hpp] ->
     exists c e, thrown false windows s v = Some (Xlock, c) /\ happened windows (s_arg s) v e /\ ~ compares_equal windows c e) /\
  (forall s v, In s sites -> In (s_file s) [unique_lock_hpp; shared_lock_hpp; upgrade_lock_hpp] ->
     s_arg s = FromErrc operation_not_permitted ->
     exists c, thrown false windows s v = Some (Xlock, c) /\ compares_equal windows c (errc_other 40)).
Proof.
  assert (L : forall P : site -> Prop, Forall P sites -> forall s, In s sites -> P s) by (intros P; rewrite Forall_forall; auto).
  split; intros s v Hs; revert s Hs; refine (L _ _); unfold sites;
  repeat (apply Forall_cons; [cbn; intros F; first
    [ exfalso; repeat (destruct F as [F|F]; [discriminate|]); exact F
    | do 2 eexists; split; [reflexivity|]; split; [reflexivity|]; cbn; discriminate
    | intros A; try discriminate A; eexists; split; reflexivity ]|]); apply Forall_nil.
Qed.
Print Assumptions C81_windows_lock_refuted.

(** More generally: wherever errno 1 means "operation not permitted" and code 1 of the system category means something else. *)
Theorem C81_other_platforms_refuted : forall p e', errv p operation_not_permitted = 1 -> sysmap p 1 = Some e' ->
  e' <> operation_not_permitted -> exists s c, In s sites /\ forall v, thrown false p s v = Some (Xlock, c) /\
  happened p (s_arg s) v operation_not_permitted /\ ~ compares_equal p c operation_not_permitted /\ compares_equal p c e'.
Proof.
  intros p e' V M N. exists (mk unique_lock_hpp 189 Xlock (FromErrc operation_not_permitted)), (make 1).
  split; [apply (nth_error_In sites 63); reflexivity|]. intros v. split; [unfold thrown; cbn; rewrite V; reflexivity|].
  split; [reflexivity|]. cbn. rewrite M. split; [congruence|reflexivity].
Qed.
Print Assumptions C81_other_platforms_refuted.

(** With BOOST_SYNC_USE_PTHREAD on Windows the same happens to the results of pthread functions: EINVAL of pthread_mutex_lock. *)
Theorem C81_windows_pthread_refuted : exists s v c, In s sites /\ is_windows_header (s_file s) = false /\
  thrown false windows s v = Some (Xlock, c) /\ happened windows (s_arg s) v invalid_argument /\
  ~ compares_equal windows c invalid_argument.
Proof.
  exists (mk mutex_posix_hpp 92 Xlock FromInt), 22, (make 22). split; [apply (nth_error_In sites 4); reflexivity|].
  repeat split. cbn. discriminate.
Qed.
Print Assumptions C81_windows_pthread_refuted.

(** No exception the library throws says "no error". *)
Theorem C81_is_error : forall std p s v x c, In s sites -> thrown std p s v = Some (x, c) -> (forall e, errv p e <> 0) ->
  0 < v < 2 ^ 32 -> native_error c <> 0.
Proof.
  intros std p s v x c _ H P Hv. unfold thrown in H. destruct (select _ _ _ _); [|discriminate]. injection H as <- <-.
  unfold native_error; cbn. destruct (s_arg s); cbn; [lia| |apply P]. unfold to_int. destruct (Z.leb_spec (2 ^ 31) v); lia.
Qed.
Print Assumptions C81_is_error.

(** The default constructors do, except that of overflow_error. *)
Theorem C81_default_exact : forall p x, native_error (default_code p x) = (if match x with Xoverflow => true | _ => false end then errv p value_too_large else 0).
Proof. intros p []; reflexivity. Qed.
Print Assumptions C81_default_exact.

(** The three lock classes report the same conditions, function by function. *)
Definition of_file (f : file) (s : site) : bool :=
  match f, s_file s with
  | unique_lock_hpp, unique_lock_hpp | shared_lock_hpp, shared_lock_hpp | upgrade_lock_hpp, upgrade_lock_hpp => true
  | _, _ => false
  end.
Theorem C81_lock_classes_agree : forall f, In f [unique_lock_hpp; shared_lock_hpp; upgrade_lock_hpp] ->
  map s_arg (filter (of_file f) sites) =
  let check e := [FromErrc operation_not_permitted; FromErrc e] in
  (* lock, try_lock, timed_lock, try_lock_for, try_lock_until *)
  concat (repeat (check resource_deadlock_would_occur) 5) ++ (* unlock *) check operation_not_permitted.
Proof. intros f [<-|[<-|[<-|[]]]]; reflexivity. Qed.
Print Assumptions C81_lock_classes_agree.

(** Linux meets the hypotheses of [C81_posix_condition] and [C81_is_error]. *)
Theorem C81_example : posix_like linux /\ (forall e, errv linux e <> 0) /\
  thrown true linux (mk semaphore_dispatch_hpp 50 Xresource (FromErrc not_enough_memory)) 0 = Some (Xresource, make 12) /\
  thrown false windows (mk auto_handle_hpp 97 Xresource FromDword) 4294967295 = Some (Xresource, make (-1)) /\
  compares_equal windows (make 6) invalid_argument.
Proof.
  assert (P : posix_like linux).
  { intros z e. cbn [sysmap errv linux].
    repeat match goal with |- context [?a =? ?b] => destruct (Z.eqb_spec a b) end; subst;
    [..|destruct (Z.leb_spec 1000 z)];
    destruct e; split; intros E; try discriminate; try reflexivity; try lia.
    - injection E as <-. lia.
    - rewrite <- E. f_equal. f_equal. lia. }
  split; [exact P|]. split; [intros []; cbn [errv linux]; lia|]. repeat split; reflexivity.
Qed.
Print Assumptions C81_example.
