(** C87: the headers can be included in any order and any number of times; what they use is declared before it is used; every class is defined once, by the header that the
    configuration selects; the compiler's warning settings come back. HeaderModel.v has the text of all headers, as far as it matters for this. Every statement is for all
    configurations and all translation units, which include any headers in any order, mixed with headers of other projects. *)
From Coq Require Import List Bool String ZArith MSetPositive Lia.
From Verif Require Import ConfigModel HeaderModel HeaderProof PropsConfig.
Import ListNotations.
Local Open Scope list_scope.

(** The translation unit [us], with warning settings [d] at its start, leads to [st]. *)
Definition unit_of (c : hconf) (d : diag) (us : list uitem) (st : state) : Prop := tunit c us (start d) = Some st.
Definition includes (us : list uitem) (h : hdr) : Prop := exists k, In (UInc k h) us.
Definition only_public (us : list uitem) : Prop := forall h, includes us h -> public h = true.
Definition is_known (st : state) (n : name) : Prop := PositiveSet.mem (nid n) (known st) = true.

Lemma included_includes us h : In h (included us) <-> includes us h.
Proof.
  unfold included, includes. rewrite in_flat_map. split.
  - intros ([k g | e] & I & J); [| contradiction]. destruct J as [-> | []]. eauto.
  - intros (k & I). exists (UInc k h). split; [exact I | left; reflexivity].
Qed.
Lemma externals_in us e : In e (externals us) <-> In (UExt e) us.
Proof.
  unfold externals. rewrite in_flat_map. split.
  - intros ([k g | e'] & I & J); [contradiction |]. destruct J as [-> | []]. exact I.
  - intros I. exists (UExt e). split; [exact I | left; reflexivity].
Qed.

(** Compilers and configurations for the examples. *)
Definition gcc9 : comp := Comp false 900 false false.
Definition icc_linux : comp := Comp false 900 true false.
Definition vc14 : comp := Comp true 0 false false.
Definition linux11 : hconf := hconf_of gcc11 true true.
Definition linux03 : hconf := hconf_of gcc03 false false.
Definition windows7 : hconf := hconf_of win7 true true.
Definition user : diag := Diag [Off "shadow"]%string [].

(** ** Reading ends, whatever includes whatever: the lock headers include each other in C++03. *)
Theorem C87_terminates : forall c d us, exists st, unit_of c d us st.
Proof. intros c d us. apply tunit_total, whole_start. Qed.
Print Assumptions C87_terminates.
Example C87_terminates_case : In (Inc H_locks_shared_lock) (text linux03 H_locks_unique_lock) /\ In (Inc H_locks_unique_lock) (text linux03 H_locks_shared_lock) /\
  exists st, unit_of linux03 user [UInc gcc9 H_locks_unique_lock] st.
Proof. split; [vm_compute; tauto |]. split; [vm_compute; tauto |]. apply C87_terminates. Qed.

(** ** Every header is read at most once, no matter how often it is included; no two headers share a guard. *)
Theorem C87_read_once : forall c d us st, unit_of c d us st -> NoDup (reads st).
Proof. intros c d us st E. apply (tunit_tidy c us _ _ E (start_tidy d)). Qed.
Print Assumptions C87_read_once.
Theorem C87_guards_distinct : forall h g, guard h = guard g -> h = g.
Proof.
  intros h g E. assert (F : forall x, find (fun y => String.eqb (guard y) (guard x)) headers = Some x) by (intros x; destruct x; vm_compute; reflexivity).
  pose proof (F h) as A. rewrite E, F in A. congruence.
Qed.
Print Assumptions C87_guards_distinct.
Example C87_read_once_case : exists st, unit_of linux11 user [UInc gcc9 H_mutexes; UInc gcc9 H_mutexes_mutex; UInc gcc9 H_mutexes] st /\ In H_detail_mutexes_mutex_posix (reads st) /\ List.length (reads st) = 20.
Proof. eexists. split; [vm_compute; reflexivity |]. split; [vm_compute; tauto | reflexivity]. Qed.

(** ** What is included is there in full: every header read, with every header it includes, every name it declares, and every name of the external headers it includes. *)
Theorem C87_complete : forall c d us st, unit_of c d us st ->
  (forall h, includes us h -> In h (reads st)) /\
  (forall e n, In (UExt e) us -> In n (provides e) -> is_known st n) /\
  (forall h i, In h (reads st) -> In i (text c h) ->
     match i with Inc g => In g (reads st) | Ext e => forall n, In n (provides e) -> is_known st n | Decl n => is_known st n | _ => True end).
Proof.
  intros c d us st E. destruct (tunit_whole c us _ _ E (whole_start c d)) as (W & _ & H & K). destruct (tunit_tidy c us _ _ E (start_tidy d)) as [_ T]. split; [| split].
  - intros h I. apply T, H, included_includes, I.
  - intros e n I. apply K, externals_in, I.
  - intros h i R I. destruct (W h (proj1 (T h) R)) as [[] | D]. specialize (D i I). destruct i; auto. apply T, D.
Qed.
Print Assumptions C87_complete.

(** ** The order of the includes, and including more than once, make no difference to what is known. *)
Theorem C87_order : forall c d d' us us' st st', unit_of c d us st -> unit_of c d' us' st' ->
  (forall h, includes us h -> includes us' h) -> (forall e, In (UExt e) us -> In (UExt e) us') ->
  incl (reads st) (reads st') /\ forall n, is_known st n -> is_known st' n.
Proof.
  intros c d d' us us' st st' E E' HI HE. destruct (tunit_whole c us' _ _ E' (whole_start c d')) as (W & _ & H & K).
  destruct (tunit_least c us st' W) with (st := start d) (st' := st) as [A B]; [| | exact E | | |].
  - intros h I. apply H. apply included_includes, HI, included_includes, I.
  - intros e n I. apply K. apply externals_in, HE, externals_in, I.
  - intros h X. discriminate X.
  - intros p X. discriminate X.
  - split; [| intros n; apply B]. intros h I. apply (tunit_tidy c us' _ _ E' (start_tidy d')), A, (tunit_tidy c us _ _ E (start_tidy d)), I.
Qed.
Print Assumptions C87_order.
Example C87_order_case : exists st st', unit_of windows7 user [UInc vc14 H_locks; UInc vc14 H_mutexes; UExt E_string] st /\ unit_of windows7 user [UExt E_string; UInc gcc9 H_mutexes; UInc vc14 H_locks; UInc vc14 H_mutexes] st' /\
  reads st <> reads st' /\ incl (reads st) (reads st') /\ incl (reads st') (reads st).
Proof.
  destruct (C87_terminates windows7 user [UInc vc14 H_locks; UInc vc14 H_mutexes; UExt E_string]) as (st & E).
  destruct (C87_terminates windows7 user [UExt E_string; UInc gcc9 H_mutexes; UInc vc14 H_locks; UInc vc14 H_mutexes]) as (st' & E').
  exists st, st'. split; [exact E |]. split; [exact E' |]. split.
  - vm_compute in E, E'. injection E as <-. injection E' as <-. discriminate.
  - split; [eapply (C87_order _ _ _ _ _ _ _ E E') | eapply (C87_order _ _ _ _ _ _ _ E' E)].
    all: first [intros h (k & [X | [X | [X | [X | []]]]]); inversion X; subst; eexists; cbn; eauto 6 | intros h (k & [X | [X | [X | []]]]); inversion X; subst; eexists; cbn; eauto 6
               | intros e [X | [X | [X | [X | []]]]]; inversion X; subst; cbn; auto | intros e [X | [X | [X | []]]]; inversion X; subst; cbn; auto].
Qed.

(** ** Names are declared before they are used. For the library's own entities, macros and preprocessor decisions this holds without exception ... *)
Definition foreign (n : name) : bool :=
  match n with
  | D_lock_guard | D_shared_lock | D_shared_lock_guard | D_unique_lock | D_unlock_guard | D_upgrade_lock | L_add_thread_exit_callback | L_add_thread_exit_notify_entry | L_adopt_lock
  | L_adopt_lock_t | L_at_thread_exit | L_at_thread_exit_trampoline | L_atomic_ns | L_auto_handle | L_auto_reset_event | L_basic_condition_variable | L_basic_event | L_basic_mutex
  | L_basic_semaphore | L_chrono_time_point | L_condition_variable | L_condition_variable_any | L_cv_status | L_defer_lock | L_defer_lock_t | L_delete_thread_specific_key
  | L_enable_if_tag | L_errc_t | L_futex_broadcast | L_futex_invoke | L_futex_signal | L_futex_timedwait | L_futex_wait | L_get_thread_specific | L_get_waitable_timer
  | L_is_condition_variable_compatible | L_is_time_tag_of | L_lock_error | L_lock_guard | L_lockable_wrapper | L_manual_reset_event | L_mutex | L_new_thread_specific_key
  | L_notify_all_at_thread_exit | L_overflow_error | L_pause | L_pthread_mutex_lock_guard | L_pthread_mutex_unlock_guard | L_resource_error | L_runtime_exception | L_semaphore
  | L_set_thread_specific | L_shared_lock | L_shared_lock_guard | L_shared_spin_mutex | L_spin_mutex | L_system_duration | L_system_ns | L_system_time_point | L_thread_specific_key
  | L_thread_specific_ptr | L_throw_exception | L_time_duration_tag | L_time_point_tag | L_time_traits | L_timed_mutex | L_try_to_lock | L_try_to_lock_t | L_unique_lock | L_unlock_guard
  | L_upgrade_lock | L_wait_error | L_waitable_timer_state | L_weak_linkage | L_wrap_pthread | M_api | M_constexpr_with_non_literal_base | M_open_abi_namespace | M_sys_futex | M_throw
  | M_throw_default | T_platform | T_sem_kind | T_std_atomic | T_timedlock => false
  | _ => true
  end.
Theorem C87_names_declared : forall c d us st h n, unit_of c d us st -> In (h, n) (missing st) -> foreign n = true.
Proof.
  intros c d us st h n E M. destruct (tunit_missing c gaps us _ _ E (whole_start c d)) with (x := (h, n)) as [A | A]; [| exact M | contradiction |].
  - intros g x _ X. left. unfold gaps_of in X. destruct (public g); [right |]; exact X.
  - cbn in A. repeat destruct A as [A | A]; try contradiction; injection A as <- <-; reflexivity.
Qed.
Print Assumptions C87_names_declared.

(** ... and for the names of other projects with four exceptions, one of which only a direct include of a header of detail can meet: uint64_t in detail/futex.hpp 71, BOOST_ASSERT in
    detail/mutexes/shared_spin_mutex.hpp 54 and detail/mutexes/spin_mutex.hpp 54, and infinite in detail/waitable_timer.hpp 267 are used without an include of the header that
    declares them. *)
Theorem C87_gaps : forall c d us st h n, unit_of c d us st -> In (h, n) (missing st) ->
  In (h, n) [(H_detail_futex, XInt); (H_detail_mutexes_shared_spin_mutex, XAssert); (H_detail_mutexes_spin_mutex, XAssert)] \/
  (h, n) = (H_detail_waitable_timer, XWinWait) /\ ~ only_public us.
Proof.
  intros c d us st h n E M.
  destruct (existsb (fun g => negb (public g)) (included us)) eqn:P.
  - apply existsb_exists in P. destruct P as (g & G & P). destruct (tunit_missing c gaps us _ _ E (whole_start c d)) with (x := (h, n)) as [A | A]; [| exact M | contradiction |].
    + intros g' x _ X. left. unfold gaps_of in X. destruct (public g'); [right |]; exact X.
    + destruct A as [A | A]; [right | left; exact A]. split; [congruence |]. intros O. rewrite (O g) in P; [discriminate P |]. apply included_includes, G.
  - left. destruct (tunit_missing c public_gaps us _ _ E (whole_start c d)) with (x := (h, n)) as [A | A]; [| exact M | contradiction | exact A].
    intros g x G X. left. unfold gaps_of in X. destruct (public g) eqn:Q; [exact X |]. exfalso. apply not_true_iff_false in P. apply P, existsb_exists. exists g. split; [exact G |]. rewrite Q; reflexivity.
Qed.
Print Assumptions C87_gaps.

(** The public headers do not stand on their own, then: GCC in C++11 mode on Linux, one include. *)
Theorem C87_self_contained_refuted : exists c d h h' st st', public h = true /\ public h' = true /\
  unit_of c d [UInc gcc9 h] st /\ In (H_detail_mutexes_shared_spin_mutex, XAssert) (missing st) /\ ~ is_known st XAssert /\
  unit_of c d [UInc gcc9 h'] st' /\ In (H_detail_futex, XInt) (missing st').
Proof.
  exists linux11, user, H_mutexes_shared_spin_mutex, H_events_manual_reset_event. do 2 eexists. split; [reflexivity |]. split; [reflexivity |].
  split; [vm_compute; reflexivity |]. split; [vm_compute; tauto |]. split; [vm_compute; discriminate |]. split; [vm_compute; reflexivity | vm_compute; tauto].
Qed.
Print Assumptions C87_self_contained_refuted.

(** After boost/assert.hpp and boost/cstdint.hpp they do, in any order. *)
Theorem C87_after_assert_and_cstdint : forall c d us st, only_public us -> unit_of c d (UExt E_B_assert :: UExt E_B_cstdint :: us) st -> missing st = [].
Proof.
  intros c d us st O E. unfold unit_of in E. cbn [tunit] in E. destruct (missing st) as [| x l] eqn:M; [reflexivity | exfalso].
  destruct (tunit_missing c [] us _ _ E) with (x := x) as [A | A]; [| | rewrite M; left; reflexivity | exact A | exact A].
  - intros g H. discriminate H.
  - intros h y I Y. right. assert (P : public h = true) by (apply O, included_includes, I). unfold gaps_of in Y. rewrite P in Y.
    cbn in Y. repeat destruct Y as [<- | Y]; try contradiction; vm_compute; reflexivity.
Qed.
Print Assumptions C87_after_assert_and_cstdint.
Example C87_after_assert_and_cstdint_case : exists st, unit_of linux11 user (UExt E_B_assert :: UExt E_B_cstdint :: [UInc gcc9 H_mutexes; UInc gcc9 H_events]) st /\ missing st = [] /\ In H_detail_futex (reads st).
Proof. eexists. split; [vm_compute; reflexivity |]. split; [reflexivity | vm_compute; tauto]. Qed.

(** ** What each public header is for is there after it. *)
Definition documented (h : hdr) : list name :=
  match h with
  | H_condition_variables => [L_condition_variable; L_condition_variable_any; L_notify_all_at_thread_exit; L_cv_status]
  | H_condition_variables_condition_variable => [L_condition_variable; L_cv_status]
  | H_condition_variables_condition_variable_any => [L_condition_variable_any; L_cv_status]
  | H_condition_variables_cv_status => [L_cv_status]
  | H_condition_variables_notify_all_at_thread_exit => [L_notify_all_at_thread_exit]
  | H_events => [L_auto_reset_event; L_manual_reset_event]
  | H_events_auto_reset_event => [L_auto_reset_event]
  | H_events_manual_reset_event => [L_manual_reset_event]
  | H_exceptions => [L_runtime_exception; L_resource_error; L_lock_error; L_wait_error; L_overflow_error]
  | H_exceptions_lock_error => [L_lock_error]
  | H_exceptions_overflow_error => [L_overflow_error]
  | H_exceptions_resource_error => [L_resource_error]
  | H_exceptions_runtime_exception => [L_runtime_exception]
  | H_exceptions_wait_error => [L_wait_error]
  | H_locks => [D_lock_guard; D_unlock_guard; D_shared_lock_guard; D_unique_lock; D_shared_lock; D_upgrade_lock; L_defer_lock; L_try_to_lock; L_adopt_lock]
  | H_locks_lock_guard => [D_lock_guard; L_lock_guard; L_adopt_lock]
  | H_locks_lock_guard_fwd => [L_lock_guard]
  | H_locks_lock_options => [L_defer_lock_t; L_defer_lock; L_try_to_lock_t; L_try_to_lock; L_adopt_lock_t; L_adopt_lock]
  | H_locks_shared_lock => [D_shared_lock; L_shared_lock; L_defer_lock; L_try_to_lock; L_adopt_lock]
  | H_locks_shared_lock_fwd => [L_shared_lock]
  | H_locks_shared_lock_guard => [D_shared_lock_guard; L_shared_lock_guard; L_adopt_lock]
  | H_locks_shared_lock_guard_fwd => [L_shared_lock_guard]
  | H_locks_unique_lock => [D_unique_lock; L_unique_lock; L_defer_lock; L_try_to_lock; L_adopt_lock]
  | H_locks_unique_lock_fwd => [L_unique_lock]
  | H_locks_unlock_guard => [D_unlock_guard; L_unlock_guard]
  | H_locks_unlock_guard_fwd => [L_unlock_guard]
  | H_locks_upgrade_lock => [D_upgrade_lock; L_upgrade_lock; L_defer_lock; L_try_to_lock; L_adopt_lock]
  | H_locks_upgrade_lock_fwd => [L_upgrade_lock]
  | H_mutexes => [L_mutex; L_timed_mutex; L_spin_mutex; L_shared_spin_mutex]
  | H_mutexes_mutex => [L_mutex]
  | H_mutexes_shared_spin_mutex => [L_shared_spin_mutex]
  | H_mutexes_spin_mutex => [L_spin_mutex]
  | H_mutexes_timed_mutex => [L_timed_mutex]
  | H_semaphore => [L_semaphore]
  | H_support_boost_chrono | H_support_boost_date_time | H_support_posix_time | H_support_std_chrono => [L_time_traits; L_system_duration; L_system_time_point]
  | H_thread_specific_at_thread_exit => [L_at_thread_exit]
  | H_thread_specific_thread_specific_ptr => [L_thread_specific_ptr]
  | H_traits_is_condition_variable_compatible => [L_is_condition_variable_compatible]
  | _ => []
  end.
Definition declares (ns : hconf -> list name) (h : hdr) (c : hconf) : bool :=
  match solo c h with Some st => forallb (fun n => PositiveSet.mem (nid n) (known st)) (ns c) | None => false end.
Lemma declares_spec ns h : forallb (declares ns h) (confs (deps h)) = true -> (forall c c', plat c = plat c' -> (forall f, In f (deps h) -> on c f = on c' f) -> ns c = ns c') ->
  forall c d us st n, unit_of c d us st -> includes us h -> In n (ns c) -> is_known st n.
Proof.
  intros A HN c d us st n E I N. rewrite forallb_forall in A. destruct (confs_cover c h) as (c' & C & P & F & S). specialize (A c' C). unfold declares in A.
  rewrite <- (HN c c') in A by auto. unfold solo in A. rewrite <- S in A. destruct (include depth plain c h (start (Diag [] []))) as [s |] eqn:Es; [| discriminate A].
  rewrite forallb_forall in A. apply included_includes in I. apply (tunit_solo c us d st h s E I Es). apply A, N.
Qed.
Lemma documented_all : forallb (fun h => forallb (declares (fun _ => documented h) h) (confs (deps h))) headers = true.
Proof. vm_cast_no_check (eq_refl true). Qed.

Theorem C87_public_declares : forall c d us st h n, unit_of c d us st -> includes us h -> In n (documented h) -> is_known st n.
Proof.
  intros c d us st h n E I N. refine (declares_spec (fun _ => documented h) h _ _ c d us st n E I N); [| reflexivity].
  pose proof documented_all as A. rewrite forallb_forall in A. apply (A h (all_headers h)).
Qed.
Print Assumptions C87_public_declares.
Theorem C87_public_documented : forall h, public h = true <-> documented h <> [].
Proof. intros h. destruct h; cbn; split; congruence. Qed.
Print Assumptions C87_public_documented.

(** Where the compiler has no rvalue references, Boost.Move's emulation needs the definitions of all three lock templates (locks/unique_lock.hpp 30-34): each of the three headers brings
    them all. With rvalue references it brings its own only, and declarations of the others. *)
Theorem C87_locks_complete : forall c d us st h, unit_of c d us st -> includes us h -> In h [H_locks_unique_lock; H_locks_shared_lock; H_locks_upgrade_lock] -> on c FRvalue = false ->
  is_known st D_unique_lock /\ is_known st D_shared_lock /\ is_known st D_upgrade_lock.
Proof.
  intros c d us st h E I H R.
  assert (A : forall n, In n (if on c FRvalue then [] else [D_unique_lock; D_shared_lock; D_upgrade_lock]) -> is_known st n).
  { intros n. apply (declares_spec (fun c => if on c FRvalue then [] else [D_unique_lock; D_shared_lock; D_upgrade_lock]) h) with (d := d) (us := us); auto.
    - repeat destruct H as [<- | H]; try contradiction; vm_compute; reflexivity.
    - intros c1 c2 _ F. rewrite (F FRvalue); [reflexivity |]. repeat destruct H as [<- | H]; try contradiction; cbn; tauto. }
  rewrite R in A. repeat split; apply A; cbn; tauto.
Qed.
Print Assumptions C87_locks_complete.
Theorem C87_locks_declared : forall c d us st h, unit_of c d us st -> includes us h -> In h [H_locks_unique_lock; H_locks_shared_lock; H_locks_upgrade_lock] ->
  is_known st L_unique_lock /\ is_known st L_shared_lock /\ is_known st L_upgrade_lock.
Proof.
  intros c d us st h E I H.
  assert (A : forall n, In n [L_unique_lock; L_shared_lock; L_upgrade_lock] -> is_known st n).
  { intros n. apply (declares_spec (fun _ => [L_unique_lock; L_shared_lock; L_upgrade_lock]) h) with (c := c) (d := d) (us := us); auto.
    repeat destruct H as [<- | H]; try contradiction; vm_compute; reflexivity. }
  repeat split; apply A; cbn; tauto.
Qed.
Print Assumptions C87_locks_declared.
Example C87_locks_case : exists st st', unit_of linux03 user [UInc gcc9 H_locks_unique_lock] st /\ is_known st D_upgrade_lock /\
  unit_of linux11 user [UInc gcc9 H_locks_unique_lock] st' /\ is_known st' L_upgrade_lock /\ ~ is_known st' D_upgrade_lock.
Proof. do 2 eexists. split; [vm_compute; reflexivity |]. split; [reflexivity |]. split; [vm_compute; reflexivity |]. split; [reflexivity | vm_compute; discriminate]. Qed.

(** ** Nothing is defined twice. The six lock templates with a forward declaration are declared twice (L) and defined once (D). *)
Theorem C87_defined_once : forall c d us st n h g, only_public us -> unit_of c d us st -> forward n = false ->
  In h (reads st) -> In g (reads st) -> In n (declared c h) -> In n (declared c g) -> h = g /\ NoDup (filter (fun m => negb (forward m)) (declared c h)).
Proof.
  intros c d us st n h g O E F Hh Hg Nh Ng. assert (N : NoDup (flat_map (defined c) (reads st))) by (apply (defined_once c us d st); [intros x X; apply O, included_includes, X | exact E]).
  assert (D : forall x, In n (declared c x) -> In n (defined c x)) by (intros x X; apply filter_In; rewrite F; auto). split.
  - destruct (Pos.eq_dec (hid h) (hid g)) as [Q | Q]; [apply hid_inj, Q | exfalso]. apply (flat_disjoint (defined c) (reads st) N h g n); auto. congruence.
  - apply in_split in Hh. destruct Hh as (l1 & l2 & R). rewrite R, flat_map_app in N. cbn in N. apply nodup_app_r, nodup_app_l in N. exact N.
Qed.
Print Assumptions C87_defined_once.

(** ** Each class comes from the header that the configuration selects (select, C76), and from no other. *)
Definition class_header (o : obj) : hdr :=
  match o with
  | OMutex => H_mutexes_mutex | OTimedMutex => H_mutexes_timed_mutex | OSpin => H_mutexes_spin_mutex | OShared => H_mutexes_shared_spin_mutex
  | OCond => H_condition_variables_condition_variable | OCondAny => H_condition_variables_condition_variable_any | OSem => H_semaphore
  | OAuto => H_events_auto_reset_event | OManual => H_events_manual_reset_event
  end.
Definition class_name (o : obj) : name :=
  match o with
  | OMutex => L_mutex | OTimedMutex => L_timed_mutex | OSpin => L_spin_mutex | OShared => L_shared_spin_mutex
  | OCond => L_condition_variable | OCondAny => L_condition_variable_any | OSem => L_semaphore | OAuto => L_auto_reset_event | OManual => L_manual_reset_event
  end.
Definition file_header (f : file) : hdr :=
  match f with
  | FMutexPosix => H_detail_mutexes_mutex_posix | FMutexWindows => H_detail_mutexes_mutex_windows
  | FTimedNative | FTimedEmulated => H_detail_mutexes_timed_mutex_posix | FTimedWindows => H_detail_mutexes_timed_mutex_windows
  | ConfigModel.FSpinBool | FSpinFlag => H_detail_mutexes_spin_mutex | FShared => H_detail_mutexes_shared_spin_mutex
  | FCondPosix => H_detail_condition_variables_condition_variable_posix | FCondWindows => H_detail_condition_variables_condition_variable_windows
  | FCondAnyGeneric => H_detail_condition_variables_condition_variable_any_generic | FCondAnyWindows => H_detail_condition_variables_condition_variable_any_windows
  | FSemWindows => H_detail_semaphore_semaphore_windows | FSemDispatch => H_detail_semaphore_semaphore_dispatch | FSemPosix => H_detail_semaphore_semaphore_posix
  | FSemEmulation => H_detail_semaphore_semaphore_emulation | FSemMach => H_detail_semaphore_semaphore_mach
  | FAutoWindows => H_detail_events_auto_reset_event_windows | FAutoFutex => H_detail_events_auto_reset_event_futex
  | FAutoSemaphore => H_detail_events_auto_reset_event_semaphore | FAutoEmulation => H_detail_events_auto_reset_event_emulation
  | FManualWindows => H_detail_events_manual_reset_event_windows | FManualFutex => H_detail_events_manual_reset_event_futex
  | FManualEmulation => H_detail_events_manual_reset_event_emulation
  end.
(* The header that select leads to, from the conditions of the configuration alone. *)
Definition impl (c : hconf) (o : obj) : hdr :=
  match o with
  | OMutex => match plat c with PWinapi => H_detail_mutexes_mutex_windows | _ => H_detail_mutexes_mutex_posix end
  | OTimedMutex => match plat c with PWinapi => H_detail_mutexes_timed_mutex_windows | _ => H_detail_mutexes_timed_mutex_posix end
  | OSpin => H_detail_mutexes_spin_mutex
  | OShared => H_detail_mutexes_shared_spin_mutex
  | OCond => match plat c with PWinapi => H_detail_condition_variables_condition_variable_windows | _ => H_detail_condition_variables_condition_variable_posix end
  | OCondAny => match plat c with PWinapi => H_detail_condition_variables_condition_variable_any_windows | _ => H_detail_condition_variables_condition_variable_any_generic end
  | OSem => match plat c with
            | PWinapi => H_detail_semaphore_semaphore_windows
            | _ => if on c FDispatch then H_detail_semaphore_semaphore_dispatch else if on c FPosixSem then H_detail_semaphore_semaphore_posix else H_detail_semaphore_semaphore_emulation
            end
  | OAuto => match plat c with
             | PWinapi => H_detail_events_auto_reset_event_windows
             | PLinux => H_detail_events_auto_reset_event_futex
             | _ => if on c FPosixSem || on c FDispatch then H_detail_events_auto_reset_event_semaphore else H_detail_events_auto_reset_event_emulation
             end
  | OManual => match plat c with PWinapi => H_detail_events_manual_reset_event_windows | PLinux => H_detail_events_manual_reset_event_futex | _ => H_detail_events_manual_reset_event_emulation end
  end.
Lemma impl_select m rv se o : impl (hconf_of m rv se) o = file_header (select m o).
Proof.
  destruct o; cbn; unfold select_sem; destruct (platform_of m); cbn; try reflexivity;
    repeat match goal with |- context [if ?b then _ else _] => destruct b end; reflexivity.
Qed.
Lemma impl_agree c c' o : plat c = plat c' -> (forall f, In f (deps (class_header o)) -> on c f = on c' f) -> impl c o = impl c' o.
Proof.
  intros P F. destruct o; cbn [impl class_header] in *; rewrite ?P; try reflexivity; rewrite ?(F FDispatch), ?(F FPosixSem) by (cbn; tauto); reflexivity.
Qed.
Definition impl_read (o : obj) (c : hconf) : bool :=
  match solo c (class_header o) with
  | Some st => PositiveSet.mem (hid (impl c o)) (guards st) && existsb (fun n => Pos.eqb (nid n) (nid (class_name o))) (declared c (impl c o))
  | None => false
  end.
Lemma impl_all : forallb (fun o => forallb (impl_read o) (confs (deps (class_header o)))) [OMutex; OTimedMutex; OSpin; OShared; OCond; OCondAny; OSem; OAuto; OManual] = true.
Proof. vm_cast_no_check (eq_refl true). Qed.

Theorem C87_selected : forall m rv se d us st o, only_public us -> unit_of (hconf_of m rv se) d us st -> includes us (class_header o) ->
  forall h, In h (reads st) /\ In (class_name o) (declared (hconf_of m rv se) h) <-> h = file_header (select m o).
Proof.
  intros m rv se d us st o O E I. rewrite <- (impl_select m rv se). remember (hconf_of m rv se) as c eqn:Ec. clear Ec.
  assert (X : In (impl c o) (reads st) /\ In (class_name o) (declared c (impl c o))).
  { pose proof impl_all as A. rewrite forallb_forall in A. specialize (A o ltac:(destruct o; cbn; tauto)). rewrite forallb_forall in A.
    destruct (confs_cover c (class_header o)) as (c' & C & P & F & S). specialize (A c' C). unfold impl_read in A. rewrite <- (impl_agree c c' o) in A by auto.
    unfold solo in A. rewrite <- S in A. destruct (include depth plain c (class_header o) (start (Diag [] []))) as [s |] eqn:Es; [| discriminate A].
    apply andb_prop in A. destruct A as [A B]. split.
    - apply (tunit_tidy c us _ _ E (start_tidy d)). apply (tunit_solo c us d st (class_header o) s E); [apply included_includes, I | exact Es | exact A].
    - apply existsb_exists in B. destruct B as (n & N & Q). apply Pos.eqb_eq, nid_inj in Q. subst n.
      assert (D : declared c (impl c o) = declared c' (impl c o)); [| rewrite D; exact N]. unfold declared. f_equal. apply text_agree; [auto |].
      intros f Hf. apply F. clear - Hf. destruct o; cbn [impl class_header] in *; destruct (plat c); cbn in *; try tauto;
        repeat match type of Hf with context [if ?b then _ else _] => destruct b end; cbn in *; tauto. }
  destruct X as [X1 X2]. intros h. split; [| intros ->; auto]. intros [H1 H2].
  apply (C87_defined_once c d us st (class_name o)); auto. destruct o; reflexivity.
Qed.
Print Assumptions C87_selected.
Example C87_selected_case : exists st, unit_of windows7 user [UInc vc14 H_semaphore; UInc vc14 H_events_auto_reset_event] st /\ In H_detail_semaphore_semaphore_windows (reads st) /\
  ~ In H_detail_semaphore_semaphore_posix (reads st) /\ In H_detail_events_auto_reset_event_windows (reads st).
Proof. eexists. split; [vm_compute; reflexivity |]. split; [vm_compute; tauto |]. split; [vm_compute; intuition discriminate | vm_compute; tauto]. Qed.

(** ** No region between abi_prefix.hpp and abi_suffix.hpp is left open, entered twice, or open while another header is read. *)
Theorem C87_regions_closed : forall c d us st, unit_of c d us st -> abi st = false /\ nested st = false.
Proof.
  intros c d us st E. destruct (tunit_region (fun _ => True) (fun _ _ => True) c us) with (st := start d) (st' := st) as (A & B & _); auto. split; auto.
Qed.
Print Assumptions C87_regions_closed.

(** ** The warning settings: as the user left them, unless an Intel compiler with GCC compatibility 4.6 or later is used without BOOST_SYNC_ENABLE_WARNINGS. *)
Definition matched (k : comp) : Prop := c_enable k = true \/ c_msc k = true \/ c_intel k = false \/ (c_gnuc k < 406)%Z.
Lemma matched_restores k d : matched k -> footer_pragmas k (header_pragmas k d) = d.
Proof.
  intros [H | [H | [H | H]]]; unfold footer_pragmas, header_pragmas, gcc_pop, msvc_pop; rewrite ?H; destruct (c_enable k), (c_msc k); try reflexivity; try (destruct d; reflexivity); try discriminate.
  - destruct (0 <? c_gnuc k)%Z, (406 <=? c_gnuc k)%Z; cbn; try reflexivity; destruct d; reflexivity.
  - replace (406 <=? c_gnuc k)%Z with false by (symmetry; apply Z.leb_gt; lia). rewrite !andb_false_r. reflexivity.
Qed.
Theorem C87_warnings_restored : forall c d us st, (forall k h, In (UInc k h) us -> matched k) -> unit_of c d us st -> warn st = d.
Proof.
  intros c d us st M E. destruct (tunit_region (fun x => x = d) (fun k x => x = header_pragmas k d) c us) with (st := start d) (st' := st) as (_ & _ & A); auto.
  - intros k x _ ->. reflexivity.
  - intros k x I ->. apply matched_restores. unfold compilers in I. apply in_flat_map in I. destruct I as ([k' h | e] & I & J); [| contradiction]. destruct J as [-> | []]. apply (M k h I).
  - split; auto.
Qed.
Print Assumptions C87_warnings_restored.
Example C87_warnings_case : exists st, unit_of linux11 user [UInc gcc9 H_locks_lock_options] st /\ warn st = user /\ header_pragmas gcc9 user <> user.
Proof. eexists. split; [vm_compute; reflexivity |]. split; [reflexivity | vm_compute; discriminate]. Qed.

(** Without [matched]: detail/header.hpp 43-45 excludes Intel's compilers, detail/footer.hpp 15-17 does not, so each region ends with a pop that no push precedes. The user's own pushed
    settings are taken off the stack, or the settings go back to those of the command line. *)
Theorem C87_warnings_restored_refuted : exists c us d d' st st', only_public us /\ unit_of c d us st /\ unit_of c d' us st' /\ warn st <> d /\ warn st' <> d' /\
  cur d = [Off "shadow"]%string /\ cur (warn st) = [] /\ saved d' = [[Off "shadow"]]%string /\ saved (warn st') = [].
Proof.
  exists linux11, [UInc icc_linux H_locks_lock_options], user, (Diag [Off "a"; Off "shadow"] [[Off "shadow"]])%string. do 2 eexists. split.
  - intros h (k & [X | []]). injection X as _ <-. reflexivity.
  - split; [vm_compute; reflexivity |]. split; [vm_compute; reflexivity |]. vm_compute. repeat split; discriminate.
Qed.
Print Assumptions C87_warnings_restored_refuted.
