(** Property theorems: configuration (C76) and names of the compiled classes (C77). *)
From Coq Require Import List Bool ZArith Lia.
From Verif Require Import ConfigModel.
Import ListNotations.
Local Open Scope Z_scope.

(** What a system offers, written from the macros alone. *)
Definition offers (m : macros) (a : api) : Prop :=
  match a with
  | AWin => windows m = true
  | APthread => use_pthread m = true \/ windows m = false
  | ATimedlock => given_timedlock m = true \/ exists v, posix_timeouts m = Some v /\ 200112 <= v
  | AFutex => linux m = true /\ windows m = false
  | ASem => unistd m = true /\ 200112 <= posix_sem m
  | ADispatch => apple m = true /\ ((exists v, osx_min m = Some v /\ 1060 <= v) \/ (osx_min m = None /\ exists v, iphone_min m = Some v /\ 40000 <= v))
  | AMachSem => apple m = true
  end.

(** Examples: Linux with GCC (C++11 and C++03), macOS 10.5 and 10.6, Windows 7 with MSVC, a POSIX system with nothing optional. *)
Definition gcc11 : macros := Mac false false true false 0 false true 0 None None true 200809 (Some 200809) false true false false 90000 201103 true 0 0.
Definition gcc03 : macros := Mac false false true false 0 false true 0 None None true 200809 (Some 200809) false true false false 90000 199711 true 0 0.
Definition gcc_notimed : macros := Mac false false true false 0 false true 0 None None true 200809 None false true false false 90000 201103 true 0 0.
Definition osx106 : macros := Mac false false false true 0 false true 0 (Some 1060) None true (-1) None false false false true 0 201103 true 0 0.
Definition osx105 : macros := Mac false false false true 0 false true 0 (Some 1050) None true (-1) None false false false true 0 201103 true 0 0.
Definition ios40 : macros := Mac false false false true 0 false true 0 None (Some 40000) true (-1) None false false false true 0 201103 true 0 0.
Definition win7 : macros := Mac false true false false 1537 false false 1900 None None false 0 None false false false false 0 199711 true 0 0.
Definition bare : macros := Mac false false false false 0 false true 0 None None false 0 None false false false false 0 199711 false 0 0.
Definition with_sem : macros := Mac false false false false 0 false true 0 None None true 200112 (Some 200112) false false false false 0 199711 false 2 2.
(** Linux as [gcc11], the user asks for pthreads / with the names M:28 and M:31 tests. *)
Definition gcc11_pthread : macros := def_pthread gcc11.

(** ** C76: exactly one platform, and precisely which. *)
Theorem C76_platform_exact : forall m,
  (platform_of m = PWinapi <-> use_pthread m = false /\ windows m = true) /\
  (platform_of m = PLinux <-> use_pthread m = false /\ windows m = false /\ linux m = true) /\
  (platform_of m = PMach <-> use_pthread m = false /\ windows m = false /\ linux m = false /\ apple m = true) /\
  (platform_of m = PPosix <-> use_pthread m = true \/ (windows m = false /\ linux m = false /\ apple m = false)).
Proof.
  intros m. unfold platform_of.
  destruct (use_pthread m), (windows m), (linux m), (apple m); repeat split; intros; try discriminate; try reflexivity; intuition discriminate.
Qed.
Print Assumptions C76_platform_exact.

(** Whatever the macros, a selected implementation uses only interfaces that the system offers. *)
Theorem C76_selected_available : forall k m o a, In a (needs k m o) -> offers m a.
Proof.
  intros k m o a.
  assert (HT : has_timedlock m = true -> offers m ATimedlock).
  { unfold has_timedlock. cbn. intros H. apply orb_true_iff in H as [H | H]; [left; exact H | right].
    destruct (posix_timeouts m) as [v |]; [| discriminate]. exists v. split; [reflexivity |].
    apply andb_true_iff in H as [_ H]. apply Z.leb_le in H. exact H. }
  assert (HD : dispatch_sem m = true -> offers m ADispatch).
  { intros H. unfold dispatch_sem in H. destruct (platform_of m) eqn:E; try discriminate.
    apply C76_platform_exact in E. destruct E as (_ & _ & _ & Ea). split; [exact Ea |].
    destruct (osx_min m) as [v |]; [left; exists v; split; [reflexivity | apply Z.leb_le in H; exact H] |].
    destruct (iphone_min m) as [v |]; [right; split; [reflexivity | exists v; split; [reflexivity | apply Z.leb_le in H; exact H]] | discriminate]. }
  assert (HS : posix_semaphores m = true -> offers m ASem).
  { unfold posix_semaphores. intros H. apply andb_true_iff in H as [H H2]. apply andb_true_iff in H as [_ H1].
    apply Z.leb_le in H2. split; assumption. }
  assert (HP : platform_of m <> PWinapi -> offers m APthread).
  { intros H. cbn. destruct (use_pthread m) eqn:U; [left; reflexivity | right]. destruct (windows m) eqn:W; [| reflexivity].
    exfalso. apply H. apply C76_platform_exact. split; assumption. }
  assert (HW : platform_of m = PWinapi -> offers m AWin) by (intros H; apply C76_platform_exact in H; cbn; tauto).
  assert (HL : platform_of m = PLinux -> offers m AFutex) by (intros H; apply C76_platform_exact in H; cbn; tauto).
  assert (HF : forall o' a', In a' (direct (select m o')) -> offers m a').
  { intros o' a' H. destruct o'; cbn [select] in H; unfold select_sem in H;
    revert H; destruct (platform_of m) eqn:EP;
    repeat match goal with |- context [if ?b then _ else _] => destruct b eqn:? end;
    cbn [direct In]; intros H;
    repeat (destruct H as [<- | H] || destruct H as []);
    first [ apply HW; reflexivity | apply HL; reflexivity | apply HP; discriminate | apply HT; reflexivity | apply HS; reflexivity | apply HD; reflexivity ]. }
  revert o a. induction k as [| k IH]; intros o a H; cbn [needs] in H; [destruct H |].
  apply in_app_or in H as [H | H]; [exact (HF o a H) |].
  apply in_flat_map in H as (o' & _ & H). exact (IH o' a H).
Qed.
Print Assumptions C76_selected_available.

Example C76_available_example :
  needs 3 gcc11 OAuto = [AFutex] /\ needs 3 gcc11 OTimedMutex = [APthread; ATimedlock] /\ needs 3 gcc_notimed OTimedMutex = [APthread] /\ needs 3 osx106 OAuto = [ADispatch] /\
  needs 3 osx105 OAuto = [APthread; APthread] /\ needs 3 with_sem OAuto = [ASem] /\ needs 3 win7 OCond = [AWin; AWin] /\ needs 3 gcc11_pthread OManual = [APthread; APthread].
Proof. repeat split. Qed.

(** Three levels are all there are: more fuel finds nothing more. *)
Theorem C76_needs_complete : forall m o k, needs (3 + k) m o = needs 3 m o.
Proof.
  intros m o k. destruct o; cbn [needs plus]; unfold select, select_sem;
  destruct (platform_of m) eqn:EP; cbn; unfold select_sem; rewrite ?EP;
  repeat match goal with |- context [if ?b then _ else _] => destruct b eqn:? end; cbn; unfold select_sem; rewrite ?EP; cbn;
  repeat match goal with |- context [if ?b then _ else _] => destruct b eqn:? end; cbn; reflexivity.
Qed.
Print Assumptions C76_needs_complete.

(** The implementation on Mach semaphores is never selected; each of the others is selected by some configuration. *)
Theorem C76_selected_exact : forall f, f <> FSemMach <-> exists m o, select m o = f.
Proof.
  intros f. split.
  - intros H. destruct f;
    first [ exists gcc11, OMutex; reflexivity | exists win7, OMutex; reflexivity | exists gcc11, OTimedMutex; reflexivity | exists gcc_notimed, OTimedMutex; reflexivity
          | exists win7, OTimedMutex; reflexivity | exists with_sem, OSpin; reflexivity | exists gcc11, OSpin; reflexivity | exists gcc11, OShared; reflexivity
          | exists gcc11, OCond; reflexivity | exists win7, OCond; reflexivity | exists gcc11, OCondAny; reflexivity | exists win7, OCondAny; reflexivity
          | exists win7, OSem; reflexivity | exists osx106, OSem; reflexivity | exists gcc11, OSem; reflexivity | exists bare, OSem; reflexivity
          | exists win7, OAuto; reflexivity | exists gcc11, OAuto; reflexivity | exists with_sem, OAuto; reflexivity | exists bare, OAuto; reflexivity
          | exists win7, OManual; reflexivity | exists gcc11, OManual; reflexivity | exists bare, OManual; reflexivity | exfalso; apply H; reflexivity ].
  - intros (m & o & <-) H. destruct o; cbn in H; unfold select_sem in H; revert H;
    destruct (platform_of m);
    repeat match goal with |- context [if ?b then _ else _] => destruct b end; discriminate.
Qed.
Print Assumptions C76_selected_exact.

(** Exactly when each implementation of the semaphore and of the events is chosen, in terms of the macros. *)
Theorem C76_semaphore_exact : forall m,
  (select m OSem = FSemWindows <-> use_pthread m = false /\ windows m = true) /\
  (select m OSem = FSemDispatch <-> use_pthread m = false /\ windows m = false /\ linux m = false /\ offers m ADispatch) /\
  (select m OSem = FSemPosix <-> (use_pthread m = true \/ windows m = false) /\ offers m ASem /\
     ~ (use_pthread m = false /\ windows m = false /\ linux m = false /\ offers m ADispatch)).
Proof.
  intros m. destruct (C76_platform_exact m) as (PW & PL & PM & PP).
  assert (D : dispatch_sem m = true <-> use_pthread m = false /\ windows m = false /\ linux m = false /\ offers m ADispatch).
  { unfold dispatch_sem. cbn [offers]. destruct (platform_of m); split; intros H; try discriminate.
    1, 2, 3: destruct H as (H1 & H2 & H3 & H4 & _); assert (X : PMach = PMach) by reflexivity; apply PM in X || (exfalso; assert (Y : _ = PMach) by (apply PM; auto); discriminate Y).
    - destruct PM as [PM _]. specialize (PM eq_refl) as (M1 & M2 & M3 & M4). repeat split; try assumption.
      destruct (osx_min m) as [v |]; [left; exists v; split; [reflexivity | apply Z.leb_le; exact H] |].
      destruct (iphone_min m) as [v |]; [right; split; [reflexivity | exists v; split; [reflexivity | apply Z.leb_le; exact H]] | discriminate].
    - destruct H as (_ & _ & _ & _ & [(v & -> & L) | (-> & v & -> & L)]); apply Z.leb_le; exact L. }
  assert (Q : posix_semaphores m = true <-> dispatch_sem m = false /\ offers m ASem).
  { unfold posix_semaphores. cbn [offers]. rewrite !andb_true_iff, negb_true_iff, Z.leb_le. tauto. }
  assert (W : platform_of m <> PWinapi <-> use_pthread m = true \/ windows m = false).
  { rewrite PW. destruct (use_pthread m), (windows m); intuition discriminate. }
  rewrite <- PW, <- D, <- W. cbn [select]. unfold select_sem.
  destruct (platform_of m), (dispatch_sem m) eqn:ED, (posix_semaphores m) eqn:EQ; repeat split; intros; try reflexivity; try discriminate; try congruence;
  try (apply Q; reflexivity); try (destruct Q as [_ Q]; exfalso; intuition congruence); intuition congruence.
Qed.
Print Assumptions C76_semaphore_exact.

Theorem C76_events_exact : forall m,
  (select m OAuto = FAutoWindows <-> use_pthread m = false /\ windows m = true) /\
  (select m OAuto = FAutoFutex <-> use_pthread m = false /\ windows m = false /\ linux m = true) /\
  (select m OAuto = FAutoSemaphore <-> platform_of m <> PWinapi /\ platform_of m <> PLinux /\ (select m OSem = FSemPosix \/ select m OSem = FSemDispatch)) /\
  (select m OManual = FManualWindows <-> use_pthread m = false /\ windows m = true) /\
  (select m OManual = FManualFutex <-> use_pthread m = false /\ windows m = false /\ linux m = true).
Proof.
  intros m. destruct (C76_platform_exact m) as (PW & PL & _ & _). cbn. unfold select_sem.
  destruct (platform_of m); destruct (dispatch_sem m), (posix_semaphores m); cbn;
  rewrite <- ?PW, <- ?PL; repeat split; intros; try discriminate; try reflexivity; try congruence; try tauto; intuition (discriminate || congruence).
Qed.
Print Assumptions C76_events_exact.

(** The auto-reset event on a semaphore is never built on the emulated one. *)
Theorem C76_auto_semaphore_not_emulated : forall m, select m OAuto = FAutoSemaphore -> select m OSem = FSemPosix \/ select m OSem = FSemDispatch.
Proof. intros m H. apply C76_events_exact in H. tauto. Qed.
Print Assumptions C76_auto_semaphore_not_emulated.

(** The other classes. *)
Theorem C76_mutexes_exact : forall m,
  (select m OMutex = if andb (negb (use_pthread m)) (windows m) then FMutexWindows else FMutexPosix) /\
  (select m OCond = if andb (negb (use_pthread m)) (windows m) then FCondWindows else FCondPosix) /\
  (select m OCondAny = if andb (negb (use_pthread m)) (windows m) then FCondAnyWindows else FCondAnyGeneric) /\
  (select m OTimedMutex = FTimedWindows <-> use_pthread m = false /\ windows m = true) /\
  (select m OTimedMutex = FTimedNative <-> (use_pthread m = true \/ windows m = false) /\ offers m ATimedlock) /\
  (select m OTimedMutex = FTimedEmulated <-> (use_pthread m = true \/ windows m = false) /\ ~ offers m ATimedlock) /\
  select m OShared = FShared.
Proof.
  intros m.
  assert (T : has_timedlock m = true <-> offers m ATimedlock).
  { unfold has_timedlock. cbn [offers]. rewrite orb_true_iff. destruct (posix_timeouts m) as [v |].
    - rewrite andb_true_iff, !Z.leb_le. split; (intros [H | H]; [left; exact H | right]); [exists v; split; [reflexivity | tauto] | destruct H as (w & E & L); injection E as ->; lia].
    - split; (intros [H | H]; [left; exact H | ]); [discriminate | destruct H as (w & E & _); discriminate]. }
  rewrite <- T. cbn [select]. unfold platform_of.
  destruct (use_pthread m), (windows m), (linux m), (apple m), (has_timedlock m); repeat split; intros; try discriminate; try reflexivity; intuition discriminate.
Qed.
Print Assumptions C76_mutexes_exact.

(** Whose atomics. *)
Theorem C76_atomic_exact : forall m, std_atomic m = true <->
  given_std_atomic m = true \/
  (clang m = true /\ 201103 <= cplusplus m /\ has_atomic_header m = true) \/
  (clang m = false /\ 1700 <= msvc m) \/
  (clang m = false /\ msvc m <= 0 /\ 40800 <= gcc m /\ 201103 <= cplusplus m).
Proof.
  intros m. unfold std_atomic. rewrite orb_true_iff.
  destruct (clang m); [rewrite andb_true_iff, Z.leb_le; intuition discriminate |].
  destruct (Z.ltb_spec 0 (msvc m)); [rewrite Z.leb_le; intuition (discriminate || lia) |].
  destruct (Z.ltb_spec 0 (gcc m)); [rewrite andb_true_iff, !Z.leb_le; intuition (discriminate || lia) | intuition (discriminate || lia)].
Qed.
Print Assumptions C76_atomic_exact.

(** The spin mutex that reads before it exchanges is used only where a macro with the misspelt name is 2. *)
Theorem C76_spin_exact : forall m,
  select m OSpin = FSpinBool <-> (std_atomic m = true /\ atomic_bool_lockfree m = 2) \/ (std_atomic m = false /\ boost_atomic_bool_lockfree m = 2).
Proof.
  intros m. cbn. unfold spinlock_bool. destruct (std_atomic m).
  - destruct (Z.eqb_spec (atomic_bool_lockfree m) 2); intuition congruence.
  - destruct (Z.eqb_spec (boost_atomic_bool_lockfree m) 2); intuition congruence.
Qed.
Print Assumptions C76_spin_exact.

(** The clock: seconds only exactly where neither clock_gettime nor Mach nor Windows is there. *)
Theorem C76_clock_exact : forall m,
  (clock_of m = KSeconds <-> (use_pthread m = true \/ (windows m = false /\ (linux m = true \/ apple m = false))) /\ clock_gettime m = false) /\
  (clock_of m = KFileTime <-> use_pthread m = false /\ windows m = true) /\
  (clock_of m = KTimeofday <-> use_pthread m = false /\ windows m = false /\ linux m = false /\ apple m = true /\ clock_gettime m = false).
Proof.
  intros m. unfold clock_of, platform_of.
  destruct (use_pthread m), (windows m), (linux m), (apple m), (clock_gettime m); repeat split; intros; try discriminate; try reflexivity; intuition discriminate.
Qed.
Print Assumptions C76_clock_exact.

(** "Deadlines are computed from a clock finer than a second on every system": false, for instance with pthreads asked for on a Mac without clock_gettime. *)
Theorem C76_clock_refuted : exists m, apple m = true /\ windows m = false /\ clock_of m = KSeconds.
Proof. exists (def_pthread osx106). repeat split. Qed.
Print Assumptions C76_clock_refuted.

(** Compiler thread-local variables: without being asked for, only on Windows 6 or later, never without a keyword for them. *)
Theorem C76_tls_exact : forall m, compiler_tls m = true <->
  (user_tls m = true \/ (use_pthread m = false /\ windows m = true /\ 1536 <= winver m)) /\ (gnuc m = true \/ 0 < msvc m).
Proof.
  intros m. destruct (C76_platform_exact m) as (PW & _). unfold compiler_tls, win6. rewrite andb_true_iff, !orb_true_iff, Z.ltb_lt.
  assert (A : match platform_of m with PWinapi => 1536 <=? winver m | _ => false end = true <-> platform_of m = PWinapi /\ 1536 <= winver m).
  { destruct (platform_of m); rewrite ?Z.leb_le; intuition discriminate. }
  rewrite A, PW. tauto.
Qed.
Print Assumptions C76_tls_exact.

(** Sources of the library: one implementation of the keys in every build; with Windows exactly one set of exit hooks unless it is static with another compiler. *)
Definition is_keys (s : source) : bool := match s with XPthread | XWindows => true | _ => false end.
Definition is_hooks (s : source) : bool := match s with XDll | XMingw | XMsvc => true | _ => false end.

Theorem C76_library_exact : forall b t m, b_windows b = windows m ->
  length (filter is_keys (sources b t m)) = 1%nat /\
  (In XWindows (sources b t m) <-> platform_of m = PWinapi) /\
  (In XWindows (sources b t m) ->
     (length (filter is_hooks (sources b t m)) <= 1)%nat /\
     (length (filter is_hooks (sources b t m)) = 1%nat <-> b_shared b = true \/ mingw t = true \/ (0 < msc_ver t /\ under_ce t = false))) /\
  (~ In XWindows (sources b t m) -> filter is_hooks (sources b t m) = []).
Proof.
  intros b t m E. destruct (C76_platform_exact m) as (PW & _). unfold sources. rewrite E.
  destruct (platform_of m); cbn.
  2: { assert (W : windows m = true) by (apply PW; reflexivity). rewrite W. cbn.
       destruct (b_shared b); cbn; [repeat split; intros; try tauto; try lia; try (left; reflexivity) |].
       destruct (mingw t); cbn; [repeat split; intros; try tauto; try lia |].
       destruct (Z.ltb_spec 0 (msc_ver t)); destruct (under_ce t); cbn; repeat split; intros; try tauto; try lia; try discriminate;
       intuition (discriminate || lia). }
  all: destruct (windows m) eqn:W; cbn; repeat split; intros; try tauto; try discriminate; intuition discriminate.
Qed.
Print Assumptions C76_library_exact.

Example C76_library_example :
  sources (Bld false true true) (Tool false 1900 false false true false) win7 = [XWindows; XDll] /\
  sources (Bld false true false) (Tool true 0 false false false false) win7 = [XWindows; XMingw] /\
  sources (Bld false false true) (Tool false 0 false false false false) gcc11 = [XPthread].
Proof. repeat split. Qed.

(** When the compilation of these sources stops. *)
Theorem C76_stops_exact : forall b t m, b_windows b = windows m ->
  (existsb (stops t) (sources b t m) = true <->
   use_pthread m = false /\ windows m = true /\ b_shared b = false /\ mingw t = false /\ under_ce t = false /\ 1500 <= msc_ver t /\ m_ix86 t = false /\ m_x64 t = false /\ m_arm t = false).
Proof.
  intros b t m E. destruct (C76_platform_exact m) as (PW & _).
  assert (A : existsb (stops t) (sources b t m) = true <->
    platform_of m = PWinapi /\ b_windows b = true /\ b_shared b = false /\ mingw t = false /\ under_ce t = false /\ 1500 <= msc_ver t /\ m_ix86 t = false /\ m_x64 t = false /\ m_arm t = false).
  { unfold sources. destruct (platform_of m), (b_windows b), (b_shared b), (mingw t); cbn; try (split; [discriminate | intuition discriminate]).
    destruct (Z.ltb_spec 0 (msc_ver t)), (under_ce t); cbn; try (split; [discriminate | intuition (discriminate || lia)]).
    destruct (Z.leb_spec 1500 (msc_ver t)), (m_ix86 t), (m_x64 t), (m_arm t); cbn; split; intros; try reflexivity; try discriminate; intuition (discriminate || lia). }
  rewrite A, E, PW. tauto.
Qed.
Print Assumptions C76_stops_exact.

(** "The static library can be built by MSVC": false for a processor that is none of the three, such as ARM64. *)
Theorem C76_static_msvc_refuted : exists b t m, b_windows b = true /\ windows m = true /\ msc_ver t = 1900 /\ existsb (stops t) (sources b t m) = true.
Proof. exists (Bld false true false), (Tool false 1900 false false false false), win7. repeat split. Qed.
Print Assumptions C76_static_msvc_refuted.

(** ** C77: one name, one layout *)
(** The tags distinguish the platforms. *)
Theorem C77_tag_platform : forall m1 m2, abi_of m1 = abi_of m2 -> platform_of m1 = platform_of m2.
Proof.
  intros m1 m2. unfold abi_of. destruct (platform_of m1), (platform_of m2); intros H; try reflexivity; try discriminate;
  repeat match type of H with context [if ?b then _ else _] => destruct b end; discriminate.
Qed.
Print Assumptions C77_tag_platform.

(** The tags in full. *)
Theorem C77_tag_exact : forall m,
  (abi_of m = NPosix <-> platform_of m = PPosix) /\ (abi_of m = NLinux <-> platform_of m = PLinux) /\ (abi_of m = NMach <-> platform_of m = PMach) /\
  (abi_of m = NWin6 <-> platform_of m = PWinapi /\ 1536 <= winver m) /\ (abi_of m = NWin5 <-> platform_of m = PWinapi /\ winver m < 1536).
Proof.
  intros m. unfold abi_of, win6. destruct (platform_of m), (Z.leb_spec 1536 (winver m)); repeat split; intros; try discriminate; try reflexivity; try lia; intuition (discriminate || lia).
Qed.
Print Assumptions C77_tag_exact.

(** Two translation units that name the same class agree on its members: mutex, the two condition variables, the manual-reset event everywhere; all tagged classes on Windows.
    Missing for the full claim: the other classes elsewhere, where it is false (below). *)
Theorem C77_same_layout_partial : forall m1 m2 o,
  name_of m1 o = name_of m2 o ->
  (o = OMutex \/ o = OCond \/ o = OCondAny \/ o = OManual \/ (o <> OSpin /\ o <> OShared /\ platform_of m1 = PWinapi)) ->
  members 3 m1 o = members 3 m2 o.
Proof.
  intros m1 m2 o H C.
  assert (HP : platform_of m1 = platform_of m2).
  { apply C77_tag_platform. destruct o; cbn in H; try (injection H; intros; assumption);
    destruct C as [C | [C | [C | [C | (C1 & C2 & _)]]]]; try discriminate; exfalso; auto. }
  destruct o; cbn [members]; unfold select, select_sem; rewrite <- ?HP;
  destruct C as [C | [C | [C | [C | (C1 & C2 & C)]]]]; try discriminate; try (exfalso; auto; fail);
  destruct (platform_of m1) eqn:EP; try discriminate; cbn; rewrite ?EP, <- ?HP; cbn; rewrite ?EP, <- ?HP; reflexivity.
Qed.
Print Assumptions C77_same_layout_partial.

Example C77_same_layout_example :
  name_of gcc11 OManual = name_of gcc03 OManual /\ gcc11 <> gcc03 /\ members 3 gcc11 OManual = [TAtomic LBoost 32] /\
  members 3 gcc11_pthread OManual = [TPmutex; TPcond; TBool] /\ name_of gcc11 OManual <> name_of gcc11_pthread OManual.
Proof. repeat split; discriminate. Qed.

(** Exactly when the others agree, for two translation units with the same tag. *)
Theorem C77_timed_mutex_exact : forall m1 m2, abi_of m1 = abi_of m2 ->
  (members 3 m1 OTimedMutex = members 3 m2 OTimedMutex <-> platform_of m1 = PWinapi \/ has_timedlock m1 = has_timedlock m2).
Proof.
  intros m1 m2 H. apply C77_tag_platform in H. cbn. rewrite <- H.
  destruct (platform_of m1), (has_timedlock m1), (has_timedlock m2); cbn; split; intros; try reflexivity; try discriminate; intuition discriminate.
Qed.
Print Assumptions C77_timed_mutex_exact.

Theorem C77_semaphore_exact : forall m1 m2, abi_of m1 = abi_of m2 ->
  (members 3 m1 OSem = members 3 m2 OSem <->
   platform_of m1 = PWinapi \/ (dispatch_sem m1 = dispatch_sem m2 /\ posix_semaphores m1 = posix_semaphores m2)).
Proof.
  intros m1 m2 H. apply C77_tag_platform in H. cbn. unfold select_sem. rewrite <- H.
  assert (X : forall m, dispatch_sem m = true -> posix_semaphores m = false) by (intros m Hd; unfold posix_semaphores; rewrite Hd; reflexivity).
  specialize (X m1) as X1. specialize (X m2) as X2.
  destruct (platform_of m1) eqn:EP, (dispatch_sem m1), (dispatch_sem m2), (posix_semaphores m1), (posix_semaphores m2);
  try (specialize (X1 eq_refl); discriminate); try (specialize (X2 eq_refl); discriminate);
  cbn; rewrite ?EP, <- ?H; cbn; split; intros; try reflexivity; try discriminate; try tauto; intuition discriminate.
Qed.
Print Assumptions C77_semaphore_exact.

(** The two layouts in closed form. *)
Lemma sem_layout : forall m, members 3 m OSem =
  match platform_of m with PWinapi => [THandle] | _ => if dispatch_sem m then [TDispatch] else if posix_semaphores m then [TSem] else [TPmutex; TPcond; TUnsigned] end.
Proof.
  intros m. cbn [members select]. unfold select_sem. destruct (platform_of m) eqn:EP; cbn [members_of]; try reflexivity;
  destruct (dispatch_sem m), (posix_semaphores m); cbn; rewrite ?EP; reflexivity.
Qed.
Lemma auto_layout : forall m, members 3 m OAuto =
  match platform_of m with
  | PWinapi => [THandle]
  | PLinux => [TAtomic (lib_of m) 32]
  | _ => if dispatch_sem m then [TDispatch; TAtomic (lib_of m) 32] else if posix_semaphores m then [TSem; TAtomic (lib_of m) 32] else [TPmutex; TPcond; TBool]
  end.
Proof.
  intros m. cbn [members select]. destruct (platform_of m) eqn:EP; cbn [members_of]; try reflexivity;
  destruct (dispatch_sem m) eqn:E1, (posix_semaphores m) eqn:E2; cbn; unfold select_sem; rewrite ?EP; cbn; rewrite ?E1, ?E2; cbn; rewrite ?EP; reflexivity.
Qed.

Theorem C77_auto_event_exact : forall m1 m2, abi_of m1 = abi_of m2 ->
  (members 3 m1 OAuto = members 3 m2 OAuto <->
   match platform_of m1 with
   | PWinapi => True
   | PLinux => std_atomic m1 = std_atomic m2
   | _ => members 3 m1 OSem = members 3 m2 OSem /\ (posix_semaphores m1 || dispatch_sem m1 = true -> std_atomic m1 = std_atomic m2)
   end).
Proof.
  intros m1 m2 H. apply C77_tag_platform in H. rewrite !auto_layout, !sem_layout, <- H. unfold lib_of.
  destruct (platform_of m1), (dispatch_sem m1), (dispatch_sem m2), (posix_semaphores m1), (posix_semaphores m2), (std_atomic m1), (std_atomic m2); cbn;
  split; intros G; try reflexivity; try discriminate G; try exact I; try (split; intros; reflexivity); try (split; [reflexivity | discriminate]);
  destruct G as [G1 G2]; first [discriminate G1 | discriminate (G2 eq_refl)].
Qed.
Print Assumptions C77_auto_event_exact.

Theorem C77_spin_exact : forall m1 m2,
  name_of m1 OSpin = name_of m2 OSpin /\ name_of m1 OShared = name_of m2 OShared /\
  (members 3 m1 OSpin = members 3 m2 OSpin <-> std_atomic m1 = std_atomic m2 /\ spinlock_bool m1 = spinlock_bool m2) /\
  (members 3 m1 OShared = members 3 m2 OShared <-> std_atomic m1 = std_atomic m2).
Proof.
  intros m1 m2. cbn. unfold lib_of.
  destruct (std_atomic m1), (std_atomic m2), (spinlock_bool m1), (spinlock_bool m2); cbn; repeat split; intros; try reflexivity; try discriminate; intuition discriminate.
Qed.
Print Assumptions C77_spin_exact.

(** What each object is made of. *)
Theorem C77_layouts : forall m,
  (platform_of m = PWinapi ->
     members 3 m OMutex = [TAtomic LBoost 32; TAtomic LBoost 64] /\ members 3 m OTimedMutex = [TAtomic LBoost 32; TAtomic LBoost 64] /\
     (forall o, o = OCond \/ o = OCondAny -> members 3 m o = [TAtomic LBoost 32; TAtomic LBoost 64; TPointer; TPointer; TAtomic LBoost 64]) /\
     (forall o, o = OSem \/ o = OAuto \/ o = OManual -> members 3 m o = [THandle])) /\
  (platform_of m <> PWinapi ->
     members 3 m OMutex = [TPmutex] /\ members 3 m OCond = [TPcond] /\ members 3 m OCondAny = [TPmutex; TPcond] /\
     (offers m ATimedlock -> members 3 m OTimedMutex = [TPmutex]) /\ (~ offers m ATimedlock -> members 3 m OTimedMutex = [TPmutex; TPcond; TBool]) /\
     (platform_of m <> PLinux -> members 3 m OManual = [TPmutex; TPcond; TBool])) /\
  (platform_of m = PLinux -> members 3 m OManual = [TAtomic LBoost 32] /\ members 3 m OAuto = [TAtomic (if std_atomic m then LStd else LBoost) 32]) /\
  members 3 m OShared = [TAtomic (if std_atomic m then LStd else LBoost) 32] /\
  members 3 m OSpin = [if spinlock_bool m then TAtomic (if std_atomic m then LStd else LBoost) 8 else TFlag (if std_atomic m then LStd else LBoost)].
Proof.
  intros m. destruct (C76_mutexes_exact m) as (_ & _ & _ & _ & T1 & T2 & _).
  assert (W : platform_of m <> PWinapi <-> use_pthread m = true \/ windows m = false).
  { rewrite (proj1 (C76_platform_exact m)). destruct (use_pthread m), (windows m); intuition discriminate. }
  rewrite <- W in T1, T2.
  split; [intros E; repeat split; intros; try (destruct H as [-> | [-> | ->]] || destruct H as [-> | ->]); cbn; unfold select_sem; rewrite E; cbn; rewrite ?E; reflexivity |].
  split; [intros E; split; [cbn; destruct (platform_of m); try congruence; reflexivity |] | split].
  - split; [cbn; destruct (platform_of m); try congruence; reflexivity |]. split; [cbn; destruct (platform_of m) eqn:EP; try congruence; cbn; rewrite ?EP; reflexivity |].
    split; [intros O; cbn [members]; rewrite (proj2 T1 (conj E O)); reflexivity |].
    split; [intros O; cbn [members]; rewrite (proj2 T2 (conj E O)); reflexivity |].
    intros L. cbn. destruct (platform_of m) eqn:EP; try congruence; cbn; rewrite ?EP; reflexivity.
  - intros E. cbn. rewrite E. unfold lib_of. split; reflexivity.
  - split; [reflexivity |]. cbn. unfold lib_of. destruct (spinlock_bool m); reflexivity.
Qed.
Print Assumptions C77_layouts.

(** Three levels are all there are, as for [needs]. *)
Theorem C77_members_complete : forall m o k, members (3 + k) m o = members 3 m o.
Proof.
  intros m o k. destruct o; cbn [members plus]; unfold select, select_sem;
  destruct (platform_of m) eqn:EP; cbn; unfold select_sem; rewrite ?EP; cbn;
  repeat match goal with |- context [if ?b then _ else _] => destruct b eqn:? end; cbn; unfold select_sem; rewrite ?EP; cbn;
  repeat match goal with |- context [if ?b then _ else _] => destruct b eqn:? end; cbn; rewrite ?EP; reflexivity.
Qed.
Print Assumptions C77_members_complete.

(** "Equal names mean equal members": false for four classes, by translation units that differ only in the language version, the feature macros or the deployment target. *)
Theorem C77_same_layout_refuted :
  (exists m1 m2, platform_of m1 = PLinux /\ name_of m1 OAuto = name_of m2 OAuto /\ members 3 m1 OAuto <> members 3 m2 OAuto) /\
  (exists m1 m2, platform_of m1 = PLinux /\ name_of m1 OTimedMutex = name_of m2 OTimedMutex /\ length (members 3 m1 OTimedMutex) <> length (members 3 m2 OTimedMutex)) /\
  (exists m1 m2, platform_of m1 = PMach /\ name_of m1 OSem = name_of m2 OSem /\ members 3 m1 OSem <> members 3 m2 OSem) /\
  (exists m1 m2, platform_of m1 = PLinux /\ name_of m1 OShared = name_of m2 OShared /\ members 3 m1 OShared <> members 3 m2 OShared) /\
  (exists m1 m2, platform_of m1 = PLinux /\ name_of m1 OSpin = name_of m2 OSpin /\ members 3 m1 OSpin <> members 3 m2 OSpin).
Proof.
  split; [exists gcc11, gcc03; repeat split; discriminate |].
  split; [exists gcc11, gcc_notimed; repeat split; discriminate |].
  split; [exists osx106, osx105; repeat split; discriminate |].
  split; exists gcc11, gcc03; repeat split; discriminate.
Qed.
Print Assumptions C77_same_layout_refuted.

(** Linking a user of the library with it, both built by the Jamfile: everything is found exactly when both see the same platform. *)
Theorem C77_link_exact : forall b m notify,
  incl (requires (user_macros b m) notify) (provides (lib_macros b m)) <->
  notify = false \/ b_pthread b = false \/ b_windows b = true \/ use_pthread m = true \/ (windows m = false /\ linux m = false /\ apple m = false).
Proof.
  intros b m notify. destruct (C76_platform_exact m) as (_ & _ & _ & PP).
  assert (K : incl (requires (user_macros b m) notify) (provides (lib_macros b m)) <-> notify = false \/ abi_of (user_macros b m) = abi_of (lib_macros b m)).
  { unfold requires, provides. destruct notify; split.
    - intros H. right. assert (X : In (SNotify (abi_of (user_macros b m))) [SKeys; SNotify (abi_of (lib_macros b m))]) by (apply H; right; left; reflexivity).
      destruct X as [X | [X | []]]; [discriminate | injection X as ->; reflexivity].
    - intros [H | H]; [discriminate |]. rewrite H. intros x Hx. exact Hx.
    - intros _. left. reflexivity.
    - intros _ x [<- | []]. left. reflexivity. }
  rewrite K. unfold user_macros, lib_macros. destruct (b_pthread b), (b_windows b); try tauto.
  assert (A : abi_of (def_pthread m) = NPosix) by reflexivity. rewrite A.
  assert (B : abi_of m = NPosix <-> platform_of m = PPosix).
  { unfold abi_of. destruct (platform_of m); split; intros X; try reflexivity; try discriminate; destruct (win6 <=? winver m); discriminate. }
  rewrite B, PP. intuition discriminate.
Qed.
Print Assumptions C77_link_exact.

(** "A user of notify_all_at_thread_exit links with the library its build produced": false on Linux with <threadapi>pthread. *)
Theorem C77_link_refuted : exists b m, b_pthread b = true /\ b_windows b = false /\ platform_of m = PLinux /\
  ~ incl (requires (user_macros b m) true) (provides (lib_macros b m)).
Proof.
  exists (Bld true false true), gcc11. repeat split. intros H. apply C77_link_exact in H. cbn in H. intuition discriminate.
Qed.
Print Assumptions C77_link_refuted.

Example C77_link_example : incl (requires (user_macros (Bld true true false) win7) true) (provides (lib_macros (Bld true true false) win7)) /\
  incl (requires (user_macros (Bld false false true) osx106) true) (provides (lib_macros (Bld false false true) osx106)).
Proof. split; apply C77_link_exact; cbn; auto. Qed.
