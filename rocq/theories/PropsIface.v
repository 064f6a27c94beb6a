(** C85: the calls that compile are the documented ones, and each resolves to one function.  The configurations, headers, classes, functions and argument types of IfaceModel.v are finite in number once [macros] is reduced to [conf];
    the statements for all of them are decided by a boolean function that the kernel evaluates on every case. *)
From Coq Require Import List Bool Arith ZArith Lia.
From Verif Require Import ConfigModel IfaceModel.
Import ListNotations.

(** ** Enumerations *)
Definition bools := [true; false].
Definition platforms := [PPosix; PWinapi; PLinux; PMach].
Definition objs := [OMutex; OTimedMutex; OSpin; OShared; OCond; OCondAny; OSem; OAuto; OManual].
Definition files := [FMutexPosix; FMutexWindows; FTimedNative; FTimedEmulated; FTimedWindows; FSpinBool; FSpinFlag; FShared; FCondPosix; FCondWindows; FCondAnyGeneric; FCondAnyWindows; FSemWindows; FSemDispatch;
                     FSemPosix; FSemEmulation; FSemMach; FAutoWindows; FAutoFutex; FAutoSemaphore; FAutoEmulation; FManualWindows; FManualFutex; FManualEmulation].
Definition clss := KMutex :: KCond :: KEvent :: KSem :: map K files.
Definition names := [NLock; NTryLock; NUnlock; NLockShared; NTryLockShared; NUnlockShared; NTimedLock; NTryLockFor; NTryLockUntil; NNotifyOne; NNotifyAll; NWait; NWaitPred; NTimedWait; NTimedWaitPred; NWaitFor; NWaitForPred;
                     NWaitUntil; NWaitUntilPred; NPost; NSet; NReset; NTryWait; NNative; NPriv].
Definition chronos := [LibBoost; LibStd].
Definition tys := map TDur chronos ++ map TSys chronos ++ map TClock chronos ++ map UClock chronos ++ [TDateDur; TDatePoint; TTimespec; UDur; UPoint; TOther; TNone].
Definition locks := NoLock :: UserLock :: map UniqueLock objs.

Lemma in_bools b : In b bools. Proof. destruct b; simpl; auto. Qed.
Lemma in_objs o : In o objs. Proof. destruct o; simpl; auto 12. Qed.
Lemma in_names n : In n names. Proof. destruct n; simpl; auto 30. Qed.
Lemma in_tys t : In t tys. Proof. destruct t as [[]|[]|[]| | | | | |[]| |]; simpl; auto 30. Qed.
Lemma in_locks l : In l locks. Proof. destruct l as [|o|]; simpl; [auto| |auto]. destruct o; simpl; auto 15. Qed.
Lemma in_clss k : In k clss. Proof. destruct k as [f| | | |]; [destruct f|..]; unfold clss, files; simpl; auto 40. Qed.
Lemma in_platforms p : In p platforms. Proof. destruct p; simpl; auto. Qed.

(** The configurations up to what they select, the headers up to the one that the argument's type needs. *)
Definition canon (c : conf) : conf :=
  match c_platform c with
  | PWinapi => Conf PWinapi false false false (c_spinbool c)
  | p => Conf (match p with PLinux => PLinux | _ => PPosix end) (c_dispatch c) (negb (c_dispatch c) && c_sem c) (c_timedlock c) (c_spinbool c)
  end.
Definition canons : list conf :=
  map (Conf PWinapi false false false) bools ++
  flat_map (fun p => flat_map (fun ds => flat_map (fun t => map (Conf p (fst ds) (snd ds) t) bools) bools) [(true, false); (false, true); (false, false)]) [PPosix; PLinux].
Lemma in_canons c : In (canon c) canons.
Proof. destruct c as [[] [] [] [] []]; vm_compute; auto 30. Qed.
Definition relevant (h : supports) (t : ty) : bool :=
  match t with TDur l | TSys l | TClock l | UClock l => inc_chrono h l | TDateDur | TDatePoint => inc_date h | TTimespec => inc_posix h | _ => false end.
Definition hcan (b : bool) : supports := Sup b b b b.
Lemma relevant_hcan b t : relevant (hcan b) t = match t with UDur | UPoint | TOther | TNone => false | _ => b end.
Proof. destruct t as [[]|[]|[]| | | | | |[]| |]; reflexivity. Qed.
Definition agree (h h' : supports) (t : ty) : Prop := relevant h t = relevant h' t.
Lemma agree_hcan h t : agree h (hcan (relevant h t)) t.
Proof. unfold agree. rewrite relevant_hcan. destruct t; reflexivity. Qed.

Lemma traits_agree h h' t : agree h h' t -> traits h t = traits h' t.
Proof. unfold agree. destruct t; cbn [relevant traits]; intro E; rewrite ?E; reflexivity. Qed.
Lemma traits_clock h h' l : agree h h' (UClock l) -> traits h (TDur l) = traits h' (TDur l).
Proof. unfold agree. cbn [relevant traits]. intro E; rewrite ?E; reflexivity. Qed.

(** The types that a body passes on: the argument's, what it is converted to, and the fixed ones. *)
Definition passes (h : supports) (t t' : ty) : Prop := t' = t \/ t' = TNone \/ t' = UDur \/ t' = UPoint \/ exists g, traits h t = Some (g, t').
Lemma passes_agree h h' t t' : agree h h' t -> passes h t t' -> agree h h' t'.
Proof.
  unfold agree. intros A [->|[->|[->|[->|(g & E)]]]]; auto.
  destruct t; cbn [traits] in E; try discriminate; repeat match type of E with (if ?b then _ else _) = _ => destruct b eqn:? end; inversion E; subst; cbn [relevant] in *; auto.
Qed.
Definition bodies_pass (h : supports) (t : ty) (x : option (ret * list call)) : Prop :=
  match x with Some (_, b) => Forall (fun y => match y with Call _ _ a' _ => passes h t (a_time a') | Bad => True end) b | None => True end.
Lemma overloads_pass h c k n l t : Forall (fun f : overload => bodies_pass h t (f (Arg l t))) (overloads h c k n).
Proof.
  assert (P0 : passes h t TNone) by (unfold passes; auto). assert (P1 : passes h t t) by (unfold passes; auto).
  assert (P2 : passes h t UDur) by (unfold passes; auto). assert (P3 : passes h t UPoint) by (unfold passes; auto 6).
  assert (Plain : forall r b, Forall (fun y => match y with Call _ _ a' _ => a_time a' = TNone | Bad => True end) b -> bodies_pass h t (plain r b (Arg l t))).
  { intros r b Hb. unfold plain, bodies_pass. destruct l; [destruct t|..]; auto. eapply Forall_impl; [|exact Hb]. intros [k' n' a' r'|] E; [rewrite E; exact P0|exact E]. }
  assert (Locked : forall lg r b, Forall (fun y => match y with Call _ _ a' _ => a_time a' = TNone | Bad => True end) (b l) -> bodies_pass h t (locked lg r b (Arg l t))).
  { intros lg r b Hb. unfold locked, bodies_pass. cbn [a_time a_lock]. destruct t; auto. destruct (lg l); auto. eapply Forall_impl; [|exact Hb]. intros [k' n' a' r'|] E; [rewrite E; exact P0|exact E]. }
  assert (Timed : forall lg tg r b, (forall u, passes h t u -> Forall (fun y => match y with Call _ _ a' _ => passes h t (a_time a') | Bad => True end) (b l t u)) -> bodies_pass h t (timed h lg tg r b (Arg l t))).
  { intros lg tg r b Hb. unfold timed, bodies_pass. cbn [a_time a_lock]. destruct (traits h t) as [[g u]|] eqn:E; auto. destruct (tg g && lg l); auto. apply Hb. unfold passes. eauto 10. }
  assert (Dur : forall lg r b, Forall (fun y => match y with Call _ _ a' _ => passes h t (a_time a') | Bad => True end) (b l) -> bodies_pass h t (of_dur lg r b (Arg l t))).
  { intros lg r b Hb. unfold of_dur, bodies_pass. cbn [a_time a_lock]. destruct t; auto. destruct (lg l); auto. }
  assert (Point : forall lg r b, Forall (fun y => match y with Call _ _ a' _ => passes h t (a_time a') | Bad => True end) (b l) -> bodies_pass h t (of_point lg r b (Arg l t))).
  { intros lg r b Hb. unfold of_point, bodies_pass. cbn [a_time a_lock]. destruct t; auto. destruct (lg l); auto. }
  assert (Clock : forall lg r b, (Forall (fun y => match y with Call _ _ a' _ => passes h t (a_time a') | Bad => True end) (b l UDur)) -> bodies_pass h t (of_clock h lg r b (Arg l t))).
  { intros lg r b Hb. unfold of_clock, bodies_pass. cbn [a_time a_lock]. destruct t; auto. destruct (lg l); auto. cbn [traits]. destruct (inc_chrono h l0); [exact Hb|repeat constructor]. }
  assert (Nat1 : Forall (fun y => match y with Call _ _ a' _ => a_time a' = TNone | Bad => True end) (native c l)) by (destruct l; repeat constructor).
  assert (Nat2 : Forall (fun y => match y with Call _ _ a' _ => passes h t (a_time a') | Bad => True end) (native c l)) by (destruct l; repeat constructor; exact P0).
  destruct k as [f| | | |]; [destruct f|..]; destruct n; cbn [overloads]; unfold conv, again, emu_timed; repeat (apply Forall_cons || apply Forall_nil);
    first [apply Plain|apply Locked|apply Timed; intros u Hu|apply Dur|apply Point|apply Clock]; unfold guarded, internal_wait, c0; first [exact Nat1|exact Nat2|repeat (apply Forall_cons || apply Forall_nil); cbn [a_time]; auto].
Qed.
Lemma viable_h h h' c k n l t : agree h h' t -> viable h c k n (Arg l t) = viable h' c k n (Arg l t).
Proof.
  intro A. pose proof (traits_agree _ _ _ A) as T.
  assert (Timed : forall lg tg r b, timed h lg tg r b (Arg l t) = timed h' lg tg r b (Arg l t)) by (intros; unfold timed; cbn [a_time]; rewrite T; reflexivity).
  assert (Clock : forall lg r b, of_clock h lg r b (Arg l t) = of_clock h' lg r b (Arg l t)).
  { intros. unfold of_clock. cbn [a_time a_lock]. destruct t; try reflexivity. rewrite (traits_clock _ _ _ A). reflexivity. }
  unfold viable. destruct k as [f| | | |]; [destruct f|..]; destruct n; cbn [overloads flat_map app]; unfold conv, again, emu_timed; rewrite ?Timed, ?Clock; reflexivity.
Qed.
Lemma viable_c h c c' k n a : (forall o, sel c o = sel c' o) -> viable h c k n a = viable h c' k n a.
Proof.
  intro S. destruct a as [l t].
  assert (Co : compatible c l = compatible c' l) by (destruct l; cbn [compatible]; rewrite ?S; reflexivity).
  assert (Na : native c l = native c' l) by (destruct l; cbn [native]; rewrite ?S; reflexivity).
  unfold viable. destruct k as [f| | | |]; [destruct f|..]; destruct n; cbn [overloads flat_map app]; unfold conv, again, emu_timed, guarded, internal_wait, locked, timed, of_point, of_dur, of_clock; cbn [a_lock a_time];
    rewrite ?S, ?Co, ?Na; reflexivity.
Qed.
Definition call_ok (m : nat) (h : supports) (c : conf) (x : call) : bool := match x with Call k' n' a' r' => match type_of m h c k' n' a' with Some r'' => ret_eqb r' r'' | None => false end | Bad => false end.
Lemma type_of_S m h c k n a : type_of (S m) h c k n a = match viable h c k n a with [(r, b)] => if forallb (call_ok m h c) b then Some r else None | _ => None end.
Proof. reflexivity. Qed.
Lemma forallb_ext' {X} (f g : X -> bool) l : Forall (fun x => f x = g x) l -> forallb f l = forallb g l.
Proof. induction 1 as [|x l E _ IH]; [reflexivity|]. cbn. rewrite E, IH. reflexivity. Qed.
Lemma type_h d : forall h h' c k n l t, agree h h' t -> type_of d h c k n (Arg l t) = type_of d h' c k n (Arg l t).
Proof.
  induction d as [|d IH]; intros h h' c k n l t A; [reflexivity|]. rewrite !type_of_S, <- (viable_h h h' c k n l t A).
  assert (B : forall r b, In (r, b) (viable h c k n (Arg l t)) -> forallb (call_ok d h c) b = forallb (call_ok d h' c) b).
  { intros r b Hin. apply forallb_ext'. unfold viable in Hin. apply in_flat_map in Hin as (f & Hf & Hin). pose proof (proj1 (Forall_forall _ _) (overloads_pass h c k n l t) f Hf) as P.
    cbv beta in P. destruct (f (Arg l t)) as [[r' b']|]; [|destruct Hin]. destruct Hin as [Hin|[]]. inversion Hin; subst. cbn [bodies_pass] in P.
    eapply Forall_impl; [|exact P]. intros [k' n' [l' t'] r'|] Hp; [|reflexivity]. cbn [call_ok a_time] in *. rewrite (IH h h' c k' n' l' t' (passes_agree _ _ _ _ A Hp)). reflexivity. }
  destruct (viable h c k n (Arg l t)) as [|[r b] [|y q]]; try reflexivity. rewrite (B r b (or_introl eq_refl)). reflexivity.
Qed.
Lemma type_c d : forall h c c' k n a, (forall o, sel c o = sel c' o) -> type_of d h c k n a = type_of d h c' k n a.
Proof.
  induction d as [|d IH]; intros h c c' k n a S; [reflexivity|]. rewrite !type_of_S, <- (viable_c h c c' k n a S).
  destruct (viable h c k n a) as [|[r b] [|y q]]; try reflexivity. rewrite (forallb_ext' (call_ok d h c) (call_ok d h c') b); [reflexivity|].
  apply Forall_forall. intros [k' n' a' r'|] _; [|reflexivity]. cbn [call_ok]. rewrite (IH h c c' k' n' a' S). reflexivity.
Qed.
Lemma sel_canon c o : sel c o = sel (canon c) o.
Proof. destruct c as [[] [] [] [] []], o; reflexivity. Qed.
Lemma documented_h h h' c o n l t : agree h h' t -> documented h c o n (Arg l t) = documented h' c o n (Arg l t).
Proof.
  intro A. assert (T : forall k, time_fits h k t = time_fits h' k t).
  { intros k. unfold time_fits. unfold agree in A. destruct k, t; cbn [relevant supported is_dur is_point] in *; rewrite ?A; try reflexivity; rewrite ?andb_false_r; reflexivity. }
  unfold documented. cbn [a_time a_lock]. destruct (doc c o n) as [[[lk tk] r]|]; [|reflexivity]. rewrite T. reflexivity.
Qed.
Lemma documented_canon h c o n a : documented h c o n a = documented h (canon c) o n a.
Proof.
  unfold documented. assert (D : doc c o n = doc (canon c) o n) by (unfold doc, native_macro; rewrite !(sel_canon c); reflexivity).
  assert (L : forall k l, lock_fits c k l = lock_fits (canon c) k l).
  { intros k l. unfold lock_fits. destruct k, l as [|o'|]; try reflexivity. destruct c as [[] d s t b], o'; reflexivity. }
  rewrite <- D. destruct (doc c o n) as [[[lk tk] r]|]; [|reflexivity]. rewrite L. reflexivity.
Qed.

(** A function that is true on the representatives. *)
Definition all_reps (P : supports -> conf -> lockarg -> ty -> bool) : bool :=
  forallb (fun c => forallb (fun b => forallb (fun l => forallb (fun t => P (hcan b) c l t) tys) locks) bools) canons.
Lemma all_reps_ok P h c l t : all_reps P = true -> P (hcan (relevant h t)) (canon c) l t = true.
Proof.
  unfold all_reps. intro H. rewrite forallb_forall in H. specialize (H _ (in_canons c)). rewrite forallb_forall in H. specialize (H _ (in_bools (relevant h t))).
  rewrite forallb_forall in H. specialize (H _ (in_locks l)). rewrite forallb_forall in H. exact (H _ (in_tys t)).
Qed.

Definition oret_eqb (a b : option ret) : bool := match a, b with Some x, Some y => ret_eqb x y | None, None => true | _, _ => false end.
Lemma oret_eqb_eq a b : oret_eqb a b = true -> a = b.
Proof. destruct a as [[]|], b as [[]|]; simpl; congruence. Qed.

Lemma select_sel m o : select m o = sel (conf_of m) o.
Proof. destruct o; simpl; unfold select_sem; destruct (platform_of m); reflexivity. Qed.

(** The function in which the code departs from the documentation: a time point of a clock other than the system clock, on the futex-based manual_reset_event. *)
Definition broken (f : file) (t : ty) : bool := match f, t with FManualFutex, TClock _ => true | _, _ => false end.
Definition exact_b (h : supports) (c : conf) (o : obj) (n : name) (a : arg) : bool :=
  oret_eqb (type_of 8 h c (K (sel c o)) n a) (if broken (sel c o) (a_time a) then None else documented h c o n a) &&
  match documented h c o n a, viable h c (K (sel c o)) n a with None, _ :: _ => false | _, _ => true end.
Definition is_priv (n : name) : bool := match n with NPriv => true | _ => false end.
Lemma exact_all : forallb (fun o => forallb (fun n => is_priv n || all_reps (fun h c l t => exact_b h c o n (Arg l t))) names) objs = true.
Proof. vm_cast_no_check (eq_refl true). Qed.
Definition depth_b (h : supports) (c : conf) (k : cls) (n : name) (a : arg) : bool :=
  (length (viable h c k n a) <=? 1) && oret_eqb (type_of 9 h c k n a) (type_of 8 h c k n a).
Lemma depth_all : forallb (fun k => forallb (fun n => all_reps (fun h c l t => depth_b h c k n (Arg l t))) names) clss = true.
Proof. vm_cast_no_check (eq_refl true). Qed.

Lemma calls_exact h c o n a : n <> NPriv -> type_of 8 h c (K (sel c o)) n a = (if broken (sel c o) (a_time a) then None else documented h c o n a) /\
  (documented h c o n a = None -> viable h c (K (sel c o)) n a = []).
Proof.
  intro Hn. destruct a as [l t]. pose proof exact_all as H. rewrite forallb_forall in H. specialize (H o (in_objs o)). rewrite forallb_forall in H.
  specialize (H n (in_names n)). apply orb_prop in H as [H|H]; [destruct n; simpl in H; congruence|]. pose proof (all_reps_ok _ h c l t H) as Ha. cbv beta in Ha. unfold exact_b in Ha.
  pose proof (agree_hcan h t) as A. set (h' := hcan (relevant h t)) in *. pose proof (sel_canon c) as S.
  rewrite <- (S o), <- (type_c 8 h' c (canon c) _ n _ S), <- (type_h 8 h h' c _ n l t A), <- (documented_canon h' c), <- (documented_h h h' c o n l t A), <- (viable_c h' c (canon c) _ n _ S), <- (viable_h h h' c _ n l t A) in Ha.
  cbn [a_time] in *. apply andb_prop in Ha as [H1 H2]. split; [exact (oret_eqb_eq _ _ H1)|]. intro Hd. rewrite Hd in H2. destruct (viable h c (K (sel c o)) n (Arg l t)); [reflexivity|discriminate].
Qed.
Lemma depth_at h c k n a : length (viable h c k n a) <= 1 /\ type_of 9 h c k n a = type_of 8 h c k n a.
Proof.
  destruct a as [l t]. pose proof depth_all as H. rewrite forallb_forall in H. specialize (H k (in_clss k)). rewrite forallb_forall in H. specialize (H n (in_names n)).
  pose proof (all_reps_ok _ h c l t H) as Ha. cbv beta in Ha. unfold depth_b in Ha.
  pose proof (agree_hcan h t) as A. set (h' := hcan (relevant h t)) in *. pose proof (sel_canon c) as S.
  rewrite <- (type_c 9 h' c (canon c) _ n _ S), <- (type_h 9 h h' c _ n l t A), <- (type_c 8 h' c (canon c) _ n _ S), <- (type_h 8 h h' c _ n l t A), <- (viable_c h' c (canon c) _ n _ S), <- (viable_h h h' c _ n l t A) in Ha.
  apply andb_prop in Ha as [H1 H2]. split; [apply Nat.leb_le; exact H1|exact (oret_eqb_eq _ _ H2)].
Qed.

(** Compilers: gcc on Linux; the same without _POSIX_TIMEOUTS; MSVC on Windows. *)
Definition linux_gcc : macros := Mac false false true false 0 false true 0 None None true 200809 (Some 200809%Z) false true false false 90000 201103 true 0 0.
Definition linux_old : macros := Mac false false true false 0 false true 0 None None true 200809 None false true false false 90000 201103 true 0 0.
Definition win_msvc : macros := Mac false true false false 1537 false false 1900 None None false 0 None false false false false 0 199711 true 0 0.
Definition std_only : supports := Sup false true false false.

(** ** C85 *)
(** Overload resolution is never ambiguous, in any configuration, for any function of any class and any arguments. *)
Theorem C85_one_overload m h k n a : length (viable h (conf_of m) k n a) <= 1.
Proof. exact (proj1 (depth_at h (conf_of m) k n a)). Qed.
Print Assumptions C85_one_overload.

Lemma body_ext h c m m' (b : list call) (E : forall k n a, type_of m h c k n a = type_of m' h c k n a) :
  forallb (fun x => match x with Call k' n' a' r' => match type_of m h c k' n' a' with Some r'' => ret_eqb r' r'' | None => false end | Bad => false end) b =
  forallb (fun x => match x with Call k' n' a' r' => match type_of m' h c k' n' a' with Some r'' => ret_eqb r' r'' | None => false end | Bad => false end) b.
Proof. induction b as [|[k n a r|] b IH]; simpl; [reflexivity|rewrite E, IH; reflexivity|reflexivity]. Qed.
(** Instantiating bodies deeper than eight levels changes nothing: "compiles" does not depend on the fuel. *)
Theorem C85_depth m h k n a d : 8 <= d -> type_of d h (conf_of m) k n a = type_of 8 h (conf_of m) k n a.
Proof.
  set (c := conf_of m). intro Hd. replace d with ((d - 8) + 8) by lia. generalize (d - 8) as e. clear Hd d.
  assert (S1 : forall e k n a, type_of (S e + 8) h c k n a = type_of (e + 8) h c k n a).
  { induction e as [|e IH]; intros k' n' a'; [exact (proj2 (depth_at h c k' n' a'))|].
    change (type_of (S (S e + 8)) h c k' n' a' = type_of (S (e + 8)) h c k' n' a'). cbn [type_of].
    destruct (viable h c k' n' a') as [|[r b] [|y l]]; try reflexivity.
    exact (f_equal (fun q : bool => if q then Some r else None) (body_ext h c (S e + 8) (e + 8) b IH)). }
  induction e as [|e IH]; [reflexivity|]. rewrite S1. exact IH.
Qed.
Print Assumptions C85_depth.

(** The calls of the public functions that compile, and their types, are the documented ones, with one exception: time points of a clock other than the system clock on the futex-based manual_reset_event. *)
Theorem C85_calls_exact m h o n a : n <> NPriv ->
  type_of 8 h (conf_of m) (K (select m o)) n a =
  match select m o, a_time a with FManualFutex, TClock _ => None | _, _ => documented h (conf_of m) o n a end.
Proof.
  intro Hn. rewrite select_sel, (proj1 (calls_exact h (conf_of m) o n a Hn)). destruct (sel (conf_of m) o), (a_time a); reflexivity.
Qed.
Print Assumptions C85_calls_exact.

(** A call that is not documented is rejected by overload resolution (so that a trait or another overload can react to it) instead of failing inside a body. *)
Theorem C85_undocumented_rejected m h o n a : n <> NPriv -> documented h (conf_of m) o n a = None -> viable h (conf_of m) (K (select m o)) n a = [].
Proof. intros Hn Hd. rewrite select_sel. exact (proj2 (calls_exact h (conf_of m) o n a Hn) Hd). Qed.
Print Assumptions C85_undocumented_rejected.

(** The same for the user of one configuration: outside Linux every documented call compiles. *)
Theorem C85_documented_compile m h o n a r : n <> NPriv -> platform_of m <> PLinux \/ o <> OManual \/ (forall l, a_time a <> TClock l) ->
  documented h (conf_of m) o n a = Some r -> type_of 8 h (conf_of m) (K (select m o)) n a = Some r.
Proof.
  intros Hn Hc Hd. rewrite C85_calls_exact by exact Hn. destruct (select m o) eqn:Es, (a_time a) eqn:Et; try exact Hd. exfalso.
  destruct Hc as [Hc|[Hc|Hc]]; [| |exact (Hc _ eq_refl)].
  - rewrite select_sel in Es. destruct o; unfold sel, conf_of in Es; cbn [c_platform c_timedlock c_sem c_dispatch c_spinbool] in Es; destruct (platform_of m); try congruence;
      repeat match type of Es with context [if ?b then _ else _] => destruct b end; congruence.
  - rewrite select_sel in Es. destruct o; unfold sel, conf_of in Es; cbn [c_platform c_timedlock c_sem c_dispatch c_spinbool] in Es; destruct (platform_of m); try congruence;
      repeat match type of Es with context [if ?b then _ else _] => destruct b end; congruence.
Qed.
Print Assumptions C85_documented_compile.

(** A time argument is accepted by a timed function only if the header for its type is included. *)
Theorem C85_header_needed m h o n a r : n <> NPriv -> type_of 8 h (conf_of m) (K (select m o)) n a = Some r -> a_time a = TNone \/
  match a_time a with TDur l | TSys l | TClock l => inc_chrono h l = true | TDateDur | TDatePoint => inc_date h = true | TTimespec => inc_posix h = true | _ => False end.
Proof.
  intros Hn H. rewrite C85_calls_exact in H by exact Hn.
  assert (Hd : documented h (conf_of m) o n a = Some r) by (destruct (select m o), (a_time a); congruence). clear H. unfold documented in Hd.
  destruct (doc (conf_of m) o n) as [[[lk tk] r']|]; [|discriminate]. destruct (lock_fits _ _ _); [|discriminate]. cbn [andb] in Hd.
  destruct (time_fits h tk (a_time a)) eqn:Et; [|discriminate]. destruct tk, (a_time a); cbn in Et |- *; try discriminate; try (left; reflexivity); right;
    repeat match type of Et with (?b && _) = true => apply andb_prop in Et as [Et _] end; exact Et.
Qed.
Print Assumptions C85_header_needed.

(** The mutexes that condition_variable accepts: mutex always, timed_mutex unless it is the emulation, no other. *)
Theorem C85_mutexes_exact m h o : type_of 8 h (conf_of m) (K (select m OCond)) NWait (Arg (UniqueLock o) TNone) = Some RVoid <->
  o = OMutex \/ o = OTimedMutex /\ (platform_of m = PWinapi \/ has_timedlock m = true).
Proof.
  rewrite C85_calls_exact by discriminate. replace (match select m OCond with FManualFutex => _ | _ => _ end) with (documented h (conf_of m) OCond NWait (Arg (UniqueLock o) TNone))
    by (destruct (select m OCond); reflexivity).
  unfold documented. cbn [doc a_lock a_time lock_fits time_fits]. unfold goes_with_cond, conf_of. cbn [c_platform c_timedlock].
  destruct o; cbn; try (split; [discriminate|intros [E|[E _]]; discriminate]).
  - split; [left; reflexivity|reflexivity].
  - destruct (platform_of m), (has_timedlock m); cbn; split; intro H; try discriminate; try reflexivity; try (right; split; [reflexivity|auto]);
      destruct H as [H|[_ [H|H]]]; discriminate.
Qed.
Print Assumptions C85_mutexes_exact.

(** native_handle() is there exactly if the macro that announces it is defined: on POSIX for mutex and condition_variable, and for timed_mutex if it is not the emulation. *)
Theorem C85_native_exact m h o : type_of 8 h (conf_of m) (K (select m o)) NNative (Arg NoLock TNone) = Some RHandle <->
  platform_of m <> PWinapi /\ (o = OMutex \/ o = OCond \/ o = OTimedMutex /\ has_timedlock m = true).
Proof.
  rewrite C85_calls_exact by discriminate. replace (match select m o with FManualFutex => _ | _ => _ end) with (documented h (conf_of m) o NNative (Arg NoLock TNone))
    by (destruct (select m o); reflexivity).
  unfold documented, doc, native_macro, sel, conf_of. cbn [c_platform c_timedlock c_sem c_dispatch c_spinbool].
  destruct o; destruct (platform_of m), (has_timedlock m); cbn; split; intro H; try discriminate; try reflexivity;
    try (split; [discriminate|tauto]); destruct H as [H1 [H|[H|[H H2]]]]; congruence.
Qed.
Print Assumptions C85_native_exact.

(** The full claim is false: on Linux, wait_until(steady_clock::now() + ...) on a manual_reset_event is documented, one overload is viable, and its body does not compile (manual_reset_event_futex.hpp 196 calls the public
    timed_wait with a system_duration, for which time_traits is not specialized). *)
Theorem C85_documented_refuted : exists m h a, platform_of m = PLinux /\ inc_std h = true /\ a = Arg NoLock (TClock LibStd) /\
  forall n, n = NTimedWait \/ n = NWaitUntil -> documented h (conf_of m) OManual n a = Some RBool /\ length (viable h (conf_of m) (K (select m OManual)) n a) = 1 /\ forall d, type_of d h (conf_of m) (K (select m OManual)) n a = None.
Proof.
  exists linux_gcc, std_only, (Arg NoLock (TClock LibStd)). split; [reflexivity|]. split; [reflexivity|]. split; [reflexivity|]. intros n [->| ->]; (split; [reflexivity|]); (split; [reflexivity|]).
  - intro d. destruct (le_lt_dec 8 d) as [Hd|Hd]; [rewrite C85_depth by exact Hd; reflexivity|]. do 8 (destruct d as [|d]; [reflexivity|]). lia.
  - intro d. destruct (le_lt_dec 8 d) as [Hd|Hd]; [rewrite C85_depth by exact Hd; reflexivity|]. do 8 (destruct d as [|d]; [reflexivity|]). lia.
Qed.
Print Assumptions C85_documented_refuted.

(** Cases that meet the hypotheses: the same call on Windows and with the system clock on Linux; the deepest call; a wait without the header; wait_for with a time point; a timed_mutex with condition_variable where it is emulated. *)
Example C85_example :
  type_of 8 std_only (conf_of win_msvc) (K (select win_msvc OManual)) NWaitUntil (Arg NoLock (TClock LibStd)) = Some RBool /\
  type_of 8 std_only (conf_of linux_gcc) (K (select linux_gcc OManual)) NWaitUntil (Arg NoLock (TSys LibStd)) = Some RBool /\
  type_of 8 std_only (conf_of linux_gcc) (K (select linux_gcc OCondAny)) NWaitUntilPred (Arg UserLock (TClock LibStd)) = Some RBool /\
  type_of 6 std_only (conf_of linux_gcc) (K (select linux_gcc OCondAny)) NWaitUntilPred (Arg UserLock (TClock LibStd)) = None /\
  type_of 8 std_only (conf_of linux_gcc) (K (select linux_gcc OSem)) NWaitFor (Arg NoLock (TDur LibBoost)) = None /\
  type_of 8 std_only (conf_of linux_gcc) (K (select linux_gcc OSem)) NWaitFor (Arg NoLock (TSys LibStd)) = None /\
  type_of 8 std_only (conf_of linux_gcc) (K (select linux_gcc OCond)) NWaitFor (Arg (UniqueLock OTimedMutex) (TDur LibStd)) = Some RStatus /\
  type_of 8 std_only (conf_of linux_old) (K (select linux_old OCond)) NWaitFor (Arg (UniqueLock OTimedMutex) (TDur LibStd)) = None.
Proof. repeat split. Qed.
Print Assumptions C85_example.
