(* Facts about including headers: what is read stays complete, what one header needs does not depend on the
   headers included before it, and a configuration matters only through the conditions a header meets. *)
From Coq Require Import ZArith List Bool String MSetPositive Lia.
From Verif Require Import ConfigModel HeaderModel.
Import ListNotations.
Local Open Scope list_scope.

Lemma hid_inj h g : hid h = hid g -> h = g.
Proof.
  assert (E : forall x, find (fun y => Pos.eqb (hid y) (hid x)) headers = Some x) by (intros x; destruct x; reflexivity).
  intros H. pose proof (E h) as A. rewrite H, E in A. congruence.
Qed.

Lemma nid_inj m n : nid m = nid n -> m = n.
Proof.
  assert (E : forall x, find (fun y => Pos.eqb (nid y) (nid x)) names = Some x) by (intros x; destruct x; reflexivity).
  intros H. pose proof (E m) as A. rewrite H, E in A. congruence.
Qed.

Lemma all_headers h : In h headers.
Proof. apply (find_some (fun y => Pos.eqb (hid y) (hid h))). destruct h; reflexivity. Qed.

Lemma mem_add p q s : PositiveSet.mem p (PositiveSet.add q s) = true <-> p = q \/ PositiveSet.mem p s = true.
Proof. apply (PositiveSet.add_spec s q p). Qed.

Definition has (h : hdr) (st : state) : Prop := PositiveSet.mem (hid h) (guards st) = true.
Definition knows (p : positive) (st : state) : Prop := PositiveSet.mem p (known st) = true.

Lemma has_enter g h st : has g (enter h st) <-> g = h \/ has g st.
Proof. unfold has; cbn. rewrite mem_add. split; intros [H | H]; auto; left; [apply hid_inj | congruence]; auto. Qed.

Lemma knows_learn p n st : knows p (learn n st) <-> p = nid n \/ knows p st.
Proof. unfold knows; cbn. apply mem_add. Qed.

Lemma knows_fold p l st : knows p (fold_right learn st l) <-> In p (map nid l) \/ knows p st.
Proof.
  induction l as [| n l IH]; cbn [fold_right map In]; [tauto |]. rewrite knows_learn, IH. intuition congruence.
Qed.

Lemma knows_external p e st : knows p (external e st) <-> In p (map nid (provides e)) \/ knows p st.
Proof. apply (knows_fold p (provides e) st). Qed.

Lemma fold_rest l st : let st' := fold_right learn st l in
  reads st' = reads st /\ guards st' = guards st /\ missing st' = missing st /\ warn st' = warn st /\ abi st' = abi st /\ nested st' = nested st.
Proof. induction l as [| n l IH]; cbn in *; auto 10. Qed.

Lemma external_rest e st : reads (external e st) = reads st /\ guards (external e st) = guards st /\ missing (external e st) = missing st /\ warn (external e st) = warn st
  /\ abi (external e st) = abi st /\ nested (external e st) = nested st || abi st.
Proof. unfold external; cbn. destruct (fold_rest (provides e) st) as (A & B & C & D & E & F). rewrite A, B, C, D, E, F. auto 10. Qed.

Lemma use_rest h n st : reads (use h n st) = reads st /\ guards (use h n st) = guards st /\ known (use h n st) = known st /\ warn (use h n st) = warn st
  /\ abi (use h n st) = abi st /\ nested (use h n st) = nested st.
Proof. unfold use. destruct (PositiveSet.mem _ _); cbn; auto 10. Qed.

(* ---- What has been read stays complete. ---- *)
Definition grows (st st' : state) : Prop := (forall h, has h st -> has h st') /\ (forall p, knows p st -> knows p st').
Definition done (st : state) (i : item) : Prop :=
  match i with Inc g => has g st | Ext e => forall n, In n (provides e) -> knows (nid n) st | Decl n => knows (nid n) st | _ => True end.
(* All read headers, except those in P that are still being read, are complete. *)
Definition whole (c : hconf) (P : list hdr) (st : state) : Prop := forall g, has g st -> In g P \/ forall i, In i (text c g) -> done st i.

Lemma grows_refl st : grows st st.
Proof. split; auto. Qed.
Lemma grows_trans a b d : grows a b -> grows b d -> grows a d.
Proof. intros [A B] [C D]. split; auto. Qed.
Lemma done_grows st st' i : grows st st' -> done st i -> done st' i.
Proof. intros [A B]. destruct i; cbn; auto. Qed.
Lemma whole_step c P st st' : whole c P st -> (forall h, has h st' -> has h st) -> grows st st' -> whole c P st'.
Proof. intros W E G g H. destruct (W g (E g H)) as [A | A]; auto. right. intros i I. apply (done_grows st); auto. Qed.

Definition incl_ok c (inc : hdr -> state -> option state) : Prop :=
  forall P h st st', inc h st = Some st' -> whole c P st -> whole c P st' /\ has h st' /\ grows st st'.

Lemma body_whole c inc k h P : incl_ok c inc -> forall l st st', body inc k h l st = Some st' -> whole c P st ->
  whole c P st' /\ grows st st' /\ (forall i, In i l -> done st' i).
Proof.
  intros HI l. induction l as [| i l IH]; intros st st' B W; cbn [body] in B.
  - injection B as <-. repeat split; auto. intros i [].
  - assert (X : exists st1, body inc k h l st1 = Some st' /\ whole c P st1 /\ grows st st1 /\ done st1 i).
    { destruct i as [g | e | n | n | | | f a b | p a b]; try discriminate B.
      - destruct (inc g st) as [st1 |] eqn:E; [| discriminate B]. destruct (HI P g st st1 E W) as (A1 & A2 & A3). exists st1. auto.
      - exists (external e st). destruct (external_rest e st) as (_ & Eg & _).
        assert (G : grows st (external e st)) by (split; [unfold has; rewrite Eg; auto | intros p; rewrite knows_external; auto]).
        split; [exact B |]. split; [| split; [exact G |]].
        + apply (whole_step c P st); auto. unfold has; rewrite Eg; auto.
        + cbn. intros n I. rewrite knows_external. left. apply in_map, I.
      - exists (use h n st). destruct (use_rest h n st) as (_ & Eg & Ek & _).
        assert (G : grows st (use h n st)) by (split; unfold has, knows; rewrite ?Eg, ?Ek; auto).
        split; [exact B |]. split; [| split; [exact G | exact I]]. apply (whole_step c P st); auto. unfold has; rewrite Eg; auto.
      - exists (learn n st). assert (G : grows st (learn n st)) by (split; [auto | intros p; rewrite knows_learn; auto]).
        split; [exact B |]. split; [| split; [exact G |]]; [apply (whole_step c P st); auto |]. cbn. rewrite knows_learn. auto.
      - exists (header_hpp k st). assert (G : grows st (header_hpp k st)) by (split; auto).
        split; [exact B |]. split; [| split; [exact G | exact I]]. apply (whole_step c P st); auto.
      - exists (footer_hpp k st). assert (G : grows st (footer_hpp k st)) by (split; auto).
        split; [exact B |]. split; [| split; [exact G | exact I]]. apply (whole_step c P st); auto. }
    destruct X as (st1 & B1 & W1 & G1 & D1). destruct (IH st1 st' B1 W1) as (W2 & G2 & D2).
    split; [exact W2 |]. split; [apply (grows_trans st st1); auto |]. intros j [<- | J]; [| auto]. apply (done_grows st1); auto.
Qed.

Lemma include_whole k c : forall n, incl_ok c (include n k c).
Proof.
  induction n as [| n IH]; intros P h st st' E W; cbn [include] in E; [discriminate |].
  destruct (PositiveSet.mem (hid h) (guards st)) eqn:M.
  - injection E as <-. split; [exact W |]. split; [exact M | apply grows_refl].
  - assert (W1 : whole c (h :: P) (enter h st)).
    { intros g H. apply has_enter in H. destruct H as [-> | H]; [left; left; reflexivity |].
      destruct (W g H) as [A | A]; [left; right; exact A |]. right. intros i I. apply (done_grows st); [| auto].
      split; [intros x X; apply has_enter; auto | auto]. }
    destruct (body_whole c _ k h (h :: P) IH _ _ _ E W1) as (W2 & G & D).
    assert (Hh : has h st') by (apply G, has_enter; auto).
    split; [| split; [exact Hh |]].
    + intros g H. destruct (W2 g H) as [[<- | A] | A]; auto.
    + apply (grows_trans st (enter h st)); [| exact G]. split; [intros x X; apply has_enter; auto | auto].
Qed.

(* ---- What a header needs does not depend on what was included before it. ---- *)
(* The headers S are complete, and all they declare is among the names K. *)
Definition closed (c : hconf) (S : hdr -> Prop) (K : positive -> Prop) : Prop :=
  forall g, S g -> forall i, In i (text c g) ->
    match i with Inc g' => S g' | Ext e => forall n, In n (provides e) -> K (nid n) | Decl n => K (nid n) | _ => True end.

(* st1 has the headers of st0 and those of S; what it misses is in M or missed by st0 and not in K. *)
Record sim (S : hdr -> Prop) (K : positive -> Prop) (M : list (hdr * name)) (st0 st1 : state) : Prop := Sim {
  sim_guards : forall h, has h st1 <-> has h st0 \/ S h;
  sim_known : forall p, knows p st0 -> knows p st1;
  sim_base : forall p, K p -> knows p st1;
  sim_missing : forall x, In x (missing st1) -> In x M \/ In x (missing st0) /\ ~ K (nid (snd x)) }.

(* A header that st1 already has adds nothing to what st1 has. *)
Lemma body_skip c S K M inc k h st1 : closed c S K ->
  (forall g st0 st0', inc g st0 = Some st0' -> S g -> sim S K M st0 st1 -> sim S K M st0' st1) ->
  forall l, (forall i, In i l -> match i with Inc g' => S g' | Ext e => forall n, In n (provides e) -> K (nid n) | Decl n => K (nid n) | _ => True end) ->
  forall st0 st0', body inc k h l st0 = Some st0' -> sim S K M st0 st1 -> sim S K M st0' st1.
Proof.
  intros HC HI l. induction l as [| i l IH]; intros HL st0 st0' B R; cbn [body] in B.
  - injection B as <-. exact R.
  - pose proof (HL i (or_introl eq_refl)) as Hi.
    assert (HL' := fun j J => HL j (or_intror J)).
    destruct i as [g | e | n | n | | | f a b | p a b]; try discriminate B.
    + destruct (inc g st0) as [s |] eqn:E; [| discriminate B]. eapply IH; [exact HL' | exact B |]. eapply HI; eauto.
    + eapply IH; [exact HL' | exact B |]. destruct (external_rest e st0) as (_ & Eg & Em & _). destruct R as [R1 R2 R3 R4]. constructor; auto.
      * intros x. unfold has at 2. rewrite Eg. apply R1.
      * intros p. rewrite knows_external. intros [A | A]; [| auto]. apply in_map_iff in A. destruct A as (m & <- & A). auto.
      * rewrite Em. exact R4.
    + eapply IH; [exact HL' | exact B |]. destruct (use_rest h n st0) as (_ & Eg & Ek & _). destruct R as [R1 R2 R3 R4]. constructor; auto.
      * intros x. unfold has at 2. rewrite Eg. apply R1.
      * unfold knows at 1. rewrite Ek. exact R2.
      * intros x X. destruct (R4 x X) as [A | [A A']]; [auto |]. right. split; [| auto]. unfold use. destruct (PositiveSet.mem _ _); cbn; auto.
    + eapply IH; [exact HL' | exact B |]. destruct R as [R1 R2 R3 R4]. constructor; auto. intros p. rewrite knows_learn. intros [-> | A]; auto.
    + eapply IH; [exact HL' | exact B |]. destruct R as [R1 R2 R3 R4]. constructor; auto.
    + eapply IH; [exact HL' | exact B |]. destruct R as [R1 R2 R3 R4]. constructor; auto.
Qed.

Lemma include_skip c S K M k st1 : closed c S K ->
  forall n g st0 st0', include n k c g st0 = Some st0' -> S g -> sim S K M st0 st1 -> sim S K M st0' st1.
Proof.
  intros HC. induction n as [| n IH]; intros g st0 st0' E Hg R; cbn [include] in E; [discriminate |].
  destruct (PositiveSet.mem (hid g) (guards st0)) eqn:X; [injection E as <-; exact R |].
  eapply (body_skip c S K M (include n k c) k g st1 HC); [intros; eapply IH; eauto | | exact E |].
  - apply HC, Hg.
  - destruct R as [R1 R2 R3 R4]. constructor; auto. intros x. rewrite has_enter, R1. intuition congruence.
Qed.

Lemma body_sim c S K M inc inc' k k' h : closed c S K ->
  (forall g st0 st0' st1, inc g st0 = Some st0' -> sim S K M st0 st1 -> exists st1', inc' g st1 = Some st1' /\ sim S K M st0' st1') ->
  forall l st0 st0' st1, body inc k h l st0 = Some st0' -> sim S K M st0 st1 -> exists st1', body inc' k' h l st1 = Some st1' /\ sim S K M st0' st1'.
Proof.
  intros HC HI l. induction l as [| i l IH]; intros st0 st0' st1 B R; cbn [body] in B.
  - injection B as <-. exists st1. auto.
  - cbn [body]. destruct i as [g | e | n | n | | | f a b | p a b]; try discriminate B.
    + destruct (inc g st0) as [s |] eqn:E; [| discriminate B]. destruct (HI g st0 s st1 E R) as (s' & E' & R'). rewrite E'. eauto.
    + eapply IH; [exact B |]. destruct (external_rest e st0) as (_ & Eg & Em & _), (external_rest e st1) as (_ & Eg' & Em' & _).
      destruct R as [R1 R2 R3 R4]. constructor.
      * intros x. unfold has. rewrite Eg, Eg'. apply R1.
      * intros p. rewrite !knows_external. intuition.
      * intros p P. rewrite knows_external. auto.
      * rewrite Em, Em'. exact R4.
    + eapply IH; [exact B |]. destruct (use_rest h n st0) as (_ & Eg & Ek & _), (use_rest h n st1) as (_ & Eg' & Ek' & _).
      destruct R as [R1 R2 R3 R4]. constructor.
      * intros x. unfold has. rewrite Eg, Eg'. apply R1.
      * unfold knows. rewrite Ek, Ek'. exact R2.
      * unfold knows. rewrite Ek'. exact R3.
      * intros x X. unfold use in *. destruct (PositiveSet.mem (nid n) (known st1)) eqn:E1.
        -- destruct (R4 x X) as [A | [A A']]; [auto |]. right. split; [| auto]. destruct (PositiveSet.mem _ (known st0)); cbn; auto.
        -- assert (E0 : PositiveSet.mem (nid n) (known st0) = false).
           { destruct (PositiveSet.mem (nid n) (known st0)) eqn:E0; [| reflexivity]. exfalso. pose proof (R2 _ E0) as Y. unfold knows in Y. congruence. }
           rewrite E0. cbn in X |- *. destruct X as [<- | X].
           ++ right. split; [auto |]. cbn. intros Y. apply R3 in Y. unfold knows in Y. congruence.
           ++ destruct (R4 x X) as [A | [A A']]; auto.
    + eapply IH; [exact B |]. destruct R as [R1 R2 R3 R4]. constructor; auto; intros p; rewrite !knows_learn; intuition.
    + eapply IH; [exact B |]. destruct R as [R1 R2 R3 R4]. constructor; auto.
    + eapply IH; [exact B |]. destruct R as [R1 R2 R3 R4]. constructor; auto.
Qed.

Lemma include_sim c S K M k k' : closed c S K -> forall n g st0 st0' st1, include n k c g st0 = Some st0' -> sim S K M st0 st1 ->
  exists st1', include n k' c g st1 = Some st1' /\ sim S K M st0' st1'.
Proof.
  intros HC. induction n as [| n IH]; intros g st0 st0' st1 E R; cbn [include] in E |- *; [discriminate |].
  destruct (PositiveSet.mem (hid g) (guards st0)) eqn:X0.
  - injection E as <-. assert (X1 : has g st1) by (apply (sim_guards _ _ _ _ _ R); auto). unfold has in X1. rewrite X1. exists st1. auto.
  - destruct (PositiveSet.mem (hid g) (guards st1)) eqn:X1.
    + assert (Hg : S g). { destruct (proj1 (sim_guards _ _ _ _ _ R g) X1) as [A | A]; [unfold has in A; congruence | exact A]. }
      exists st1. split; [reflexivity |].
      apply (include_skip c S K M k st1 HC (Datatypes.S n) g st0); auto. cbn [include]. rewrite X0. exact E.
    + eapply body_sim; [exact HC | | exact E |].
      * intros. eapply IH; eauto.
      * destruct R as [R1 R2 R3 R4]. constructor; auto. intros x. rewrite !has_enter, R1. tauto.
Qed.

(* ---- A configuration matters only through the conditions a header meets. ---- *)
Fixpoint item_flags (i : item) : list flag :=
  match i with If f a b => f :: flat_map item_flags a ++ flat_map item_flags b | IfP _ a b => flat_map item_flags a ++ flat_map item_flags b | _ => [] end.
Fixpoint item_incs (i : item) : list hdr :=
  match i with Inc h => [h] | If _ a b | IfP _ a b => flat_map item_incs a ++ flat_map item_incs b | _ => [] end.

Definition fid (f : flag) : nat := match f with FStdAtomic => 0 | FDispatch => 1 | FPosixSem => 2 | FTimedlock => 3 | FSpinBool => 4 | FRvalue => 5 | FStdError => 6 | FUnistd => 7 | FGettime => 8 end.
Lemma fid_inj f g : fid f = fid g -> f = g.
Proof. destruct f, g; cbn; intros; congruence. Qed.
Definition fin (f : flag) (l : list flag) : bool := existsb (fun g => Nat.eqb (fid f) (fid g)) l.
Lemma fin_spec f l : fin f l = true <-> In f l.
Proof.
  unfold fin. rewrite existsb_exists. split.
  - intros (g & I & E). apply PeanoNat.Nat.eqb_eq in E. apply fid_inj in E. subst. auto.
  - intros I. exists f. split; [auto | apply PeanoNat.Nat.eqb_refl].
Qed.

Definition deps (h : hdr) : list flag :=
  match h with
  | H_detail_atomic | H_detail_mutexes_shared_spin_mutex | H_mutexes_shared_spin_mutex => [FStdAtomic]
  | H_detail_auto_handle | H_detail_mutexes_basic_mutex_windows | H_detail_mutexes_mutex_posix | H_detail_mutexes_mutex_windows | H_detail_system_error | H_detail_waitable_timer | H_exceptions | H_exceptions_lock_error | H_exceptions_overflow_error | H_exceptions_resource_error | H_exceptions_runtime_exception | H_exceptions_wait_error | H_mutexes_mutex => [FStdError]
  | H_detail_events_manual_reset_event_futex | H_detail_time_units | H_support_boost_chrono | H_support_boost_date_time | H_support_posix_time | H_support_std_chrono => [FGettime]
  | H_condition_variables_condition_variable | H_detail_condition_variables_basic_condition_variable_windows | H_detail_condition_variables_condition_variable_any_windows | H_detail_condition_variables_condition_variable_posix | H_detail_condition_variables_condition_variable_windows | H_detail_events_auto_reset_event_windows | H_detail_events_basic_event_windows | H_detail_events_manual_reset_event_windows | H_detail_mutexes_timed_mutex_windows | H_detail_semaphore_basic_semaphore_mach | H_detail_semaphore_semaphore_dispatch | H_detail_semaphore_semaphore_mach | H_detail_semaphore_semaphore_posix | H_detail_semaphore_semaphore_windows => [FStdError; FGettime]
  | H_detail_events_auto_reset_event_futex => [FStdAtomic; FGettime]
  | H_detail_mutexes_spin_mutex | H_mutexes_spin_mutex => [FStdAtomic; FSpinBool]
  | H_detail_semaphore_config => [FDispatch; FUnistd]
  | H_locks | H_locks_shared_lock | H_locks_unique_lock | H_locks_upgrade_lock => [FStdError; FRvalue]
  | H_condition_variables | H_condition_variables_condition_variable_any | H_condition_variables_notify_all_at_thread_exit | H_detail_condition_variables_condition_variable_any_generic | H_detail_events_auto_reset_event_emulation | H_detail_events_manual_reset_event_emulation | H_detail_semaphore_semaphore_emulation | H_events_manual_reset_event => [FStdError; FGettime; FRvalue]
  | H_detail_mutexes_timed_mutex_posix | H_mutexes_timed_mutex => [FTimedlock; FStdError; FGettime]
  | H_mutexes => [FStdAtomic; FSpinBool; FTimedlock; FStdError; FGettime]
  | H_semaphore => [FDispatch; FUnistd; FStdError; FGettime; FPosixSem; FRvalue]
  | H_detail_events_auto_reset_event_semaphore | H_events | H_events_auto_reset_event => [FStdAtomic; FDispatch; FUnistd; FStdError; FGettime; FPosixSem; FRvalue]
  | _ => []
  end.

Definition deps_closed : bool :=
  forallb (fun h => forallb (fun f => fin f (deps h)) (flat_map item_flags (source h)) && forallb (fun g => forallb (fun f => fin f (deps h)) (deps g)) (flat_map item_incs (source h))) headers.
Lemma deps_closed_ok : deps_closed = true.
Proof. vm_compute. reflexivity. Qed.

Lemma deps_source h f : In f (flat_map item_flags (source h)) -> In f (deps h).
Proof.
  intros I. pose proof deps_closed_ok as D. unfold deps_closed in D. rewrite forallb_forall in D. specialize (D h (all_headers h)). apply andb_prop in D.
  destruct D as [D _]. rewrite forallb_forall in D. apply fin_spec, D, I.
Qed.
Lemma deps_inc h g f : In g (flat_map item_incs (source h)) -> In f (deps g) -> In f (deps h).
Proof.
  intros I J. pose proof deps_closed_ok as D. unfold deps_closed in D. rewrite forallb_forall in D. specialize (D h (all_headers h)). apply andb_prop in D.
  destruct D as [_ D]. rewrite forallb_forall in D. specialize (D g I). rewrite forallb_forall in D. apply fin_spec, D, J.
Qed.

(* An induction principle for steps. *)
Lemma item_ind2 (P : item -> Prop) :
  (forall h, P (Inc h)) -> (forall e, P (Ext e)) -> (forall n, P (Use n)) -> (forall n, P (Decl n)) -> P Header -> P Footer ->
  (forall f a b, Forall P a -> Forall P b -> P (If f a b)) -> (forall p a b, Forall P a -> Forall P b -> P (IfP p a b)) -> forall i, P i.
Proof.
  intros H1 H2 H3 H4 H5 H6 H7 H8. fix IH 1. intros i.
  assert (L : forall l, Forall P l) by (fix IHl 1; intros [| x l]; constructor; [apply IH | apply IHl]).
  destruct i; [apply H1 | apply H2 | apply H3 | apply H4 | exact H5 | exact H6 | apply H7; apply L | apply H8; apply L].
Qed.

Lemma resolve_agree c c' i : plat c = plat c' -> (forall f, In f (item_flags i) -> on c f = on c' f) -> resolve c i = resolve c' i.
Proof.
  intros EP. revert i. apply (item_ind2 (fun i => (forall f, In f (item_flags i) -> on c f = on c' f) -> resolve c i = resolve c' i)); try reflexivity.
  - intros f a b A B H. cbn in *. rewrite <- (H f (or_introl eq_refl)).
    assert (X : forall l, Forall (fun i => (forall f, In f (item_flags i) -> on c f = on c' f) -> resolve c i = resolve c' i) l -> (forall g, In g (flat_map item_flags l) -> on c g = on c' g) ->
      flat_map (resolve c) l = flat_map (resolve c') l).
    { induction 1 as [| i l Hi Hl IHl]; intros HF; [reflexivity |]. cbn in *. rewrite Hi, IHl; auto; intros; apply HF, in_or_app; auto. }
    destruct (on c f); apply X; auto; intros g G; apply H; right; apply in_or_app; auto.
  - intros p a b A B H. cbn in *. rewrite <- EP.
    assert (X : forall l, Forall (fun i => (forall f, In f (item_flags i) -> on c f = on c' f) -> resolve c i = resolve c' i) l -> (forall g, In g (flat_map item_flags l) -> on c g = on c' g) ->
      flat_map (resolve c) l = flat_map (resolve c') l).
    { induction 1 as [| i l Hi Hl IHl]; intros HF; [reflexivity |]. cbn in *. rewrite Hi, IHl; auto; intros; apply HF, in_or_app; auto. }
    assert (Xa : flat_map (resolve c) a = flat_map (resolve c') a) by (apply X; auto; intros g G; apply H, in_or_app; auto).
    assert (Xb : flat_map (resolve c) b = flat_map (resolve c') b) by (apply X; auto; intros g G; apply H, in_or_app; auto).
    destruct p, (plat c); assumption.
Qed.

Lemma text_agree c c' h : plat c = plat c' -> (forall f, In f (deps h) -> on c f = on c' f) -> text c h = text c' h.
Proof.
  intros EP H. unfold text. assert (K : forall i, In i (source h) -> resolve c i = resolve c' i).
  { intros i I. apply resolve_agree; auto. intros f F. apply H, deps_source, in_flat_map. eauto. }
  induction (source h) as [| i l IH]; [reflexivity |]. cbn. rewrite K, IH; auto with datatypes.
Qed.

Lemma resolve_incs c i g : In (Inc g) (resolve c i) -> In g (item_incs i).
Proof.
  revert i. apply (item_ind2 (fun i => In (Inc g) (resolve c i) -> In g (item_incs i))); cbn; try (intros; intuition congruence).
  - intros f a b A B I. apply in_or_app. rewrite Forall_forall in A, B.
    destruct (on c f); apply in_flat_map in I; destruct I as (j & J & I); [left | right]; apply in_flat_map; eauto.
  - intros p a b A B I. apply in_or_app. rewrite Forall_forall in A, B.
    assert (X : In (Inc g) (flat_map (resolve c) a) \/ In (Inc g) (flat_map (resolve c) b)) by (destruct p, (plat c); auto).
    destruct X as [X | X]; apply in_flat_map in X; destruct X as (j & J & X); [left | right]; apply in_flat_map; eauto.
Qed.

Lemma text_incs c h g : In (Inc g) (text c h) -> In g (flat_map item_incs (source h)).
Proof. unfold text. rewrite !in_flat_map. intros (i & I & J). exists i. split; [auto |]. apply (resolve_incs c), J. Qed.

Lemma body_ext inc inc' k h l : (forall g st, In (Inc g) l -> inc g st = inc' g st) -> forall st, body inc k h l st = body inc' k h l st.
Proof.
  induction l as [| i l IH]; intros H st; [reflexivity |]. cbn [body].
  assert (H' : forall g s, In (Inc g) l -> inc g s = inc' g s) by (intros; apply H; right; auto).
  destruct i; auto. rewrite (H h0 st (or_introl eq_refl)). destruct (inc' h0 st); auto.
Qed.

Lemma include_agree c c' k : plat c = plat c' -> forall n h, (forall f, In f (deps h) -> on c f = on c' f) -> forall st, include n k c h st = include n k c' h st.
Proof.
  intros EP. induction n as [| n IH]; intros h H st; [reflexivity |]. cbn [include]. destruct (PositiveSet.mem _ _); [reflexivity |].
  rewrite <- (text_agree c c' h EP H). apply body_ext. intros g s I. apply IH. intros f F. apply H. apply (deps_inc h g f); auto. apply (text_incs c), I.
Qed.

(* All configurations that differ in the given conditions. *)
Fixpoint subsets (l : list flag) : list (list flag) := match l with [] => [[]] | f :: l' => let s := subsets l' in s ++ map (cons f) s end.
Lemma subsets_filter g l : In (filter g l) (subsets l).
Proof. induction l as [| f l IH]; cbn; [auto |]. apply in_or_app. destruct (g f); [right; apply in_map, IH | left; exact IH]. Qed.
Definition conf_of (p : platform) (s : list flag) : hconf := HConf p (fun f => fin f s).
Definition confs (l : list flag) : list hconf := flat_map (fun p => map (conf_of p) (subsets l)) [PPosix; PWinapi; PLinux; PMach].

Lemma confs_cover c h : exists c', In c' (confs (deps h)) /\ plat c' = plat c /\ (forall f, In f (deps h) -> on c f = on c' f) /\ forall n k st, include n k c h st = include n k c' h st.
Proof.
  assert (A : forall f, In f (deps h) -> on c f = on (conf_of (plat c) (filter (on c) (deps h))) f).
  { intros f F. cbn. destruct (on c f) eqn:E.
    - symmetry. apply fin_spec, filter_In. auto.
    - symmetry. apply not_true_iff_false. rewrite fin_spec, filter_In. intuition congruence. }
  exists (conf_of (plat c) (filter (on c) (deps h))). split.
  - unfold confs. apply in_flat_map. exists (plat c). split; [destruct (plat c); cbn; auto |]. apply in_map, subsets_filter.
  - split; [reflexivity |]. split; [exact A |]. intros n k st. apply include_agree; [reflexivity | exact A].
Qed.

(* ---- Translation units ---- *)
Definition included (us : list uitem) : list hdr := flat_map (fun u => match u with UInc _ h => [h] | UExt _ => [] end) us.
Definition externals (us : list uitem) : list ext := flat_map (fun u => match u with UInc _ _ => [] | UExt e => [e] end) us.
Definition compilers (us : list uitem) : list comp := flat_map (fun u => match u with UInc k _ => [k] | UExt _ => [] end) us.

Lemma grows_external e st : grows st (external e st).
Proof. destruct (external_rest e st) as (_ & Eg & _). split; [unfold has; rewrite Eg; auto | intros p; rewrite knows_external; auto]. Qed.

Lemma whole_start c d : whole c [] (start d).
Proof. intros g H. discriminate H. Qed.

Lemma tunit_whole c us : forall st st', tunit c us st = Some st' -> whole c [] st -> whole c [] st' /\ grows st st' /\ (forall h, In h (included us) -> has h st')
  /\ (forall e n, In e (externals us) -> In n (provides e) -> knows (nid n) st').
Proof.
  induction us as [| [k h | e] us IH]; intros st st' E W; cbn [tunit] in E.
  - injection E as <-. split; [auto |]. split; [apply grows_refl |]. split; [intros h [] | intros e n []].
  - destruct (include depth k c h st) as [s |] eqn:I; [| discriminate E].
    destruct (include_whole k c depth [] h st s I W) as (W1 & H1 & G1). destruct (IH s st' E W1) as (W2 & G2 & H2 & K2).
    split; [exact W2 |]. split; [apply (grows_trans st s); auto |]. split; [| exact K2]. cbn. intros g [<- | J]; [| auto]. apply G2, H1.
  - destruct (IH (external e st) st' E) as (W2 & G2 & H2 & K2).
    { apply (whole_step c [] st); [auto | | apply grows_external]. destruct (external_rest e st) as (_ & Eg & _). unfold has; rewrite Eg; auto. }
    split; [exact W2 |]. split; [apply (grows_trans st (external e st)); [apply grows_external | auto] |]. split; [exact H2 |]. cbn. intros e' n [<- | J] N; [| eauto].
    apply G2. rewrite knows_external. left. apply in_map, N.
Qed.

Lemma whole_closed c st : whole c [] st -> closed c (fun h => has h st) (fun p => knows p st).
Proof. intros W g H i I. destruct (W g H) as [[] | D]. specialize (D i I). destruct i; auto. Qed.

(* A translation unit that includes no more than another one has no more headers and names than that one. *)
Lemma tunit_least c us st1 : whole c [] st1 -> (forall h, In h (included us) -> has h st1) -> (forall e n, In e (externals us) -> In n (provides e) -> knows (nid n) st1) ->
  forall st st', tunit c us st = Some st' -> (forall h, has h st -> has h st1) -> (forall p, knows p st -> knows p st1) -> (forall h, has h st' -> has h st1) /\ (forall p, knows p st' -> knows p st1).
Proof.
  intros W HI HE st st' E Hh Hk.
  assert (X : sim (fun h => has h st1) (fun p => knows p st1) (missing st1) st st1) by (constructor; auto; intros h; split; [auto | intros [A | A]; auto]).
  clear Hh Hk. assert (Y : sim (fun h => has h st1) (fun p => knows p st1) (missing st1) st' st1).
  { revert st st' E X. induction us as [| [k h | e] us IH]; intros st st' E X; cbn [tunit] in E.
    - injection E as <-. exact X.
    - destruct (include depth k c h st) as [s |] eqn:I; [| discriminate E].
      apply (IH (fun g G => HI g (or_intror G)) HE s st' E). apply (include_skip c _ _ _ k st1 (whole_closed c st1 W) depth h st s I); [| exact X].
      apply HI. left. reflexivity.
    - apply (IH HI (fun e' n G => HE e' n (or_intror G)) (external e st) st' E). destruct (external_rest e st) as (_ & Eg & Em & _). destruct X as [R1 R2 R3 R4]. constructor; auto.
      + intros x. unfold has at 2. rewrite Eg. apply R1.
      + intros p. rewrite knows_external. intros [A | A]; [| auto]. apply in_map_iff in A. destruct A as (m & <- & A). apply (HE e m); [left; reflexivity | exact A]. }
  destruct Y as [R1 R2 R3 R4]. split; [| exact R2]. intros h H. apply R1. auto.
Qed.

(* ---- One header on its own, in all configurations ---- *)
Definition plain : comp := Comp false 0 false false.
Definition solo (c : hconf) (h : hdr) : option state := include depth plain c h (start (Diag [] [])).
Definition same (x y : hdr * name) : bool := Pos.eqb (hid (fst x)) (hid (fst y)) && Pos.eqb (nid (snd x)) (nid (snd y)).
Definition listed (x : hdr * name) (l : list (hdr * name)) : bool := existsb (same x) l.
Lemma same_spec x y : same x y = true -> x = y.
Proof.
  destruct x as [h n], y as [g m]. unfold same; cbn. intros H. apply andb_prop in H. destruct H as [A B]. apply Pos.eqb_eq in A, B.
  apply hid_inj in A. apply nid_inj in B. congruence.
Qed.
Lemma listed_spec x l : listed x l = true -> In x l.
Proof. unfold listed. rewrite existsb_exists. intros (y & I & E). apply same_spec in E. subst. exact I. Qed.

(* The names that are used without an include of the header that documents them. *)
Definition public_gaps : list (hdr * name) := [(H_detail_futex, XInt); (H_detail_mutexes_shared_spin_mutex, XAssert); (H_detail_mutexes_spin_mutex, XAssert)].
Definition gaps : list (hdr * name) := (H_detail_waitable_timer, XWinWait) :: public_gaps.
Definition gaps_of (h : hdr) : list (hdr * name) := if public h then public_gaps else gaps.

Definition solo_ok (h : hdr) : bool := forallb (fun c => match solo c h with Some st => forallb (fun x => listed x (gaps_of h)) (missing st) | None => false end) (confs (deps h)).
Lemma solo_all : forallb solo_ok headers = true.
Proof. vm_cast_no_check (eq_refl true). Qed.

Lemma solo_spec c h : exists st, solo c h = Some st /\ forall x, In x (missing st) -> In x (gaps_of h).
Proof.
  pose proof solo_all as A. rewrite forallb_forall in A. specialize (A h (all_headers h)). unfold solo_ok in A. rewrite forallb_forall in A.
  destruct (confs_cover c h) as (c' & I & _ & _ & E). specialize (A c' I). unfold solo in *. rewrite E. destruct (include depth plain c' h _) as [st |]; [| discriminate A].
  exists st. split; [reflexivity |]. intros x X. rewrite forallb_forall in A. apply listed_spec, A, X.
Qed.

Lemma sim_start c d st : whole c [] st -> sim (fun h => has h st) (fun p => knows p st) (missing st) (start d) st.
Proof. intros W. constructor; auto; try (intros p H; discriminate H). intros h. split; [auto | intros [A | A]; [discriminate A | exact A]]. Qed.

(* Including a header after others succeeds and misses no more than on its own. *)
Lemma include_after k c h st : whole c [] st -> exists st', include depth k c h st = Some st' /\
  (forall x, In x (missing st') -> In x (missing st) \/ In x (gaps_of h) /\ ~ knows (nid (snd x)) st).
Proof.
  intros W. destruct (solo_spec c h) as (st0 & E0 & G0).
  destruct (include_sim c _ _ _ plain k (whole_closed c st W) depth h _ st0 st E0 (sim_start c (Diag [] []) st W)) as (st' & E & [R1 R2 R3 R4]).
  exists st'. split; [exact E |]. intros x X. destruct (R4 x X) as [A | [A B]]; auto.
Qed.

(* A header brings after others what it brings on its own. *)
Lemma tunit_solo c us d st h st0 : tunit c us (start d) = Some st -> In h (included us) -> solo c h = Some st0 ->
  (forall p, knows p st0 -> knows p st) /\ (forall g, has g st0 -> has g st).
Proof.
  intros E I S. destruct (tunit_whole c us _ _ E (whole_start c d)) as (W & _ & H & _).
  destruct (include_skip c _ _ _ plain st (whole_closed c st W) depth h _ _ S (H h I) (sim_start c _ st W)) as [R1 R2 R3 R4].
  split; [exact R2 |]. intros g G. apply R1. auto.
Qed.

Lemma tunit_total c us : forall st, whole c [] st -> exists st', tunit c us st = Some st'.
Proof.
  induction us as [| [k h | e] us IH]; intros st W; cbn [tunit]; [eauto | |].
  - destruct (include_after k c h st W) as (s & E & _). rewrite E. apply IH. eapply include_whole; eauto.
  - apply IH. apply (whole_step c [] st); [auto | | apply grows_external]. destruct (external_rest e st) as (_ & Eg & _). unfold has; rewrite Eg; auto.
Qed.

Lemma tunit_missing c (G : list (hdr * name)) us : forall st st', tunit c us st = Some st' -> whole c [] st ->
  (forall h x, In h (included us) -> In x (gaps_of h) -> In x G \/ knows (nid (snd x)) st) ->
  forall x, In x (missing st') -> In x (missing st) \/ In x G.
Proof.
  induction us as [| [k h | e] us IH]; intros st st' E W HG x X; cbn [tunit] in E.
  - injection E as <-. auto.
  - destruct (include_after k c h st W) as (s & I & HM). rewrite I in E. destruct (include_whole k c depth [] h st s I W) as (W1 & _ & G1).
    destruct (IH s st' E W1) with (x := x) as [A | A]; auto.
    + intros g y Hg Hy. destruct (HG g y) as [B | B]; auto. right. exact Hg. right. apply G1, B.
    + destruct (HM x A) as [B | [B B']]; auto. destruct (HG h x) as [D | D]; auto. left. reflexivity. contradiction.
  - destruct (IH (external e st) st' E) with (x := x) as [A | A]; auto.
    + apply (whole_step c [] st); [auto | | apply grows_external]. destruct (external_rest e st) as (_ & Eg & _). unfold has; rewrite Eg; auto.
    + intros g y Hg Hy. destruct (HG g y) as [B | B]; auto. right. apply grows_external, B.
    + left. destruct (external_rest e st) as (_ & _ & Em & _). rewrite Em in A. exact A.
Qed.

(* ---- Each header is read once ---- *)
Definition tidy (st : state) : Prop := NoDup (reads st) /\ forall h, In h (reads st) <-> has h st.

Lemma body_tidy inc k h : (forall g st st', inc g st = Some st' -> tidy st -> tidy st') -> forall l st st', body inc k h l st = Some st' -> tidy st -> tidy st'.
Proof.
  intros HI l. induction l as [| i l IH]; intros st st' B T; cbn [body] in B; [injection B as <-; exact T |].
  destruct i as [g | e | n | n | | | f a b | p a b]; try discriminate B.
  - destruct (inc g st) as [s |] eqn:E; [| discriminate B]. eauto.
  - apply (IH _ _ B). destruct (external_rest e st) as (Er & Eg & _). unfold tidy, has in *. rewrite Er, Eg. exact T.
  - apply (IH _ _ B). destruct (use_rest h n st) as (Er & Eg & _). unfold tidy, has in *. rewrite Er, Eg. exact T.
  - apply (IH _ _ B). exact T.
  - apply (IH _ _ B). exact T.
  - apply (IH _ _ B). exact T.
Qed.

Lemma include_tidy k c : forall n g st st', include n k c g st = Some st' -> tidy st -> tidy st'.
Proof.
  induction n as [| n IH]; intros g st st' E T; cbn [include] in E; [discriminate |].
  destruct (PositiveSet.mem (hid g) (guards st)) eqn:M; [injection E as <-; exact T |].
  apply (body_tidy (include n k c) k g IH _ _ _ E). destruct T as [T1 T2]. split.
  - cbn. constructor; [| exact T1]. rewrite T2. unfold has. congruence.
  - intros h. rewrite has_enter, <- T2. cbn. intuition congruence.
Qed.

Lemma tunit_tidy c us : forall st st', tunit c us st = Some st' -> tidy st -> tidy st'.
Proof.
  induction us as [| [k h | e] us IH]; intros st st' E T; cbn [tunit] in E.
  - injection E as <-. exact T.
  - destruct (include depth k c h st) as [s |] eqn:I; [| discriminate E]. apply (IH _ _ E). apply (include_tidy k c depth h st s I T).
  - apply (IH _ _ E). destruct (external_rest e st) as (Er & Eg & _). unfold tidy, has in *. rewrite Er, Eg. exact T.
Qed.

Lemma start_tidy d : tidy (start d).
Proof. split; [constructor |]. intros h. split; [intros [] | intros H; discriminate H]. Qed.

(* ---- Regions between header.hpp and footer.hpp ---- *)
(* Regions are closed in the header that opens them, and nothing is included inside. *)
Fixpoint scan (o : bool) (l : list item) : bool :=
  match l with
  | [] => negb o
  | Header :: l' => negb o && scan true l'
  | Footer :: l' => o && scan false l'
  | Inc _ :: l' | Ext _ :: l' => negb o && scan o l'
  | Use _ :: l' | Decl _ :: l' => scan o l'
  | If _ _ _ :: _ | IfP _ _ _ :: _ => false
  end.
Definition scan_all : bool := forallb (fun h => forallb (fun c => scan false (text c h)) (confs (deps h))) headers.
Lemma scan_all_ok : scan_all = true.
Proof. vm_cast_no_check (eq_refl true). Qed.
Lemma scan_text c h : scan false (text c h) = true.
Proof.
  pose proof scan_all_ok as A. unfold scan_all in A. rewrite forallb_forall in A. specialize (A h (all_headers h)). rewrite forallb_forall in A.
  rewrite <- (A (conf_of (plat c) (filter (on c) (deps h)))).
  - f_equal. apply text_agree; [reflexivity |]. intros f F. cbn. destruct (on c f) eqn:E.
    + symmetry. apply fin_spec, filter_In. auto.
    + symmetry. apply not_true_iff_false. rewrite fin_spec, filter_In. intuition congruence.
  - unfold confs. apply in_flat_map. exists (plat c). split; [destruct (plat c); cbn; auto |]. apply in_map, subsets_filter.
Qed.

(* Outside of regions: none is open and none was nested; W is what holds of the warning settings there. *)
Definition outside (W : diag -> Prop) (st : state) : Prop := abi st = false /\ nested st = false /\ W (warn st).

Lemma body_region (k : comp) (W W' : diag -> Prop) inc h : (forall d, W d -> W' (header_pragmas k d)) -> (forall d, W' d -> W (footer_pragmas k d)) ->
  (forall g st st', inc g st = Some st' -> outside W st -> outside W st') ->
  forall l o st st', scan o l = true -> body inc k h l st = Some st' -> abi st = o -> nested st = false -> (if o then W' else W) (warn st) -> outside W st'.
Proof.
  intros HH HF HI l. induction l as [| i l IH]; intros o st st' S B EA EN HW; cbn [body scan] in *.
  - injection B as <-. destruct o; [discriminate S |]. split; auto.
  - destruct i as [g | e | n | n | | | f a b | p a b]; try discriminate B.
    + apply andb_prop in S. destruct S as [So S]. destruct o; [discriminate So |]. destruct (inc g st) as [s |] eqn:E; [| discriminate B].
      destruct (HI g st s E) as (A1 & A2 & A3); [split; auto |]. apply (IH false s st' S B A1 A2 A3).
    + apply andb_prop in S. destruct S as [So S]. destruct o; [discriminate So |]. destruct (external_rest e st) as (_ & _ & _ & Ew & Ea & En).
      apply (IH false _ st' S B); [congruence | rewrite En, EN, EA; reflexivity | rewrite Ew; exact HW].
    + destruct (use_rest h n st) as (_ & _ & _ & Ew & Ea & En). apply (IH o _ st' S B); [congruence | congruence | rewrite Ew; exact HW].
    + apply (IH o _ st' S B); auto.
    + apply andb_prop in S. destruct S as [So S]. destruct o; [discriminate So |]. apply (IH true _ st' S B); cbn; auto. rewrite EN, EA; reflexivity.
    + apply andb_prop in S. destruct S as [So S]. destruct o; [| discriminate So]. apply (IH false _ st' S B); cbn; auto. rewrite EN, EA; reflexivity.
Qed.

Lemma include_region k (W W' : diag -> Prop) c : (forall d, W d -> W' (header_pragmas k d)) -> (forall d, W' d -> W (footer_pragmas k d)) ->
  forall n g st st', include n k c g st = Some st' -> outside W st -> outside W st'.
Proof.
  intros HH HF. induction n as [| n IH]; intros g st st' E O; cbn [include] in E; [discriminate |].
  destruct (PositiveSet.mem (hid g) (guards st)); [injection E as <-; exact O |].
  destruct O as (O1 & O2 & O3). apply (body_region k W W' (include n k c) g HH HF IH _ false _ _ (scan_text c g) E); cbn; auto. rewrite O1, O2; reflexivity.
Qed.

Lemma tunit_region (W : diag -> Prop) (W' : comp -> diag -> Prop) c us :
  (forall k d, In k (compilers us) -> W d -> W' k (header_pragmas k d)) -> (forall k d, In k (compilers us) -> W' k d -> W (footer_pragmas k d)) ->
  forall st st', tunit c us st = Some st' -> outside W st -> outside W st'.
Proof.
  induction us as [| [k h | e] us IH]; intros HH HF st st' E O; cbn [tunit compilers flat_map] in *.
  - injection E as <-. exact O.
  - destruct (include depth k c h st) as [s |] eqn:I; [| discriminate E].
    apply (IH (fun k' d J => HH k' d (or_intror J)) (fun k' d J => HF k' d (or_intror J)) s st' E).
    apply (include_region k W (W' k) c (fun d => HH k d (or_introl eq_refl)) (fun d => HF k d (or_introl eq_refl)) depth h st s I O).
  - apply (IH HH HF _ _ E). destruct (external_rest e st) as (_ & _ & _ & Ew & Ea & En), O as (O1 & O2 & O3). split; [congruence |]. split; [rewrite En, O1, O2; reflexivity |].
    rewrite Ew. exact O3.
Qed.

(* ---- One definition of each class ---- *)
Definition declared (c : hconf) (h : hdr) : list name := flat_map (fun i => match i with Decl n => [n] | _ => [] end) (text c h).
(* The class templates with a separate forward declaration; their definitions are the D names. *)
Definition forward (n : name) : bool :=
  match n with L_lock_guard | L_shared_lock | L_shared_lock_guard | L_unique_lock | L_unlock_guard | L_upgrade_lock => true | _ => false end.
Definition defined (c : hconf) (h : hdr) : list name := filter (fun n => negb (forward n)) (declared c h).

Lemma flat_disjoint {A B} (f : A -> list B) l : NoDup (flat_map f l) -> forall h g x, In h l -> In g l -> h <> g -> In x (f h) -> In x (f g) -> False.
Proof.
  induction l as [| a l IH]; cbn; intros N h g x Hh Hg D X Y; [contradiction |].
  assert (N1 : NoDup (flat_map f l)) by (clear - N; induction (f a) as [| y m IHm]; [exact N | inversion N; auto]).
  assert (N2 : forall y, In y (f a) -> In y (flat_map f l) -> False).
  { clear - N. induction (f a) as [| z m IHm]; intros y Y Y'; [contradiction |]. inversion N as [| ? ? N1 N2]; subst. destruct Y as [<- | Y]; [apply N1, in_or_app; auto | eauto]. }
  destruct Hh as [<- | Hh], Hg as [<- | Hg]; [congruence | | | eauto].
  - apply (N2 x X). apply in_flat_map. eauto.
  - apply (N2 x Y). apply in_flat_map. eauto.
Qed.

Lemma nodup_app_r {A} (l m : list A) : NoDup (l ++ m) -> NoDup m.
Proof. induction l as [| a l IH]; cbn; [auto |]. intros N. inversion N; auto. Qed.
Lemma nodup_app_l {A} (l m : list A) : NoDup (l ++ m) -> NoDup l.
Proof.
  induction l as [| a l IH]; cbn; intros N; [constructor |]. inversion N as [| ? ? N1 N2]; subst. constructor; [intros X; apply N1, in_or_app; auto | auto].
Qed.
Lemma nodup_app {A} (l m : list A) : NoDup l -> NoDup m -> (forall x, In x l -> In x m -> False) -> NoDup (l ++ m).
Proof.
  induction 1 as [| a l Na Nl IH]; cbn; intros Nm D; [exact Nm |]. constructor.
  - rewrite in_app_iff. intros [X | X]; [contradiction | apply (D a); auto with datatypes].
  - apply IH; [exact Nm |]. intros x X Y. apply (D x); auto with datatypes.
Qed.

Lemma flat_sub {A B} (f : A -> list B) l l' : NoDup (flat_map f l) -> NoDup l' -> incl l' l -> NoDup (flat_map f l').
Proof.
  intros N N'. induction N' as [| a l' Na N' IH]; intros I; cbn; [constructor |].
  apply nodup_app.
  - assert (Ha : In a l) by (apply I; left; reflexivity). apply in_split in Ha. destruct Ha as (l1 & l2 & ->). rewrite flat_map_app in N. cbn in N.
    apply nodup_app_r, nodup_app_l in N. exact N.
  - apply IH. intros x X. apply I. right. exact X.
  - intros x X Y. apply in_flat_map in Y. destruct Y as (g & G & Y). apply (flat_disjoint f l N a g x); auto with datatypes. intros ->. contradiction.
Qed.

Definition all_public (c : hconf) : option state := tunit c (map (UInc plain) (filter public headers)) (start (Diag [] [])).
Fixpoint fresh (l : list positive) (s : PositiveSet.t) : bool := match l with [] => true | p :: l' => negb (PositiveSet.mem p s) && fresh l' (PositiveSet.add p s) end.
Lemma fresh_spec l : forall s, fresh l s = true -> NoDup l /\ forall p, In p l -> PositiveSet.mem p s = false.
Proof.
  induction l as [| q l IH]; intros s F; cbn in F; [split; [constructor | intros p []] |]. apply andb_prop in F. destruct F as [Q F]. apply IH in F. destruct F as [N F]. split.
  - constructor; [| exact N]. intros X. specialize (F q X). apply not_true_iff_false in F. apply F, mem_add. auto.
  - intros p [<- | X]; [apply negb_true_iff, Q |]. specialize (F p X). apply not_true_iff_false. apply not_true_iff_false in F. intros M. apply F, mem_add. auto.
Qed.

Definition all_flags : list flag := [FStdAtomic; FSpinBool; FTimedlock; FDispatch; FUnistd; FStdError; FGettime; FPosixSem; FRvalue].
Definition once_in (c : hconf) (r : option state) : bool := match r with Some st => fresh (map nid (flat_map (defined c) (reads st))) PositiveSet.empty | None => false end.
Lemma once_all : forallb (fun c => once_in c (all_public c)) (confs all_flags) = true.
Proof. vm_cast_no_check (eq_refl true). Qed.
Lemma once_in_spec c r st : once_in c r = true -> r = Some st -> NoDup (flat_map (defined c) (reads st)).
Proof. intros A ->. apply fresh_spec in A. destruct A as [A _]. apply NoDup_map_inv in A. exact A. Qed.
Lemma once_spec c st : In c (confs all_flags) -> all_public c = Some st -> NoDup (flat_map (defined c) (reads st)).
Proof. intros I. exact (once_in_spec c (all_public c) st (proj1 (forallb_forall (fun c => once_in c (all_public c)) (confs all_flags)) once_all c I)). Qed.

Lemma text_conf c h : text c h = text (conf_of (plat c) (filter (on c) all_flags)) h.
Proof.
  apply text_agree; [reflexivity |]. intros f _. unfold conf_of; cbn [on]. assert (F : In f all_flags) by (destruct f; cbn; tauto). destruct (on c f) eqn:E.
  - symmetry. apply fin_spec, filter_In. auto.
  - symmetry. apply not_true_iff_false. rewrite fin_spec, filter_In. intuition congruence.
Qed.
Lemma include_conf c n k h st : include n k c h st = include n k (conf_of (plat c) (filter (on c) all_flags)) h st.
Proof.
  apply include_agree; [reflexivity |]. intros f _. unfold conf_of; cbn [on]. assert (F : In f all_flags) by (destruct f; cbn; tauto). destruct (on c f) eqn:E.
  - symmetry. apply fin_spec, filter_In. auto.
  - symmetry. apply not_true_iff_false. rewrite fin_spec, filter_In. intuition congruence.
Qed.
Lemma tunit_conf c us : forall st, tunit c us st = tunit (conf_of (plat c) (filter (on c) all_flags)) us st.
Proof.
  induction us as [| [k h | e] us IH]; intros st; cbn [tunit]; [reflexivity | | apply IH]. rewrite <- include_conf. destruct (include depth k c h st); auto.
Qed.

(* The headers a header leads to. *)
Lemma body_sub c s inc k h : whole c [] s -> (forall g a b, inc g a = Some b -> has g s -> (forall x, has x a -> has x s) -> forall x, has x b -> has x s) ->
  forall l a b, (forall g, In (Inc g) l -> has g s) -> body inc k h l a = Some b -> (forall x, has x a -> has x s) -> forall x, has x b -> has x s.
Proof.
  intros W HI l. induction l as [| i l IH]; intros a b HL B Ha; cbn [body] in B; [injection B as <-; exact Ha |].
  assert (HL' := fun g G => HL g (or_intror G)).
  destruct i as [g | e | n | n | | | f a' b' | p a' b']; try discriminate B.
  - destruct (inc g a) as [s' |] eqn:E; [| discriminate B]. apply (IH s' b HL' B). apply (HI g a s' E); [apply HL; left; reflexivity | exact Ha].
  - apply (IH _ b HL' B). destruct (external_rest e a) as (_ & Eg & _). unfold has. rewrite Eg. exact Ha.
  - apply (IH _ b HL' B). destruct (use_rest h n a) as (_ & Eg & _). unfold has. rewrite Eg. exact Ha.
  - apply (IH _ b HL' B). exact Ha.
  - apply (IH _ b HL' B). exact Ha.
  - apply (IH _ b HL' B). exact Ha.
Qed.

Lemma include_sub k c s : whole c [] s -> forall n g a b, include n k c g a = Some b -> has g s -> (forall x, has x a -> has x s) -> forall x, has x b -> has x s.
Proof.
  intros W. induction n as [| n IH]; intros g a b E Hg Ha; cbn [include] in E; [discriminate |].
  destruct (PositiveSet.mem (hid g) (guards a)); [injection E as <-; exact Ha |].
  apply (body_sub c s (include n k c) k g W IH (text c g) (enter g a) b); [| exact E |].
  - intros g' G. destruct (W g Hg) as [[] | D]. apply (D (Inc g') G).
  - intros x X. apply has_enter in X. destruct X as [-> | X]; auto.
Qed.

Lemma defined_once c us d st : (forall h, In h (included us) -> public h = true) -> tunit c us (start d) = Some st -> NoDup (flat_map (defined c) (reads st)).
Proof.
  intros HP E. destruct (tunit_total c (map (UInc plain) (filter public headers)) (start (Diag [] [])) (whole_start c _)) as (s & Es).
  assert (Es' : all_public (conf_of (plat c) (filter (on c) all_flags)) = Some s) by (unfold all_public; rewrite <- tunit_conf; exact Es).
  apply once_spec in Es'; [| unfold confs; apply in_flat_map; exists (plat c); split; [destruct (plat c); cbn; auto | apply in_map, subsets_filter]].
  apply (flat_sub _ (reads s)).
  - erewrite flat_map_ext; [exact Es' |]. intros h. unfold defined, declared. rewrite <- text_conf. reflexivity.
  - apply (tunit_tidy c us _ _ E (start_tidy d)).
  - destruct (tunit_whole c _ _ _ Es (whole_start c _)) as (Ws & _ & Hs & _).
    assert (K : forall us', (forall h, In h (included us') -> public h = true) -> forall a b, tunit c us' a = Some b -> (forall h, has h a -> has h s) -> forall h, has h b -> has h s).
    { intros us'. induction us' as [| [k h | e] us' IH]; intros HP' a b T Ha; cbn [tunit] in T.
      - injection T as <-. exact Ha.
      - destruct (include depth k c h a) as [a' |] eqn:I; [| discriminate T]. apply (IH (fun g G => HP' g (or_intror G)) a' b T).
        (* names do not matter here *)
        pose proof (include_sub k c s Ws depth h a a' I) as Q. apply Q; [| exact Ha].
        apply Hs. unfold included. apply in_flat_map. exists (UInc plain h). split; [| left; reflexivity]. apply in_map, filter_In. split; [apply all_headers |]. apply HP'. left. reflexivity.
      - apply (IH HP' _ _ T). destruct (external_rest e a) as (_ & Eg & _). unfold has. rewrite Eg. exact Ha. }
    intros h H. apply (tunit_tidy c _ _ _ Es (start_tidy _)). apply (K us HP (start d) st E); [intros g G; discriminate G |]. apply (tunit_tidy c us _ _ E (start_tidy d)), H.
Qed.
