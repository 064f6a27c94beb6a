(** Thread-specific storage when the operating system refuses: TssModel.v extended by the two failures it leaves out.
    /repo/src/tss_manager.hpp ("M:"), /repo/src/tss_pthread.cpp ("X:"), /repo/src/tss_windows.cpp ("W:"),
    /repo/include/boost/sync/thread_specific/thread_specific_ptr.hpp ("P:"), .../at_thread_exit.hpp ("A:"),
    /repo/include/boost/sync/condition_variables/notify_all_at_thread_exit.hpp ("N:").

    [FStore]: pthread_setspecific (X:92) or TlsSetValue (W:127) fails; its result is ignored, the call goes on with the context it has just created.
    [FLock]: locking m_mutex in create_thread_context throws (M:144) after the context was allocated (M:142); the exception leaves the call.
    Failing allocations are the [failure]s of TssModel.v.
    A failure of W:163 (set_thread_context(NULL) for a pointer stored before) is left out, and so is locking m_mutex in new_key (M:198, nothing has happened yet),
    in delete_key (DelKey.v) and in destroy_thread_context (M:190, noexcept: the program is terminated). *)
From Coq Require Import List Bool Arith ZArith Lia.
From Verif Require Import ListSum Exec TssModel.
Import ListNotations.

(** A step of TssModel.v (P:43-103, A:48-61, N:53-58, M:134-255); call [a] with X:92 / W:127 failing; call [a] with M:144 throwing. *)
Inductive fact := FDo (a : tact2) | FStore (a : tact2) | FLock (a : tact2).
(** An event of TssModel.v; the event of a call whose context, number [o], was not stored (X:92, W:127). *)
Inductive fev := FE (e : tev) | FNoStore (o : nat) (e : tev).
(** The state of TssModel.v; the contexts that could not be stored (X:92, W:127); how many objects of class thread_context exist, i.e. were allocated (M:142) and not deleted (M:193);
    how many of them were never put into m_thread_contexts because M:144 threw. *)
Record fstt := FT { fbase : tss_st; forph : list nat; fobjs : nat; fleak : nat }.

(** Is the context pointer kept by the operating system (X:41 X:86-93, W:47 W:121-128) and not in a variable of the compiler (X:39 X:75-82, W:45 W:110-117)? [os] is the choice made by config.hpp:50-65 on Windows. *)
Definition kept (pl : plat) (os : bool) : bool := match pl with Posix _ => true | PosixTls => false | Win => os end.

(** The call runs create_thread_context: X:104-108 X:118-122 X:157-161, W:174-178 W:188-192 W:227-231, and reset() gets that far only for another value than the one it reads (P:96-99), release() never does (P:88-90). *)
Definition creates (s : tsh) (a : tact2) : bool :=
  match a with
  | AReset t p v _ => match slot s t, nth_error (tptrs s) p with None, Some q => palive q && negb (v =? 0) | _, _ => false end
  | AAtExit t _ | ANotExit t _ _ => match slot s t with None => true | Some _ => false end
  | _ => false
  end.
(** Which of its operations fails otherwise: M:142, or the vector operation M:85 M:94 M:102. *)
Definition fail_of (a : tact2) : failure := match a with AReset _ _ _ f | AAtExit _ f | ANotExit _ _ f => f | _ => FNone end.

(** What the call puts into its new context: M:82-87, M:89-95, M:97-103.  [o] stands for an owner nobody is ([xown] is used in proofs only). *)
Definition filled (s : tsh) (o : nat) (a : tact2) : ctx :=
  match a with
  | AReset _ p v FNone => match nth_error (tptrs s) p with Some q => X o (setv [] (pkey q) v) [] [] | None => X o [] [] [] end
  | AAtExit _ FNone => X o [] [nreg s] []
  | ANotExit _ m FNone => X o [] [] [m]
  | _ => X o [] [] []
  end.
(** What the call is seen to do: P:99-103, A:48-61, N:53-58. *)
Definition done_ev (s : tsh) (a : tact2) : list tev :=
  match a with
  | AReset t p v FNone => match nth_error (tptrs s) p with Some q => [ESet t p (pcb q) v] | None => [] end
  | AAtExit t FNone => [EReg t (nreg s)]
  | ANotExit t m FNone => [ENot t m]
  | ANotExit t m _ => [EUnlk t m]
  | _ => []
  end.
(** Registrations are numbered (A:48-61). *)
Definition next_reg (s : tsh) (a : tact2) : nat := match a with AAtExit _ FNone => S (nreg s) | _ => nreg s end.

(** Contexts allocated (M:142) and deleted (M:193) by a step of TssModel.v. *)
Definition made (s : tsh) (a : tact2) : nat := if creates s a then match fail_of a with FCtx => 0 | _ => 1 end else 0.
(** M:189-193: the last step of destroy_thread_context. *)
Definition deleted (ths : list thr) (a : tact2) : nat :=
  match a with AStep t => match nth_error ths t with Some (Th [] (ExNot _ _ [])) => 1 | _ => 0 end | _ => 0 end.
(** The unique_lock unlocks the mutex when the registration throws, N:53-58. *)
Definition unwound (a : tact2) : list tev := match a with ANotExit t m _ => [EUnlk t m] | _ => [] end.

(** One call, or one step, of one thread.  P:43-103, A:48-61, N:53-58, M:134-255, X:46-164, W:156-234. *)
Definition f_step (pl : plat) (os : bool) (c : fstt) (a : fact) : option (fstt * list fev) :=
  let (s, ths) := fbase c in
  match a with
  | FDo b => match tss_step pl (s, ths) b with
             | Some (c', e) => Some (FT c' (forph c) (fobjs c + made s b - deleted ths b) (fleak c), map FE e)
             | None => None
             end
  | FStore b =>
      match nth_error ths (thread_of b) with
      | Some th =>
          if kept pl os && user th && creates s b && match fail_of b with FCtx => false | _ => true end then
            let o := length (slots s) + length (forph c) in
            Some (FT (TS (keys s) (freed s) (ctxs s ++ [Some (filled s o b)]) (tptrs s) (slots s) (next_reg s b), ths) (forph c ++ [length (ctxs s)]) (S (fobjs c)) (fleak c),
                  map (FNoStore o) (done_ev s b))
          else None
      | None => None
      end
  | FLock b =>
      match nth_error ths (thread_of b) with
      | Some th => if user th && creates s b then Some (FT (fbase c) (forph c) (S (fobjs c)) (S (fleak c)), map FE (unwound b)) else None
      | None => None
      end
  end.

(** M:121-129; no thread has a context. *)
Definition f_init (n : nat) : fstt := FT (tss_init n) [] 0 0.

(** ** The same calls in TssModel.v, the calls of [FStore] being made by threads of their own *)
(** Proof or specification device; no counterpart in /repo. *)
Definition made_by (u : nat) (a : tact2) : tact2 :=
  match a with
  | ANew _ cb fl => ANew u cb fl | ADel _ p => ADel u p | AGet _ p => AGet u p | ARelease _ p => ARelease u p | AReset _ p v f => AReset u p v f
  | AAtExit _ f => AAtExit u f | ANotExit _ m f => ANotExit u m f | ARet _ => ARet u | AExit _ => AExit u | AStep _ => AStep u
  end.
(** Proof or specification device; no counterpart in /repo. *)
Definition throwing (a : tact2) : tact2 :=
  match a with AReset t p v _ => AReset t p v FCtx | AAtExit t _ => AAtExit t FCtx | ANotExit t m _ => ANotExit t m FCtx | a => a end.
(** Proof or specification device; no counterpart in /repo. *)
Fixpoint others (u : nat) (sched : list fact) : list tact2 :=
  match sched with
  | [] => []
  | FDo a :: r => a :: others u r
  | FStore a :: r => made_by u a :: others (S u) r
  | FLock a :: r => throwing a :: others u r
  end.
(** Proof or specification device; no counterpart in /repo. *)
Definition ev_by (o : nat) (e : tev) : tev :=
  match e with
  | ENew _ p cb => ENew o p cb | EDel _ p => EDel o p | EGet _ p v => EGet o p v | ESet _ p cb v => ESet o p cb v | ERel _ p cb v => ERel o p cb v | ECall _ cb v => ECall o cb v
  | EReg _ f => EReg o f | ERun _ f => ERun o f | ENot _ m => ENot o m | ENotified _ m => ENotified o m | EUnlk _ m => EUnlk o m | EExit _ => EExit o | ETls _ => ETls o | EDet _ => EDet o
  end.
(** Proof or specification device; no counterpart in /repo. *)
Definition as_if (tr : list fev) : list tev := map (fun e => match e with FE e => e | FNoStore o e => ev_by o e end) tr.
(** Proof or specification device; no counterpart in /repo. *)
Fixpoint nstores (sched : list fact) : nat := match sched with [] => 0 | FStore _ :: r => S (nstores r) | _ :: r => nstores r end.
(** Proof or specification device; no counterpart in /repo. *)
Fixpoint nlocks (sched : list fact) : nat := match sched with [] => 0 | FLock _ :: r => S (nlocks r) | _ :: r => nlocks r end.

(** The state with further threads. Proof or specification device; no counterpart in /repo. *)
Definition grow (r : list (option nat)) (s : tsh) : tsh := TS (keys s) (freed s) (ctxs s) (tptrs s) (slots s ++ r) (nreg s).

Section Grow.
  Variable r : list (option nat).

  Lemma slot_grow s t : t < length (slots s) -> slot (grow r s) t = slot s t.
  Proof. intros H. unfold slot, grow. cbn [slots]. rewrite nth_error_app1 by exact H. reflexivity. Qed.
  Lemma ctx_grow s x : ctx_of (grow r s) x = ctx_of s x. Proof. reflexivity. Qed.
  Lemma upd_grow {A} (l w : list A) t o : t < length l -> upd (l ++ w) t o = upd l t o ++ w.
  Proof. revert t. induction l as [|x l IH]; intros [|t] H; cbn in *; try lia; try reflexivity. rewrite IH by lia. reflexivity. Qed.
  Lemma set_slot_grow s t o : t < length (slots s) -> set_slot (grow r s) t o = grow r (set_slot s t o).
  Proof. intros H. unfold set_slot, grow. cbn. rewrite upd_grow by exact H. reflexivity. Qed.
  Lemma set_ctx_grow s x c : set_ctx (grow r s) x c = grow r (set_ctx s x c). Proof. reflexivity. Qed.
  Lemma ensure_grow s t : t < length (slots s) -> ensure (grow r s) t = (grow r (fst (ensure s t)), snd (ensure s t)).
  Proof. intros H. unfold ensure. rewrite slot_grow by exact H. destruct (slot s t); [reflexivity|]. unfold grow. cbn. rewrite upd_grow by exact H. reflexivity. Qed.
  Lemma get_grow s t k : t < length (slots s) -> get (grow r s) t k = get s t k.
  Proof. intros H. unfold get. rewrite slot_grow by exact H. reflexivity. Qed.
  Lemma set_value_grow s t k v : t < length (slots s) -> set_value (grow r s) t k v = grow r (set_value s t k v).
  Proof. intros H. unfold set_value. rewrite ensure_grow by exact H. destruct (ensure s t) as [s1 x]. cbn [fst snd]. rewrite ctx_grow. destruct (ctx_of s1 x); reflexivity. Qed.
  Lemma can_fail_grow s t f : t < length (slots s) -> can_fail (grow r s) t f = can_fail s t f.
  Proof. intros H. unfold can_fail. rewrite slot_grow by exact H. reflexivity. Qed.
  Lemma failed_grow s t f : t < length (slots s) -> failed (grow r s) t f = grow r (failed s t f).
  Proof. intros H. unfold failed. destruct f; try reflexivity. rewrite ensure_grow by exact H. reflexivity. Qed.
  Lemma new_key_grow s cb fl : new_key (grow r s) cb fl = grow r (new_key s cb fl).
  Proof. unfold new_key, grow. cbn [freed keys]. destruct (freed s); reflexivity. Qed.
  Lemma delete_grow s p q : delete_key (grow r s) p q = (grow r (fst (delete_key s p q)), snd (delete_key s p q)).
  Proof. unfold delete_key. cbn [grow keys tptrs]. destruct (nth_error (keys s) (pkey q)) as [[cb [|]]|]; reflexivity. Qed.
  Lemma tptrs_grow s : tptrs (grow r s) = tptrs s. Proof. reflexivity. Qed.
  Lemma keys_grow s : keys (grow r s) = keys s. Proof. reflexivity. Qed.

  Lemma slots_ensure s t : length (slots (fst (ensure s t))) = length (slots s).
  Proof. unfold ensure. destruct (slot s t); cbn; rewrite ?upd_length; reflexivity. Qed.
  Lemma slots_value s t k v : length (slots (set_value s t k v)) = length (slots s).
  Proof. unfold set_value. pose proof (slots_ensure s t) as E. destruct (ensure s t) as [s1 x]. cbn [fst] in E. destruct (ctx_of s1 x); exact E. Qed.

  Lemma run_grow pl s t th s' th' e : t < length (slots s) -> tss_run pl s t th = Some (s', th', e) ->
    tss_run pl (grow r s) t th = Some (grow r s', th', e) /\ length (slots s') = length (slots s).
  Proof.
    intros Hl H. unfold tss_run in *. destruct (stk th) as [|[|cb [|v vs]] rr]; try discriminate; try (inversion H; subst; split; reflexivity).
    destruct (est th) as [|[|n]|x n [|f fs]|x n k st|x n [|m ms]|]; try discriminate; try (inversion H; subst; split; reflexivity).
    - rewrite slot_grow by exact Hl. destruct (slot s t); inversion H; subst; rewrite ?set_slot_grow by exact Hl; split; try reflexivity. cbn. apply upd_length.
    - rewrite ctx_grow. destruct (ctx_of s x) as [c|]; [|discriminate]. destruct (atexit c); inversion H; subst; split; reflexivity.
    - destruct (nth_error st k) as [[|v]|].
      + inversion H; subst; split; reflexivity.
      + rewrite keys_grow. destruct (nth_error (keys s) k) as [[[cb|] fl]|]; inversion H; subst; split; reflexivity.
      + rewrite ctx_grow. destruct (ctx_of s x) as [c|]; [|discriminate]. destruct (storage c); inversion H; subst; split; reflexivity.
    - destruct pl; inversion H; subst; try (split; reflexivity). rewrite set_ctx_grow, set_slot_grow by exact Hl. split; [reflexivity|]. cbn. apply upd_length.
  Qed.

  Lemma user_grow pl s th a s' th' e : thread_of a < length (slots s) -> tss_user pl s th a = Some (s', th', e) ->
    tss_user pl (grow r s) th a = Some (grow r s', th', e) /\ length (slots s') = length (slots s).
  Proof.
    intros Hl H. destruct a; cbn [thread_of] in Hl; cbn [tss_user] in *; rewrite ?tptrs_grow.
    - inversion H; subst. rewrite new_key_grow. split; [reflexivity|]. unfold new_key. destruct (freed s); reflexivity.
    - destruct (nth_error (tptrs s) p) as [q|]; [|discriminate]. destruct (palive q); [|discriminate]. rewrite delete_grow.
      destruct (delete_key s p q) as [s1 fr] eqn:E. inversion H; subst. split; [reflexivity|]. change s' with (fst (s', fr)). rewrite <- E. unfold delete_key. destruct (nth_error (keys s) (pkey q)) as [[cb [|]]|]; reflexivity.
    - destruct (nth_error (tptrs s) p) as [q|]; [|discriminate]. destruct (palive q); [|discriminate]. rewrite get_grow by exact Hl. inversion H; subst. split; reflexivity.
    - destruct (nth_error (tptrs s) p) as [q|]; [|discriminate]. destruct (palive q); [|discriminate]. rewrite get_grow, set_value_grow by exact Hl.
      destruct (get s t (pkey q) =? 0); inversion H; subst; split; try reflexivity. apply slots_value.
    - destruct (nth_error (tptrs s) p) as [q|]; [|discriminate]. destruct (palive q); [|discriminate]. rewrite get_grow by exact Hl.
      destruct (get s t (pkey q) =? v); [inversion H; subst; split; reflexivity|].
      destruct f; rewrite ?can_fail_grow, ?failed_grow, ?set_value_grow by exact Hl.
      + inversion H; subst. split; [reflexivity|apply slots_value].
      + destruct (can_fail s t FCtx); inversion H; subst; split; reflexivity.
      + destruct (can_fail s t FPush); inversion H; subst; split; [reflexivity|apply slots_ensure].
    - destruct f; rewrite ?can_fail_grow, ?failed_grow, ?ensure_grow by exact Hl.
      + pose proof (slots_ensure s t) as E. destruct (ensure s t) as [s1 x]. cbn [fst snd] in *. rewrite ctx_grow. destruct (ctx_of s1 x) as [c|]; inversion H; subst; split; [reflexivity|exact E].
      + destruct (can_fail s t FCtx); inversion H; subst; split; reflexivity.
      + destruct (can_fail s t FPush); inversion H; subst; split; [reflexivity|apply slots_ensure].
    - destruct f; rewrite ?can_fail_grow, ?failed_grow, ?ensure_grow by exact Hl.
      + pose proof (slots_ensure s t) as E. destruct (ensure s t) as [s1 x]. cbn [fst snd] in *. rewrite ctx_grow. destruct (ctx_of s1 x) as [c|]; inversion H; subst; split; [reflexivity|exact E].
      + destruct (can_fail s t FCtx); inversion H; subst; split; reflexivity.
      + destruct (can_fail s t FPush); inversion H; subst; split; [reflexivity|apply slots_ensure].
    - destruct (stk th) as [|[|] rr]; inversion H; subst; split; reflexivity.
    - destruct (stk th) as [|f rr]; [|discriminate]. rewrite slot_grow by exact Hl. inversion H; subst. split; reflexivity.
    - discriminate.
  Qed.

  Lemma step_grow pl s ths w a s' ths' e : length (slots s) = length ths -> tss_step pl (s, ths) a = Some ((s', ths'), e) ->
    tss_step pl (grow r s, ths ++ w) a = Some ((grow r s', ths' ++ w), e) /\ length (slots s') = length ths' /\ length ths' = length ths.
  Proof.
    intros Hl H. cbn [tss_step] in *. destruct (nth_error ths (thread_of a)) as [th|] eqn:Ht; [|discriminate].
    assert (Hlt : thread_of a < length ths) by (apply nth_error_Some; congruence). rewrite nth_error_app1, Ht by exact Hlt.
    assert (G : forall s1 th1 e1, (match a with AStep _ => tss_run pl s (thread_of a) th | _ => if user th then tss_user pl s th a else None end) = Some (s1, th1, e1) ->
      (match a with AStep _ => tss_run pl (grow r s) (thread_of a) th | _ => if user th then tss_user pl (grow r s) th a else None end) = Some (grow r s1, th1, e1) /\ length (slots s1) = length (slots s)).
    { intros s1 th1 e1 H1. destruct a; try (destruct (user th); [|discriminate]; apply user_grow; [cbn in *; lia|exact H1]). apply run_grow; [cbn in *; lia|exact H1]. }
    destruct (match a with AStep _ => tss_run pl s (thread_of a) th | _ => if user th then tss_user pl s th a else None end) as [[[s1 th1] e1]|]; [|discriminate].
    destruct (G _ _ _ eq_refl) as (G1 & G2). rewrite G1. inversion H; subst. rewrite upd_grow by exact Hlt. rewrite upd_length. split; [reflexivity|]. split; [lia|reflexivity].
  Qed.
End Grow.

(** The state of TssModel.v in which the calls of [FStore] were made by threads of their own, [k] of which have not made theirs yet. Proof or specification device; no counterpart in /repo. *)
Definition ext (k : nat) (c : fstt) : tss_st :=
  (grow (map Some (forph c) ++ repeat None k) (fst (fbase c)), snd (fbase c) ++ repeat (Th [] Running) (length (forph c) + k)).

Lemma map_ev_FE e : as_if (map FE e) = e.
Proof. unfold as_if. rewrite map_map. apply map_id. Qed.
Lemma as_if_app a b : as_if (a ++ b) = as_if a ++ as_if b. Proof. apply map_app. Qed.

Lemma nth_mid {A} (a : list A) x b : nth_error (a ++ x :: b) (length a) = Some x.
Proof. induction a; [reflexivity|]. assumption. Qed.
Lemma upd_mid {A} (a : list A) x b y : upd (a ++ x :: b) (length a) y = a ++ y :: b.
Proof. induction a as [|z a IH]; [reflexivity|]. cbn. rewrite IH. reflexivity. Qed.

Lemma creates_slot s b : creates s b = true -> slot s (thread_of b) = None.
Proof.
  destruct b; try discriminate; cbn.
  - destruct (slot s t); [discriminate|reflexivity].
  - destruct (slot s t); [discriminate|reflexivity].
  - destruct (slot s t); [discriminate|reflexivity].
Qed.

Lemma get_none s t k : slot s t = None -> get s t k = 0.
Proof. intros E. unfold get. rewrite E. reflexivity. Qed.

Lemma store_other pl s ths orph k b th : length (slots s) = length ths -> nth_error ths (thread_of b) = Some th -> creates s b = true -> fail_of b <> FCtx ->
  let u := length (slots s) + length orph in
  tss_step pl (grow (map Some orph ++ repeat None (S k)) s, ths ++ repeat (Th [] Running) (length orph + S k)) (made_by u b) =
  Some ((grow (map Some (orph ++ [length (ctxs s)]) ++ repeat None k) (TS (keys s) (freed s) (ctxs s ++ [Some (filled s u b)]) (tptrs s) (slots s) (next_reg s b)),
         ths ++ repeat (Th [] Running) (S (length orph) + k)), map (ev_by u) (done_ev s b)).
Proof.
  intros Hl Ht Hc Hf u.
  assert (Hth : nth_error (ths ++ repeat (Th [] Running) (length orph + S k)) u = Some (Th [] Running)).
  { rewrite nth_error_app2 by (unfold u; lia). apply nth_error_repeat. unfold u. lia. }
  assert (Hup : forall P : list thr, P = ths ++ repeat (Th [] Running) (length orph + S k) -> upd P u (Th [] Running) = ths ++ repeat (Th [] Running) (S (length orph) + k)).
  { intros P ->. rewrite (upd_same _ _ _ Hth). f_equal. f_equal. lia. }
  set (g := grow (map Some orph ++ repeat None (S k)) s).
  assert (Es : slots g = (slots s ++ map Some orph) ++ None :: repeat None k) by (unfold g, grow; cbn; rewrite <- app_assoc; reflexivity).
  assert (Lu : u = length (slots s ++ map Some orph)) by (unfold u; rewrite app_length, map_length; reflexivity).
  assert (Hs : slot g u = None) by (unfold slot; rewrite Es, Lu, nth_mid; reflexivity).
  assert (Hus : upd (slots g) u (Some (length (ctxs s))) = slots s ++ map Some (orph ++ [length (ctxs s)]) ++ repeat None k) by (rewrite Es, Lu, upd_mid, map_app, <- !app_assoc; reflexivity).
  assert (He : ensure g u = (TS (keys s) (freed s) (ctxs s ++ [Some (X u [] [] [])]) (tptrs s) (slots s ++ map Some (orph ++ [length (ctxs s)]) ++ repeat None k) (nreg s), length (ctxs s))).
  { unfold ensure. rewrite Hs. rewrite <- Hus. reflexivity. }
  assert (Hcx : forall ks fr tp sl nr, ctx_of (TS ks fr (ctxs s ++ [Some (X u [] [] [])]) tp sl nr) (length (ctxs s)) = Some (X u [] [] [])) by (intros; unfold ctx_of; cbn [ctxs]; rewrite nth_mid; reflexivity).
  assert (Hue : forall y : option ctx, upd (ctxs s ++ [Some (X u [] [] [])]) (length (ctxs s)) y = ctxs s ++ [y]) by (intros; apply upd_mid).
  assert (Hcf : forall f, f <> FCtx -> can_fail g u f = true) by (intros f0 Hf0; unfold can_fail; destruct f0; try reflexivity; contradiction).
  destruct b; try discriminate; cbn [creates made_by tss_step thread_of fail_of filled done_ev next_reg] in *; fold g; rewrite Hth; cbn [user stk est tss_user].
  - destruct (slot s t) eqn:Est; [discriminate|]. change (tptrs g) with (tptrs s). destruct (nth_error (tptrs s) p) as [q|] eqn:Eq; [|discriminate]. apply andb_true_iff in Hc. destruct Hc as (Hpa & Hv).
    rewrite Hpa, get_none by exact Hs. apply negb_true_iff in Hv. rewrite Nat.eqb_sym in Hv. rewrite Hv.
    destruct f; [| contradiction |].
    + unfold set_value. rewrite He. rewrite Hcx. unfold set_ctx. cbn [keys freed ctxs tptrs slots nreg xown storage atexit notif]. rewrite Hue. cbn [map ev_by].
      assert (Hpu : push (Th [] Running) (match pcb q with Some cb => if 0 =? 0 then [] else [FRun cb [0]] | None => [] end) = Th [] Running) by (destruct (pcb q); reflexivity). rewrite Hpu, (Hup _ eq_refl). reflexivity.
    + rewrite Hcf by discriminate. unfold failed. rewrite He. cbn [fst map]. rewrite (Hup _ eq_refl). reflexivity.
  - destruct f; [| contradiction |].
    + rewrite He, Hcx. cbn [keys freed ctxs tptrs slots nreg xown storage atexit notif app]. rewrite Hue, (Hup _ eq_refl). reflexivity.
    + rewrite Hcf by discriminate. unfold failed. rewrite He. cbn [fst map]. rewrite (Hup _ eq_refl). reflexivity.
  - destruct f; [| contradiction |].
    + rewrite He, Hcx. unfold set_ctx. cbn [keys freed ctxs tptrs slots nreg xown storage atexit notif app]. rewrite Hue, (Hup _ eq_refl). reflexivity.
    + rewrite Hcf by discriminate. unfold failed. rewrite He. cbn [fst map ev_by]. rewrite (Hup _ eq_refl). reflexivity.
Qed.

Lemma lock_throws pl s ths b th : nth_error ths (thread_of b) = Some th -> user th = true -> creates s b = true -> tss_step pl (s, ths) (throwing b) = Some ((s, ths), unwound b).
Proof.
  intros Ht Hu Hc. pose proof (creates_slot _ _ Hc) as Hs. assert (Hcf : forall t, slot s t = None -> can_fail s t FCtx = true) by (intros t0 E; unfold can_fail; rewrite E; reflexivity).
  destruct b; try discriminate; cbn [throwing tss_step thread_of unwound creates] in *; rewrite Ht, Hu; cbn [tss_user].
  - rewrite Hs in Hc. destruct (nth_error (tptrs s) p) as [q|]; [|discriminate]. apply andb_true_iff in Hc. destruct Hc as (Hpa & Hv). rewrite Hpa, get_none by exact Hs. apply negb_true_iff in Hv. rewrite Nat.eqb_sym in Hv.
    rewrite Hv, Hcf by exact Hs. rewrite (upd_same _ _ _ Ht). reflexivity.
  - rewrite Hcf by exact Hs. rewrite (upd_same _ _ _ Ht). reflexivity.
  - rewrite Hcf by exact Hs. rewrite (upd_same _ _ _ Ht). reflexivity.
Qed.

(** ** Simulation: a call whose context was not stored is a call of a thread that does nothing else. *)
Lemma f_sim pl os : forall sched c c' tr, length (slots (fst (fbase c))) = length (snd (fbase c)) -> exec (f_step pl os) c sched = Some (c', tr) ->
  length (slots (fst (fbase c'))) = length (snd (fbase c')) /\ length (snd (fbase c')) = length (snd (fbase c)) /\ length (forph c') = length (forph c) + nstores sched /\ fleak c' = fleak c + nlocks sched /\
  exec (tss_step pl) (ext (nstores sched) c) (others (length (slots (fst (fbase c))) + length (forph c)) sched) = Some (ext 0 c', as_if tr).
Proof.
  induction sched as [|a sched IH]; intros c c' tr Hl H; cbn [exec] in H.
  - inversion H; subst. cbn [nstores nlocks others exec]. repeat split; try lia; auto.
  - destruct (f_step pl os c a) as [[c1 e1]|] eqn:E1; [|discriminate]. destruct (exec (f_step pl os) c1 sched) as [[c2 e2]|] eqn:E2; [|discriminate]. inversion H; subst c2 tr. clear H.
    destruct c as [[s ths] orph ob lk]. cbn [fbase forph fleak fst snd] in *. unfold f_step in E1. cbn [fbase forph fobjs fleak] in E1. destruct a as [b|b|b].
    + destruct (tss_step pl (s, ths) b) as [[[s1 ths1] e]|] eqn:Eb; [|discriminate]. inversion E1; subst c1 e1. clear E1. cbn [nstores nlocks others exec].
      destruct (step_grow (map Some orph ++ repeat None (nstores sched)) _ _ _ (repeat (Th [] Running) (length orph + nstores sched)) _ _ _ _ Hl Eb) as (G1 & G2 & G3).
      destruct (fun Y => IH _ _ _ Y E2) as (I1 & I2 & I3 & I4 & I5); [exact G2|]. cbn [fbase forph fleak fst snd] in *. split; [exact I1|]. split; [lia|]. split; [exact I3|]. split; [exact I4|].
      unfold ext in *. cbn [fbase forph fst snd] in *. rewrite G1. replace (length (slots s)) with (length (slots s1)) by lia. rewrite I5. rewrite as_if_app, map_ev_FE. reflexivity.
    + destruct (nth_error ths (thread_of b)) as [th|] eqn:Et; [|discriminate]. destruct (kept pl os && user th && creates s b && _) eqn:Ec; [|discriminate]. inversion E1; subst c1 e1. clear E1. cbn [nstores nlocks others exec].
      apply andb_true_iff in Ec. destruct Ec as (Ec & Ef). apply andb_true_iff in Ec. destruct Ec as (Ec & Ecr).
      assert (Hf : fail_of b <> FCtx) by (intros E; rewrite E in Ef; discriminate).
      pose proof (store_other pl s ths orph (nstores sched) b th Hl Et Ecr Hf) as G. cbn zeta in G.
      destruct (fun Y => IH _ _ _ Y E2) as (I1 & I2 & I3 & I4 & I5); [exact Hl|]. cbn [fbase forph fleak fst snd] in *. rewrite app_length in I3, I5. cbn [length slots] in I3, I5.
      split; [exact I1|]. split; [lia|]. split; [lia|]. split; [exact I4|]. unfold ext in *. cbn [fbase forph fst snd] in *. rewrite G. rewrite app_length in I5. cbn [length] in I5.
      replace (length orph + 1) with (S (length orph)) in I5 by lia. replace (length (slots s) + S (length orph)) with (S (length (slots s) + length orph)) in I5 by lia. rewrite I5.
      rewrite as_if_app. f_equal. f_equal. f_equal. unfold as_if. rewrite map_map. reflexivity.
    + destruct (nth_error ths (thread_of b)) as [th|] eqn:Et; [|discriminate]. destruct (user th && creates s b) eqn:Ec; [|discriminate]. inversion E1; subst c1 e1. clear E1. cbn [nstores nlocks others exec].
      apply andb_true_iff in Ec. destruct Ec as (Eu & Ecr). pose proof (lock_throws pl s ths b th Et Eu Ecr) as G.
      destruct (step_grow (map Some orph ++ repeat None (nstores sched)) _ _ _ (repeat (Th [] Running) (length orph + nstores sched)) _ _ _ _ Hl G) as (G1 & _ & _).
      destruct (fun Y => IH _ _ _ Y E2) as (I1 & I2 & I3 & I4 & I5); [exact Hl|]. cbn [fbase forph fleak fst snd] in *. split; [exact I1|]. split; [exact I2|]. split; [exact I3|]. split; [lia|].
      unfold ext in *. cbn [fbase forph fst snd] in *. rewrite G1. rewrite I5. rewrite as_if_app, map_ev_FE. reflexivity.
Qed.
