(** Weak memory: a thread may read old values.

    Every location has its messages (writes) in modification order.  [kn t] is what thread [t] knows: the messages it has read or written or that
    happen before its present point, and the pieces of work (tokens, standing for accesses to ordinary memory) that happen before it.
      - A load may return any message such that no later message of the location is known to the thread (coherence).
      - A store puts its message anywhere after all known messages of the location, but not between a read-modify-write and the message it read.
      - A read-modify-write reads a message as a load does and puts its own message directly after it.
      - [mrel] of a message is what a reader with acquire order learns: what the writer knew if the write was a release, what its last release fence
        covered otherwise; a read-modify-write also passes on the [mrel] of the message it read (release sequences as in C++20).
    This is the C++ memory model for relaxed, acquire and release operations and release fences in the variant where program order and reads-from are
    together acyclic (RC11; a load never depends on a write that depends on it).  Acquire fences and sequentially consistent operations do not occur in
    the modelled files.
    Support library; nothing here models code of /repo. *)
From Coq Require Import List Bool Arith ZArith Lia.
From Verif Require Import ListSum Exec Events Lin Hb.
Import ListNotations.
Local Open Scope nat_scope.

(** C++ language rule (memory model); no counterpart in /repo. *)
Record msg := Msg { mid : nat; mval : Z; mrel : list nat; mrmw : bool }.
(** C++ language rule (memory model); no counterpart in /repo. *)
Record wmem := WM { nid : nat; hist : nat -> list msg; wkn : nat -> list nat; wfen : nat -> list nat }.

(** C++ language rule (memory model); no counterpart in /repo. *)
Definition known (K : list nat) (m : msg) : bool := existsb (Nat.eqb (mid m)) K.
(** Message number [i] may be read by a thread that knows [K]. C++ language rule (memory model); no counterpart in /repo. *)
Definition readable (K : list nat) (h : list msg) (i : nat) : bool := negb (existsb (known K) (skipn (S i) h)).
(** A message may be put directly after message number [i]. C++ language rule (memory model); no counterpart in /repo. *)
Definition room (h : list msg) (i : nat) : bool := match nth_error h (S i) with Some m => negb (mrmw m) | None => true end.
(** C++ language rule (memory model); no counterpart in /repo. *)
Definition insert (h : list msg) (i : nat) (m : msg) : list msg := firstn (S i) h ++ m :: skipn (S i) h.

(** C++ language rule (memory model); no counterpart in /repo. *)
Definition wload (t l : nat) (acq : bool) (i : nat) (w : wmem) : option (Z * wmem) :=
  match nth_error (hist w l) i with
  | Some m => if readable (wkn w t) (hist w l) i
              then Some (mval m, WM (nid w) (hist w) (fset (wkn w) t ((if acq then mrel m else []) ++ mid m :: wkn w t)) (wfen w))
              else None
  | None => None
  end.
(** C++ language rule (memory model); no counterpart in /repo. *)
Definition wstore (t l : nat) (rel : bool) (v : Z) (i : nat) (w : wmem) : option wmem :=
  match nth_error (hist w l) i with
  | Some _ => if readable (wkn w t) (hist w l) i && room (hist w l) i
              then Some (WM (S (nid w)) (fset (hist w) l (insert (hist w l) i (Msg (nid w) v (if rel then wkn w t else wfen w t) false)))
                            (fset (wkn w) t (nid w :: wkn w t)) (wfen w))
              else None
  | None => None
  end.
(** C++ language rule (memory model); no counterpart in /repo. *)
Definition wrmw (t l : nat) (acq rel : bool) (f : Z -> Z) (i : nat) (w : wmem) : option (Z * wmem) :=
  match nth_error (hist w l) i with
  | Some m => if readable (wkn w t) (hist w l) i && room (hist w l) i
              then let k := (if acq then mrel m else []) ++ mid m :: wkn w t in
                   Some (mval m, WM (S (nid w)) (fset (hist w) l (insert (hist w l) i (Msg (nid w) (f (mval m)) ((if rel then k else wfen w t) ++ mrel m) true)))
                                    (fset (wkn w) t (nid w :: k)) (wfen w))
              else None
  | None => None
  end.
(** compare_exchange: [Some (true, …)]: succeeded.  A compare-exchange that reads the expected value succeeds, except that a weak one may fail ([sp]). C++ language rule (memory model); no counterpart in /repo. *)
Definition wcas (t l : nat) (weak : bool) (acq rel facq : bool) (expected desired : Z) (sp : bool) (i : nat) (w : wmem) : option (bool * Z * wmem) :=
  match nth_error (hist w l) i with
  | Some m =>
      if (mval m =? expected)%Z && negb (weak && sp)
      then match wrmw t l acq rel (fun _ => desired) i w with Some (v, w') => Some (true, v, w') | None => None end
      else match wload t l facq i w with Some (v, w') => Some (false, v, w') | None => None end
  | None => None
  end.
(** atomic_thread_fence(memory_order_release). C++ language rule (memory model); no counterpart in /repo. *)
Definition wfence (t : nat) (w : wmem) : wmem := WM (nid w) (hist w) (wkn w) (fset (wfen w) t (wkn w t)).
(** Thread [t] does a piece of work, number [nid w]. C++ language rule (memory model); no counterpart in /repo. *)
Definition wwork (t : nat) (w : wmem) : wmem := WM (S (nid w)) (hist w) (fset (wkn w) t (nid w :: wkn w t)) (wfen w).
(** C++ language rule (memory model); no counterpart in /repo. *)
Definition wm0 (init : nat -> Z) : wmem := WM 1 (fun l => [Msg 0 (init l) [] false]) (fun _ => []) (fun _ => []).

(** Other atomic operations of the program that uses the object, on its own locations. C++ language rule (memory model); no counterpart in /repo. *)
Inductive cop := CLoad (acq : bool) | CStore (rel : bool) (v : Z) | CRmw (acq rel : bool) (v : Z) | CFence.
(** C++ language rule (memory model); no counterpart in /repo. *)
Definition wclient (t l : nat) (o : cop) (i : nat) (w : wmem) : option (Z * wmem) :=
  match o with
  | CLoad acq => wload t l acq i w
  | CStore rel v => match wstore t l rel v i w with Some w' => Some (v, w') | None => None end
  | CRmw acq rel v => wrmw t l acq rel (fun _ => v) i w
  | CFence => Some (0%Z, wfence t w)
  end.

(** * What the operations do to one location and to what threads know *)

(** C++ language rule (memory model); no counterpart in /repo. *)
Definition kmono (w w' : wmem) : Prop := forall u, incl (wkn w u) (wkn w' u).
Lemma kmono_refl w : kmono w w. Proof. intros u. apply incl_refl. Qed.
Lemma kmono_trans a b c : kmono a b -> kmono b c -> kmono a c. Proof. intros H1 H2 u. eapply incl_tran; eauto. Qed.

Lemma fset_incl (f : nat -> list nat) t K u : incl (f t) K -> incl (f u) (fset f t K u).
Proof. intros H. destruct (Nat.eq_dec t u) as [->|Hn]; [rewrite fset_eq; exact H|rewrite fset_neq by auto; apply incl_refl]. Qed.

(** A load reads message [m] at position [i]. *)
Lemma wload_inv t l acq i w v w' : wload t l acq i w = Some (v, w') ->
  exists m, nth_error (hist w l) i = Some m /\ readable (wkn w t) (hist w l) i = true /\ v = mval m /\
    hist w' = hist w /\ nid w' = nid w /\ wfen w' = wfen w /\ (forall u, u <> t -> wkn w' u = wkn w u) /\
    wkn w' t = (if acq then mrel m else []) ++ mid m :: wkn w t.
Proof.
  unfold wload. destruct (nth_error (hist w l) i) as [m|] eqn:E; [|discriminate]. destruct (readable _ _ _) eqn:R; [|discriminate].
  intros H. injection H as <- <-. exists m. cbn. repeat split; auto.
  - intros u Hu. apply fset_neq. auto.
  - apply fset_eq.
Qed.
Lemma wstore_inv t l rel v i w w' : wstore t l rel v i w = Some w' ->
  exists m, nth_error (hist w l) i = Some m /\ readable (wkn w t) (hist w l) i = true /\ room (hist w l) i = true /\
    hist w' l = insert (hist w l) i (Msg (nid w) v (if rel then wkn w t else wfen w t) false) /\ (forall k, k <> l -> hist w' k = hist w k) /\
    nid w' = S (nid w) /\ wfen w' = wfen w /\ (forall u, u <> t -> wkn w' u = wkn w u) /\ wkn w' t = nid w :: wkn w t.
Proof.
  unfold wstore. destruct (nth_error (hist w l) i) as [m|] eqn:E; [|discriminate]. destruct (readable _ _ _) eqn:R; [|discriminate]. destruct (room _ _) eqn:Rm; [|discriminate].
  intros H. injection H as <-. exists m. cbn. repeat split; auto.
  - apply fset_eq.
  - intros k Hk. apply fset_neq. auto.
  - intros u Hu. apply fset_neq. auto.
  - apply fset_eq.
Qed.
Lemma wrmw_inv t l acq rel f i w v w' : wrmw t l acq rel f i w = Some (v, w') ->
  exists m, nth_error (hist w l) i = Some m /\ readable (wkn w t) (hist w l) i = true /\ room (hist w l) i = true /\ v = mval m /\
    let k := (if acq then mrel m else []) ++ mid m :: wkn w t in
    hist w' l = insert (hist w l) i (Msg (nid w) (f (mval m)) ((if rel then k else wfen w t) ++ mrel m) true) /\ (forall k, k <> l -> hist w' k = hist w k) /\
    nid w' = S (nid w) /\ wfen w' = wfen w /\ (forall u, u <> t -> wkn w' u = wkn w u) /\ wkn w' t = nid w :: k.
Proof.
  unfold wrmw. destruct (nth_error (hist w l) i) as [m|] eqn:E; [|discriminate]. destruct (readable _ _ _) eqn:R; [|discriminate]. destruct (room _ _) eqn:Rm; [|discriminate].
  intros H. injection H as <- <-. exists m. cbn. repeat split; auto.
  - apply fset_eq.
  - intros k Hk. apply fset_neq. auto.
  - intros u Hu. apply fset_neq. auto.
  - apply fset_eq.
Qed.
Lemma wcas_inv t l weak acq rel facq e d sp i w b v w' : wcas t l weak acq rel facq e d sp i w = Some (b, v, w') ->
  (b = true /\ v = e /\ wrmw t l acq rel (fun _ => d) i w = Some (v, w')) \/
  (b = false /\ (v <> e \/ weak = true) /\ wload t l facq i w = Some (v, w')).
Proof.
  unfold wcas. destruct (nth_error (hist w l) i) as [m|] eqn:E; [|discriminate]. destruct ((mval m =? e)%Z && negb (weak && sp)) eqn:G.
  - destruct (wrmw _ _ _ _ _ _ _) as [[v1 w1]|] eqn:H; [|discriminate]. intros F. injection F as <- <- <-. left.
    pose proof (wrmw_inv _ _ _ _ _ _ _ _ _ H) as (m1 & E1 & _ & _ & -> & _). rewrite E in E1. injection E1 as <-.
    apply andb_prop in G. destruct G as (G & _). apply Z.eqb_eq in G. auto.
  - destruct (wload _ _ _ _ _) as [[v1 w1]|] eqn:H; [|discriminate]. intros F. injection F as <- <- <-. right. split; [reflexivity|]. split; [|reflexivity].
    pose proof (wload_inv _ _ _ _ _ _ _ H) as (m1 & E1 & _ & -> & _). rewrite E in E1. injection E1 as <-.
    apply andb_false_iff in G. destruct G as [G|G]; [left; apply Z.eqb_neq; exact G|]. right. destruct weak; [reflexivity|discriminate].
Qed.

Lemma wload_mono t l acq i w v w' : wload t l acq i w = Some (v, w') -> kmono w w'.
Proof.
  intros H u. destruct (wload_inv _ _ _ _ _ _ _ H) as (m & _ & _ & _ & _ & _ & _ & Hu & Ht).
  destruct (Nat.eq_dec u t) as [->|Hn]; [rewrite Ht; apply incl_appr, incl_tl, incl_refl|rewrite Hu by auto; apply incl_refl].
Qed.
Lemma wstore_mono t l rel v i w w' : wstore t l rel v i w = Some w' -> kmono w w'.
Proof.
  intros H u. destruct (wstore_inv _ _ _ _ _ _ _ H) as (m & _ & _ & _ & _ & _ & _ & _ & Hu & Ht).
  destruct (Nat.eq_dec u t) as [->|Hn]; [rewrite Ht; apply incl_tl, incl_refl|rewrite Hu by auto; apply incl_refl].
Qed.
Lemma wrmw_mono t l acq rel f i w v w' : wrmw t l acq rel f i w = Some (v, w') -> kmono w w'.
Proof.
  intros H u. destruct (wrmw_inv _ _ _ _ _ _ _ _ _ H) as (m & _ & _ & _ & _ & _ & _ & _ & _ & Hu & Ht).
  destruct (Nat.eq_dec u t) as [->|Hn]; [rewrite Ht; apply incl_tl, incl_appr, incl_tl, incl_refl|rewrite Hu by auto; apply incl_refl].
Qed.
Lemma wcas_mono t l weak acq rel facq e d sp i w b v w' : wcas t l weak acq rel facq e d sp i w = Some (b, v, w') -> kmono w w'.
Proof. intros H. destruct (wcas_inv _ _ _ _ _ _ _ _ _ _ _ _ _ _ H) as [(_ & _ & H1)|(_ & _ & H1)]; [eapply wrmw_mono; eauto|eapply wload_mono; eauto]. Qed.
Lemma wwork_mono t w : kmono w (wwork t w).
Proof. intros u. cbn. apply fset_incl, incl_tl, incl_refl. Qed.

(** The client's own operations leave the object's locations alone. *)
Lemma wclient_inv t l o i w v w' : wclient t l o i w = Some (v, w') ->
  kmono w w' /\ (forall k, k <> l -> hist w' k = hist w k) /\ nid w <= nid w' /\ (forall u, u <> t -> wkn w' u = wkn w u).
Proof.
  destruct o as [acq|rel v0|acq rel v0|]; cbn [wclient].
  - intros H. pose proof (wload_mono _ _ _ _ _ _ _ H). destruct (wload_inv _ _ _ _ _ _ _ H) as (m & _ & _ & _ & -> & -> & _ & Hu & _). auto.
  - destruct (wstore _ _ _ _ _ _) as [w1|] eqn:H; [|discriminate]. intros F. injection F as <- <-. pose proof (wstore_mono _ _ _ _ _ _ _ H).
    destruct (wstore_inv _ _ _ _ _ _ _ H) as (m & _ & _ & _ & _ & Hk & -> & _ & Hu & _). auto.
  - intros H. pose proof (wrmw_mono _ _ _ _ _ _ _ _ _ H). destruct (wrmw_inv _ _ _ _ _ _ _ _ _ H) as (m & _ & _ & _ & _ & _ & Hk & -> & _ & Hu & _). auto.
  - intros F. injection F as <- <-. split; [intros u; apply incl_refl|]. cbn. auto.
Qed.

(** * Positions *)

Lemma insert_split h i m x : nth_error h i = Some m -> exists h1 h2, h = h1 ++ m :: h2 /\ insert h i x = h1 ++ m :: x :: h2 /\ length h1 = i.
Proof.
  intros H. destruct (nth_error_split _ _ H) as (h1 & h2 & -> & Hl). exists h1, h2. split; [reflexivity|]. split; [|exact Hl].
  unfold insert. replace (S i) with (length (h1 ++ [m])) by (rewrite app_length; cbn; lia).
  change (h1 ++ m :: h2) with (h1 ++ [m] ++ h2). rewrite app_assoc, firstn_app, Nat.sub_diag, firstn_all, firstn_O, app_nil_r, skipn_app, Nat.sub_diag, skipn_all.
  cbn. rewrite <- app_assoc. reflexivity.
Qed.
Lemma nth_mid {A} (h1 : list A) m h2 : nth_error (h1 ++ m :: h2) (length h1) = Some m.
Proof. rewrite nth_error_app2, Nat.sub_diag by lia. reflexivity. Qed.
Lemma known_In K m : In (mid m) K -> known K m = true.
Proof. intros H. apply existsb_exists. exists (mid m). split; [exact H|apply Nat.eqb_refl]. Qed.

(** A thread that knows the message after [h1] reads or writes at or after it. *)
Lemma readable_after K h1 m h2 i : In (mid m) K -> readable K (h1 ++ m :: h2) i = true -> length h1 <= i.
Proof.
  intros Hk R. destruct (le_lt_dec (length h1) i) as [|Hlt]; [assumption|]. exfalso. unfold readable in R. apply negb_true_iff in R.
  assert (F : existsb (known K) (skipn (S i) (h1 ++ m :: h2)) = true); [|congruence].
  apply existsb_exists. exists m. split; [|apply known_In; exact Hk]. rewrite skipn_app. apply in_or_app. right.
  replace (S i - length h1) with 0 by lia. left. reflexivity.
Qed.
(** Behind a known message followed only by read-modify-writes, there is room only at the end. *)
Lemma room_end K h1 m h2 i : In (mid m) K -> Forall (fun x => mrmw x = true) h2 ->
  readable K (h1 ++ m :: h2) i = true -> room (h1 ++ m :: h2) i = true -> i < length (h1 ++ m :: h2) -> S i = length (h1 ++ m :: h2).
Proof.
  intros Hk Hr R Rm Hi. pose proof (readable_after _ _ _ _ _ Hk R) as Hle. rewrite app_length in *. cbn [length] in *.
  destruct (Nat.eq_dec (S i) (length h1 + S (length h2))) as [|Hn]; [assumption|]. exfalso.
  unfold room in Rm. rewrite nth_error_app2 in Rm by lia. replace (S i - length h1) with (S (i - length h1)) in Rm by lia. cbn [nth_error] in Rm.
  destruct (nth_error h2 (i - length h1)) as [x|] eqn:E.
  - apply nth_error_In in E. rewrite Forall_forall in Hr. rewrite (Hr _ E) in Rm. discriminate.
  - apply nth_error_None in E. lia.
Qed.
Lemma insert_end h i x : S i = length h -> insert h i x = h ++ [x].
Proof. intros H. unfold insert. rewrite H, firstn_all, skipn_all. reflexivity. Qed.

(** * Threads using the object *)
Section WStep.
  Context {P O R Ch : Type}.
  Variable call : P -> O -> option P.
  Variable ret : P -> option (O * R * P).
  Variable run : nat -> wmem -> list P -> P -> Ch -> option (wmem * list P).
  Variable objs : nat.      (* the object uses the locations below [objs] *)

  Inductive wact := WCall (t : nat) (o : O) | WRun (t : nat) (ch : Ch) | WWork (t : nat) | WClient (t l : nat) (o : cop) (i : nat).

  Definition wstep (c : wmem * list P) (a : wact) : option ((wmem * list P) * list (hev (event O R))) :=
    let (w, ths) := c in
    match a with
    | WCall t o => match nth_error ths t with
                   | Some p => match call p o with Some p' => Some ((w, upd ths t p'), [HEv (Call t o) (wkn w t)]) | None => None end
                   | None => None
                   end
    | WRun t ch => match nth_error ths t with
                   | Some p => match ret p with
                               | Some (o, r, p') => Some ((w, upd ths t p'), [HEv (Ret t o r) (wkn w t)])
                               | None => match run t w ths p ch with Some c' => Some (c', []) | None => None end
                               end
                   | None => None
                   end
    | WWork t => Some ((wwork t w, ths), [HWork t (nid w)])
    | WClient t l o i => if objs <=? l then match wclient t l o i w with Some (_, w') => Some ((w', ths), []) | None => None end else None
    end.

  Lemma wstep_cases w ths a c' e : wstep (w, ths) a = Some (c', e) ->
    (exists t o p p', a = WCall t o /\ nth_error ths t = Some p /\ call p o = Some p' /\ c' = (w, upd ths t p') /\ e = [HEv (Call t o) (wkn w t)])
    \/ (exists t ch p o r p', a = WRun t ch /\ nth_error ths t = Some p /\ ret p = Some (o, r, p') /\ c' = (w, upd ths t p') /\ e = [HEv (Ret t o r) (wkn w t)])
    \/ (exists t ch p, a = WRun t ch /\ nth_error ths t = Some p /\ ret p = None /\ run t w ths p ch = Some c' /\ e = [])
    \/ (exists t, a = WWork t /\ c' = (wwork t w, ths) /\ e = [HWork t (nid w)])
    \/ (exists t l o i v w', a = WClient t l o i /\ objs <= l /\ wclient t l o i w = Some (v, w') /\ c' = (w', ths) /\ e = []).
  Proof.
    destruct a as [t o|t ch|t|t l o i]; cbn [wstep].
    - destruct (nth_error ths t) as [p|] eqn:Et; [|discriminate]. destruct (call p o) as [p'|] eqn:Ec; [|discriminate]. intros H; inversion H; subst. left. eauto 10.
    - destruct (nth_error ths t) as [p|] eqn:Et; [|discriminate]. destruct (ret p) as [[[o r] p']|] eqn:Er.
      + intros H; inversion H; subst. right; left. exists t, ch, p, o, r, p'. auto.
      + destruct (run t w ths p ch) as [c1|] eqn:En; [|discriminate]. intros H; inversion H; subst. right; right; left. eauto 10.
    - intros H; inversion H; subst. right; right; right; left. eauto.
    - destruct (Nat.leb_spec objs l); [|discriminate]. destruct (wclient t l o i w) as [[v w']|] eqn:Ec; [|discriminate]. intros H1; inversion H1; subst. right; right; right; right. eauto 15.
  Qed.

  (** Program order: what a thread has done itself it knows from then on. *)
  Hypothesis run_mono : forall t w ths p ch w' ths', run t w ths p ch = Some (w', ths') -> kmono w w'.
  Lemma wstep_mono w ths a w' ths' e : wstep (w, ths) a = Some ((w', ths'), e) -> kmono w w'.
  Proof.
    intros H. apply wstep_cases in H.
    destruct H as [(t & o & p & p' & _ & _ & _ & E & _)|[(t & ch & p & o & r & p' & _ & _ & _ & E & _)|[(t & ch & p & _ & _ & _ & E & _)|[(t & _ & E & _)|(t & l & o & i & v & w1 & _ & _ & Hc & E & _)]]]].
    - injection E as -> ->. apply kmono_refl.
    - injection E as -> ->. apply kmono_refl.
    - eapply run_mono; eauto.
    - injection E as -> ->. apply wwork_mono.
    - injection E as -> ->. apply (wclient_inv _ _ _ _ _ _ _ Hc).
  Qed.

  Definition wown (c : wmem * list P) (tr : list (hev (event O R))) : Prop := forall t k, In (HWork t k) tr -> In k (wkn (fst c) t).
  Lemma wown_step c tr a c' e : wown c tr -> wstep c a = Some (c', e) -> wown c' (tr ++ e).
  Proof.
    destruct c as [w ths], c' as [w' ths']. intros Ho Hs t k Hin. cbn [fst] in *. apply in_app_or in Hin. destruct Hin as [Hin|Hin].
    - eapply wstep_mono; [exact Hs|]. apply (Ho _ _ Hin).
    - apply wstep_cases in Hs.
      destruct Hs as [(? & ? & ? & ? & _ & _ & _ & _ & ->)|[(? & ? & ? & ? & ? & ? & _ & _ & _ & _ & ->)|[(? & ? & ? & _ & _ & _ & _ & ->)|[(t1 & _ & E & ->)|(? & ? & ? & ? & ? & ? & _ & _ & _ & _ & ->)]]]];
        try (destruct Hin as [F|[]]; discriminate F); try destruct Hin.
      + injection E as -> ->. injection H as -> <-. cbn. rewrite fset_eq. left. reflexivity.
      + destruct H.
  Qed.
  Definition ev_of {A B} (e : event A B) : nat := match e with Call t _ => t | Ret t _ _ => t end.

  Lemma wown_ev c0 sched c tr e K k a b : exec wstep c0 sched = Some (c, tr) -> tr = a ++ HEv e K :: b ->
    In (HWork (ev_of e) k) a -> In k K.
  Proof.
    intros H E0.
    refine (exec_events wstep wown (fun a x => match x with HEv e K => forall k, In (HWork (ev_of e) k) a -> In k K | _ => True end) c0 _ wown_step _ sched c tr a (HEv e K) b H E0 k).
    - intros t2 k2 [].
    - intros [w1 ths1] t1 a1 [w2 ths2] es d x b1 Ho Hs He. destruct x as [|e1 K1]; [exact I|]. intros k1 Hin. apply wstep_cases in Hs.
      assert (Hone : forall y, es = [y] -> d = [] /\ y = HEv e1 K1).
      { intros y ->. destruct d as [|? [|]]; inversion He; auto. }
      destruct Hs as [(? & ? & ? & ? & _ & _ & _ & _ & E)|[(? & ? & ? & ? & ? & ? & _ & _ & _ & _ & E)|[(? & ? & ? & _ & _ & _ & _ & E)|[(t3 & _ & _ & E)|(? & ? & ? & ? & ? & ? & _ & _ & _ & _ & E)]]]].
      1-2: destruct (Hone _ E) as (-> & F); injection F as <- <-; rewrite app_nil_r in Hin; cbn in Hin; exact (Ho _ _ Hin).
      + rewrite E in He. destruct d; discriminate.
      + destruct (Hone _ E) as (_ & F). discriminate.
      + rewrite E in He. destruct d; discriminate.
  Qed.
End WStep.
