(** C88: a call of thread-specific storage or of the exit functions either has its effect or reports an error and has none, and nothing is lost, whatever the operating system refuses (TssFail.v).
    True of failing allocations.  False when the context pointer cannot be stored (X:92, W:127: the result is ignored) and when locking m_mutex throws in create_thread_context (M:142-144: the new context is lost). *)
From Coq Require Import List Bool Arith ZArith Lia.
From Verif Require Import ListSum Exec TssModel TssProof TssKeys TssOwn TssExit PropsTss ProcExit ProcExitProof TssFail.
Import ListNotations.

Lemma repeat_app_ {A} (x : A) a b : repeat x (a + b) = repeat x a ++ repeat x b.
Proof. induction a; [reflexivity|]. cbn. rewrite IHa. reflexivity. Qed.

Lemma sim_init pl os n sched c tr : exec (f_step pl os) (f_init n) sched = Some (c, tr) ->
  length (slots (fst (fbase c))) = n /\ length (snd (fbase c)) = n /\ length (forph c) = nstores sched /\ fleak c = nlocks sched /\
  exec (tss_step pl) (tss_init (n + nstores sched)) (others n sched) = Some (ext 0 c, as_if tr).
Proof.
  intros H. destruct (f_sim pl os sched (f_init n) c tr) as (A & B & C & D & E); [cbn; rewrite !repeat_length; reflexivity|exact H|].
  cbn [f_init fbase forph fleak tss_init fst snd slots length] in *. rewrite !repeat_length in *. repeat split; try lia.
  assert (G : ext (nstores sched) (f_init n) = tss_init (n + nstores sched)).
  { unfold ext, f_init, tss_init. cbn [fbase forph fst snd map app length]. unfold grow. cbn. rewrite !repeat_app_. reflexivity. }
  rewrite G in E. replace (n + 0) with n in E by lia. exact E.
Qed.

(** Every execution with failing stores and locks is an execution of TssModel.v with one further thread for every failed store: the call is as if that thread, which does nothing else and never exits, had made it.
    A call in which the lock throws is one in which the allocation fails.  So what C41 to C45 say of the other threads remains true. *)
Theorem C88_as_other_thread : forall pl os n sched c tr, exec (f_step pl os) (f_init n) sched = Some (c, tr) ->
  exec (tss_step pl) (tss_init (n + nstores sched)) (others n sched) = Some (ext 0 c, as_if tr).
Proof. intros pl os n sched c tr H. apply (sim_init _ _ _ _ _ _ H). Qed.
Print Assumptions C88_as_other_thread.

(** If every store succeeds, it is an execution of TssModel.v with the same threads. *)
Theorem C88_stores_succeed : forall pl os n sched c tr, exec (f_step pl os) (f_init n) sched = Some (c, tr) -> nstores sched = 0 ->
  exec (tss_step pl) (tss_init n) (others n sched) = Some (fbase c, as_if tr).
Proof.
  intros pl os n sched c tr H Hn. destruct (sim_init _ _ _ _ _ _ H) as (_ & _ & L & _ & G). rewrite Hn in *. replace (n + 0) with n in G by lia. rewrite G. f_equal. f_equal.
  unfold ext. destruct (forph c); [|discriminate]. cbn. unfold grow. cbn. destruct (fbase c) as [[k f x p sl r] ths]. cbn. rewrite !app_nil_r. reflexivity.
Qed.
Print Assumptions C88_stores_succeed.

(** With a variable of the compiler no store can fail. *)
Theorem C88_compiler_tls : forall pl os n sched c tr, exec (f_step pl os) (f_init n) sched = Some (c, tr) -> pl = PosixTls \/ (pl = Win /\ os = false) -> nstores sched = 0.
Proof.
  intros pl os n sched c tr H Hk0. assert (Hk : kept pl os = false) by (destruct Hk0 as [->|(-> & ->)]; reflexivity). revert H. generalize (f_init n) as c0. revert c tr. induction sched as [|a sched IH]; intros c tr c0 H; [reflexivity|]. cbn [exec] in H.
  destruct (f_step pl os c0 a) as [[c1 e1]|] eqn:E; [|discriminate]. destruct (exec (f_step pl os) c1 sched) as [[c2 e2]|] eqn:E2; [|discriminate]. specialize (IH _ _ _ E2).
  destruct a; cbn [nstores]; auto. exfalso. unfold f_step in E. destruct (fbase c0) as [s ths]. destruct (nth_error ths (thread_of a)); [|discriminate]. rewrite Hk in E. discriminate.
Qed.
Print Assumptions C88_compiler_tls.

(** ** Who appears in the events *)
Definition evs_ok (n : nat) (e : fev) : Prop :=
  match e with FE e => ev_thread e < n | FNoStore o e => n <= o /\ ev_thread e < n /\ match e with ESet _ _ _ _ | EReg _ _ | ENot _ _ | EUnlk _ _ => True | _ => False end end.
Lemma evs_ok_all pl os n sched c tr : exec (f_step pl os) (f_init n) sched = Some (c, tr) -> Forall (evs_ok n) tr.
Proof.
  intros H. assert (G : length (slots (fst (fbase c))) = length (snd (fbase c)) /\ length (snd (fbase c)) = n /\ Forall (evs_ok n) tr); [|apply G].
  revert H. apply (exec_inv (f_step pl os) (fun c tr => length (slots (fst (fbase c))) = length (snd (fbase c)) /\ length (snd (fbase c)) = n /\ Forall (evs_ok n) tr)).
  - cbn. rewrite !repeat_length. auto.
  - intros c0 tr0 a c1 e (Hl & Hn & Hf) Hs. destruct c0 as [[s ths] orph ob lk]. cbn [fbase fst snd] in *. unfold f_step in Hs. cbn [fbase forph fobjs fleak] in Hs. destruct a as [b|b|b].
    + destruct (tss_step pl (s, ths) b) as [[[s1 ths1] e1]|] eqn:E; [|discriminate]. inversion Hs; subst c1 e. clear Hs. cbn [fbase fst snd].
      destruct (step_grow [] _ _ _ [] _ _ _ _ Hl E) as (_ & G2 & G3). split; [exact G2|]. split; [lia|]. apply Forall_app. split; [exact Hf|].
      destruct (tss_effects _ _ _ _ _ _ E) as (th & th' & Ht & _ & He). apply ev_own in He. assert (thread_of b < n) by (rewrite <- Hn; apply nth_error_Some; congruence).
      rewrite Forall_forall in *. intros x Hx. apply in_map_iff in Hx. destruct Hx as (y & <- & Hy). cbn. rewrite (He y Hy). assumption.
    + destruct (nth_error ths (thread_of b)) as [th|] eqn:Et; [|discriminate]. destruct (kept pl os && user th && creates s b && _) eqn:Ec; [|discriminate]. inversion Hs; subst c1 e. clear Hs. cbn [fbase fst snd slots].
      split; [exact Hl|]. split; [exact Hn|]. apply Forall_app. split; [exact Hf|]. assert (Hlt : thread_of b < n) by (rewrite <- Hn; apply nth_error_Some; congruence).
      rewrite Forall_forall. intros x Hx. apply in_map_iff in Hx. destruct Hx as (y & <- & Hy). cbn. split; [lia|].
      destruct b; cbn in Hy, Hlt; try contradiction.
      * destruct f; try contradiction. destruct (nth_error (tptrs s) p); [|contradiction]. destruct Hy as [<-|[]]. cbn. auto.
      * destruct f; try contradiction. destruct Hy as [<-|[]]. cbn. auto.
      * destruct f; destruct Hy as [<-|[]]; cbn; auto.
    + destruct (nth_error ths (thread_of b)) as [th|] eqn:Et; [|discriminate]. destruct (user th && creates s b) eqn:Ec; [|discriminate]. inversion Hs; subst c1 e. clear Hs. cbn [fbase fst snd].
      split; [exact Hl|]. split; [exact Hn|]. apply Forall_app. split; [exact Hf|]. assert (Hlt : thread_of b < n) by (rewrite <- Hn; apply nth_error_Some; congruence).
      rewrite Forall_forall. intros x Hx. apply in_map_iff in Hx. destruct Hx as (y & <- & Hy). cbn. destruct b; cbn in Hy; try contradiction. destruct Hy as [<-|[]]. exact Hlt.
Qed.

(** The events of the calls whose context was stored, or that needed no new one. *)
Definition stored (tr : list fev) : list tev := flat_map (fun e => match e with FE e => [e] | FNoStore _ _ => [] end) tr.

(** ** What is lost *)
(** get() gives what the calls whose context was stored have installed: a value set by any other call is never seen. *)
Theorem C88_value_invisible : forall pl os n sched c tr a t p v b, exec (f_step pl os) (f_init n) sched = Some (c, tr) -> tr = a ++ FE (EGet t p v) :: b -> v = seen pl t p (stored a).
Proof.
  intros pl os n sched c tr a t p v b H E. pose proof (evs_ok_all _ _ _ _ _ _ H) as Hok. pose proof (C88_as_other_thread _ _ _ _ _ _ H) as G. rewrite E, as_if_app in G. cbn [as_if map] in G.
  rewrite (C41_exact _ _ _ _ _ _ _ _ _ _ G eq_refl). subst tr. apply Forall_app in Hok. destruct Hok as (Ha & Hb). inversion Hb as [|? ? Ht _]; subst. cbn in Ht. clear -Ha Ht.
  unfold seen. generalize 0 as w. induction Ha as [|e a He Ha IH]; intros w; [reflexivity|]. destruct e as [e|o e]; cbn [as_if map stored flat_map app fold_left]; [apply IH|]. rewrite IH. f_equal.
  destruct He as (Ho & _ & He). destruct e; try contradiction; cbn; try reflexivity. destruct (Nat.eqb_spec o t); [lia|reflexivity].
Qed.
Print Assumptions C88_value_invisible.

Lemma in_as_if_FE e tr : In (FE e) tr -> In e (as_if tr).
Proof. intros H. unfold as_if. apply in_map_iff. exists (FE e). auto. Qed.
Lemma in_as_if_NS o e tr : In (FNoStore o e) tr -> In (ev_by o e) (as_if tr).
Proof. intros H. unfold as_if. apply in_map_iff. exists (FNoStore o e). auto. Qed.
Lemma in_as_if x tr : In x (as_if tr) -> In (FE x) tr \/ exists o e, In (FNoStore o e) tr /\ x = ev_by o e.
Proof. unfold as_if. intros H. apply in_map_iff in H. destruct H as ([e|o e] & <- & H); eauto. Qed.

(** An exit function registered by a call whose context was not stored never runs at a thread's exit. *)
Theorem C88_function_never_runs : forall pl os n sched c tr o t f u, exec (f_step pl os) (f_init n) sched = Some (c, tr) -> In (FNoStore o (EReg t f)) tr -> ~ In (FE (ERun u f)) tr.
Proof.
  intros pl os n sched c tr o t f u H Hin Hr. pose proof (evs_ok_all _ _ _ _ _ _ H) as Hok. rewrite Forall_forall in Hok. pose proof (Hok _ Hr) as H1. pose proof (Hok _ Hin) as (H2 & _). cbn in H1.
  destruct (tss_exit _ _ _ _ _ (C88_as_other_thread _ _ _ _ _ _ H)) as (_ & _ & _ & _ & _ & R4 & R5 & _).
  assert (u = o); [|lia]. eapply R5; [apply R4, in_as_if_FE; exact Hr|exact (in_as_if_NS _ _ _ Hin)].
Qed.
Print Assumptions C88_function_never_runs.

Lemma filter_thread {B} (g : nat -> tev -> list B) n tr t : t < n -> Forall (evs_ok n) tr -> (forall e, ev_thread e <> t -> g t e = []) -> flat_map (g t) (as_if tr) = flat_map (g t) (stored tr).
Proof.
  intros Ht Hok Hg. induction Hok as [|e tr He Hok IH]; [reflexivity|]. destruct e as [e|o e]; cbn [as_if map stored flat_map app]; [f_equal; exact IH|].
  unfold as_if in IH. rewrite IH. rewrite Hg; [reflexivity|]. destruct He as (Ho & _ & He). destruct e; try contradiction; cbn; lia.
Qed.

(** A notification registered by such a call is never carried out: a thread carries out those that were stored, in order, each once, and no others. *)
Theorem C88_notification_lost : forall pl os n sched c tr t, exec (f_step pl os) (f_init n) sched = Some (c, tr) -> t < n ->
  prefix (notified t (stored tr)) (nots t (stored tr)) /\ (exit_complete pl t (ext 0 c) (as_if tr) -> notified t (stored tr) = nots t (stored tr)).
Proof.
  intros pl os n sched c tr t H Ht. pose proof (evs_ok_all _ _ _ _ _ _ H) as Hok. pose proof (C44_once _ _ _ _ _ t (C88_as_other_thread _ _ _ _ _ _ H) ltac:(lia)) as G. unfold notified, nots in *.
  rewrite !(filter_thread (fun t => _) n tr t Ht Hok) in G; [exact G| |].
  - intros e He. destruct e; cbn in *; try reflexivity; destruct (Nat.eqb_spec t0 t); [contradiction|reflexivity].
  - intros e He. destruct e; cbn in *; try reflexivity; destruct (Nat.eqb_spec t0 t); [contradiction|reflexivity].
Qed.
Print Assumptions C88_notification_lost.

(** ** The objects *)
Definition live (l : list (option ctx)) : nat := length (filter (fun o => match o with Some _ => true | None => false end) l).
Arguments live : simpl never.

Lemma live_app a b : live (a ++ b) = live a + live b. Proof. unfold live. rewrite filter_app, app_length. reflexivity. Qed.
Lemma live_upd l x c o : nth_error l x = Some (Some c) -> live (upd l x o) + 1 = live l + match o with Some _ => 1 | None => 0 end.
Proof.
  revert x. induction l as [|y l IH]; intros [|x] H; cbn in H; try discriminate.
  - inversion H; subst. unfold live. destruct o; cbn; lia.
  - specialize (IH _ H). unfold live in *. cbn [upd filter]. destruct y; cbn [length]; lia.
Qed.
Lemma live_ctx s x c o : ctx_of s x = Some c -> live (ctxs (set_ctx s x o)) + 1 = live (ctxs s) + match o with Some _ => 1 | None => 0 end.
Proof. intros H. apply (live_upd _ _ c). apply ctx_list_spec. exact H. Qed.
Lemma live_map l k : live (map (clear1 k) l) = live l.
Proof. unfold live. induction l as [|[c|] l IH]; [reflexivity| |exact IH]. cbn [map filter clear1]. destruct (getv (storage c) k =? 0); cbn [length]; f_equal; exact IH. Qed.
Lemma live_ensure s t : live (ctxs (fst (ensure s t))) = live (ctxs s) + match slot s t with None => 1 | Some _ => 0 end.
Proof. unfold ensure. destruct (slot s t); cbn [fst ctxs]; [lia|]. rewrite live_app. reflexivity. Qed.
Lemma ensure_ctx s t : (forall x, slot s t = Some x -> ctx_of s x <> None) -> exists c, ctx_of (fst (ensure s t)) (snd (ensure s t)) = Some c.
Proof.
  intros H. unfold ensure. destruct (slot s t) as [x|] eqn:E; cbn [fst snd].
  - specialize (H x eq_refl). destruct (ctx_of s x) as [c|]; [eauto|contradiction].
  - unfold ctx_of. cbn [ctxs]. rewrite nth_mid. eauto.
Qed.
Lemma live_value s t k v : (forall x, slot s t = Some x -> ctx_of s x <> None) -> live (ctxs (set_value s t k v)) = live (ctxs s) + match slot s t with None => 1 | Some _ => 0 end.
Proof.
  intros H. destruct (ensure_ctx s t H) as (c & Hc). pose proof (live_ensure s t) as L. unfold set_value. destruct (ensure s t) as [s1 x]. cbn [fst snd] in *. rewrite Hc.
  pose proof (live_ctx s1 x c (Some (X (xown c) (setv (storage c) k v) (atexit c) (notif c))) Hc). cbn in *. lia.
Qed.

(** Steps of TssModel.v allocate and delete as [made] and [deleted] say. *)
Lemma live_step pl s ths a s' ths' e : (forall t x, slot s t = Some x -> ctx_of s x <> None) -> (forall t th x, nth_error ths t = Some th -> exof (est th) = Some x -> ctx_of s x <> None) ->
  tss_step pl (s, ths) a = Some ((s', ths'), e) -> live (ctxs s') + deleted ths a = live (ctxs s) + made s a.
Proof.
  intros Hsl Hex H. cbn [tss_step] in H. destruct (nth_error ths (thread_of a)) as [th|] eqn:Et; [|discriminate].
  assert (Hget : forall t k, slot s t = None -> get s t k = 0) by (intros; apply get_none; assumption).
  destruct a; cbn [thread_of] in *; cbn [deleted].
  1-9: (destruct (user th) eqn:Hu; [|discriminate]; cbn [tss_user] in H).
  - inversion H; subst. cbn. unfold new_key. destruct (freed s); cbn; lia.
  - destruct (nth_error (tptrs s) p) as [q|]; [|discriminate]. destruct (palive q); [|discriminate]. destruct (delete_key s p q) as [s1 fr] eqn:E. inversion H; subst. cbn. replace s' with (fst (delete_key s p q)) by (rewrite E; reflexivity).
    unfold delete_key. destruct (nth_error (keys s) (pkey q)) as [[cb [|]]|]; cbn; rewrite ?live_map; lia.
  - destruct (nth_error (tptrs s) p) as [q|]; [|discriminate]. destruct (palive q); [|discriminate]. inversion H; subst. cbn. lia.
  - destruct (nth_error (tptrs s) p) as [q|]; [|discriminate]. destruct (palive q); [|discriminate]. destruct (get s t (pkey q) =? 0) eqn:Eg; inversion H; subst; cbn; [lia|].
    rewrite live_value by (exact (Hsl _)). destruct (slot s t) eqn:Es; [lia|]. rewrite Hget in Eg by exact Es. discriminate.
  - unfold made, creates. cbn [fail_of]. destruct (nth_error (tptrs s) p) as [q|]; [|discriminate]. destruct (palive q); [|discriminate]. destruct (get s t (pkey q) =? v) eqn:Eg.
    + inversion H; subst. destruct (slot s' t) eqn:Es; [lia|]. rewrite Hget in Eg by exact Es. rewrite Nat.eqb_sym in Eg. rewrite Eg. cbn. lia.
    + destruct f.
      * inversion H; subst. rewrite live_value by (exact (Hsl _)). destruct (slot s t) eqn:Es; [lia|]. rewrite Hget in Eg by exact Es. rewrite Nat.eqb_sym in Eg. rewrite Eg. cbn. lia.
      * unfold can_fail in H. destruct (slot s t) eqn:Es; [discriminate|]. inversion H; subst. cbn. destruct (negb (v =? 0)); lia.
      * unfold can_fail in H. inversion H; subst. cbn [failed]. rewrite live_ensure. destruct (slot s t) eqn:Es; [lia|]. rewrite Hget in Eg by exact Es. rewrite Nat.eqb_sym in Eg. rewrite Eg. cbn. lia.
  - unfold made, creates. cbn [fail_of]. destruct f.
    + pose proof (live_ensure s t) as L. destruct (ensure_ctx s t (Hsl t)) as (c & Hc). destruct (ensure s t) as [s1 x]. cbn [fst snd] in *. rewrite Hc in H. inversion H; subst. cbn [ctxs].
      pose proof (live_ctx s1 x c (Some (X (xown c) (storage c) (atexit c ++ [nreg s1]) (notif c))) Hc) as G. cbn [ctxs set_ctx] in G. destruct (slot s t); lia.
    + unfold can_fail in H. destruct (slot s t) eqn:Es; [discriminate|]. inversion H; subst. lia.
    + unfold can_fail in H. inversion H; subst. cbn [failed]. rewrite live_ensure. destruct (slot s t) eqn:Es; lia.
  - unfold made, creates. cbn [fail_of]. destruct f.
    + pose proof (live_ensure s t) as L. destruct (ensure_ctx s t (Hsl t)) as (c & Hc). destruct (ensure s t) as [s1 x]. cbn [fst snd] in *. rewrite Hc in H. inversion H; subst.
      pose proof (live_ctx s1 x c (Some (X (xown c) (storage c) (atexit c) (notif c ++ [m]))) Hc) as G. cbv beta iota in G. destruct (slot s t); lia.
    + unfold can_fail in H. destruct (slot s t) eqn:Es; [discriminate|]. inversion H; subst. lia.
    + unfold can_fail in H. inversion H; subst. cbn [failed]. rewrite live_ensure. destruct (slot s t) eqn:Es; lia.
  - destruct (stk th) as [|[|] r]; inversion H; subst; cbn; lia.
  - destruct (stk th) as [|f r]; inversion H; subst; cbn; lia.
  - rewrite Et. replace (made s (AStep t)) with 0 by reflexivity. destruct th as [st es]. unfold tss_run in H. cbn [stk est] in H. pose proof (fun x => Hex t _ x Et) as Hx. cbn [est] in Hx.
    destruct st as [|[|cb [|v vs]] r]; try discriminate; try (inversion H; subst; lia).
    destruct es as [|[|n]|x n [|f fs]|x n k st|x n [|m ms]|]; try discriminate; try (inversion H; subst; lia).
    + destruct (slot s t); inversion H; subst; cbn; lia.
    + destruct (ctx_of s x) as [c|] eqn:Ec; [|discriminate]. destruct (atexit c); inversion H; subst; [lia|].
      pose proof (live_ctx s x c (Some (X (xown c) (storage c) [] (notif c))) Ec). cbn in *. lia.
    + destruct (nth_error st k) as [[|v]|]; [inversion H; subst; lia|destruct (nth_error (keys s) k) as [[[cb|] fl]|]; inversion H; subst; lia|].
      destruct (ctx_of s x) as [c|] eqn:Ec; [|discriminate]. destruct (storage c); inversion H; subst; [lia|].
      pose proof (live_ctx s x c (Some (X (xown c) [] (atexit c) (notif c))) Ec). cbn in *. lia.
    + specialize (Hx x eq_refl). destruct (ctx_of s x) as [c|] eqn:Ec; [|contradiction]. pose proof (live_ctx s x c None Ec) as G. destruct pl; inversion H; subst; cbn in *; lia.
Qed.

Lemma slot_ext n c t x : length (slots (fst (fbase c))) = n -> slot (fst (ext 0 c)) t = Some x -> (t < n /\ slot (fst (fbase c)) t = Some x) \/ (n <= t /\ nth_error (forph c) (t - n) = Some x).
Proof.
  intros Hl. unfold slot at 1, ext, grow. cbn [fst slots repeat]. rewrite app_nil_r. destruct (Nat.lt_ge_cases t n) as [Hlt|Hge].
  - rewrite nth_error_app1 by lia. unfold slot. auto.
  - rewrite nth_error_app2, Hl by lia. intros H. right. split; [exact Hge|]. destruct (nth_error (map Some (forph c)) (t - n)) as [o|] eqn:E; [|discriminate]. rewrite nth_error_map in E.
    destruct (nth_error (forph c) (t - n)); inversion E; subst. inversion H; subst. reflexivity.
Qed.
Lemma slot_base n c t x : length (slots (fst (fbase c))) = n -> slot (fst (fbase c)) t = Some x -> slot (fst (ext 0 c)) t = Some x.
Proof.
  intros Hl H. unfold ext. cbn [fst]. rewrite slot_grow; [exact H|]. unfold slot in H. destruct (nth_error (slots (fst (fbase c))) t) eqn:E; [|discriminate]. apply nth_error_Some. congruence.
Qed.
Lemma slot_orph n c i x : length (slots (fst (fbase c))) = n -> nth_error (forph c) i = Some x -> slot (fst (ext 0 c)) (n + i) = Some x.
Proof.
  intros Hl H. unfold slot, ext, grow. cbn [fst slots repeat]. rewrite app_nil_r, nth_error_app2, Hl by lia. replace (n + i - n) with i by lia. rewrite nth_error_map, H. reflexivity.
Qed.

(** Every object of class thread_context that exists is in m_thread_contexts or was lost when M:144 threw; one was lost for each time it did. *)
Theorem C88_objects : forall pl os n sched c tr, exec (f_step pl os) (f_init n) sched = Some (c, tr) -> fobjs c = live (ctxs (fst (fbase c))) + nlocks sched.
Proof.
  intros pl os n sched c tr H. pose proof (sim_init _ _ _ _ _ _ H) as (_ & _ & _ & E & _). rewrite <- E. clear E.
  enough (G : (exists sch, exec (f_step pl os) (f_init n) sch = Some (c, tr)) /\ fobjs c = live (ctxs (fst (fbase c))) + fleak c) by apply G. revert H.
  apply (exec_inv (f_step pl os) (fun c tr => (exists sch, exec (f_step pl os) (f_init n) sch = Some (c, tr)) /\ fobjs c = live (ctxs (fst (fbase c))) + fleak c)).
  - split; [exists []; reflexivity|reflexivity].
  - intros c0 tr0 a c1 e ((sch & Hsch) & Ho) Hs. split; [exists (sch ++ [a]); rewrite exec_app, Hsch; cbn [exec]; rewrite Hs; cbn [app]; rewrite app_nil_r; reflexivity|].
    destruct (sim_init _ _ _ _ _ _ Hsch) as (L1 & L2 & _ & _ & Hx). destruct (tss_exit _ _ _ _ _ Hx) as (((_ & W2 & W3 & _ & _) & _) & _). destruct c0 as [[s ths] orph ob lk]. cbn [fbase fst snd forph fobjs fleak] in *.
    unfold f_step in Hs. cbn [fbase forph fobjs fleak] in Hs. destruct a as [b|b|b].
    + destruct (tss_step pl (s, ths) b) as [[[s1 ths1] e1]|] eqn:E; [|discriminate]. inversion Hs; subst c1 e. clear Hs. cbn [fbase fst fobjs fleak].
      assert (G : live (ctxs s1) + deleted ths b = live (ctxs s) + made s b); [|lia]. eapply live_step; [| |exact E].
      * intros t x Hx'. destruct (W2 t x) as (d & Hd & _); [eapply (slot_base n (FT (s, ths) orph ob lk)); [exact L1|exact Hx']|]. change (ctx_of s x = Some d) in Hd. congruence.
      * intros t th x Ht Hx'. destruct (W3 t th x) as (d & Hd & _); [unfold ext; cbn [snd fbase]; rewrite nth_error_app1; [exact Ht|apply nth_error_Some; congruence]|exact Hx'|]. change (ctx_of s x = Some d) in Hd. congruence.
    + destruct (nth_error ths (thread_of b)) as [th|] eqn:Et; [|discriminate]. destruct (kept pl os && user th && creates s b && _) eqn:Ec; [|discriminate]. inversion Hs; subst c1 e. clear Hs. cbn [fbase fst fobjs fleak ctxs]. rewrite live_app. change (live [Some (filled s (length (slots s) + length orph) b)]) with 1. lia.
    + destruct (nth_error ths (thread_of b)) as [th|] eqn:Et; [|discriminate]. destruct (user th && creates s b) eqn:Ec; [|discriminate]. inversion Hs; subst c1 e. clear Hs. cbn [fbase fst fobjs fleak]. lia.
Qed.
Print Assumptions C88_objects.

(** A context in m_thread_contexts is the one a thread's pointer refers to, or one that an exiting thread is destroying, or one that could not be stored: nothing else. *)
Theorem C88_reachable : forall pl os n sched c tr x d, exec (f_step pl os) (f_init n) sched = Some (c, tr) -> ctx_of (fst (fbase c)) x = Some d ->
  (exists t, t < n /\ slot (fst (fbase c)) t = Some x) \/ (exists t th, t < n /\ nth_error (snd (fbase c)) t = Some th /\ exof (est th) = Some x) \/ In x (forph c).
Proof.
  intros pl os n sched c tr x d H Hd. destruct (sim_init _ _ _ _ _ _ H) as (L1 & L2 & _ & _ & Hx). destruct (tss_exit _ _ _ _ _ Hx) as (((_ & _ & _ & W4 & _) & _) & _).
  destruct (W4 x d Hd) as [G|(th & Ht & Ge)].
  - destruct (slot_ext n c _ x L1 G) as [(A & B)|(A & B)]; [left; eauto|right; right; eapply nth_error_In; exact B].
  - right. left. exists (xown d), th. unfold ext in Ht. cbn [snd] in Ht. destruct (Nat.lt_ge_cases (xown d) n) as [Hlt|Hge].
    + rewrite nth_error_app1 in Ht by lia. auto.
    + rewrite nth_error_app2 in Ht by lia. apply nth_error_In, repeat_spec in Ht. subst th. discriminate.
Qed.
Print Assumptions C88_reachable.

(** A context that could not be stored is never deleted, and each failed store leaves another one. *)
Theorem C88_never_deleted : forall pl os n sched c tr, exec (f_step pl os) (f_init n) sched = Some (c, tr) ->
  length (forph c) = nstores sched /\ NoDup (forph c) /\ (forall x, In x (forph c) -> ctx_of (fst (fbase c)) x <> None) /\ nstores sched <= live (ctxs (fst (fbase c))).
Proof.
  intros pl os n sched c tr H. destruct (sim_init _ _ _ _ _ _ H) as (L1 & L2 & L3 & _ & Hx). destruct (tss_exit _ _ _ _ _ Hx) as (((_ & W2 & _) & _) & _).
  assert (Hnd : NoDup (forph c)).
  { apply NoDup_nth_error. intros i j Hi E. destruct (nth_error (forph c) i) as [x|] eqn:Ei; [|apply nth_error_Some in Hi; congruence]. symmetry in E.
    destruct (W2 _ _ (slot_orph n c i x L1 Ei)) as (d & A & B). destruct (W2 _ _ (slot_orph n c j x L1 E)) as (d' & A' & B'). rewrite A in A'. inversion A'; subst. lia. }
  assert (Hlv : forall x, In x (forph c) -> ctx_of (fst (fbase c)) x <> None).
  { intros x Hin. apply In_nth_error in Hin. destruct Hin as (i & Hi). destruct (W2 _ _ (slot_orph n c i x L1 Hi)) as (d & A & _). change (ctx_of (fst (fbase c)) x = Some d) in A. congruence. }
  split; [exact L3|]. split; [exact Hnd|]. split; [exact Hlv|]. rewrite <- L3. clear -Hnd Hlv. revert Hnd Hlv. generalize (forph c) as l. generalize (fst (fbase c)) as s. intros s l Hnd Hlv.
  assert (G : forall cs : list (option ctx), incl l (map fst (filter (fun p => match snd p with Some _ => true | None => false end) (combine (seq 0 (length cs)) cs))) -> length l <= live cs).
  { intros cs Hi. pose proof (NoDup_incl_length Hnd Hi) as G. rewrite map_length in G. etransitivity; [exact G|]. clear. generalize 0 as k. unfold live. induction cs as [|o cs IH]; intros k; [cbn; lia|]. cbn [length seq combine filter snd]. destruct o; cbn [length]; specialize (IH (S k)); lia. }
  apply G. intros x Hin. specialize (Hlv x Hin). unfold ctx_of in Hlv. destruct (nth_error (ctxs s) x) as [[d|]|] eqn:E; try contradiction. apply in_map_iff. exists (x, Some d). split; [reflexivity|]. apply filter_In. split; [|reflexivity].
  clear -E. assert (G : forall k cs, nth_error cs x = Some (Some d) -> In (k + x, Some d) (combine (seq k (length cs)) cs)).
  { clear. induction x as [|x IH]; intros k [|o cs] H; cbn in H; try discriminate; cbn [length seq combine].
    - inversion H; subst. left. f_equal. lia.
    - right. replace (k + S x) with (S k + x) by lia. apply IH. exact H. }
  apply (G 0). exact E.
Qed.
Print Assumptions C88_never_deleted.

Lemma live_exact (cs : list (option ctx)) (l : list nat) : NoDup l -> (forall x, In x l <-> exists d, nth_error cs x = Some (Some d)) -> live cs = length l.
Proof.
  revert l. induction cs as [|o cs IH] using rev_ind; intros l Hnd Hl.
  - destruct l as [|x l]; [reflexivity|]. destruct (proj1 (Hl x) (or_introl eq_refl)) as (d & E). destruct x; discriminate.
  - rewrite live_app. destruct o as [d|].
    + assert (Hin : In (length cs) l) by (apply Hl; exists d; apply nth_mid). apply in_split in Hin. destruct Hin as (l1 & l2 & ->). rewrite (IH (l1 ++ l2)).
      * rewrite !app_length. change (live [Some d]) with 1. cbn [length]. lia.
      * eapply NoDup_remove_1. exact Hnd.
      * intros x. pose proof (NoDup_remove_2 _ _ _ Hnd) as Hni. split.
        -- intros Hi. assert (Hx : In x (l1 ++ length cs :: l2)) by (apply in_app_or in Hi; apply in_or_app; destruct Hi; [left|right; right]; assumption). apply Hl in Hx. destruct Hx as (d' & E).
           assert (x <> length cs) by (intros ->; contradiction). destruct (Nat.lt_ge_cases x (length cs)) as [Hlt|Hge]; [rewrite nth_error_app1 in E by exact Hlt; eauto|].
           exfalso. assert (x < length (cs ++ [Some d])) by (apply nth_error_Some; congruence). rewrite app_length in *. cbn in *. lia.
        -- intros (d' & E). assert (x < length cs) by (apply nth_error_Some; congruence). assert (Hx : In x (l1 ++ length cs :: l2)) by (apply Hl; exists d'; rewrite nth_error_app1 by assumption; exact E).
           apply in_app_or in Hx. apply in_or_app. destruct Hx as [Hx|[Hx|Hx]]; auto. lia.
    + rewrite (IH l Hnd); [change (live [None]) with 0; lia|]. intros x. rewrite Hl. split.
      * intros (d & E). destruct (Nat.lt_ge_cases x (length cs)) as [Hlt|Hge]; [rewrite nth_error_app1 in E by exact Hlt; eauto|]. rewrite nth_error_app2 in E by exact Hge. destruct (x - length cs) as [|[|?]]; discriminate.
      * intros (d & E). exists d. rewrite nth_error_app1; [exact E|]. apply nth_error_Some. congruence.
Qed.

(** When no thread has a context any more and none is exiting, exactly one object is left for each failed store and each failed lock; nothing is left if there was neither. *)
Theorem C88_left_over : forall pl os n sched c tr, exec (f_step pl os) (f_init n) sched = Some (c, tr) ->
  (forall t, slot (fst (fbase c)) t = None) -> (forall t th, nth_error (snd (fbase c)) t = Some th -> exof (est th) = None) -> fobjs c = nstores sched + nlocks sched.
Proof.
  intros pl os n sched c tr H Hs He. rewrite (C88_objects _ _ _ _ _ _ H). f_equal. destruct (C88_never_deleted _ _ _ _ _ _ H) as (L & Hnd & Hlv & _). rewrite <- L. apply live_exact; [exact Hnd|]. intros x. split.
  - intros Hi. specialize (Hlv x Hi). destruct (ctx_of (fst (fbase c)) x) as [d|] eqn:E; [|contradiction]. exists d. apply ctx_list_spec. exact E.
  - intros (d & E). apply ctx_list_spec in E. destruct (C88_reachable _ _ _ _ _ _ _ _ H E) as [(t & _ & G)|[(t & th & _ & G1 & G2)|G]]; [rewrite Hs in G; discriminate|rewrite (He _ _ G1) in G2; discriminate|exact G].
Qed.
Print Assumptions C88_left_over.

(** So on Windows when all threads have exited. *)
Theorem C88_windows_left_over : forall os n sched c tr, exec (f_step Win os) (f_init n) sched = Some (c, tr) -> all_done (fbase c) -> fobjs c = nstores sched + nlocks sched.
Proof.
  intros os n sched c tr H Hd. apply (C88_left_over _ _ _ _ _ _ H).
  - intros t. destruct (slot (fst (fbase c)) t) as [x|] eqn:E; [|reflexivity]. exfalso. destruct (sim_init _ _ _ _ _ _ H) as (L1 & L2 & _ & _ & Hx). destruct (tss_exit _ _ _ _ _ Hx) as (((_ & _ & _ & _ & W5) & _) & _).
    assert (Hlt : t < n) by (rewrite <- L1; unfold slot in E; destruct (nth_error (slots (fst (fbase c))) t) eqn:E'; [apply nth_error_Some; congruence|discriminate]).
    destruct (nth_error (snd (fbase c)) t) as [th|] eqn:Et; [|apply nth_error_None in Et; lia]. specialize (W5 t th). unfold ext in W5. cbn [snd] in W5. rewrite nth_error_app1 in W5 by lia. specialize (W5 Et). rewrite (Hd _ _ Et) in W5.
    destruct W5 as (_ & W5). specialize (W5 eq_refl). pose proof (slot_base n c t x L1 E) as G. unfold ext in G. cbn [fst] in *. congruence.
  - intros t th Ht. rewrite (Hd _ _ Ht). reflexivity.
Qed.
Print Assumptions C88_windows_left_over.

(** ** Calls that throw *)
Definition throws (a : fact) : option tact2 := match a with FDo b => match fail_of b with FNone => None | _ => Some b end | FStore _ => None | FLock b => Some b end.
(** A call that throws changes nothing a user can see: no value of any pointer in any thread, no pointer, no function or notification registered for any thread; the mutex handed over is unlocked. *)
Theorem C88_exception_no_effect : forall pl os n sched c tr a b c' e, exec (f_step pl os) (f_init n) sched = Some (c, tr) -> throws a = Some b -> f_step pl os c a = Some (c', e) ->
  let s := fst (fbase c) in let s' := fst (fbase c') in
  (forall u k, get s' u k = get s u k) /\ tptrs s' = tptrs s /\ keys s' = keys s /\ freed s' = freed s /\ nreg s' = nreg s /\ (forall u, slot_at s' u = slot_at s u /\ slot_nt s' u = slot_nt s u) /\ snd (fbase c') = snd (fbase c) /\ e = map FE (unwound b).
Proof.
  intros pl os n sched c tr a b c' e H Ht Hs. destruct (sim_init _ _ _ _ _ _ H) as (L1 & L2 & _ & _ & _). destruct c as [[s ths] orph ob lk]. cbn [fbase fst snd] in *.
  assert (Hens : forall t, t < n -> (forall u k, get (fst (ensure s t)) u k = get s u k) /\ (forall u, slot_at (fst (ensure s t)) u = slot_at s u /\ slot_nt (fst (ensure s t)) u = slot_nt s u)).
  { intros t Hlt. assert (Hcx : forall x, slot s t = None -> x < length (ctxs s) -> ctx_of (fst (ensure s t)) x = ctx_of s x) by (intros x E Hx; unfold ensure; rewrite E; unfold ctx_of; cbn [fst ctxs]; rewrite nth_error_app1 by exact Hx; reflexivity).
    assert (Hin : forall u x, slot s u = Some x -> x < length (ctxs s)).
    { intros u x E. destruct (sim_init _ _ _ _ _ _ H) as (_ & _ & _ & _ & Hx). destruct (tss_exit _ _ _ _ _ Hx) as (((_ & W2 & _) & _) & _). destruct (W2 u x) as (d & A & _); [eapply (slot_base n (FT (s, ths) orph ob lk)); [exact L1|exact E]|]. change (ctx_of s x = Some d) in A. eapply ctx_len. exact A. }
    assert (Hsl : slot s t = None -> forall u, slot (fst (ensure s t)) u = if u =? t then Some (length (ctxs s)) else slot s u).
    { intros E u. unfold ensure. rewrite E. cbn [fst]. apply (slot_set s t (Some (length (ctxs s))) u). lia. }
    destruct (slot s t) as [y|] eqn:Ey; [unfold ensure; rewrite Ey; split; intros; try split; reflexivity|]. split.
    - intros u k. unfold get. rewrite (Hsl eq_refl). destruct (Nat.eqb_spec u t) as [->|Hn].
      + rewrite Ey. unfold ensure. rewrite Ey. unfold ctx_of. cbn [fst ctxs]. rewrite nth_mid. cbn. unfold getv. destruct k; reflexivity.
      + destruct (slot s u) as [x|] eqn:Eu; [|reflexivity]. rewrite Hcx by (try reflexivity; eapply Hin; exact Eu). reflexivity.
    - intros u. unfold slot_at, slot_nt. rewrite (Hsl eq_refl). destruct (Nat.eqb_spec u t) as [->|Hn].
      + rewrite Ey. unfold at_of, nt_of, ensure. rewrite Ey. unfold ctx_of. cbn [fst ctxs]. rewrite nth_mid. split; reflexivity.
      + destruct (slot s u) as [x|] eqn:Eu; [|split; reflexivity]. unfold at_of, nt_of. rewrite Hcx by (try reflexivity; eapply Hin; exact Eu). split; reflexivity. }
  assert (Hfail : forall t f, t < n -> f <> FNone -> let s' := failed s t f in (forall u k, get s' u k = get s u k) /\ tptrs s' = tptrs s /\ keys s' = keys s /\ freed s' = freed s /\ nreg s' = nreg s /\ (forall u, slot_at s' u = slot_at s u /\ slot_nt s' u = slot_nt s u)).
  { intros t f Hlt Hf. destruct f; [contradiction|cbn; repeat split|]. cbn [failed]. destruct (ensure_nreg s t) as (E1 & E2 & E3 & E4). destruct (Hens t Hlt) as (E5 & E6). auto 10. }
  unfold f_step in Hs. cbn [fbase forph fobjs fleak] in Hs. destruct a as [b0|b0|b0]; cbn [throws] in Ht; try discriminate.
  - assert (Hf : fail_of b0 <> FNone) by (intros E; rewrite E in Ht; discriminate). assert (b0 = b) by (destruct (fail_of b0); congruence). subst b0.
    cbn [tss_step] in Hs. destruct (nth_error ths (thread_of b)) as [th|] eqn:Et; [|discriminate]. assert (Hlt : thread_of b < n) by (rewrite <- L2; apply nth_error_Some; congruence).
    destruct b; cbn [fail_of] in Hf; try contradiction; (destruct (user th) eqn:Eu; [|discriminate]); cbn [tss_user thread_of] in *.
    + destruct (nth_error (tptrs s) p) as [q|]; [|discriminate]. destruct (palive q); [|discriminate]. destruct (get s t (pkey q) =? v).
      * inversion Hs; subst. cbn. rewrite (upd_same _ _ _ Et). repeat split.
      * destruct f; [contradiction| |]; (destruct (can_fail s t _); [|discriminate]); inversion Hs; subst; cbn [fbase fst snd unwound map]; rewrite (upd_same _ _ _ Et); (destruct (Hfail t FCtx Hlt Hf) as (A & B & C & D & E & F) || destruct (Hfail t FPush Hlt Hf) as (A & B & C & D & E & F)); auto 10.
    + destruct f; [contradiction| |]; (destruct (can_fail s t _); [|discriminate]); inversion Hs; subst; cbn [fbase fst snd unwound map]; rewrite (upd_same _ _ _ Et); (destruct (Hfail t FCtx Hlt Hf) as (A & B & C & D & E & F) || destruct (Hfail t FPush Hlt Hf) as (A & B & C & D & E & F)); auto 10.
    + destruct f; [contradiction| |]; (destruct (can_fail s t _); [|discriminate]); inversion Hs; subst; cbn [fbase fst snd unwound map]; rewrite (upd_same _ _ _ Et); (destruct (Hfail t FCtx Hlt Hf) as (A & B & C & D & E & F) || destruct (Hfail t FPush Hlt Hf) as (A & B & C & D & E & F)); auto 10.
  - inversion Ht; subst b0. destruct (nth_error ths (thread_of b)) as [th|]; [|discriminate]. destruct (user th && creates s b); [|discriminate]. inversion Hs; subst. cbn. repeat split.
Qed.
Print Assumptions C88_exception_no_effect.

(** ** Process exit on Windows *)
(** What could not be stored is not lost for ever there: the manager's destructor runs the function, once, on the thread that ends the process. *)
Theorem C88_process_exit : forall os ctls t0 n sched c tr o t f sched' q tr', exec (f_step Win os) (f_init n) sched = Some (c, tr) -> In (FNoStore o (EReg t f)) tr ->
  exec (pe_step ctls t0) (pe_start (fst (fbase c))) sched' = Some (q, tr') -> pph q = PEnd -> nruns f tr' = 1%Z.
Proof.
  intros os ctls t0 n sched c tr o t f sched' q tr' H Hin H' Hq. pose proof (C88_as_other_thread _ _ _ _ _ _ H) as Hx. destruct (tss_exit _ _ _ _ _ Hx) as (HB & HA & R1 & R2 & R3 & R4 & R5 & R6 & R7 & _).
  destruct (pe_account _ _ _ _ _ _ H') as (_ & B2 & _ & _ & B5). pose proof (in_as_if_NS _ _ _ Hin) as Hreg. cbn [ev_by] in Hreg. destruct (sim_init _ _ _ _ _ _ H) as (L1 & L2 & L3 & _).
  pose proof (evs_ok_all _ _ _ _ _ _ H) as Hok. assert (Hok' := Hok). rewrite Forall_forall in Hok. destruct (Hok _ Hin) as (Ho & _).
  assert (Hno : forall e, In e (as_if tr) -> ev_thread e = o -> match e with ESet _ _ _ _ | EReg _ _ | ENot _ _ | EUnlk _ _ => True | _ => False end).
  { intros e He Et. destruct (in_as_if _ _ He) as [G|(o' & e' & G & ->)]; [specialize (Hok _ G); cbn in Hok; lia|]. destruct (Hok _ G) as (_ & _ & G'). destruct e'; cbn; auto. }
  assert (Hl : ~ late Win f (as_if tr)).
  { intros (_ & u & a & b & Ea & Eb). assert (u = o). { eapply R5; [|exact Hreg]. rewrite Ea. apply in_or_app. right. left. reflexivity. } subst u.
    unfold tls in Eb. apply existsb_exists in Eb. destruct Eb as (e & He & Eb). destruct e; try discriminate. cbn in Eb. apply Nat.eqb_eq in Eb. subst t1.
    apply (Hno (ETls o)); [rewrite Ea; apply in_or_app; left; exact He|reflexivity]. }
  assert (Hn1 : nregs f (as_if tr) = 1%Z).
  { assert (1 <= nregs f (as_if tr))%Z by (apply nregs_in; eauto). rewrite R1 in *. unfold b2z in *. destruct (f <? nreg (fst (ext 0 c)))%nat; lia. }
  assert (Hlt : (f < nreg (fst (fbase c)))%nat) by (rewrite R1 in Hn1; unfold b2z in Hn1; destruct (Nat.ltb_spec f (nreg (fst (ext 0 c)))); [assumption|lia]).
  specialize (R7 f Hl). specialize (B2 f Hlt).
  assert (Z0 : forall A (l : list A), sumf (fun _ => 0%Z) l = 0%Z) by (intros A l; induction l; cbn; lia).
  assert (P0 : sumf (fun th => cnt f (infun (est th))) (snd (ext 0 c)) = 0%Z).
  { rewrite (sumf_ext_nth _ (fun _ => 0%Z)); [apply Z0|]. intros u th' Hu. apply cnt_out. intros Hi. pose proof (R3 _ _ _ Hu Hi) as E. assert (u = o) by (eapply R5; eauto). subst u.
    unfold ext in Hu. cbn [snd] in Hu. rewrite nth_error_app2 in Hu by lia. apply nth_error_In, repeat_spec in Hu. subst th'. destruct Hi. }
  assert (Q0 : pw f q = 0%Z).
  { unfold pw. rewrite Hq. rewrite (sumf_ext_nth _ (fun _ => 0%Z)); [rewrite Z0; reflexivity|]. intros i o' Hi. rewrite (B5 Hq o' (nth_error_In _ _ Hi)). reflexivity. }
  assert (N0 : nruns f (as_if tr) = 0%Z).
  { unfold nruns. rewrite (sumf_ext_nth _ (fun _ => 0%Z)); [apply Z0|]. intros i e Hi. destruct e; try reflexivity. unfold b2z. destruct (Nat.eqb_spec f0 f) as [->|]; [|reflexivity]. exfalso.
    pose proof (nth_error_In _ _ Hi) as He. pose proof (R4 _ _ He) as Hr. assert (t1 = o) by (eapply R5; eauto). subst t1. apply (Hno (ERun o f)); [exact He|reflexivity]. }
  unfold pend in R7. cbn [fst ext grow ctxs] in R7. lia.
Qed.
Print Assumptions C88_process_exit.

(** ** Refuted *)
(** reset() has returned without an error; get() gives a null pointer. *)
Definition lost_value : list fact := [FDo (ANew 0 (Some 7) true); FStore (AReset 0 0 5 FNone); FDo (AGet 0 0)].
Theorem C88_value_lost_refuted : exists lim os n sched c tr v, exec (f_step (Posix lim) os) (f_init n) sched = Some (c, tr) /\ (0 < lim)%nat /\
  tr = [FE (ENew 0 0 (Some 7)); FNoStore 1 (ESet 0 0 (Some 7) v); FE (EGet 0 0 0)] /\ v <> 0.
Proof. exists 4, false, 1, lost_value. eexists. exists [FE (ENew 0 0 (Some 7)); FNoStore 1 (ESet 0 0 (Some 7) 5); FE (EGet 0 0 0)], 5. split; [vm_compute; reflexivity|]. repeat split; lia. Qed.
Print Assumptions C88_value_lost_refuted.

(** at_thread_exit() has returned without an error; the thread has exited; the function was not called. *)
Theorem C88_function_lost_refuted : exists n sched c tr t f, exec (f_step Win true) (f_init n) sched = Some (c, tr) /\ In (FNoStore n (EReg t f)) tr /\ all_done (fbase c) /\ (forall u, ~ In (FE (ERun u f)) tr).
Proof.
  exists 1, [FStore (AAtExit 0 FNone); FDo (AExit 0)]. eexists. exists [FNoStore 1 (EReg 0 0); FE (EExit 0)], 0, 0. split; [vm_compute; reflexivity|]. split; [left; reflexivity|]. split.
  - intros [|[|?]] th E; cbn in E; inversion E; reflexivity.
  - intros u [E|[E|[]]]; discriminate.
Qed.
Print Assumptions C88_function_lost_refuted.

(** Each time a thread sets the same pointer, with every store failing, another context is left behind: any number. *)
Lemma leak_more pl os : kept pl os = true -> forall N c, nth_error (snd (fbase c)) 0 = Some (Th [] Running) -> slot (fst (fbase c)) 0 = None -> nth_error (tptrs (fst (fbase c))) 0 = Some (TP 0 (Some 7) true) ->
  exists c' tr, exec (f_step pl os) c (repeat (FStore (AReset 0 0 5 FNone)) N) = Some (c', tr) /\ fobjs c' = fobjs c + N.
Proof.
  intros Hk. induction N as [|N IH]; intros c H1 H2 H3; [exists c, []; split; [reflexivity|lia]|]. destruct c as [[s ths] orph ob lk]. cbn [fbase fst snd fobjs] in *. cbn [repeat exec f_step fbase forph fobjs fleak thread_of]. rewrite H1, Hk. cbn [user stk est creates fail_of].
  rewrite H2, H3. cbn [palive negb andb Nat.eqb].
  match goal with |- context [exec (f_step pl os) ?c0 _] => destruct (IH c0 H1 H2 H3) as (c' & tr & E & Eo) end. rewrite E. eexists c', _. split; [reflexivity|]. rewrite Eo. cbn [fobjs]. lia.
Qed.
Theorem C88_unbounded_leak_refuted : forall lim os N, exists sched c tr, exec (f_step (Posix lim) os) (f_init 1) sched = Some (c, tr) /\ length sched = S N /\ fobjs c = N /\ slot (fst (fbase c)) 0 = None.
Proof.
  intros lim os N. exists (FDo (ANew 0 (Some 7) true) :: repeat (FStore (AReset 0 0 5 FNone)) N).
  destruct (leak_more (Posix lim) os eq_refl N (FT (new_key (fst (tss_init 1)) (Some 7) true, snd (tss_init 1)) [] 0 0) eq_refl eq_refl eq_refl) as (c & tr & E & Eo).
  exists c, ([FE (ENew 0 0 (Some 7))] ++ tr). split; [change (match exec (f_step (Posix lim) os) (FT (new_key (fst (tss_init 1)) (Some 7) true, snd (tss_init 1)) [] 0 0) (repeat (FStore (AReset 0 0 5 FNone)) N) with None => None | Some (c2, e2) => Some (c2, [FE (ENew 0 0 (Some 7))] ++ e2) end = Some (c, [FE (ENew 0 0 (Some 7))] ++ tr)); rewrite E; reflexivity|].
  split; [cbn; rewrite repeat_length; reflexivity|]. split; [exact Eo|].
  assert (G : forall N c0 c1 tr1, exec (f_step (Posix lim) os) c0 (repeat (FStore (AReset 0 0 5 FNone)) N) = Some (c1, tr1) -> slot (fst (fbase c0)) 0 = None -> slot (fst (fbase c1)) 0 = None).
  { clear. induction N as [|N IH]; intros c0 c1 tr1 H Hs; cbn [repeat exec] in H; [inversion H; subst; exact Hs|].
    destruct (f_step (Posix lim) os c0 (FStore (AReset 0 0 5 FNone))) as [[c2 e2]|] eqn:E2; [|discriminate]. destruct (exec (f_step (Posix lim) os) c2 _) as [[c3 e3]|] eqn:E3; [|discriminate]. inversion H; subst. eapply IH; [exact E3|].
    unfold f_step in E2. destruct (fbase c0) as [s ths]. destruct (nth_error ths _); [|discriminate]. destruct (_ && _ && _ && _); [|discriminate]. inversion E2; subst. exact Hs. }
  eapply G; [exact E|reflexivity].
Qed.
Print Assumptions C88_unbounded_leak_refuted.

(** Locking m_mutex throws in create_thread_context: at_thread_exit() reports the error, but an object is never deleted, although no thread exists any more. *)
Theorem C88_lock_leak_refuted : exists n sched c tr, exec (f_step Win false) (f_init n) sched = Some (c, tr) /\ all_done (fbase c) /\ nstores sched = 0 /\ fobjs c = 1 /\ live (ctxs (fst (fbase c))) = 0.
Proof.
  exists 1, [FLock (AAtExit 0 FNone); FDo (AAtExit 0 FNone); FDo (AExit 0); FDo (AStep 0); FDo (AStep 0); FDo (ARet 0); FDo (AStep 0); FDo (AStep 0); FDo (AStep 0)]. eexists. eexists. split; [vm_compute; reflexivity|]. split.
  - intros [|[|?]] th E; cbn in E; inversion E; reflexivity.
  - repeat split.
Qed.
Print Assumptions C88_lock_leak_refuted.

(** A case for the positive theorems: one thread, one failed allocation, one failed store, one failed lock, then a successful registration; the stored function runs, the other does not; two objects are left. *)
Example C88_example : exists c tr, exec (f_step Win true) (f_init 2)
  [FDo (AAtExit 0 FCtx); FStore (AAtExit 0 FNone); FLock (ANotExit 0 3 FNone); FDo (AAtExit 0 FNone); FDo (AExit 0); FDo (AStep 0); FDo (AStep 0); FDo (ARet 0); FDo (AStep 0); FDo (AStep 0); FDo (AStep 0); FDo (AExit 1)] = Some (c, tr) /\
  tr = [FNoStore 2 (EReg 0 0); FE (EUnlk 0 3); FE (EReg 0 1); FE (EExit 0); FE (ERun 0 1); FE (EExit 1)] /\ all_done (fbase c) /\ fobjs c = 2.
Proof.
  eexists. eexists. split; [vm_compute; reflexivity|]. split; [reflexivity|]. split; [|reflexivity]. intros [|[|[|?]]] th E; cbn in E; inversion E; reflexivity.
Qed.
