(** Proofs about ProcExit.v. *)
From Coq Require Import List Bool Arith ZArith Lia.
From Verif Require Import ListSum Exec TssModel TssProof TssOwn TssExit ProcExit.
Import ListNotations.
Local Open Scope Z_scope.

(** ** The contexts still to be destroyed *)
(** The calls for the values [l], kept under the keys from [k] on. *)
Fixpoint tls_calls (t0 : nat) (ks : list (option nat * bool)) (k : nat) (l : list nat) : list tev :=
  match l with
  | [] => []
  | v :: l' => (if (v =? 0)%nat then [] else match nth_error ks k with Some (Some cb, _) => [ECall t0 cb v] | _ => [] end) ++ tls_calls t0 ks (S k) l'
  end.
(** Everything thread [t0] does for one context. *)
Definition ctx_calls (t0 : nat) (ks : list (option nat * bool)) (c : ctx) : list tev :=
  map (ERun t0) (rev (atexit c)) ++ tls_calls t0 ks 0 (storage c) ++ map (ENotified t0) (notif c).
Definition all_calls (t0 : nat) (ks : list (option nat * bool)) (l : list (option ctx)) : list tev :=
  flat_map (fun o => match o with Some c => ctx_calls t0 ks c | None => [] end) l.
Definition cweight (o : option ctx) : Z :=
  match o with Some c => 6 + 3 * Z.of_nat (length (atexit c)) + 3 * Z.of_nat (length (storage c)) + Z.of_nat (length (notif c)) | None => 0 end.

Lemma cweight_nonneg o : 0 <= cweight o. Proof. destruct o; unfold cweight; lia. Qed.

Lemma front_split x0 l x : front_from x0 l = Some x -> exists pre c post, l = pre ++ Some c :: post /\ x = (x0 + length pre)%nat /\ (forall o, In o pre -> o = None).
Proof.
  revert x0. induction l as [|[c|] l IH]; intros x0 H; cbn in H; [discriminate| |].
  - inversion H; subst. exists [], c, l. repeat split; [cbn; lia|intros ? []].
  - destruct (IH _ H) as (pre & c & post & -> & -> & Hp). exists (None :: pre), c, post. repeat split; [cbn; lia|]. intros o [<-|Ho]; auto.
Qed.
Lemma front_back x0 pre c post : (forall o, In o pre -> o = None) -> front_from x0 (pre ++ Some c :: post) = Some (x0 + length pre)%nat.
Proof.
  revert x0. induction pre as [|o pre IH]; intros x0 Hp; cbn; [f_equal; lia|]. rewrite (Hp o (or_introl eq_refl)). rewrite IH by (intros; apply Hp; right; assumption). f_equal. lia.
Qed.
Lemma front_none x0 l : front_from x0 l = None -> forall o, In o l -> o = None.
Proof. revert x0. induction l as [|[c|] l IH]; intros x0 H o Ho; cbn in H; [destruct Ho|discriminate|]. destruct Ho as [<-|Ho]; eauto. Qed.
Lemma upd_split {A} (pre : list A) a post b : upd (pre ++ a :: post) (length pre) b = pre ++ b :: post.
Proof. induction pre as [|p pre IH]; cbn; [reflexivity|f_equal; exact IH]. Qed.
Lemma nth_split {A} (pre : list A) a post : nth_error (pre ++ a :: post) (length pre) = Some a.
Proof. induction pre as [|p pre IH]; cbn; [reflexivity|exact IH]. Qed.

Lemma front_ctx s x : front s = Some x -> exists c, ctx_of s x = Some c.
Proof. intros H. destruct (front_split _ _ _ H) as (pre & c & post & E & -> & _). exists c. unfold ctx_of. rewrite E. cbn [Nat.add]. rewrite nth_split. reflexivity. Qed.

Lemma calls_none t0 ks pre : (forall o : option ctx, In o pre -> o = None) -> all_calls t0 ks pre = [].
Proof. induction pre as [|o pre IH]; intros H; [reflexivity|]. cbn. rewrite (H o (or_introl eq_refl)). apply IH. intros; apply H; right; assumption. Qed.
Lemma calls_front t0 s x c : front s = Some x -> ctx_of s x = Some c ->
  all_calls t0 (keys s) (ctxs s) = ctx_calls t0 (keys s) c ++ all_calls t0 (keys s) (upd (ctxs s) x None) /\
  (forall c', all_calls t0 (keys s) (upd (ctxs s) x (Some c')) = ctx_calls t0 (keys s) c' ++ all_calls t0 (keys s) (upd (ctxs s) x None)) /\
  (forall c', front (set_ctx s x (Some c')) = Some x) /\
  sumf cweight (ctxs s) = cweight (Some c) + sumf cweight (upd (ctxs s) x None) /\
  (forall c', sumf cweight (upd (ctxs s) x (Some c')) = cweight (Some c') + sumf cweight (upd (ctxs s) x None)).
Proof.
  intros H Hc. destruct (front_split _ _ _ H) as (pre & d & post & E & Ex & Hp). cbn [Nat.add] in Ex. subst x. unfold ctx_of in Hc. rewrite E, nth_split in Hc. inversion Hc; subst d.
  assert (C : forall o, all_calls t0 (keys s) (pre ++ o :: post) = match o with Some d => ctx_calls t0 (keys s) d | None => [] end ++ all_calls t0 (keys s) post).
  { intros o. unfold all_calls. rewrite flat_map_app. fold (all_calls t0 (keys s) pre). rewrite (calls_none _ _ _ Hp). reflexivity. }
  rewrite E. split; [rewrite upd_split, !C; reflexivity|]. split; [intros c'; rewrite !upd_split, !C; reflexivity|].
  split; [intros c'; unfold front, set_ctx; cbn [ctxs]; rewrite E, upd_split; apply (front_back 0 pre c' post Hp)|].
  split; [|intros c']; rewrite !upd_split, !sumf_app; cbn [sumf cweight]; lia.
Qed.

(** ** Functions that do not call the library *)
Definition quiet (a : pact) : Prop := match a with PStep | PRet => True | _ => False end.

Definition left_calls (t0 : nat) (q : pst) : list tev :=
  let s := psh q in
  match pph q with
  | PWalk => all_calls t0 (keys s) (ctxs s)
  | PAt x fs => map (ERun t0) fs ++ all_calls t0 (keys s) (ctxs s)
  | PTls x k st => tls_calls t0 (keys s) k (skipn k st) ++ all_calls t0 (keys s) (ctxs s)
  | PNot x ms => map (ENotified t0) ms ++ all_calls t0 (keys s) (upd (ctxs s) x None)
  | PEnd => []
  end.
Definition left_steps (q : pst) : Z :=
  let s := psh q in
  Z.of_nat (length (pstk q)) +
  match pph q with
  | PWalk => sumf cweight (ctxs s) + 1
  | PAt x fs => 2 * Z.of_nat (length fs) + sumf cweight (ctxs s)
  | PTls x k st => 2 * Z.of_nat (length (skipn k st)) + sumf cweight (ctxs s) - 1
  | PNot x ms => Z.of_nat (length ms) + 2 + sumf cweight (upd (ctxs s) x None)
  | PEnd => 0
  end.
Definition QI (q : pst) : Prop :=
  crashed q = false /\ (pstk q = [] \/ pstk q = [FUser] /\ pph q <> PEnd) /\
  match pph q with
  | PWalk | PEnd => True
  | PAt x _ => front (psh q) = Some x
  | PTls x _ _ => front (psh q) = Some x /\ at_of (psh q) x = []
  | PNot x _ => front (psh q) = Some x
  end.

Lemma quiet_step ctls t0 q a q' e : QI q -> quiet a -> pe_step ctls t0 q a = Some (q', e) ->
  QI q' /\ left_calls t0 q = e ++ left_calls t0 q' /\ left_steps q' < left_steps q.
Proof.
  intros (Hc & Hs & Hp) Ha H. unfold pe_step in H. rewrite Hc in H. destruct a; try contradiction.
  - unfold pe_run in H. destruct Hs as [Hs|(Hs & _)]; rewrite Hs in H; [|discriminate]. unfold left_calls, left_steps. rewrite Hs. destruct (pph q) as [|x fs|x k st|x ms|] eqn:Ep.
    + destruct (front (psh q)) as [x|] eqn:Ef; inversion H; subst; clear H; cbn [psh pstk pph crashed length].
      * split; [split; [reflexivity|split; [left; reflexivity|exact Ef]]|]. split; [reflexivity|]. cbn. lia.
      * split; [split; [reflexivity|split; [left; reflexivity|exact I]]|]. split; [rewrite calls_none by (apply (front_none _ _ Ef)); reflexivity|].
        assert (0 <= sumf cweight (ctxs (psh q))) by (apply sumf_nonneg; apply cweight_nonneg). lia.
    + destruct fs as [|f fs].
      * destruct (front_ctx _ _ Hp) as (c & Hx). rewrite Hx in H. destruct (calls_front t0 _ _ _ Hp Hx) as (E1 & E2 & E3 & E4 & E5). destruct (atexit c) as [|g l] eqn:Ea; inversion H; subst; clear H; cbn [psh pstk pph crashed length].
        -- split; [split; [reflexivity|split; [left; reflexivity|split; [exact Hp|unfold at_of; cbn [psh]; rewrite Hx; exact Ea]]]|]. split; [reflexivity|]. cbn. lia.
        -- split; [split; [reflexivity|split; [left; reflexivity|apply E3]]|]. unfold set_ctx. cbn [keys ctxs psh]. rewrite E1, E2, E4, E5. unfold ctx_calls. cbn [atexit storage notif cweight]. rewrite Ea. rewrite ?app_length, rev_length. cbn [length]. split; [|lia].
           cbn [rev map app]. rewrite <- !app_assoc. reflexivity.
      * inversion H; subst; clear H; cbn [psh pstk pph crashed length]. split; [split; [reflexivity|split; [right; split; [reflexivity|discriminate]|exact Hp]]|]. split; [reflexivity|]. lia.
    + destruct Hp as (Hf & Hat). destruct (front_ctx _ _ Hf) as (c & Hx). unfold at_of in Hat. rewrite Hx in Hat.
      destruct (nth_error st k) as [v|] eqn:En.
      * rewrite (skipn_nth _ _ _ En). cbn [tls_calls length].
        destruct v as [|v]; [inversion H; subst; clear H; cbn [psh pstk pph crashed length]; split; [split; [reflexivity|split; [left; reflexivity|split; [exact Hf|unfold at_of; cbn [psh]; rewrite Hx; exact Hat]]]|split; [reflexivity|lia]]|].
        cbn [Nat.eqb]. destruct (nth_error (keys (psh q)) k) as [[[cb|] fl]|] eqn:Ek; inversion H; subst; clear H; cbn [psh pstk pph crashed length];
          (split; [split; [reflexivity|split; [first [left; reflexivity|right; split; [reflexivity|discriminate]]|split; [exact Hf|unfold at_of; cbn [psh]; rewrite Hx; exact Hat]]]|]); (split; [rewrite ?Ek; reflexivity|lia]).
      * rewrite skipn_all2 by (apply nth_error_None; exact En). rewrite Hx in H. destruct (calls_front t0 _ _ _ Hf Hx) as (E1 & E2 & E3 & E4 & E5). destruct (storage c) as [|w l] eqn:Est; inversion H; subst; clear H; cbn [psh pstk pph crashed length].
        -- split; [split; [reflexivity|split; [left; reflexivity|exact Hf]]|]. rewrite E1, E4. unfold ctx_calls. cbn [cweight]. rewrite Hat, Est. cbn [rev map app tls_calls length]. split; [reflexivity|lia].
        -- split; [split; [reflexivity|split; [left; reflexivity|split; [apply E3|]]]|]. { unfold at_of. cbn [psh]. erewrite ctx_set by exact Hx. rewrite Nat.eqb_refl. cbn [atexit]. exact Hat. }
           unfold set_ctx. cbn [keys ctxs psh skipn]. rewrite E1, E2, E4, E5. unfold ctx_calls. cbn [atexit storage notif cweight]. rewrite Hat, Est. cbn [rev map app length]. split; [|lia]. rewrite <- !app_assoc. reflexivity.
    + destruct ms as [|m ms]; inversion H; subst; clear H; cbn [psh pstk pph crashed length].
      * split; [split; [reflexivity|split; [left; reflexivity|exact I]]|]. unfold set_ctx. cbn [keys ctxs]. split; [reflexivity|lia].
      * split; [split; [reflexivity|split; [left; reflexivity|exact Hp]]|]. split; [reflexivity|lia].
    + discriminate.
  - unfold puser, pe_user in H. destruct Hs as [Hs|(Hs & Hn)]; rewrite Hs in H; [destruct (pph q); discriminate|]. inversion H; subst; clear H. unfold left_calls, left_steps. cbn [psh pstk pph crashed length]. rewrite Hs. cbn [length].
    split; [split; [reflexivity|split; [left; reflexivity|exact Hp]]|]. split; [reflexivity|lia].
Qed.

Lemma left_nonneg q : QI q -> 0 <= left_steps q.
Proof.
  intros (_ & _ & Hp). unfold left_steps. assert (N : forall l, 0 <= sumf cweight l) by (intros; apply sumf_nonneg; apply cweight_nonneg). destruct (pph q) as [| |x k st|x ms|] eqn:E; pose proof (N (ctxs (psh q))); try lia; [|pose proof (N (upd (ctxs (psh q)) x None)); lia].
  destruct Hp as (Hf & _). destruct (front_ctx _ _ Hf) as (c & Hx). destruct (calls_front 0%nat _ _ _ Hf Hx) as (_ & _ & _ & E4 & _). rewrite E4. pose proof (N (upd (ctxs (psh q)) x None)). cbn [cweight]. lia.
Qed.

Lemma quiet_run ctls t0 q sched q' tr : QI q -> Forall quiet sched -> exec (pe_step ctls t0) q sched = Some (q', tr) ->
  QI q' /\ left_calls t0 q = tr ++ left_calls t0 q' /\ Z.of_nat (length sched) + left_steps q' <= left_steps q.
Proof.
  revert q tr. induction sched as [|a sched IH]; intros q tr HQ Hs H; cbn [exec] in H.
  - inversion H; subst. split; [exact HQ|]. split; [reflexivity|cbn; lia].
  - inversion Hs; subst. destruct (pe_step ctls t0 q a) as [[q1 e1]|] eqn:E1; [|discriminate]. destruct (exec (pe_step ctls t0) q1 sched) as [[q2 e2]|] eqn:E2; [|discriminate]. inversion H; subst; clear H.
    destruct (quiet_step _ _ _ _ _ _ HQ H2 E1) as (HQ1 & L1 & D1). destruct (IH _ _ HQ1 H3 E2) as (HQ2 & L2 & D2). split; [exact HQ2|]. split; [rewrite L1, L2, app_assoc; reflexivity|]. cbn [length]. lia.
Qed.

(** Until on_process_exit returns there is always a next step. *)
Lemma quiet_next ctls t0 q : QI q -> pph q <> PEnd -> exists a q' e, quiet a /\ pe_step ctls t0 q a = Some (q', e).
Proof.
  intros (Hc & Hs & Hp) Hn. destruct Hs as [Hs|(Hs & _)].
  - exists PStep. unfold pe_step, pe_run. rewrite Hc, Hs. destruct (pph q) as [|x fs|x k st|x ms|]; [destruct (front (psh q)); eexists _, _; split; [exact I|reflexivity|exact I|reflexivity]| | | |contradiction].
    + destruct fs; [|eexists _, _; split; [exact I|reflexivity]]. destruct (front_ctx _ _ Hp) as (c & Hx). rewrite Hx. destruct (atexit c); eexists _, _; split; [exact I|reflexivity|exact I|reflexivity].
    + destruct (nth_error st k) as [[|v]|]; [eexists _, _; split; [exact I|reflexivity]|destruct (nth_error (keys (psh q)) k) as [[[cb|] fl]|]; eexists _, _; (split; [exact I|reflexivity])|].
      destruct Hp as (Hf & _). destruct (front_ctx _ _ Hf) as (c & Hx). rewrite Hx. destruct (storage c); eexists _, _; (split; [exact I|reflexivity]).
    + destruct ms; eexists _, _; (split; [exact I|reflexivity]).
  - exists PRet. unfold pe_step, puser, pe_user. rewrite Hc, Hs. eexists _, _. split; [exact I|reflexivity].
Qed.

(** ** Functions that may call the library *)
Definition pw (f : nat) (q : pst) : Z := sumf (wat f) (ctxs (psh q)) + match pph q with PAt _ fs => cnt f fs | _ => 0 end.
Definition past (ph : pphase) : option nat := match ph with PTls x _ _ | PNot x _ => Some x | _ => None end.
Definition here (ph : pphase) : option nat := match ph with PAt x _ | PTls x _ _ | PNot x _ => Some x | _ => None end.

Definition BI (N0 : nat) (w0 : nat -> Z) (q : pst) (tr : list tev) : Prop :=
  (N0 <= nreg (psh q))%nat /\
  (forall f, (f < N0)%nat -> nruns f tr + pw f q = w0 f) /\
  (forall x, here (pph q) = Some x -> exists c, ctx_of (psh q) x = Some c) /\
  (forall x c f, past (pph q) = Some x -> ctx_of (psh q) x = Some c -> In f (atexit c) -> (N0 <= f)%nat) /\
  (pph q = PEnd -> forall o, In o (ctxs (psh q)) -> o = None).

Lemma pw_ctx f s x c o st ph b : ctx_of s x = Some c -> pw f (PS (set_ctx s x o) st ph b) = pw f (PS s st ph b) - cnt f (atexit c) + wat f o.
Proof.
  intros H. unfold pw. cbn [psh pph]. unfold set_ctx. cbn [ctxs]. apply ctx_list_spec in H. rewrite (sumf_upd (wat f) _ _ _ o H). cbn [wat]. lia.
Qed.

(** A user call that changes only one context, and its functions only by adding new ones. *)
Lemma BI_ctx N0 w0 q tr e x c c' s' st : BI N0 w0 q tr -> ctx_of (psh q) x = Some c -> ctxs s' = upd (ctxs (psh q)) x (Some c') -> (nreg (psh q) <= nreg s')%nat ->
  (atexit c' = atexit c \/ atexit c' = atexit c ++ [nreg (psh q)]) -> (forall f, nruns f e = 0) -> BI N0 w0 (PS s' st (pph q) false) (tr ++ e).
Proof.
  intros (B1 & B2 & B3 & B4 & B5) Hx Hs Hn Ha He.
  assert (Hx' : forall y, ctx_of s' y = if (y =? x)%nat then Some c' else ctx_of (psh q) y).
  { intros y. pose proof (ctx_set (psh q) x c (Some c') y Hx) as E. unfold ctx_of, set_ctx in E. cbn [ctxs] in E. unfold ctx_of. rewrite Hs. exact E. }
  split; [cbn [psh]; lia|]. split.
  { intros f Hf. rewrite nruns_app, He. rewrite <- (B2 f Hf). unfold pw. cbn [psh pph]. rewrite Hs. pose proof Hx as Hy. apply ctx_list_spec in Hy. rewrite (sumf_upd (wat f) _ _ _ (Some c') Hy). cbn [wat].
    assert (E : cnt f (atexit c') = cnt f (atexit c)); [|lia]. destruct Ha as [->| ->]; [reflexivity|]. rewrite cnt_app. rewrite (cnt_out f [nreg (psh q)]); [lia|]. intros [E|[]]. lia. }
  cbn [psh pph]. split; [|split].
  - intros y Hy. rewrite Hx'. destruct (y =? x)%nat; [eauto|]. apply B3. exact Hy.
  - intros y d f Hy. rewrite Hx'. destruct (Nat.eqb_spec y x) as [->|]; [|apply B4; exact Hy]. intros E Hi. inversion E; subst d. destruct Ha as [G|G]; rewrite G in Hi; [eapply B4; eauto|]. apply in_app_or in Hi. destruct Hi as [Hi|[<-|[]]]; [eapply B4; eauto|exact B1].
  - intros He2 o Ho. specialize (B5 He2). exfalso. apply ctx_list_spec in Hx. apply nth_error_In in Hx. specialize (B5 _ Hx). discriminate.
Qed.

Lemma BI_same N0 w0 q tr e st b : BI N0 w0 q tr -> (forall f, nruns f e = 0) -> BI N0 w0 (PS (psh q) st (pph q) b) (tr ++ e).
Proof. intros (B1 & B2 & B3 & B4 & B5) He. split; [exact B1|]. split; [intros f Hf; rewrite nruns_app, He, <- (B2 f Hf); unfold pw; cbn [psh pph]; lia|]. split; [exact B3|]. split; [exact B4|exact B5]. Qed.

Lemma set_value_live s t0 x c k v : slot s t0 = Some x -> ctx_of s x = Some c -> set_value s t0 k v = set_ctx s x (Some (X (xown c) (setv (storage c) k v) (atexit c) (notif c))).
Proof. intros E1 E2. unfold set_value, ensure. rewrite E1, E2. reflexivity. Qed.
Lemma access_live s t0 x c : access_of s t0 = ALive x c -> slot s t0 = Some x /\ ctx_of s x = Some c.
Proof. unfold access_of. destruct (slot s t0) as [y|]; [|discriminate]. destruct (ctx_of s y) as [d|] eqn:E; [|discriminate]. intros H; inversion H; subst. auto. Qed.

Lemma BI_keep N0 w0 q tr e : BI N0 w0 q tr -> (forall f, nruns f e = 0) -> BI N0 w0 q (tr ++ e).
Proof. intros B He. destruct q as [s st ph b]. exact (BI_same _ _ _ _ _ st b B He). Qed.

Lemma BI_user t0 N0 w0 q a q' e tr : BI N0 w0 q tr -> pe_user t0 q a = Some (q', e) -> BI N0 w0 q' (tr ++ e).
Proof.
  intros B H.
  assert (HCr : crash q = Some (q', e) -> BI N0 w0 q' (tr ++ e)) by (unfold crash; intros G; inversion G; subst; apply BI_same; [exact B|intros; reflexivity]).
  assert (HK : forall st e0, (forall f, nruns f e0 = 0) -> Some (PS (psh q) st (pph q) false, e0) = Some (q', e) -> BI N0 w0 q' (tr ++ e)) by (intros st e0 He G; inversion G; subst; apply BI_same; assumption).
  assert (HI : forall e0, (forall f, nruns f e0 = 0) -> Some (q, e0) = Some (q', e) -> BI N0 w0 q' (tr ++ e)) by (intros e0 He G; inversion G; subst; apply BI_keep; assumption).
  assert (HS : forall x c k v st e0, slot (psh q) t0 = Some x -> ctx_of (psh q) x = Some c -> (forall f, nruns f e0 = 0) -> Some (PS (set_value (psh q) t0 k v) st (pph q) false, e0) = Some (q', e) -> BI N0 w0 q' (tr ++ e)).
  { intros x c k v st e0 Hs Hx He G. inversion G; subst. eapply BI_ctx; [exact B|exact Hx| | | |exact He]; rewrite ?(set_value_live _ _ _ _ k v Hs Hx); unfold set_ctx; cbn [ctxs nreg]; [reflexivity|lia|left; reflexivity]. }
  unfold pe_user in H. destruct a as [| |cb fl|p|p|p|p v| |m| |].
  - discriminate.
  - destruct (pstk q) as [|[|] r]; try discriminate. revert H. apply HK. reflexivity.
  - apply HCr. exact H.
  - destruct (nth_error (tptrs (psh q)) p) as [o|]; [|discriminate]. destruct (palive o); [|discriminate]. apply HCr. exact H.
  - destruct (nth_error (tptrs (psh q)) p) as [o|]; [|discriminate]. destruct (palive o); [|discriminate]. destruct (access_of (psh q) t0); [revert H; apply HI; reflexivity|revert H; apply HI; reflexivity|apply HCr; exact H].
  - destruct (nth_error (tptrs (psh q)) p) as [o|]; [|discriminate]. destruct (palive o); [|discriminate]. destruct (access_of (psh q) t0) as [|x c|] eqn:Ea; [revert H; apply HI; reflexivity| |apply HCr; exact H].
    apply access_live in Ea. destruct Ea as (E1 & E2). destruct (_ =? 0)%nat; [revert H; apply HI; reflexivity|]. revert H. eapply HS; eauto.
  - destruct (nth_error (tptrs (psh q)) p) as [o|]; [|discriminate]. destruct (palive o); [|discriminate]. destruct (access_of (psh q) t0) as [|x c|] eqn:Ea; [destruct (v =? 0)%nat; [revert H; apply HI; reflexivity|apply HCr; exact H]| |apply HCr; exact H].
    apply access_live in Ea. destruct Ea as (E1 & E2). destruct (_ =? v)%nat; [revert H; apply HI; reflexivity|]. revert H. eapply HS; eauto.
  - destruct (access_of (psh q) t0) as [|x c|] eqn:Ea; [apply HCr; exact H| |apply HCr; exact H]. apply access_live in Ea. destruct Ea as (E1 & E2). inversion H; subst; clear H.
    eapply BI_ctx; [exact B|exact E2|reflexivity|cbn [nreg]; lia|right; reflexivity|intros; reflexivity].
  - destruct (access_of (psh q) t0) as [|x c|] eqn:Ea; [apply HCr; exact H| |apply HCr; exact H]. apply access_live in Ea. destruct Ea as (E1 & E2). inversion H; subst; clear H.
    eapply BI_ctx; [exact B|exact E2|reflexivity|cbn [nreg set_ctx]; lia|left; reflexivity|intros; reflexivity].
  - destruct (pstk q); [|discriminate]. destruct (pph q); try discriminate. destruct (access_of (psh q) t0); [revert H; apply HI; reflexivity|apply HCr; exact H|apply HCr; exact H].
  - destruct (pstk q); [|discriminate]. destruct (pph q) eqn:Ep; try discriminate. revert H. cbn [free_index]. apply HK. reflexivity.
Qed.

Lemma BI_step ctls t0 N0 w0 q a q' e tr : BI N0 w0 q tr -> pe_step ctls t0 q a = Some (q', e) -> BI N0 w0 q' (tr ++ e).
Proof.
  intros B H. unfold pe_step in H. destruct (crashed q) eqn:Ec; [discriminate|].
  assert (HU : (if puser q then pe_user t0 q a else None) = Some (q', e) -> BI N0 w0 q' (tr ++ e)) by (destruct (puser q); [apply BI_user; exact B|discriminate]).
  destruct a; try (apply HU; exact H). clear HU. unfold pe_run in H.
  assert (HK : forall st e0, (forall f, nruns f e0 = 0) -> Some (PS (psh q) st (pph q) false, e0) = Some (q', e) -> BI N0 w0 q' (tr ++ e)) by (intros st e0 He G; inversion G; subst; apply BI_same; assumption).
  destruct (pstk q) as [|[|cb [|v vs]] r]; [|discriminate|revert H; apply HK; reflexivity|revert H; apply HK; reflexivity]. clear HK. destruct B as (B1 & B2 & B3 & B4 & B5).
  unfold pw in B2. destruct (pph q) as [|x fs|x k st|x ms|] eqn:Ep.
  - destruct (front (psh q)) as [x|] eqn:Ef; inversion H; subst; clear H.
    + destruct (front_ctx _ _ Ef) as (c & Hx). split; [exact B1|]. split; [intros f Hf; rewrite app_nil_r; unfold pw; cbn [psh pph]; cbn [cnt sumf]; rewrite <- (B2 f Hf); cbn; lia|]. cbn [psh pph here past]. split; [intros y E; inversion E; subst; eauto|]. split; [discriminate|discriminate].
    + assert (Ex : ctxs (free_index ctls (psh q)) = ctxs (psh q) /\ nreg (free_index ctls (psh q)) = nreg (psh q)) by (destruct ctls; split; reflexivity). destruct Ex as (Ex & En).
      split; [cbn [psh]; rewrite En; exact B1|]. split; [intros f Hf; rewrite app_nil_r; unfold pw; cbn [psh pph]; rewrite Ex; exact (B2 f Hf)|]. cbn [psh pph here past]. split; [discriminate|]. split; [discriminate|]. intros _. rewrite Ex. apply (front_none _ _ Ef).
  - destruct fs as [|f0 fs].
    + destruct (B3 x eq_refl) as (c & Hx). rewrite Hx in H. destruct (atexit c) as [|g l] eqn:Ea; inversion H; subst; clear H.
      * split; [exact B1|]. split; [intros f Hf; rewrite app_nil_r; exact (B2 f Hf)|]. cbn [psh pph here past]. split; [intros y E; inversion E; subst; eauto|]. split; [|discriminate]. intros y d f E Hd Hi. inversion E; subst. assert (d = c) by congruence. subst. rewrite Ea in Hi. destruct Hi.
      * split; [exact B1|]. split.
        { intros f Hf. rewrite app_nil_r. rewrite (pw_ctx f _ _ _ _ _ _ _ Hx). unfold pw. cbn [psh pph wat atexit]. change (rev l ++ [g]) with (rev (g :: l)). rewrite cnt_rev, Ea. specialize (B2 f Hf). change (cnt f []) with 0 in *. lia. }
        cbn [psh pph here past]. split; [|split; [discriminate|discriminate]]. intros y E. inversion E; subst. rewrite (ctx_set _ _ _ _ _ Hx), Nat.eqb_refl. eauto.
    + inversion H; subst; clear H. split; [exact B1|]. split; [|cbn [psh pph here past]; split; [exact B3|split; [discriminate|discriminate]]].
      intros f Hf. rewrite nruns_app. specialize (B2 f Hf). unfold pw. cbn [psh pph]. unfold nruns at 2. cbn [sumf]. unfold cnt in *. cbn [sumf] in B2. lia.
  - destruct (nth_error st k) as [v|] eqn:En.
    + assert (HK : forall st' e0, (forall f, nruns f e0 = 0) -> Some (PS (psh q) st' (PTls x (S k) st) false, e0) = Some (q', e) -> BI N0 w0 q' (tr ++ e)).
      { intros st' e0 He G. inversion G; subst. split; [exact B1|]. split; [intros f Hf; rewrite nruns_app, He, <- (B2 f Hf); unfold pw; cbn [psh pph]; lia|]. cbn [psh pph here past]. split; [exact B3|]. split; [exact B4|discriminate]. }
      destruct v as [|v]; [revert H; apply HK; reflexivity|]. destruct (nth_error (keys (psh q)) k) as [[[cb|] fl]|]; revert H; apply HK; reflexivity.
    + destruct (B3 x eq_refl) as (c & Hx). rewrite Hx in H. destruct (storage c) as [|w l] eqn:Ea; inversion H; subst; clear H.
      * split; [exact B1|]. split; [intros f Hf; rewrite app_nil_r; exact (B2 f Hf)|]. cbn [psh pph here past]. split; [exact B3|]. split; [exact B4|discriminate].
      * split; [exact B1|]. split; [intros f Hf; rewrite app_nil_r; rewrite (pw_ctx f _ _ _ _ _ _ _ Hx); unfold pw; cbn [psh pph wat atexit]; specialize (B2 f Hf); lia|].
        cbn [psh pph here past]. split; [intros y E; inversion E; subst; rewrite (ctx_set _ _ _ _ _ Hx), Nat.eqb_refl; eauto|]. split; [|discriminate]. intros y d f E. inversion E; subst. rewrite (ctx_set _ _ _ _ _ Hx), Nat.eqb_refl. intros G Hi. inversion G; subst. eapply B4; eauto.
  - destruct ms as [|m ms]; inversion H; subst; clear H.
    + destruct (B3 x eq_refl) as (c & Hx). split; [exact B1|]. split; [|cbn [psh pph here past]; split; [discriminate|split; discriminate]].
      intros f Hf. rewrite app_nil_r. rewrite (pw_ctx f _ _ _ _ _ _ _ Hx). unfold pw. cbn [psh pph wat]. specialize (B2 f Hf). rewrite (cnt_out f (atexit c)); [lia|]. intros Hi. specialize (B4 x c f eq_refl Hx Hi). lia.
    + split; [exact B1|]. split; [intros f Hf; rewrite nruns_app, <- (B2 f Hf); unfold pw; cbn [psh pph]; cbn; lia|]. cbn [psh pph here past]. split; [exact B3|]. split; [exact B4|discriminate].
  - discriminate.
Qed.

Lemma pe_account ctls t0 s sched q tr : exec (pe_step ctls t0) (pe_start s) sched = Some (q, tr) -> BI (nreg s) (fun f => sumf (wat f) (ctxs s)) q tr.
Proof.
  apply (exec_inv (pe_step ctls t0) (BI (nreg s) (fun f => sumf (wat f) (ctxs s)))).
  - split; [cbn; lia|]. split; [intros f _; unfold pw; cbn; lia|]. cbn. split; [discriminate|]. split; discriminate.
  - intros q1 t1 a q2 e B H. eapply BI_step; eauto.
Qed.
