(** C92, continued: the library's mutexes grant only compatible locks, in the sense of [LockThreads.mutexes_ok]; so that hypothesis of the theorems of
    PropsLockThreads.v holds for lock objects on them. *)
From Coq Require Import List Bool Arith ZArith Lia.
From Verif Require Import ListSum Exec Lin MutexSpec RwSpec EmuThrow PropsEmuThrow SpinModel SharedSpinModel EmuModel WinMutexModel KernModel PropsSpin PropsSharedSpin PropsEmu PropsWinMutex PropsKern
  LockModel LockThreads.
Import ListNotations.
Local Open Scope Z_scope.

(** What a thread is doing: nothing; a call that has not taken effect; one that has.  No counterpart in /repo. *)
Inductive status (Op Res : Type) := Idle | Called (o : Op) | Effective (o : Op) (r : Res).
Arguments Idle {Op Res}. Arguments Called {Op Res} o. Arguments Effective {Op Res} o r.
(** [l] lists the operations of the calls and returns [tr], each once, at an instant between its call and its return (operations that have not returned may be
    missing).  No counterpart in /repo. *)
Inductive orders {Op Res : Type} : (nat -> status Op Res) -> list (event Op Res) -> list (nat * Op * Res) -> Prop :=
| or_nil st : orders st [] []
| or_call st st' t o tr l : st t = Idle -> st' t = Called o -> (forall u, u <> t -> st' u = st u) -> orders st' tr l -> orders st (Call t o :: tr) l
| or_eff st st' t o r tr l : st t = Called o -> st' t = Effective o r -> (forall u, u <> t -> st' u = st u) -> orders st' tr l -> orders st tr ((t, o, r) :: l)
| or_ret st st' t o r tr l : st t = Effective o r -> st' t = Idle -> (forall u, u <> t -> st' u = st u) -> orders st' tr l -> orders st (Ret t o r :: tr) l.

(** The mutex functions as calls on mutex [m] made by lock objects; no counterpart in /repo. *)
Definition excl_call (m : nat) (x : nat * MutexSpec.mop * mres) : tev :=
  let '(t, o, r) := x in
  TE t false (EvCall m (match o with MutexSpec.MLock => LockModel.MLock KU | MTryLock => MTry KU | MutexSpec.MTimed => LockModel.MTimed KU | MutexSpec.MUnlock => LockModel.MUnlock KU end)
                       (match r with ROk | RTrue => OYes | RFalse => ONo | RThrow => OThrow end)).
(** The same with lock_shared() and so on; no counterpart in /repo. *)
Definition rw_call (m : nat) (x : nat * rop * rres) : tev :=
  let '(t, o, r) := x in
  TE t false (EvCall m (match o with RwSpec.XLock => LockModel.MLock KU | RwSpec.XTry => MTry KU | RwSpec.XUnlock => LockModel.MUnlock KU
                        | RwSpec.SLock => LockModel.MLock KS | RwSpec.STry => MTry KS | RwSpec.SUnlock => LockModel.MUnlock KS end)
                       (match r with QOk | QTrue => OYes | QFalse => ONo end)).

Section Eff.
  Variable S : spec.
  (** Proof device; no counterpart in /repo. *)
  Definition stat (ths : list (cth S)) (t : nat) : status (op S) (res S) :=
    match nth_error ths t with Some (CPend _ o) => Called o | Some (CDone _ o r) => Effective o r | _ => Idle end.
  Lemma stat_upd ths t x : (t < length ths)%nat -> stat (upd ths t x) t = match x with CPend _ o => Called o | CDone _ o r => Effective o r | CIdle _ => Idle end.
  Proof. intros H. unfold stat. destruct (nth_error ths t) as [a|] eqn:E; [rewrite (nth_upd_eq _ _ _ _ E); reflexivity|apply nth_error_None in E; lia]. Qed.
  Lemma stat_other ths t x u : u <> t -> stat (upd ths t x) u = stat ths u.
  Proof. intros H. unfold stat. rewrite nth_upd_neq by auto. reflexivity. Qed.
  (** Proof device: the abstract states passed through; no counterpart in /repo. *)
  Inductive passes : ost S -> list (nat * op S * res S) -> ost S -> Prop :=
  | ps_nil s : passes s [] s
  | ps_cons s t o r s1 l s2 : otrans S t o s r s1 -> passes s1 l s2 -> passes s ((t, o, r) :: l) s2.
  Lemma effects c tr c' : csteps S c tr c' -> exists l, orders (stat (snd c)) tr l /\ passes (fst c) l (fst c').
  Proof.
    induction 1 as [c|c e1 c1 e2 c2 H1 H2 (l & IHo & IHp)]; [exists []; split; constructor|].
    inversion H1 as [s ths t m o N P Q1 Q2 Q3|s ths t m o r s' N T Q1 Q2 Q3|s ths t m o r N Q1 Q2 Q3]; subst; cbn [fst snd app] in *;
      (assert (t < length ths)%nat as L by (apply nth_error_Some; congruence)).
    - exists l. split; [|exact IHp]. eapply or_call; [unfold stat; rewrite N; reflexivity| | |exact IHo]; [rewrite stat_upd by exact L; reflexivity|intros; apply stat_other; auto].
    - exists ((t, o, r) :: l). split; [|econstructor; eauto]. eapply or_eff; [unfold stat; rewrite N; reflexivity| | |exact IHo]; [rewrite stat_upd by exact L; reflexivity|intros; apply stat_other; auto].
    - exists l. split; [|exact IHp]. eapply or_ret; [unfold stat; rewrite N; reflexivity| | |exact IHo]; [rewrite stat_upd by exact L; reflexivity|intros; apply stat_other; auto].
  Qed.
  Lemma orders_ext (st st' : nat -> status (op S) (res S)) tr l : (forall t, st t = st' t) -> orders st tr l -> orders st' tr l.
  Proof.
    intros E H. destruct H as [st|st st1 t o tr l A B C D|st st1 t o r tr l A B C D|st st1 t o r tr l A B C D].
    - constructor.
    - eapply or_call; [rewrite <- E; exact A|exact B| |exact D]. intros u Hu. rewrite <- E. auto.
    - eapply or_eff; [rewrite <- E; exact A|exact B| |exact D]. intros u Hu. rewrite <- E. auto.
    - eapply or_ret; [rewrite <- E; exact A|exact B| |exact D]. intros u Hu. rewrite <- E. auto.
  Qed.
  Lemma lin_effects n tr : linearizable S n tr -> exists l s, orders (fun _ => Idle) tr l /\ passes (oinit S) l s.
  Proof.
    intros (c & H). destruct (effects _ _ _ H) as (l & O & P). exists l, (fst c). split; [|exact P]. eapply orders_ext; [|exact O].
    intros t. cbn. unfold stat. destruct (nth_error (repeat _ n) t) as [x|] eqn:E; [|reflexivity]. apply nth_error_In, repeat_spec in E. subst. reflexivity.
  Qed.
End Eff.

Lemma mutexes_ok_snoc h x : mutexes_ok h ->
  (forall t d m o out k from, x = TE t d (EvCall m o out) -> grants o out = Some (k, from) -> admits (fun k' => out_now h m k' - match from with Some k0 => one m k0 m k' | None => 0 end) k) ->
  mutexes_ok (h ++ [x]).
Proof.
  intros H X h1 t d m o out h2 k from E G. destruct h2 as [|y h2 _] using rev_ind.
  - apply app_inj_tail in E. destruct E as (-> & E). eapply X; eauto.
  - rewrite app_comm_cons, app_assoc in E. apply app_inj_tail in E. destruct E as (-> & _). eapply H; eauto.
Qed.
Lemma out_snoc h x m k : out_now (h ++ [x]) m k = out_now h m k + change (what x) m k.
Proof. unfold out_now. rewrite sumf_app. cbn [sumf]. lia. Qed.

(** A mutex without shared modes. *)
Lemma excl_ok thr m l s : passes (mutex_spec thr) None l s -> forall h, mutexes_ok h -> (forall k, out_now h m k = 0) -> mutexes_ok (h ++ map (excl_call m) l).
Proof.
  assert (forall s0, passes (mutex_spec thr) s0 l s -> forall h, mutexes_ok h -> out_now h m KU = match s0 with Some _ => 1 | None => 0 end -> out_now h m KS = 0 -> out_now h m KG = 0 ->
    mutexes_ok (h ++ map (excl_call m) l)) as G; [|intros H h A B; apply (G None H h A (B KU) (B KS) (B KG))].
  intros s0 H. induction H as [s0|s0 t o r s1 l s2 T H IH]; intros h A BU BS BG; cbn [map]; [rewrite app_nil_r; exact A|].
  change (excl_call m (t, o, r) :: map (excl_call m) l) with ([excl_call m (t, o, r)] ++ map (excl_call m) l). rewrite app_assoc. apply IH.
  - apply mutexes_ok_snoc; [exact A|]. intros t' d' m' o' out' k from E Gr. destruct T; injection E as <- <- <- <- <-; cbn in Gr; try discriminate; injection Gr as <- <-; cbn [admits]; lia.
  - rewrite out_snoc, BU. destruct T; cbn [what excl_call change grants drops one]; unfold one; rewrite ?Nat.eqb_refl; cbn; try lia; destruct s; lia.
  - rewrite out_snoc, BS. destruct T; cbn; unfold one; rewrite ?Nat.eqb_refl; cbn; lia.
  - rewrite out_snoc, BG. destruct T; cbn; unfold one; rewrite ?Nat.eqb_refl; cbn; lia.
Qed.
(** A readers-writer mutex. *)
Lemma rw_ok sp m l s : passes (rw_spec sp) (None, 0) l s -> forall h, mutexes_ok h -> (forall k, out_now h m k = 0) -> mutexes_ok (h ++ map (rw_call m) l).
Proof.
  assert (forall s0, passes (rw_spec sp) s0 l s -> forall h, mutexes_ok h -> out_now h m KU = match fst s0 with Some _ => 1 | None => 0 end -> out_now h m KS = snd s0 -> out_now h m KG = 0 ->
    mutexes_ok (h ++ map (rw_call m) l)) as G; [|intros H h A B; apply (G (None, 0) H h A (B KU) (B KS) (B KG))].
  intros s0 H. induction H as [s0|s0 t o r s1 l s2 T H IH]; intros h A BU BS BG; cbn [map]; [rewrite app_nil_r; exact A|].
  change (rw_call m (t, o, r) :: map (rw_call m) l) with ([rw_call m (t, o, r)] ++ map (rw_call m) l). rewrite app_assoc. apply IH.
  - apply mutexes_ok_snoc; [exact A|]. intros t' d' m' o' out' k from E Gr. destruct T; injection E as <- <- <- <- <-; cbn in Gr; try discriminate; injection Gr as <- <-; cbn [admits fst snd] in *; lia.
  - rewrite out_snoc, BU. destruct T; cbn [fst snd] in *; cbn; unfold one; rewrite ?Nat.eqb_refl; cbn; lia.
  - rewrite out_snoc, BS. destruct T; cbn [fst snd] in *; cbn; unfold one; rewrite ?Nat.eqb_refl; cbn; lia.
  - rewrite out_snoc, BG. destruct T; cbn; unfold one; rewrite ?Nat.eqb_refl; cbn; lia.
Qed.
Lemma nil_ok : mutexes_ok []. Proof. intros [|? ?] ? ? ? ? ? ? ? ? E; discriminate. Qed.
Lemma excl_lib thr n m tr : linearizable (mutex_spec thr) n tr -> exists l, orders (fun _ => Idle) tr l /\ mutexes_ok (map (excl_call m) l).
Proof. intros H. destruct (lin_effects _ _ _ H) as (l & s & O & P). exists l. split; [exact O|]. apply (excl_ok thr m l s P [] nil_ok). reflexivity. Qed.
Lemma rw_lib sp n m tr : linearizable (rw_spec sp) n tr -> exists l, orders (fun _ => Idle) tr l /\ mutexes_ok (map (rw_call m) l).
Proof. intros H. destruct (lin_effects _ _ _ H) as (l & s & O & P). exists l. split; [exact O|]. apply (rw_ok sp m l s P [] nil_ok). reflexivity. Qed.

(** Every execution of spin_mutex (both implementations), the emulated timed_mutex and the Windows mutex: the operations can be listed in an order that respects calls and
    returns and in which every lock granted was admissible. *)
Theorem C92_spin_mutex : forall n sched c tr m, exec ttas_step (spin_init n) sched = Some (c, tr) \/ exec tas_step (spin_init n) sched = Some (c, tr) ->
  exists l, orders (fun _ => Idle) tr l /\ mutexes_ok (map (excl_call m) l).
Proof. intros n sched c tr m [H|H]; eapply excl_lib; [eapply C01_ttas_atomic|eapply C01_tas_atomic]; eauto. Qed.
Print Assumptions C92_spin_mutex.
Theorem C92_shared_spin_mutex : forall n sched c tr m, exec rw_step (rw_init n) sched = Some (c, tr) ->
  exists l, orders (fun _ => Idle) tr l /\ mutexes_ok (map (rw_call m) l).
Proof. intros n sched c tr m H. eapply rw_lib, C04_atomic; eauto. Qed.
Print Assumptions C92_shared_spin_mutex.
Theorem C92_timed_mutex : forall n sched c tr m, exec tm_step (tm_init n) sched = Some (c, tr) ->
  exists l, orders (fun _ => Idle) tr l /\ mutexes_ok (map (excl_call m) l).
Proof. intros n sched c tr m H. eapply excl_lib, C18_atomic; eauto. Qed.
Print Assumptions C92_timed_mutex.
Theorem C92_windows_mutex : forall n sched c tr m, Z.of_nat n < 2 ^ 30 -> exec wm_step (wm_init n) sched = Some (c, tr) ->
  exists l, orders (fun _ => Idle) tr l /\ mutexes_ok (map (excl_call m) l).
Proof. intros n sched c tr m L H. eapply excl_lib, C19_atomic; eauto. Qed.
Print Assumptions C92_windows_mutex.
(** mutex and timed_mutex on pthread_mutex_t; [calm]: without the calls that threw. *)
Theorem C92_posix_mutex : forall wa env venv n sched c tr m, within env (x_env wa) ->
  exec (pmutex_step wa env venv) (k_init (mutex_spec false) n) sched = Some (c, tr) ->
  exists l, orders (fun _ => Idle) (calm tr) l /\ mutexes_ok (map (excl_call m) l).
Proof. intros wa env venv n sched c tr m W H. eapply excl_lib. exact (proj1 (proj2 (C74_posix_mutex _ _ _ _ _ _ _ W H))). Qed.
Print Assumptions C92_posix_mutex.

(** The calls on mutex [m]; no counterpart in /repo. *)
Definition on (m : nat) (h : history) : history := filter (fun x => match what x with EvCall m' _ _ => Nat.eqb m' m | _ => false end) h.
Lemma out_on h m k : out_now (on m h) m k = out_now h m k.
Proof.
  induction h as [|[t d e] h IH]; [reflexivity|]. unfold out_now, on in *. cbn [filter what sumf]. destruct e as [m' o out|m' k'|m' k']; [|cbn [change]; lia..].
  destruct (Nat.eqb_spec m' m) as [->|N]; cbn [sumf what]; [lia|]. rewrite IH.
  assert (change (EvCall m' o out) m k = 0) as Z0; [|lia]. apply Nat.eqb_neq in N. cbn [change]. unfold one. rewrite N. cbn [andb]. destruct (grants o out) as [[? [?|]]|], (drops o out); reflexivity.
Qed.
Lemma on_app m a b : on m (a ++ b) = on m a ++ on m b. Proof. apply filter_app. Qed.
(** A history is all right if it is so for each mutex by itself: mutexes of different kinds can be used together. *)
Theorem C92_each_mutex : forall h, (forall m, mutexes_ok (on m h)) <-> mutexes_ok h.
Proof.
  intros h. split.
  - intros A h1 t d m o out h2 k from E G. subst h. specialize (A m (on m h1) t d m o out (on m h2) k from). rewrite on_app in A.
    assert (on m (TE t d (EvCall m o out) :: h2) = TE t d (EvCall m o out) :: on m h2) as Q by (unfold on; cbn [filter what]; rewrite Nat.eqb_refl; reflexivity). rewrite Q in A.
    specialize (A eq_refl G). destruct from as [k0|], k; cbn [admits] in *; rewrite ?out_on in A; exact A.
  - intros A m. induction h as [|x h IH] using rev_ind; [exact nil_ok|]. rewrite on_app.
    assert (mutexes_ok h) as A1 by (intros h1 t d m' o out h2 k from ->; apply (A h1 t d m' o out (h2 ++ [x])); rewrite <- app_assoc; reflexivity). specialize (IH A1).
    destruct x as [t d e]. unfold on at 2. cbn [filter what]. destruct e as [m' o out|m' k'|m' k']; try (rewrite app_nil_r; exact IH).
    destruct (Nat.eqb_spec m' m) as [->|N]; [|rewrite app_nil_r; exact IH].
    apply mutexes_ok_snoc; [exact IH|]. intros t' d' m' o' out' k from E G. injection E as <- <- <- <- <-. specialize (A h t d m o out [] k from eq_refl G).
    destruct from as [k0|], k; cbn [admits] in *; rewrite ?out_on; exact A.
Qed.
Print Assumptions C92_each_mutex.

(** Two threads on a shared_spin_mutex: both get a shared lock, the third one's try_lock() fails.  Example; no counterpart in /repo. *)
Definition ex_rw : list (nat * rop * rres) := [(0%nat, RwSpec.SLock, QOk); (1%nat, RwSpec.STry, QTrue); (2%nat, RwSpec.XTry, QFalse); (0%nat, RwSpec.SUnlock, QOk)].
Example C92_mutex_example : mutexes_ok (map (rw_call 5) ex_rw) /\ out_now (map (rw_call 5) ex_rw) 5 KS = 1 /\
  orders (fun _ => Idle) [Call 0%nat RwSpec.SLock; Call 1%nat RwSpec.STry; Ret 1%nat RwSpec.STry QTrue; Ret 0%nat RwSpec.SLock QOk] (firstn 2 ex_rw) /\
  ~ mutexes_ok (map (rw_call 5) (ex_rw ++ [(2%nat, RwSpec.XLock, QOk)])).
Proof.
  split; [|split; [reflexivity|split]].
  - apply (rw_ok true 5 ex_rw (None, 1)) with (h := []); [|exact nil_ok|reflexivity].
    econstructor; [apply rt_slock; lia|]. econstructor; [apply rt_stry_t; lia|]. econstructor; [apply rt_xtry_f; right; lia|]. econstructor; [apply rt_sunlock; lia|]. constructor.
  - apply (or_call _ (fun t => match t with 0%nat => Called RwSpec.SLock | _ => Idle end)); [reflexivity|reflexivity|intros [|u]; intros; [lia|reflexivity]|].
    apply (or_call _ (fun t => match t with 0%nat => Called RwSpec.SLock | 1%nat => Called RwSpec.STry | _ => Idle end)); [reflexivity|reflexivity|intros [|[|u]]; intros; [reflexivity|lia|reflexivity]|].
    apply (or_eff _ (fun t => match t with 0%nat => Effective RwSpec.SLock QOk | 1%nat => Called RwSpec.STry | _ => Idle end)); [reflexivity|reflexivity|intros [|u]; intros; [lia|reflexivity]|].
    apply (or_eff _ (fun t => match t with 0%nat => Effective RwSpec.SLock QOk | 1%nat => Effective RwSpec.STry QTrue | _ => Idle end)); [reflexivity|reflexivity|intros [|[|u]]; intros; [reflexivity|lia|reflexivity]|].
    apply (or_ret _ (fun t => match t with 0%nat => Effective RwSpec.SLock QOk | _ => Idle end)); [reflexivity|reflexivity|intros [|[|u]]; intros; [reflexivity|lia|reflexivity]|].
    apply (or_ret _ (fun t => Idle)); [reflexivity|reflexivity|intros [|u]; intros; [lia|reflexivity]|]. constructor.
  - intros A. specialize (A (map (rw_call 5) ex_rw) 2%nat false 5%nat (LockModel.MLock KU) OYes [] KU None eq_refl eq_refl). cbn in A. lia.
Qed.
Print Assumptions C92_mutex_example.
