(** C78: waitable timers when modules are loaded and unloaded.  C79: modules compiled against different versions of Boost.
    The model is ModModel; /repo/include/boost/sync/detail/waitable_timer.hpp. *)
From Coq Require Import List Bool Arith ZArith Lia Permutation.
From Verif Require Import ListSum Exec Events OnceModel OnceProof OnceKey OnceCtx ModModel ModProof ModKey.
Import ListNotations.
Local Open Scope Z_scope.

(** ** A module that is not loaded has no state *)
(** Proof or specification device; no counterpart in /repo. *)
Definition XU (s : xst) : Prop := forall m y x, nth_error (xml s) m = Some y -> mloaded y = false -> nth_error (mods (fst (xb s))) m = Some x -> x = MS 0 0 false.
Lemma inside_pcmod m pc : inside m pc = true -> pcmod pc = Some m.
Proof. destruct pc; cbn; try discriminate; intros H; apply Nat.eqb_eq in H; congruence. Qed.
Lemma XU_base s tr a b' e : XG s tr -> XU s -> once_step (xb s) a = Some (b', e) -> forall m y x, nth_error (xml s) m = Some y -> mloaded y = false -> nth_error (mods (fst b')) m = Some x -> x = MS 0 0 false.
Proof.
  intros (_ & _ & _ & _ & _ & G6 & _) HU Ho m y x Hy Hd Hx. destruct s as [[p ths] l cr]. destruct b' as [p' ths']. cbn [xb xml fst snd] in *. pose proof (once_effects _ _ _ _ _ Ho) as He. cbn [fst snd] in He.
  assert (Keep : mods p' = mods p -> x = MS 0 0 false) by (intros E; eapply HU; cbn [xb xml fst]; [exact Hy|exact Hd|congruence]).
  assert (Upd : forall t pc j w, nth_error ths t = Some pc -> pcmod pc = Some j -> mods p' = upd (mods p) j w -> x = MS 0 0 false).
  { intros t pc j w Ht Hp E. destruct (G6 _ _ _ Ht Hp) as (y' & Y1 & Y2). eapply HU; cbn [xb xml fst]; [exact Hy|exact Hd|]. rewrite E, nth_upd_neq in Hx; [exact Hx|]. intros ->. congruence. }
  destruct He as [t pc pc' p' e Ht Em Hin Hpast Hev Hdn Hu|c w Hc|t j w pc Ht Hpc Hm Hi|t j w Ht Hm Hi|t j w pc pc' p' key h Ht Hpin Hin Hpast Hm Em|t j w Ht Hm|t j w Ht Hm]; auto.
  - eapply Upd; [exact Ht|reflexivity|reflexivity].
  - eapply Upd; [exact Ht|apply inside_pcmod; exact Hpin|exact Em].
  - eapply Upd; [exact Ht|reflexivity|reflexivity].
  - eapply Upd; [exact Ht|reflexivity|reflexivity].
Qed.
Lemma XU_step vs s tr a s' e : XG s tr -> XU s -> xstep vs s a = Some (s', e) -> XU s'.
Proof.
  intros HG HU Hs. pose proof (x_effects _ _ _ _ _ Hs) as He. destruct He as [a b' e e' Ho Hl Hev _|t m o b' e y Ho Ht Hy Hl Hnr|c m g y Hc Hy Hd|m y Hy Hd|m y p' e Hy Hd Hr He].
  - intros m y x Hy Hd Hx. cbn [xb xml] in *. eapply XU_base; [exact HG|exact HU|exact Ho|exact Hy|exact Hd|exact Hx].
  - intros j z x Hz Hd Hx. cbn [xb xml] in *. eapply XU_base; [exact HG|exact HU|exact Ho|exact Hz|exact Hd|exact Hx].
  - exact HU.
  - intros j z x Hz Hd' Hx. cbn [xb xml] in *. apply nth_upd_inv in Hz. destruct Hz as [(<- & -> & _)|(_ & Hz)]; [discriminate|]. eapply HU; eauto.
  - intros j z x Hz Hd' Hx. cbn [xb xml fst] in *. apply nth_upd_inv in Hz.
    assert (exists w, nth_error (mods (fst (xb s))) m = Some w) as (w & Hw) by (destruct HG as (_ & _ & G3 & _); destruct (nth_error (mods (fst (xb s))) m) as [w|] eqn:E; [eauto|]; apply nth_error_None in E; assert (N : nth_error (xml s) m <> None) by congruence; apply nth_error_Some in N; lia).
    destruct (destroy_same _ _ _ _ _ Hw He) as (_ & _ & _ & _ & S4 & S5). destruct Hz as [(<- & -> & _)|(Hn & Hz)]; [auto|]. rewrite S4 in Hx by auto. eapply HU; eauto.
Qed.
Lemma x_xu vs nm n sched s tr : exec (xstep vs) (x_init nm n) sched = Some (s, tr) -> XU s.
Proof.
  intros H. apply (exec_inv (xstep vs) (fun s tr => XG s tr /\ XU s) _ _ _ _ ) in H; [apply H| |].
  - split; [apply XG_init|]. intros m y x Hy Hd _. cbn in Hy. apply nth_error_In, repeat_spec in Hy. subst. discriminate.
  - intros c t a c' e (HG & HU) Hs. split; [eapply XG_step; eauto|eapply XU_step; eauto].
Qed.
Lemma xsure_exec vs c0 sched s tr : exec (xsure_step vs) c0 sched = Some (s, tr) -> exec (xstep vs) c0 sched = Some (s, tr).
Proof.
  revert c0 s tr. induction sched as [|a sched IH]; intros c0 s tr H; cbn [exec] in *; [exact H|]. destruct (xsure_step vs c0 a) as [[c1 e1]|] eqn:E; [|discriminate]. rewrite (xsure_x _ _ _ _ E). destruct (exec (xsure_step vs) c1 sched) as [[c2 e2]|] eqn:E2; [|discriminate]. rewrite (IH _ _ _ E2). exact H.
Qed.

(** ** C78 *)
(** All initialised modules use one slot, whatever was loaded and unloaded before, and the slot is allocated. *)
Theorem C78_one_key vs nm n sched s tr m m' x x' : exec (xsure_step vs) (x_init nm n) sched = Some (s, tr) ->
  nth_error (mods (fst (xb s))) m = Some x -> nth_error (mods (fst (xb s))) m' = Some x' -> ini x = 2%nat -> ini x' = 2%nat -> tkey x = tkey x' /\ In (tkey x) (tslots (fst (xb s))).
Proof.
  intros H Hx Hx' Hi Hi'. destruct (x_all _ _ _ _ _ _ H) as (_ & HK). unfold KX in HK. destruct (xb s) as [p ths]. destruct HK as (_ & (lk & l & (D1 & D2 & D3) & HA & _) & _). cbn [fst] in *.
  destruct HA as (_ & A2 & _ & _ & _ & _ & _ & A8 & _). pose proof (A8 _ _ Hx Hi) as E1. pose proof (A8 _ _ Hx' Hi') as E2. split; [congruence|]. apply D3, in_or_app. right. exact (A2 _ E1).
Qed.
Print Assumptions C78_one_key.

(** The event of a call that found or made context [c] for thread [t]. Proof or specification device; no counterpart in /repo. *)
Definition given (t c : nat) (e : xev) : Prop := exists m, e = XE (ERet t m c) \/ e = XMis t m c.
Lemma given_gets t c e : given t c e -> gets e = Some (t, c). Proof. intros (m & [->| ->]); reflexivity. Qed.
Lemma gets_given t c e : gets e = Some (t, c) -> given t c e.
Proof. destruct e as [e|x m g|u m d|k|d]; cbn; try discriminate; [destruct e; try discriminate|]; intros H; inversion H; subst; eexists; eauto. Qed.

Lemma rets_given tr a e b t c : tr = a ++ e :: b -> losts b = 0 -> given t c e -> In (t, c) (rets [] tr).
Proof.
  intros -> Hb Hg. apply given_gets in Hg. rewrite rets_app. destruct e as [e|x m g|u m d|k|d]; try discriminate; cbn [rets]; rewrite Hg; apply rets_keep; auto; left; reflexivity.
Qed.
(** Every call of a thread yields the same timer, in whichever module, as long as the semaphore was not lost in between. *)
Theorem C78_same_timer vs nm n sched s tr a e b e' d t c c' : exec (xsure_step vs) (x_init nm n) sched = Some (s, tr) -> tr = a ++ e :: b ++ e' :: d -> (forall k, ~ In (XLost k) b) -> given t c e -> given t c' e' -> c = c'.
Proof.
  intros H E Hb He He'.
  assert (Hb0 : losts b = 0). { clear -Hb. unfold losts. induction b as [|e b IH]; [reflexivity|]. cbn [sumf]. rewrite IH by (intros k Hk; eapply Hb; right; exact Hk). destruct e; try reflexivity. exfalso. eapply Hb. left. reflexivity. }
  enough (Q : forall tc, gets e' = Some tc -> forall c0, In (fst tc, c0) (rets [] (a ++ e :: b)) -> c0 = snd tc).
  { apply (Q (t, c')); [apply given_gets; exact He'|]. cbn [fst]. eapply rets_given; eauto. }
  apply (exec_events (xsure_step vs) (fun s tr => XG s tr /\ KX s tr) (fun a x => forall tc, gets x = Some tc -> forall c0, In (fst tc, c0) (rets [] a) -> c0 = snd tc) (x_init nm n)) with (sched := sched) (c := s) (tr := tr) (b := d).
  - exact (conj (XG_init nm n) (KX_init nm n)).
  - intros c1 t1 a1 c2 e1 (HG & HK) Hs. split; [eapply XG_step; [exact HG|eapply xsure_x; exact Hs]|eapply KX_step; eauto].
  - intros s1 tr1 a1 s2 es dd x b1 (HG & HK) Hs Ees (u & c2) Hx c0 Hin. cbn [fst snd] in *.
    pose proof (KX_step _ _ _ _ _ _ HG HK Hs) as HK2.
    assert (Hl : losts es = 0 /\ In (u, c2) (rets [] (tr1 ++ es)) /\ In (u, c0) (rets [] (tr1 ++ es))).
    { assert (Hes : losts es = 0).
      { pose proof (x_effects _ _ _ _ _ (xsure_x _ _ _ _ Hs)) as Hf. destruct Hf as [aa b' ee ee' Ho Hl Hev _|tt m o b' ee y Ho Ht Hy Hl Hnr|cc m g y Hc Hy Hd|m y Hy Hd|m y p' ee Hy Hd Hr Hf].
        - destruct Hev as [->| ->]; [apply losts_XE|apply losts_check].
        - rewrite losts_app, losts_XE. reflexivity.
        - reflexivity.
        - destruct dd; discriminate.
        - exfalso. unfold mod_destroy in Hf. destruct (nth_error (mods (fst (xb s1))) m) as [w|]; [|inversion Hf; subst; destruct dd; discriminate]. destruct (holder w); [destruct (semh (fst (xb s1))) as [|[|h]]; [destruct (sem (fst (xb s1)))|destruct (sem (fst (xb s1)))|]|]; inversion Hf; subst ee; try (destruct dd; discriminate).
          + destruct dd as [|? [|]]; inversion H2; subst; discriminate.
          + destruct dd as [|? [|]]; inversion H2; subst; discriminate. }
      split; [exact Hes|]. subst es. rewrite losts_app in Hes. replace (losts (x :: b1)) with (losts [x] + losts b1) in Hes by (rewrite <- losts_app; reflexivity).
      pose proof (sumf_nonneg (fun e => match e with XLost _ => 1 | _ => 0 end) dd ltac:(intros []; lia)) as N1. pose proof (sumf_nonneg (fun e => match e with XLost _ => 1 | _ => 0 end) b1 ltac:(intros []; lia)) as N2. pose proof (sumf_nonneg (fun e => match e with XLost _ => 1 | _ => 0 end) [x] ltac:(intros []; lia)) as N3. unfold losts in Hes. split.
      - eapply (rets_given _ (tr1 ++ dd) x b1); [rewrite <- app_assoc; reflexivity|unfold losts; lia|apply gets_given; exact Hx].
      - rewrite app_assoc, rets_app. apply rets_keep; [|exact Hin]. replace (losts (x :: b1)) with (losts [x] + losts b1) by (rewrite <- losts_app; reflexivity). unfold losts. lia. }
    destruct Hl as (_ & R1 & R2). unfold KX in HK2. destruct (xb s2) as [p2 th2]. destruct HK2 as (_ & _ & HR). destruct (HR _ _ R1) as (k1 & K1 & K2). destruct (HR _ _ R2) as (k2 & K3 & K4). congruence.
  - exact H.
  - rewrite E, <- app_assoc. reflexivity.
Qed.
Print Assumptions C78_same_timer.

(** The semaphore exists as long as a handle of it is open. Proof or specification device; no counterpart in /repo. *)
Definition XH (s : xst) : Prop := sem (fst (xb s)) = None <-> semh (fst (xb s)) = 0%nat.
Lemma XH_step vs s a s' e : XH s -> xstep vs s a = Some (s', e) -> XH s'.
Proof.
  intros HH Hs. pose proof (x_effects _ _ _ _ _ Hs) as He.
  assert (Base : forall a0 b' e0, once_step (xb s) a0 = Some (b', e0) -> sem (fst b') = None <-> semh (fst b') = 0%nat).
  { intros a0 b' e0 Ho. unfold XH in HH. destruct (xb s) as [p ths]. cbn [fst] in HH. destruct a0 as [t m|t o|t|c]; cbn [once_step] in Ho.
    - destruct (nth_error ths t) as [[]|]; try discriminate. destruct (nth_error (mods p) m); inversion Ho; subst. exact HH.
    - destruct (nth_error ths t) as [pc|]; [|discriminate]. destruct (once_step1 p t pc o) as [[[p1 pc1] e1]|] eqn:E1; inversion Ho; subst. clear Ho Hs He. cbn [fst].
      destruct pc; cbn [once_step1] in E1; try discriminate;
        try (destruct (nth_error (mods p) m) as [x|]; [|discriminate]); try (destruct (ini x) as [|[|?]]); try (destruct o); try (destruct (sem p) eqn:Esm); try (destruct (existsb _ _)); try (destruct (tls_get _ _ _)); try (destruct (nth_error (tlcs p) c) as [w|]); try discriminate; inversion E1; subst;
        cbn [set_mod set_sem set_slots set_tlcs sem semh]; rewrite ?Esm; try exact HH; (split; [intros Hq; exfalso; discriminate|intros Hq; exfalso; discriminate]).
    - destruct (nth_error ths t) as [[]|]; try discriminate. inversion Ho; subst. exact HH.
    - destruct (nth_error (tlcs p) c) as [x|]; [|discriminate]. destruct (nth_error ths (cown x)) as [[]|]; try discriminate. destruct (cwait x); inversion Ho; subst. exact HH. }
  unfold XH. destruct He as [a b' e e' Ho Hl Hev _|t m o b' e y Ho Ht Hy Hl Hnr|c m g y Hc Hy Hd|m y Hy Hd|m y p' e Hy Hd Hr He]; cbn [xb]; eauto.
  cbn [fst set_mod sem semh]. unfold XH in HH. unfold mod_destroy in He. destruct (nth_error (mods (fst (xb s))) m) as [w|]; [|inversion He; subst; exact HH].
  destruct (holder w); [|inversion He; subst; exact HH]. destruct (semh (fst (xb s))) as [|[|h]] eqn:Eh; [destruct (sem (fst (xb s))) eqn:Em|destruct (sem (fst (xb s))) eqn:Em|]; inversion He; subst; cbn [set_mod set_sem sem semh]; rewrite ?Em, ?Eh.
  - split; reflexivity.
  - exact HH.
  - split; reflexivity.
  - exact HH.
  - split; [intros E; apply HH in E; discriminate|discriminate].
Qed.
Lemma x_xh vs nm n sched s tr : exec (xstep vs) (x_init nm n) sched = Some (s, tr) -> XH s.
Proof. intros H. eapply (exec_inv_state (xstep vs) XH); [|intros; eapply XH_step; eauto|exact H]. split; reflexivity. Qed.

(** The open handles of the semaphore are those the modules keep, and the semaphore lives as long as there is one; a module that is not loaded keeps
    none, so nothing is left when all modules are gone. *)
Theorem C78_handles vs nm n sched s tr : exec (xsure_step vs) (x_init nm n) sched = Some (s, tr) ->
  Z.of_nat (semh (fst (xb s))) = sumf (fun x => bz (holder x)) (mods (fst (xb s))) /\ (sem (fst (xb s)) = None <-> semh (fst (xb s)) = 0%nat) /\
  ((forall m y, nth_error (xml s) m = Some y -> mloaded y = false) -> semh (fst (xb s)) = 0%nat /\ sem (fst (xb s)) = None).
Proof.
  intros H. destruct (x_all _ _ _ _ _ _ H) as (HG & HK). pose proof (x_xu _ _ _ _ _ _ (xsure_exec _ _ _ _ _ H)) as HU. pose proof (x_xh _ _ _ _ _ _ (xsure_exec _ _ _ _ _ H)) as HH.
  assert (E : Z.of_nat (semh (fst (xb s))) = sumf (fun x => bz (holder x)) (mods (fst (xb s)))).
  { unfold KX in HK. destruct (xb s) as [p ths]. destruct HK as (_ & (lk & l & _ & HA & _) & _). apply HA. }
  split; [exact E|]. split; [exact HH|]. intros Hall.
  assert (Z0 : sumf (fun x => bz (holder x)) (mods (fst (xb s))) = 0).
  { destruct HG as (_ & _ & G3 & _). assert (A : forall m x, nth_error (mods (fst (xb s))) m = Some x -> holder x = false).
    { intros m x Hx. destruct (nth_error (xml s) m) as [y|] eqn:Ey; [rewrite (HU _ _ _ Ey (Hall _ _ Ey) Hx); reflexivity|]. apply nth_error_None in Ey. assert (N : nth_error (mods (fst (xb s))) m <> None) by congruence. apply nth_error_Some in N. lia. }
    clear -A. induction (mods (fst (xb s))) as [|x l IH]; [reflexivity|]. cbn [sumf]. rewrite (A 0%nat x eq_refl), IH; [reflexivity|]. intros m. exact (A (S m)). }
  assert (E0 : semh (fst (xb s)) = 0%nat) by lia. split; [exact E0|apply HH; exact E0].
Qed.
Print Assumptions C78_handles.

(** How many slots are allocated when no thread is between allocating one and deciding its use: the one in use, and one for every time the last module was unloaded. *)
Theorem C78_slots_exact vs nm n sched s tr : exec (xsure_step vs) (x_init nm n) sched = Some (s, tr) -> (forall t pc m k, nth_error (snd (xb s)) t = Some pc -> pc <> OCreate m k /\ pc <> ODrop m k) ->
  Z.of_nat (length (tslots (fst (xb s)))) = losts tr + bz (some (sem (fst (xb s)))).
Proof.
  intros H Hq. destruct (x_all _ _ _ _ _ _ H) as (_ & HK). unfold KX in HK. destruct (xb s) as [p ths]. destruct HK as (_ & (lk & l & (D1 & D2 & D3) & HA & Hn) & _). cbn [fst snd] in *.
  assert (L : length (tslots p) = (length lk + length l)%nat) by (rewrite <- app_length; apply Permutation_length, NoDup_Permutation; auto). rewrite L, Nat2Z.inj_add, Hn.
  destruct HA as (_ & _ & _ & _ & A5 & _). cbn [set_slots tslots sem] in A5. rewrite A5.
  assert (Z0 : sumf (fun pc => bz (some (pendk pc))) ths = 0).
  { clear -Hq. revert Hq. induction ths as [|pc ths IH]; intros Hq; [reflexivity|]. cbn [sumf]. rewrite IH by (intros t; exact (Hq (S t))). specialize (Hq 0%nat pc). destruct pc; try reflexivity; exfalso; [destruct (Hq m k eq_refl)|destruct (Hq m k eq_refl)]; congruence. }
  lia.
Qed.
Print Assumptions C78_slots_exact.

(** ** Loading and unloading a module over and over *)
(** Used once by thread 0, unloaded, loaded again; [k] the slot the system allocates. Proof or specification device; no counterpart in /repo. *)
Definition cycle (k : nat) : list xact :=
  (XB (OCall 0 0) :: map (fun o => XB (OStep 0 o)) [None; None; None; Some k; Some 0; None; None; Some 0; Some 0; Some 0; Some 0; Some 0] ++ [XUnload 0; XLoad 0])%nat.
(** Proof or specification device; no counterpart in /repo. *)
Definition again (g : nat) (sl : list nat) (cs : list tlc) (vl : list (nat * nat * nat)) (cr : list (nat * nat)) : xst := XS (PR [MS 0 0 false] None 0 sl cs vl, [OIdle]) [ML true g] cr.
Lemma upd_last {A} (l : list A) x y : upd (l ++ [x]) (length l) y = l ++ [y].
Proof. induction l as [|a l IH]; cbn; [reflexivity|]. rewrite IH. reflexivity. Qed.
Lemma nth_last {A} (l : list A) x : nth_error (l ++ [x]) (length l) = Some x.
Proof. rewrite nth_error_app2, Nat.sub_diag by lia. reflexivity. Qed.
Lemma cycle_run vs g k sl cs vl cr : existsb (Nat.eqb k) sl = false -> tls_get vl 0 k = None -> length cr = length cs ->
  exec (xsure_step vs) (again g sl cs vl cr) (cycle k) = Some (again (S g) (k :: sl) (cs ++ [TC 0 true true true true]) ((0%nat, k, length cs) :: vl) (cr ++ [(0%nat, g)]),
    [XE (EBegin 0 0); XE (EDone 0 0 k); XE (EUse 0 0 k); XMade (length cs) 0 g; XE (EOpen (length cs) HThread); XE (EOpen (length cs) HWait); XE (EOpen (length cs) HTimer); XE (ERet 0 0 (length cs)); XLost k]).
Proof.
  intros H1 H2 H3. unfold cycle, again. cbn [map app].
  assert (L : (length cs <? length (cs ++ [TC 0 false false false true]))%nat = true) by (apply Nat.ltb_lt; rewrite app_length; cbn; lia).
  repeat (cbn [exec xsure_step xstep sure once_step once_step1 xb xml xcr nth_error fst snd mods ini tkey holder sem semh tslots tlcs tlsv upd set_mod set_sem set_slots set_tlcs mloaded mgen map app check Nat.eqb length mod_destroy existsb runs andb orb negb cown cthr cwait ctimer calive];
    rewrite ?H1, ?H2, ?L, ?nth_last, ?upd_last, ?Nat.ltb_irrefl, ?Nat.eqb_refl; try (rewrite <- H3, nth_last)).
  reflexivity.
Qed.

Lemma cycles vs i : exists sl cs vl cr tr, exec (xsure_step vs) (x_init 1 1) (flat_map cycle (seq 0 i)) = Some (again i sl cs vl cr, tr) /\
  length sl = i /\ length cs = i /\ length cr = i /\ (forall k, In k sl -> (k < i)%nat) /\ (forall k, (i <= k)%nat -> tls_get vl 0 k = None) /\ (forall x, In x cs -> x = TC 0 true true true true).
Proof.
  induction i as [|i (sl & cs & vl & cr & tr & H & L1 & L2 & L3 & P1 & P2 & P3)].
  - exists [], [], [], [], []. repeat split; try reflexivity; intros ? [].
  - rewrite seq_S, flat_map_app. cbn [flat_map]. rewrite app_nil_r. change (0 + i)%nat with i.
    assert (E1 : existsb (Nat.eqb i) sl = false). { destruct (existsb (Nat.eqb i) sl) eqn:E; [|reflexivity]. apply existsb_exists in E. destruct E as (k & Hk & Ek). apply Nat.eqb_eq in Ek. subst k. specialize (P1 _ Hk). lia. }
    assert (E2 : tls_get vl 0 i = None) by (apply P2; lia).
    exists (i :: sl), (cs ++ [TC 0 true true true true]), ((0%nat, i, length cs) :: vl), (cr ++ [(0%nat, i)]). eexists. split; [rewrite exec_app, H, cycle_run by congruence; reflexivity|].
    rewrite !app_length. cbn [length]. repeat split; try lia.
    + intros k [<-|Hk]; [lia|]. specialize (P1 _ Hk). lia.
    + intros k Hk. cbn [tls_get]. destruct (Nat.eqb_spec i k); [lia|]. cbn. apply P2. lia.
    + intros x Hx. apply in_app_or in Hx. destruct Hx as [Hx|[<-|[]]]; auto.
Qed.
(** "When all modules are gone, no slot and no timer stays behind" is false, without any bound: a module that is used and unloaded again
    [i] times leaves [i] slots allocated and [i] timers open in a thread that goes on running, with no call in progress and no module loaded. *)
Theorem C78_slots_refuted vs i : exists sched s tr, exec (xsure_step vs) (x_init 1 1) sched = Some (s, tr) /\ (forall m y, nth_error (xml s) m = Some y -> mloaded y = false) /\ snd (xb s) = [OIdle] /\
  length (tslots (fst (xb s))) = i /\ length (filter (fun x => calive x && ctimer x && (cown x =? 0)%nat) (tlcs (fst (xb s)))) = i.
Proof.
  destruct (cycles vs i) as (sl & cs & vl & cr & tr & H & L1 & L2 & L3 & P1 & P2 & P3). exists (flat_map cycle (seq 0 i) ++ [XUnload 0]). eexists _, _. split; [rewrite exec_app, H; cbn; reflexivity|]. cbn [xb xml xcr fst snd again set_mod tslots tlcs upd].
  split; [intros [|[|m]] y Hy; inversion Hy; reflexivity|]. split; [reflexivity|]. split; [exact L1|]. rewrite <- L2. f_equal. clear -P3. induction cs as [|x cs IH]; [reflexivity|]. cbn [filter]. rewrite (P3 x (or_introl eq_refl)). cbn. f_equal. apply IH. intros y Hy. apply P3. right. exact Hy.
Qed.
Print Assumptions C78_slots_refuted.

(** ** The callback *)
(** A context is deleted by code of the module that made it.  If that module is unloaded first, the callback runs code that is no longer there - also if the module has been loaded again. *)
Theorem C78_callback_refuted vs : (exists sched s tr, exec (xsure_step vs) (x_init 1 1) sched = Some (s, tr) /\ In (XCrash 0) tr /\ In (XE (ERet 0 0 0)) tr /\ forall m, ~ In (XLoad m) sched) /\
  (exists sched s tr, exec (xsure_step vs) (x_init 1 1) sched = Some (s, tr) /\ In (XCrash 0) tr /\ forall m y, nth_error (xml s) m = Some y -> mloaded y = true).
Proof.
  split.
  - exists (removelast (cycle 5) ++ [XB (OExit 0); XB (OCallback 0)]). eexists _, _. split; [vm_compute; reflexivity|]. pose proof (Nat.eqb_refl (vs 0%nat 0%nat)) as E. vm_compute in E. rewrite E. split; [cbn; tauto|]. split; [cbn; tauto|]. intros m Hi. cbn in Hi. intuition discriminate.
  - exists (cycle 5 ++ [XB (OExit 0); XB (OCallback 0)]). eexists _, _. split; [vm_compute; reflexivity|]. split; [cbn; tauto|]. intros [|[|m]] y Hy; inversion Hy; reflexivity.
Qed.
Print Assumptions C78_callback_refuted.

(** A module is unloaded only when all contexts it made have been deleted (the library offers no means to arrange this). Proof or specification device; no counterpart in /repo. *)
Definition careful (s : xst) (a : xact) : Prop :=
  match a with XUnload m => forall c x g, nth_error (tlcs (fst (xb s))) c = Some x -> nth_error (xcr s) c = Some (m, g) -> calive x = false | _ => True end.
(** Proof or specification device; no counterpart in /repo. *)
Definition XL (s : xst) : Prop := forall c x m g, nth_error (tlcs (fst (xb s))) c = Some x -> calive x = true -> nth_error (xcr s) c = Some (m, g) -> exists y, nth_error (xml s) m = Some y /\ mloaded y = true /\ mgen y = g.
Lemma alive_back p ths a p' ths' e c x : once_step (p, ths) a = Some ((p', ths'), e) -> nth_error (tlcs p') c = Some x -> calive x = true ->
  (exists x0, nth_error (tlcs p) c = Some x0 /\ calive x0 = true) \/ (c = length (tlcs p) /\ length (tlcs p') = S (length (tlcs p))).
Proof.
  intros Hs Hc Ha. pose proof (ctx_effects _ _ _ _ _ Hs) as He. cbn [fst snd] in He.
  destruct He as [u pc pc' p' e Ht Hcc Hcc' Hg El Ev (Hq1 & Hq2)|u j w d Ht Hm Hv|u j w Ht Hm Hv|u j d w h pc pc' Ht Hpc Hx|u j d w Ht Hm|u d pc Ht Hpc|u d w Ht Hx|d w Hx Hg Hw]; cbn [set_tlcs tlcs] in Hc |- *; eauto.
  - rewrite El in Hc. eauto.
  - destruct (Nat.lt_ge_cases c (length (tlcs p))) as [L|L]; [rewrite nth_error_app1 in Hc by exact L; eauto|]. right. rewrite app_length. cbn. split; [|lia]. assert (N : nth_error (tlcs p ++ [TC u false false false true]) c <> None) by congruence. apply nth_error_Some in N. rewrite app_length in N. cbn in N. lia.
  - apply nth_upd_inv in Hc. destruct Hc as [(<- & -> & _)|(_ & Hc)]; [|eauto]. left. exists w. split; [exact Hx|]. destruct h; exact Ha.
  - apply nth_upd_inv in Hc. destruct Hc as [(<- & -> & _)|(_ & Hc)]; [discriminate|eauto].
  - apply nth_upd_inv in Hc. destruct Hc as [(<- & -> & _)|(_ & Hc)]; [discriminate|eauto].
Qed.
Lemma XL_step vs s tr a s' e : XG s tr -> XL s -> careful s a -> xstep vs s a = Some (s', e) -> XL s' /\ forall c, ~ In (XCrash c) e.
Proof.
  intros HG HL Hcf Hs.
  assert (Hcb : forall c, e = [XCrash c] -> s' = s -> a = XB (OCallback c) -> False).
  { intros c -> -> ->. cbn [xstep] in Hs. destruct (once_step (xb s) (OCallback c)) as [[b' e0]|] eqn:Eo; [|discriminate]. destruct (nth_error (xcr s) c) as [[m g]|] eqn:Ec; [|discriminate]. destruct (nth_error (xml s) m) as [y|] eqn:Ey; [|discriminate].
    destruct HG as ((tr' & _ & HC & _) & _). unfold XL in HL. destruct (xb s) as [p ths]. cbn [fst] in HL. cbn in Eo. destruct (nth_error (tlcs p) c) as [x|] eqn:Ex; [|discriminate]. destruct (nth_error ths (cown x)) as [[]|]; try discriminate. destruct (cwait x) eqn:Ew; [|discriminate].
    destruct HC as (_ & _ & C3 & _). assert (Ha : calive x = true) by (destruct (C3 _ _ Ex) as [V|(V & _)]; [unfold void in V; congruence|exact V]).
    destruct (HL _ _ _ _ Ex Ha Ec) as (y' & Y1 & Y2 & Y3). assert (y' = y) by congruence. subst y'. rewrite Y2, Y3, Nat.eqb_refl in Hs. cbn [andb] in Hs. inversion Hs as [[E1 E2]]. assert (F : In (XCrash c) (map XE e0)) by (rewrite E2; left; reflexivity). apply in_map_iff in F. destruct F as (? & F & _). discriminate. }
  pose proof (x_effects _ _ _ _ _ Hs) as He. destruct He as [a b' e e' Ho Hl Hev _|t m o b' e y Ho Ht Hy Hl Hnr|c m g y Hc Hy Hd|m y Hy Hd|m y p' e Hy Hd Hr He].
  - split.
    + intros c x m g Hc Ha Hr. cbn [xb xml xcr] in *. unfold XL in HL. destruct (xb s) as [p ths]. destruct b' as [p' ths']. cbn [fst] in *. destruct (alive_back _ _ _ _ _ _ _ _ Ho Hc Ha) as [(x0 & A & B)|(_ & A)]; [eauto|lia].
    + intros c Hi. destruct Hev as [->| ->]; apply in_map_iff in Hi; destruct Hi as (w & Hw & _); [discriminate|]. destruct w; cbn in Hw; try discriminate. destruct (nth_error (xcr s) c0) as [[]|]; [|discriminate]. destruct (nth_error (xml s) m); [|discriminate]. destruct (_ =? _)%nat; discriminate.
  - split.
    + intros c x j g Hc Ha Hr. cbn [xb xml xcr] in *. destruct HG as (_ & G2 & _ & _ & _ & G6 & _). unfold XL in HL. destruct (xb s) as [p ths]. destruct b' as [p' ths']. cbn [fst snd] in *. destruct (alive_back _ _ _ _ _ _ _ _ Ho Hc Ha) as [(x0 & A & B)|(-> & A)].
      * rewrite nth_error_app1 in Hr by (rewrite G2; apply nth_error_Some; congruence). eauto.
      * rewrite <- G2, nth_last in Hr. inversion Hr; subst. destruct (G6 _ _ _ Ht eq_refl) as (y' & Y1 & Y2). exists y. repeat split; congruence.
    + intros c Hi. apply in_app_or in Hi. destruct Hi as [Hi|[Hi|[]]]; [|discriminate]. apply in_map_iff in Hi. destruct Hi as (w & Hw & _). discriminate.
  - exfalso. eapply Hcb; reflexivity.
  - split; [|intros c []]. intros c x j g Hc Ha Hr. cbn [xb xml xcr] in *. destruct (HL _ _ _ _ Hc Ha Hr) as (y' & Y1 & Y2 & Y3). exists y'. rewrite nth_upd_neq; [auto|]. intros ->. congruence.
  - assert (exists w, nth_error (mods (fst (xb s))) m = Some w) as (w & Hw) by (destruct HG as (_ & _ & G3 & _); destruct (nth_error (mods (fst (xb s))) m) as [w|] eqn:E; [eauto|]; apply nth_error_None in E; assert (N : nth_error (xml s) m <> None) by congruence; apply nth_error_Some in N; lia).
    destruct (destroy_same _ _ _ _ _ Hw He) as (_ & S2 & _). split.
    + intros c x j g Hc Ha Hr'. cbn [xb xml xcr fst] in *. rewrite S2 in Hc. destruct (HL _ _ _ _ Hc Ha Hr') as (y' & Y1 & Y2 & Y3). exists y'. rewrite nth_upd_neq; [auto|]. intros ->. cbn in Hcf. rewrite (Hcf _ _ _ Hc Hr') in Ha. discriminate.
    + intros c Hi. unfold mod_destroy in He. rewrite Hw in He. destruct (holder w); [destruct (semh (fst (xb s))) as [|[|h]]; [destruct (sem (fst (xb s)))|destruct (sem (fst (xb s)))|]|]; inversion He; subst; cbn in Hi; intuition discriminate.
Qed.
(** With such modules every callback finds its code, whatever else fails. *)
Theorem C78_callback_partial vs nm n sched s tr : exec (xstep vs) (x_init nm n) sched = Some (s, tr) ->
  (forall s1 a s2 c1 tr1, sched = s1 ++ a :: s2 -> exec (xstep vs) (x_init nm n) s1 = Some (c1, tr1) -> careful c1 a) -> forall c, ~ In (XCrash c) tr.
Proof.
  intros H Hcf. assert (G : exists pre, pre = sched /\ XG s tr /\ XL s /\ forall c, ~ In (XCrash c) tr); [|destruct G as (_ & _ & _ & _ & G); exact G].
  revert s tr H Hcf. induction sched as [|a sched IH] using rev_ind; intros s tr H Hcf.
  - inversion H; subst. exists []. split; [reflexivity|]. split; [apply XG_init|]. split; [intros [|c] x m g Hc; discriminate|intros c []].
  - apply exec_prefix in H. destruct H as (c1 & t1 & t2 & H1 & H2 & ->). cbn in H2. destruct (xstep vs c1 a) as [[c2 e2]|] eqn:Es; [|discriminate]. inversion H2; subst. rewrite app_nil_r.
    destruct (IH _ _ H1) as (_ & _ & HG & HL & HN); [intros s1 b s2 d1 tr1 -> Hx; eapply (Hcf s1 b (s2 ++ [a])); [rewrite <- app_assoc; reflexivity|exact Hx]|].
    destruct (XL_step _ _ _ _ _ _ HG HL (Hcf sched a [] _ _ eq_refl H1) Es) as (HL' & HN'). exists (sched ++ [a]). split; [reflexivity|]. split; [eapply XG_step; eauto|]. split; [exact HL'|]. intros c Hi. apply in_app_or in Hi. destruct Hi as [Hi|Hi]; [eapply HN; exact Hi|eapply HN'; exact Hi].
Qed.
Print Assumptions C78_callback_partial.
(** A careful schedule: the thread ends and its context is deleted before the module is unloaded. *)
Example C78_callback_example : exists s tr, exec (xstep (fun _ _ => 1%nat)) (x_init 1 1) (removelast (removelast (cycle 5)) ++ [XB (OExit 0); XB (OCallback 0); XUnload 0; XLoad 0]) = Some (s, tr) /\ In (XE (EClose 0 HTimer)) tr /\ In (XLost 5) tr /\ tslots (fst (xb s)) = [5%nat].
Proof. eexists _, _. split; [vm_compute; reflexivity|]. cbn. tauto. Qed.

(** ** Handles of contexts *)
(** Also with modules that come and go: no handle of a context is closed twice or without having been opened. *)
Theorem C78_closed_at_most_once vs nm n sched s tr c h : exec (xstep vs) (x_init nm n) sched = Some (s, tr) -> 0 <= closed c h (bevs tr) <= opened c h (bevs tr) /\ opened c h (bevs tr) <= 1.
Proof.
  intros H. destruct (x_xg _ _ _ _ _ _ H) as ((tr' & _ & HC & Hh) & _). destruct (Hh c h) as (<- & <-). destruct (xb s) as [p ths]. destruct HC as (_ & _ & C3 & C4 & _). specialize (C4 c h). destruct (nth_error (tlcs p) c) as [x|] eqn:E; [|lia]. destruct C4 as (D1 & D2 & D3). pose proof (bz_nonneg (flag h x)). destruct (calive x) eqn:Ea.
  - specialize (D2 eq_refl). destruct (flag h x); cbn in *; lia.
  - destruct (C3 _ _ E) as [V|(V & _)]; [|congruence]. unfold void in V. injection V as V1 V2 V3 V4. replace (flag h x) with false in * by (destruct h; cbn; congruence). cbn in D1. lia.
Qed.
Print Assumptions C78_closed_at_most_once.

(** ** After the exit handler *)
(** The exit handler takes nothing from the module but the handle: a thread that has a timer still gets it (in a destructor of a static object that runs later, say). *)
Theorem C78_after_destroy p ths t m x c : nth_error (mods p) m = Some x -> ini x = 2%nat -> nth_error ths t = Some OIdle -> tls_get (tlsv p) t (tkey x) = Some c ->
  exists s, exec once_step (fst (mod_destroy p m), ths) [OCall t m; OStep t None; OStep t None] = Some (s, [EUse t m (tkey x); ERet t m c]) /\ s = (fst (mod_destroy p m), ths).
Proof.
  intros Hm Hi Ht Hg.
  assert (E : nth_error (mods (fst (mod_destroy p m))) m = Some x \/ nth_error (mods (fst (mod_destroy p m))) m = Some (MS (ini x) (tkey x) false)).
  { unfold mod_destroy. rewrite Hm. destruct (holder x); [|left; exact Hm]. right. destruct (semh p) as [|[|h]]; [destruct (sem p)|destruct (sem p)|]; cbn [fst set_mod set_sem mods]; apply (nth_upd_eq _ _ _ _ Hm). }
  assert (Ev : tlsv (fst (mod_destroy p m)) = tlsv p) by (unfold mod_destroy; rewrite Hm; destruct (holder x); [destruct (semh p) as [|[|h]]; [destruct (sem p)|destruct (sem p)|]|]; reflexivity).
  assert (exists x', nth_error (mods (fst (mod_destroy p m))) m = Some x' /\ ini x' = 2%nat /\ tkey x' = tkey x) as (x' & X1 & X2 & X3) by (destruct E as [E|E]; eexists; (split; [exact E|]); cbn; auto).
  set (q := fst (mod_destroy p m)) in *. eexists. split; [|reflexivity]. cbn [exec once_step]. rewrite Ht, X1. cbn [once_step]. rewrite (nth_upd_eq _ _ _ _ Ht). cbn [once_step1]. rewrite X1, X2. cbn [Nat.eqb once_step]. rewrite upd_upd, (nth_upd_eq _ _ _ _ Ht). cbn [once_step1]. rewrite X1, X3, Ev, Hg. cbn [app]. rewrite upd_upd, (upd_same ths t OIdle Ht). reflexivity.
Qed.
Print Assumptions C78_after_destroy.

(** Two modules, two threads: the second module is initialised, the first is unloaded and loaded again; all share slot 5 until both are gone. Proof or specification device; no counterpart in /repo. *)
Definition two_dlls : list xact :=
  (let s t l := map (fun o => XB (OStep t o)) l in
   XB (OCall 0 0) :: s 0 [None; None; None; Some 5; Some 0; None; None; Some 0; Some 0; Some 0; Some 0; Some 0] ++ XB (OCall 0 1) :: s 0 [None; None; Some 0; Some 0; None; None; None] ++
   XUnload 0 :: XLoad 0 :: XB (OCall 0 0) :: s 0 [None; None; Some 0; Some 0; None; None; None] ++ [XUnload 0; XUnload 1])%nat.
Example C78_example : exists s, exec (xsure_step (fun _ _ => 1%nat)) (x_init 2 2) two_dlls = Some (s,
  [XE (EBegin 0 0); XE (EDone 0 0 5); XE (EUse 0 0 5); XMade 0 0 0; XE (EOpen 0 HThread); XE (EOpen 0 HWait); XE (EOpen 0 HTimer); XE (ERet 0 0 0); XE (EBegin 0 1); XE (EDone 0 1 5); XE (EUse 0 1 5); XE (ERet 0 1 0);
   XE (EBegin 0 0); XE (EDone 0 0 5); XE (EUse 0 0 5); XE (ERet 0 0 0); XLost 5])%nat /\ semh (fst (xb s)) = 0%nat /\ tslots (fst (xb s)) = [5%nat].
Proof. eexists. split; [vm_compute; reflexivity|]. split; reflexivity. Qed.

(** ** C79: versions *)
(** A call returns a timer exactly if the context was made by a module of the same version as the caller, and throws std::logic_error if not. *)
Theorem C79_checked vs nm n sched s tr a s' e t m c : exec (xstep vs) (x_init nm n) sched = Some (s, tr) -> xstep vs s a = Some (s', e) ->
  (In (XE (ERet t m c)) e -> exists j g y, In (XMade c j g) tr /\ nth_error (xml s) m = Some y /\ mloaded y = true /\ vs j g = vs m (mgen y)) /\
  (In (XMis t m c) e -> exists j g y, In (XMade c j g) tr /\ nth_error (xml s) m = Some y /\ mloaded y = true /\ vs j g <> vs m (mgen y)).
Proof.
  intros H Hs. pose proof (x_xg _ _ _ _ _ _ H) as HG. pose proof (x_effects _ _ _ _ _ Hs) as He. pose proof HG as ((tr' & HO & HC & _) & G2 & G3 & G4 & _ & G6 & _).
  destruct He as [a b' e e' Ho Hl Hev Hret|u j o b' e y Ho Ht Hy Hl Hnr|d j g y Hc Hy Hd|j y Hy Hd|j y p' e Hy Hd Hr He].
  - assert (Key : forall u j d, In (ERet u j d) e -> exists i g y, nth_error (xcr s) d = Some (i, g) /\ nth_error (xml s) j = Some y /\ mloaded y = true).
    { intros u j d Hi. destruct (xb s) as [p ths]. destruct b' as [p' ths']. destruct (ret_get _ _ _ _ _ _ _ _ _ Ho Hi) as (x & pc & P1 & P2 & P3 & P4 & P5). cbn [snd fst] in *.
      assert (Pm : pcmod pc = Some j) by (destruct pc; cbn in P2 |- *; try discriminate; apply Nat.eqb_eq in P2; congruence).
      destruct (G6 _ _ _ P1 Pm) as (y & Y1 & Y2). pose proof (CX_step _ _ _ _ _ HO HC Ho) as HC'. destruct HC' as (_ & C2 & _). apply tls_get_in in P4. destruct (C2 _ _ _ P4) as (z & Z1 & _).
      destruct (nth_error (xcr s) d) as [[i g]|] eqn:E; [exists i, g, y; auto|]. exfalso. apply nth_error_None in E. assert (N : nth_error (tlcs p') d <> None) by congruence. apply nth_error_Some in N. lia. }
    split; intros Hi.
    + assert (He : In (ERet t m c) e /\ e' = map (check vs (xcr s) (xml s)) e).
      { destruct Hev as [->|Hev].
        - apply in_map_iff in Hi. destruct Hi as (w & Hw & Hin). inversion Hw; subst. split; [exact Hin|eapply Hret; exact Hin].
        - split; [|exact Hev]. rewrite Hev in Hi. apply in_map_iff in Hi. destruct Hi as (w & Hw & Hin). destruct w; cbn in Hw; try congruence. destruct (nth_error (xcr s) c0) as [[]|]; [destruct (nth_error (xml s) m0); [destruct (_ =? _)%nat|]|]; congruence. }
      destruct He as (Hin & Ee). destruct (Key _ _ _ Hin) as (i & g & y & K1 & K2 & K3). exists i, g, y. split; [apply G4; exact K1|]. split; [exact K2|]. split; [exact K3|].
      rewrite Ee in Hi. apply in_map_iff in Hi. destruct Hi as (w & Hw & _). assert (w = ERet t m c) as -> by (destruct w; cbn in Hw; try congruence; destruct (nth_error (xcr s) c0) as [[]|]; [destruct (nth_error (xml s) m0); [destruct (_ =? _)%nat|]|]; congruence). cbn in Hw. rewrite K1, K2 in Hw. destruct (Nat.eqb_spec (vs i g) (vs m (mgen y))); [assumption|discriminate].
    + destruct Hev as [->|Hev]; [apply in_map_iff in Hi; destruct Hi as (w & Hw & _); discriminate|]. subst e'. apply in_map_iff in Hi. destruct Hi as (w & Hw & Hin). assert (w = ERet t m c) as -> by (destruct w; cbn in Hw; try discriminate; destruct (nth_error (xcr s) c0) as [[]|]; [destruct (nth_error (xml s) m0); [destruct (_ =? _)%nat|]|]; congruence).
      destruct (Key _ _ _ Hin) as (i & g & y & K1 & K2 & K3). exists i, g, y. split; [apply G4; exact K1|]. split; [exact K2|]. split; [exact K3|]. cbn in Hw. rewrite K1, K2 in Hw. destruct (Nat.eqb_spec (vs i g) (vs m (mgen y))); [discriminate|assumption].
  - split; intros Hi; apply in_app_or in Hi; destruct Hi as [Hi|[Hi|[]]]; try discriminate; apply in_map_iff in Hi; destruct Hi as (w & Hw & Hin); inversion Hw; subst; exfalso; eapply Hnr; exact Hin.
  - split; intros [Hi|[]]; discriminate.
  - split; intros [].
  - unfold mod_destroy in He. split; intros Hi; (destruct (nth_error (mods (fst (xb s))) j) as [w|]; [|inversion He; subst; destruct Hi]); (destruct (holder w); [destruct (semh (fst (xb s))) as [|[|h]]; [destruct (sem (fst (xb s)))|destruct (sem (fst (xb s)))|]|]); inversion He; subst; cbn in Hi; intuition discriminate.
Qed.
Print Assumptions C79_checked.

(** If all modules are compiled against one version, no call fails because of the version. *)
Theorem C79_one_version vs nm n sched s tr t m c : (forall j g i h, vs j g = vs i h) -> exec (xstep vs) (x_init nm n) sched = Some (s, tr) -> ~ In (XMis t m c) tr.
Proof.
  intros Hv. revert s tr. induction sched as [|a sched IH] using rev_ind; intros s tr H.
  - inversion H; subst. intros [].
  - apply exec_prefix in H. destruct H as (c1 & t1 & t2 & H1 & H2 & ->). cbn in H2. destruct (xstep vs c1 a) as [[c2 e2]|] eqn:Es; [|discriminate]. inversion H2; subst. rewrite app_nil_r. intros Hi. apply in_app_or in Hi. destruct Hi as [Hi|Hi]; [eapply IH; eauto|].
    destruct (C79_checked _ _ _ _ _ _ _ _ _ t m c H1 Es) as (_ & G). destruct (G Hi) as (j & g & y & _ & _ & _ & N). apply N, Hv.
Qed.
Print Assumptions C79_one_version.

Lemma ret_version vs nm n sched s tr : exec (xstep vs) (x_init nm n) sched = Some (s, tr) -> forall t m c, In (XE (ERet t m c)) tr -> exists j g h, In (XMade c j g) tr /\ vs j g = vs m h.
Proof.
  revert s tr. induction sched as [|a sched IH] using rev_ind; intros s tr H t m c Hi.
  - inversion H; subst. destruct Hi.
  - apply exec_prefix in H. destruct H as (c1 & t1 & t2 & H1 & H2 & ->). cbn in H2. destruct (xstep vs c1 a) as [[c2 e2]|] eqn:Es; [|discriminate]. inversion H2; subst. rewrite app_nil_r in *. apply in_app_or in Hi. destruct Hi as [Hi|Hi].
    + destruct (IH _ _ H1 _ _ _ Hi) as (j & g & h & A & B). exists j, g, h. split; [apply in_or_app; left; exact A|exact B].
    + destruct (C79_checked _ _ _ _ _ _ _ _ _ t m c H1 Es) as (G & _). destruct (G Hi) as (j & g & y & A & _ & _ & B). exists j, g, (mgen y). split; [apply in_or_app; left; exact A|exact B].
Qed.
(** The first module in which a thread uses a timer decides: in modules of another version it gets none, until the semaphore is lost. *)
Theorem C79_first_wins v nm n sched s tr a b d t m m' c c' : exec (xsure_step (fun j _ => v j)) (x_init nm n) sched = Some (s, tr) -> tr = a ++ XE (ERet t m c) :: b ++ XE (ERet t m' c') :: d -> (forall k, ~ In (XLost k) b) -> v m = v m'.
Proof.
  intros H E Hb. assert (c = c') as <- by (eapply C78_same_timer; [exact H|exact E|exact Hb|eexists; left; reflexivity|eexists; left; reflexivity]).
  apply xsure_exec in H. destruct (ret_version _ _ _ _ _ _ H t m c) as (j & g & _ & A & B); [rewrite E; apply in_or_app; right; left; reflexivity|].
  destruct (ret_version _ _ _ _ _ _ H t m' c) as (j' & g' & _ & A' & B'); [rewrite E; apply in_or_app; right; right; apply in_or_app; right; left; reflexivity|].
  destruct (x_xg _ _ _ _ _ _ H) as (_ & _ & _ & G4 & _). apply G4 in A, A'. congruence.
Qed.
Print Assumptions C79_first_wins.

(** "Modules can be compiled against different versions" is false of one thread: its call in a module of any other version throws. *)
Theorem C79_refuted v v' : v <> v' -> exists sched s tr, exec (xsure_step (fun j _ => if (j =? 0)%nat then v else v')) (x_init 2 1) sched = Some (s, tr) /\ In (XE (ERet 0 0 0)) tr /\ In (XMis 0 1 0) tr.
Proof.
  intros N. exists (firstn 21 two_dlls). eexists _, _. split; [vm_compute; reflexivity|]. pose proof (Nat.eqb_refl v) as E. vm_compute in E. rewrite E. apply Nat.eqb_neq in N. vm_compute in N. rewrite N. split; cbn; tauto.
Qed.
Print Assumptions C79_refuted.
(** Two threads, each using timers in a module of its own version only, do not disturb each other. *)
Example C79_two_threads : exists s tr, exec (xsure_step (fun j _ => j)) (x_init 2 2)
    (let st t l := map (fun o => XB (OStep t o)) l in XB (OCall 0 0) :: st 0 [None; None; None; Some 5; Some 0; None; None; Some 0; Some 0; Some 0; Some 0; Some 0] ++
     XB (OCall 1 1) :: st 1 [None; None; Some 0; Some 0; None; None; Some 0; Some 0; Some 0; Some 0; Some 0])%nat = Some (s, tr) /\ In (XE (ERet 0 0 0)) tr /\ In (XE (ERet 1 1 1)) tr /\ forall t m c, ~ In (XMis t m c) tr.
Proof. eexists _, _. split; [vm_compute; reflexivity|]. split; [cbn; tauto|]. split; [cbn; tauto|]. intros t m c. cbn. intuition discriminate. Qed.
