(** C58: an object can be destroyed as soon as its users are known to be done with it, although functions called on it by other threads have not
    returned yet.  "Touches": the next step of the thread accesses the object's memory. *)
From Coq Require Import List Bool Arith ZArith Lia.
From Verif Require Import ListSum Exec Lin Thr Word MutexSpec EventSpec EventSpecFacts FlagSpec Monitor MonitorProof EmuModel PropsEmu.
From Verif Require SpinModel SpinProof RwSpec SharedSpinModel SharedSpinProof.
From Verif Require AutoFutexModel AutoFutexProof ManualFutexModel ManualFutexProof AutoSemModel AutoSemProof.
From Verif Require WinMutexModel WinCvModel CvAnyModel.
Import ListNotations.
Local Open Scope Z_scope.

(** ** Mutexes: the thread that holds the mutex (and unlocks it last) may destroy it, since no other thread still executing unlock() touches it. *)
Theorem C58_spin : forall n sched s ths tr t u, t <> u ->
  (exec SpinModel.ttas_step (SpinModel.spin_init n) sched = Some ((s, ths), tr) \/
   exec SpinModel.tas_step (SpinModel.spin_init n) sched = Some ((s, ths), tr)) ->
  nth_error ths t = Some (SpinModel.SRest true) -> nth_error ths u <> Some SpinModel.SStore.
Proof.
  intros n sched s ths tr t u Hne H Ht Hu.
  assert (G : exists x, SpinProof.SR (s, ths) x).
  { destruct H as [H|H].
    - exact (proj2 (SpinProof.spin_lin _ _ SpinProof.ttas_entry_ok SpinProof.ttas_ok _ _ _ _ H)).
    - exact (proj2 (SpinProof.spin_lin _ _ SpinProof.tas_entry_ok SpinProof.tas_ok _ _ _ _ H)). }
  destruct G as (x & _ & _ & Hh & _). cbn [fst snd] in Hh.
  pose proof (proj1 (Hh _ _ Ht) eq_refl). pose proof (proj1 (Hh _ _ Hu) eq_refl). congruence.
Qed.
Print Assumptions C58_spin.

Theorem C58_shared_spin : forall n sched s ths tr t u, t <> u ->
  exec SharedSpinModel.rw_step (SharedSpinModel.rw_init n) sched = Some ((s, ths), tr) ->
  nth_error ths t = Some (SharedSpinModel.RRest RwSpec.HExcl) ->
  nth_error ths u <> Some SharedSpinModel.XStore /\ nth_error ths u <> Some SharedSpinModel.SSub.
Proof.
  intros n sched s ths tr t u Hne H Ht. destruct (SharedSpinProof.rw_lin _ _ _ _ H) as (_ & [[w r] xs] & _ & Hh & _ & Hsum & Hw). cbn [fst snd] in *.
  assert (w = Some t) as -> by (apply (Hh _ _ Ht); reflexivity). split; intros Hu.
  - pose proof (proj1 (proj1 (Hh _ _ Hu)) eq_refl). congruence.
  - destruct Hw as (_ & E). rewrite E in Hsum.
    pose proof (sumf_elem SharedSpinProof.rS _ _ _ SharedSpinProof.rS_nonneg Hu) as He. cbn in He. lia.
Qed.
Print Assumptions C58_shared_spin.

(** ** Code built from a mutex and a condition variable: after its update a thread keeps the internal mutex until its last access, so what it wrote is still there. *)
Section After.
  Variable SP : spec.
  Variable body : nat -> op SP -> bool -> ost SP -> bout (ost SP) (res SP).
  Variable timed : op SP -> bool.
  Variables inner outer : bool.
  Variable mi : nat -> mode SP -> ost SP -> Prop.
  Variable Gd : ost SP -> Prop.
  Hypothesis mi_init : forall t, mi t (minit SP) (oinit SP).
  Hypothesis body_done : forall t o b d d' r nt m, Gd d -> pre SP m o = true -> mi t m d ->
    body t o b d = BDone d' r nt ->
    otrans SP t o d r d' /\ mi t (next SP m o r) d' /\ (forall u m', u <> t -> mi u m' d -> mi u m' d').
  Hypothesis body_fail : forall t o b d r m, Gd d -> pre SP m o = true -> mi t m d ->
    body t o b d = BFail r ->
    otrans SP t o d r d /\ (forall d', mi t m d' -> mi t (next SP m o r) d').
  Variable Q : op SP -> ost SP -> Prop.
  Hypothesis HQ : forall t o b d d' r nt m, Gd d -> mi t m d -> body t o b d = BDone d' r nt -> Q o d'.

  Definition written (d : ost SP) (p : mpc SP) : Prop :=
    match p with PNotify _ o _ _ | PUnlock _ o _ => Q o d | _ => True end.
  Definition AInv (c : (bool * ost SP) * list (mpc SP)) : Prop := forall t p, nth_error (snd c) t = Some p -> written (snd (fst c)) p.

  Lemma AInv_upd held held' d ths t p : AInv ((held, d), ths) -> written d p -> AInv ((held', d), upd ths t p).
  Proof. intros H Hp u p0 Hu. cbn [fst snd] in *. destruct (nth_upd_inv _ _ _ _ _ Hu) as [(_ & -> & _)|(_ & Hu')]; auto. apply (H _ _ Hu'). Qed.

  Lemma mon_after n sched c tr :
    along (mon_step SP body timed inner outer nothrow) (Gc SP Gd) (mon_init SP n) sched ->
    exec (mon_step SP body timed inner outer nothrow) (mon_init SP n) sched = Some (c, tr) -> MInv SP mi c /\ AInv c.
  Proof.
    apply (mon_inv SP body timed inner outer nothrow mi Gd mi_init body_done body_fail (nothrow_ok _ _) AInv).
    - intros t p H. cbn [mon_init snd] in H. apply nth_repeat in H. subst. exact I.
    - intros [held d] ths t p o p' _ _ HA Ht Hc. apply AInv_upd with (held := held); auto. destruct p; cbn in Hc; try discriminate. destruct (pre SP m o); inversion Hc; exact I.
    - intros [held d] ths t p o r p' _ _ HA Ht Hc. apply AInv_upd with (held := held); auto. destruct p; cbn in Hc; try discriminate. inversion Hc; exact I.
    - intros [held d] ths t p ch c' HI HG HA Ht Hret Hr. cbn [snd] in HG.
      pose proof (HA _ _ Ht) as Hp. cbn [fst snd] in Hp.
      assert (Hsil : forall held2 p2, written d p2 -> AInv ((held2, d), upd ths t p2)) by (intros; eapply AInv_upd; eauto).
      destruct p; cbn [mon_run mon_ret] in Hr, Hret; try discriminate.
      + destruct held; [discriminate|]. inversion Hr; subst. apply Hsil; exact I.
      + inversion Hr; subst. apply Hsil; exact I.
      + destruct (proj2 HI _ _ Ht) as (Hm & Hpre & ->). cbn [fst snd] in *.
        destruct (body t o b d) as [d' r nt| |r] eqn:Eb.
        * inversion Hr; subst; clear Hr. pose proof (HQ _ _ _ _ _ _ _ _ HG Hm Eb) as Hq.
          intros u p0 Hu. cbn [fst snd] in *. destruct (nth_upd_inv _ _ _ _ _ Hu) as [(_ & -> & _)|(Hne & Hu')].
          -- destruct nt; exact Hq.
          -- assert (Hc0 : crit SP p0 = 0).
             { destruct HI as (HC & _). cbn [fst snd] in HC. pose proof (sumf_two (crit SP) ths u t p0 _ (crit_nn SP) (not_eq_sym Hne) Hu' Ht) as H2.
               pose proof (crit_nn SP p0). change (crit SP (PComp m o ob b d)) with 1 in H2. clear - HC H2 H. destruct held; unfold b2z in HC; lia. }
             destruct p0; cbn in Hc0; try discriminate; exact I.
        * destruct (timed o), ch; inversion Hr; subst; clear Hr; apply Hsil; exact I.
        * inversion Hr; subst. apply Hsil; exact I.
      + inversion Hr; subst. apply Hsil; exact I.
      + destruct (timed o), ch; try discriminate; inversion Hr; subst; apply Hsil; exact I.
      + destruct held; [discriminate|]. destruct (timed o), b, ch; try discriminate; try (destruct inner; [|discriminate]); inversion Hr; subst; apply Hsil; exact I.
      + assert (HA2 : forall q, nth_error ths t = Some q -> AInv ((held, d), map wake ths)).
        { intros _ _ u p0 Hu. apply nth_map_inv in Hu. destruct Hu as (q & Hq & <-). specialize (HA _ _ Hq). destruct q; exact HA || exact I. }
        destruct nt.
        * inversion Hr; subst. apply Hsil; exact Hp.
        * destruct (existsb asleep ths).
          -- destruct ch; try discriminate. destruct (nth_error ths u) as [pu|] eqn:Eu; [|discriminate].
             destruct pu; try discriminate. inversion Hr; subst; clear Hr.
             apply AInv_upd with (held := held); [apply AInv_upd with (held := held); [exact HA|exact I]|exact Hp].
          -- inversion Hr; subst. apply Hsil; exact Hp.
        * inversion Hr; subst. apply AInv_upd with (held := held); [eapply HA2; exact Ht|exact Hp].
      + destruct outer, ch; inversion Hr; subst; apply Hsil; exact I.
      + inversion Hr; subst. apply Hsil; exact I.
  Qed.
End After.

(** Inside post()/set()/unlock(), not yet at its last access. *)
Definition emu_in {SP} (o : op SP) (p : mpc SP) : Prop :=
  match p with
  | PLock _ o' _ | PRead _ o' _ _ | PComp _ o' _ _ _ | PResleep _ o' _ | PSleep _ o' _ | PWoken _ o' _ _
  | PNotify _ o' _ _ | PFail _ o' _ _ | PUnlock _ o' _ => o' = o
  | PRest _ | PDone _ _ _ => False
  end.

Theorem C58_timed_mutex_emulation : forall n sched s ths tr t u p, t <> u ->
  exec tm_step (tm_init n) sched = Some ((s, ths), tr) ->
  nth_error ths t = Some (PRest (SP := mutex_spec false) true) -> nth_error ths u = Some p -> ~ emu_in (SP := mutex_spec false) MUnlock p.
Proof.
  intros n sched s ths tr t u p Hne H Ht Hu Hp.
  destruct (mon_after MSP tm_body mu_timed false true tm_mi any tm_mi0 tm_done tm_fail (fun o d => o = MUnlock -> d = None)
    ltac:(intros t0 o b d d' r nt m _ _ E ->; inversion E; reflexivity) n sched _ _ (any_along _ _ _ _) H) as ((_ & HL) & HA).
  cbn [fst snd] in *. pose proof (HL _ _ Ht) as H1. cbn in H1. assert (D : snd s = Some t) by (apply H1; reflexivity).
  pose proof (HL _ _ Hu) as H2. pose proof (HA _ _ Hu) as H3. cbn [fst snd] in *.
  assert (Hm : forall m, tm_mi u m (snd s) /\ mpre m MUnlock = true -> False).
  { intros m (M1 & M2). cbn in M2. subst m. assert (snd s = Some u) by (apply M1; reflexivity). congruence. }
  destruct p; cbn in Hp, H2, H3; try contradiction; subst; try (apply (Hm m); tauto); try (pose proof (eq_trans (eq_sym D) (H3 eq_refl)) as D2; change (@eq (option nat) (Some t) None) in D2; discriminate D2).
Qed.
Print Assumptions C58_timed_mutex_emulation.

(** ** Semaphores and auto-reset events: once every post has been consumed by a returned wait, no thread still executing post() touches the object. *)
Lemma post_absorb_le c c' : 0 <= c -> post_absorb c c' -> 0 <= c' <= c + 1.
Proof. intros H [->|(_ & ->)]; lia. Qed.
Lemma post_count_le c c' : 0 <= c -> post_count c c' -> 0 <= c' <= c + 1.
Proof. unfold post_count. lia. Qed.
Lemma post_binary_le c c' : 0 <= c -> post_binary c c' -> 0 <= c' <= c + 1.
Proof. unfold post_binary. lia. Qed.
Lemma etrans_le (post : Z -> Z -> Prop) : (forall c c', 0 <= c -> post c c' -> 0 <= c' <= c + 1) ->
  forall o c r c', 0 <= c -> etrans post o c r c' -> 0 <= c' /\ c' + took o r <= c + match o with EPost => 1 | _ => 0 end.
Proof. intros Hp o c r c' Hc H. inversion H; subst; cbn [took]; try lia. match goal with H : post _ _ |- _ => apply Hp in H end; lia. Qed.
Lemma etrans_sp_le (post : Z -> Z -> Prop) : (forall c c', 0 <= c -> post c c' -> 0 <= c' <= c + 1) ->
  forall o c r c', 0 <= c -> etrans_sp post o c r c' -> 0 <= c' /\ c' + took o r <= c + match o with EPost => 1 | _ => 0 end.
Proof. intros Hp o c r c' Hc [H|(Ho & -> & ->)]; [eapply etrans_le; eauto|]. destruct Ho as [->| ->]; cbn; lia. Qed.

Theorem C58_auto_futex_partial : forall n sched s ths tr u p, Z.of_nat n <= 1022 ->
  exec AutoFutexModel.auto_step (AutoFutexModel.auto_init n) sched = Some ((s, ths), tr) ->
  takes tr = posts_called tr -> nth_error ths u = Some p ->
  p <> AutoFutexModel.PLoad /\ (forall old, p <> AutoFutexModel.PCas old).
Proof.
  intros n sched s ths tr u p Hn H E Hu. pose proof (AutoFutexProof.few_threads_light _ sched Hn) as Hl.
  destruct (AutoFutexProof.AI_init n) as (I1 & I2).
  destruct (forward_sim_abs_x (ev_spec 0 post_absorb) AutoFutexModel.auto_step AutoFutexProof.aabsf AutoFutexProof.AI (AutoFutexModel.at_most_waiting 1022) _ n I2 I1
    ltac:(intros c0 a c' e HI Hc Hc' Ex; apply (AutoFutexProof.auto_step_ok _ a); auto using AutoFutexProof.cap_of) sched _ _ Hl H) as (Hx & _).
  destruct (all_consumed (etrans post_absorb) 0 (etrans_le _ post_absorb_le) ltac:(lia) n tr _ Hx ltac:(lia)) as (_ & Hno).
  apply (nth_map AutoFutexProof.aabs) in Hu.
  split; [intros ->|intros old ->]; exact (Hno _ _ _ Hu).
Qed.
Print Assumptions C58_auto_futex_partial.

(** What is missing: post() may still be about to pass the address of the freed word to the kernel (futex wake-up, one thread). *)
Theorem C58_auto_futex_refuted : exists sched ths tr,
  exec AutoFutexModel.auto_step (AutoFutexModel.auto_init 2) sched = Some ((0, ths), tr) /\
  takes tr = 1 /\ posts_called tr = 1 /\ ths = [AutoFutexModel.ARest; AutoFutexModel.PSignal].
Proof.
  exists [AutoFutexModel.ACall 0 EWait; AutoFutexModel.ARun 0 AutoFutexModel.CNorm; AutoFutexModel.ARun 0 AutoFutexModel.CNorm; AutoFutexModel.ACall 1 EPost;
          AutoFutexModel.ARun 1 AutoFutexModel.CNorm; AutoFutexModel.ARun 1 AutoFutexModel.CNorm;
          AutoFutexModel.ARun 0 AutoFutexModel.CNorm; AutoFutexModel.ARun 0 AutoFutexModel.CNorm; AutoFutexModel.ARun 0 AutoFutexModel.CNorm; AutoFutexModel.ARun 0 AutoFutexModel.CNorm].
  eexists. eexists. split; [vm_compute; reflexivity|]. repeat split; vm_compute; reflexivity.
Qed.
Print Assumptions C58_auto_futex_refuted.

Theorem C58_auto_semaphore : forall n sched st v ths tr u p, Z.of_nat n < 2 ^ 31 - 1 ->
  exec AutoSemModel.as_step (AutoSemModel.as_init n) sched = Some (((st, v), ths), tr) ->
  takes tr = posts_called tr -> nth_error ths u = Some p ->
  p <> AutoSemModel.SLoad /\ (forall old, p <> AutoSemModel.SCas old) /\ p <> AutoSemModel.SSemPost.
Proof.
  intros n sched st v ths tr u p Hn H E Hu.
  destruct (AutoSemProof.as_lin_x _ _ _ _ (AutoSemProof.as_along _ sched Hn) H) as (Hx & HI).
  destruct (all_consumed (etrans_sp post_absorb) 0 (etrans_sp_le _ post_absorb_le) ltac:(lia) n tr _ Hx ltac:(lia)) as (H0 & Hno).
  cbn in H0. unfold AutoSemProof.sg in H0. cbn [snd] in H0. destruct HI as (Hv & _).
  pose proof (nth_map AutoSemProof.sabs _ _ _ Hu) as Hm. split; [intros ->; exact (Hno _ _ _ Hm)|]. split; [intros old ->; exact (Hno _ _ _ Hm)|].
  intros ->. pose proof (sumf_elem AutoSemProof.spst _ _ _ AutoSemProof.spst_nn Hu) as He. cbn [AutoSemProof.spst] in He. lia.
Qed.
Print Assumptions C58_auto_semaphore.

Theorem C58_semaphore_emulation : forall i chr n sched s ths tr u p, 0 <= i ->
  along (sem_step i chr) (fun c => snd (fst c) < 2 ^ 32 - 1) (sem_init i n) sched ->
  exec (sem_step i chr) (sem_init i n) sched = Some ((s, ths), tr) ->
  takes tr = i + posts_called tr -> nth_error ths u = Some p -> ~ emu_in (SP := ev_spec i post_count) EPost p.
Proof.
  intros i chr n sched s ths tr u p Hi Ha H E Hu Hp.
  destruct (mon_lin_x (ev_spec i post_count) sem_body ev_timed chr false nothrow sem_mi sem_cap (fun _ => Hi) (sem_done i) (sem_fail i) (nothrow_ok _ _) n sched _ _ Ha H) as (Hx & _).
  destruct (mon_after (ev_spec i post_count) sem_body ev_timed chr false sem_mi sem_cap (fun _ => Hi) (sem_done i) (sem_fail i) (fun o d => o = EPost -> 0 < d)
    ltac:(intros t0 o b d d' r nt m Hc Hm Eb ->; inversion Eb; unfold sem_mi, sem_cap, u32, two32 in *; rewrite Z.mod_small by lia; lia) n sched _ _ Ha H) as (_ & HA).
  destruct (all_consumed (etrans post_count) i (etrans_le _ post_count_le) Hi n tr _ Hx E) as (H0 & Hno).
  cbn in H0. unfold mg in H0. pose proof (HA _ _ Hu) as H3. cbn [fst snd] in H3.
  pose proof (nth_map (mabs (ev_spec i post_count)) _ _ _ Hu) as Hm.
  destruct p; cbn in Hp, H3, Hm; try contradiction; subst; try exact (Hno _ _ _ Hm); exact (Z.lt_irrefl 0 (eq_ind _ (fun z => 0 < z) (H3 eq_refl) _ H0)).
Qed.
Print Assumptions C58_semaphore_emulation.

Theorem C58_auto_emulation : forall chr n sched s ths tr u p,
  exec (are_step chr) (are_init n) sched = Some ((s, ths), tr) ->
  takes tr = posts_called tr -> nth_error ths u = Some p -> ~ emu_in (SP := ev_spec 0 post_binary) EPost p.
Proof.
  intros chr n sched s ths tr u p H E Hu Hp.
  destruct (mon_lin_x (ev_spec 0 post_binary) are_body ev_timed chr false nothrow are_mi any (fun _ => or_introl eq_refl) are_done are_fail (nothrow_ok _ _) n sched _ _ (any_along _ _ _ _) H) as (Hx & _).
  destruct (mon_after (ev_spec 0 post_binary) are_body ev_timed chr false are_mi any (fun _ => or_introl eq_refl) are_done are_fail (fun o d => o = EPost -> 0 < d)
    ltac:(intros t0 o b d d' r nt m Hc Hm Eb ->; cbn in Eb; unfold are_mi in Hm; destruct (Z.eqb_spec d 0); inversion Eb; lia) n sched _ _ (any_along _ _ _ _) H) as (_ & HA).
  destruct (all_consumed (etrans post_binary) 0 (etrans_le _ post_binary_le) ltac:(lia) n tr _ Hx ltac:(lia)) as (H0 & Hno).
  cbn in H0. unfold mg in H0. pose proof (HA _ _ Hu) as H3. cbn [fst snd] in H3.
  pose proof (nth_map (mabs (ev_spec 0 post_binary)) _ _ _ Hu) as Hm.
  destruct p; cbn in Hp, H3, Hm; try contradiction; subst; try exact (Hno _ _ _ Hm); exact (Z.lt_irrefl 0 (eq_ind _ (fun z => 0 < z) (H3 eq_refl) _ H0)).
Qed.
Print Assumptions C58_auto_emulation.

(** ** Manual-reset events: set() called once, a wait has seen it. *)
Definition fl_ok (o : fop) (r : fres) : Z :=
  match o, r with FWait, FOk | FTry, FTrue | FTimed, FTrue => 1 | _, _ => 0 end.
(** Calls of set() so far; successful waits that have returned so far. *)
Definition sets_called : list (event fop fres) -> Z := sumf (fun e => match e with Call _ FSet => 1 | _ => 0 end).
Definition waits_ok : list (event fop fres) -> Z := sumf (fun e => match e with Ret _ o r => fl_ok o r | _ => 0 end).

Section Flag.
  Let SP := flag_spec false.
  Definition xset (x : xth (flag_spec false)) : Z := match x with XPend _ FSet _ => 1 | _ => 0 end.
  Definition xok (x : xth (flag_spec false)) : Z :=
    match x with XPend _ o l => sumf (fl_ok o) l | XDone _ o r => fl_ok o r | _ => 0 end.
  Lemma fl_ok_nn o r : 0 <= fl_ok o r. Proof. destruct o, r; cbn; lia. Qed.
  Lemma xset_nn x : 0 <= xset x. Proof. destruct x; cbn; try lia. destruct o; lia. Qed.
  Lemma xok_nn x : 0 <= xok x. Proof. destruct x; cbn; try lia. apply sumf_nonneg, fl_ok_nn. apply fl_ok_nn. Qed.
  Lemma waits_ok_nn tr : 0 <= waits_ok tr.
  Proof. apply sumf_nonneg. intros []; cbn; try lia. apply fl_ok_nn. Qed.

  Lemma flag_x n tr z : xsteps SP (xinit SP n) tr z ->
    sumf xset (snd z) <= sets_called tr /\
    (0 < b2z (fst z) + sumf xok (snd z) + waits_ok tr -> sumf xset (snd z) + 1 <= sets_called tr).
  Proof.
    assert (G0 : forall acc x tr z, xsteps SP x tr z ->
       (sumf xset (snd x) <= sets_called acc /\ (0 < b2z (fst x) + sumf xok (snd x) + waits_ok acc -> sumf xset (snd x) + 1 <= sets_called acc)) ->
       sumf xset (snd z) <= sets_called (acc ++ tr) /\
       (0 < b2z (fst z) + sumf xok (snd z) + waits_ok (acc ++ tr) -> sumf xset (snd z) + 1 <= sets_called (acc ++ tr))).
    { clear tr z. intros acc x tr z H. revert acc.
      induction H as [x|x e1 y e2 z H1 H2 IH]; intros acc HJ.
      - rewrite app_nil_r. auto.
      - rewrite app_assoc. apply IH. clear IH H2.
        assert (Ha : forall a b : list (event (op SP) (res SP)), waits_ok (a ++ b) = waits_ok a + waits_ok b) by (intros; apply sumf_app).
        assert (Hb : forall a b : list (event (op SP) (res SP)), sets_called (a ++ b) = sets_called a + sets_called b) by (intros; apply sumf_app).
        pose proof (waits_ok_nn acc). rewrite Ha, Hb.
        inversion H1; subst; cbn [fst snd] in *;
          (match goal with H : nth_error _ _ = Some _ |- _ =>
            rewrite (sumf_upd xset _ _ _ _ H), (sumf_upd xok _ _ _ _ H);
            pose proof (sumf_elem xset _ _ _ xset_nn H); pose proof (sumf_elem xok _ _ _ xok_nn H); pose proof (sumf_nonneg xok ths xok_nn) end);
          cbn [xset xok sumf] in *; unfold b2z in *.
        + destruct o; cbn in *; lia.
        + pose proof (fl_ok_nn o r) as Ho.
          match goal with H : otrans _ _ _ _ _ _ |- _ => cbn in H; inversion H; subst end; cbn [fl_ok sumf sets_called waits_ok] in *; try lia.
        + match goal with H : In _ _ |- _ => apply In_nth_error in H; destruct H as (k & Hk) end.
          pose proof (sumf_elem (fl_ok o) _ _ _ (fl_ok_nn o) Hk). destruct o; cbn [fl_ok sumf sets_called waits_ok] in *; lia.
        + match goal with H : otrans _ _ _ _ _ _ |- _ => cbn in H; inversion H; subst end; cbn [fl_ok sumf sets_called waits_ok] in *;
          match goal with |- context [sumf (fl_ok ?o) ?l] => pose proof (sumf_nonneg (fl_ok o) l (fl_ok_nn o)) end;
          try match goal with b : ost SP |- _ => destruct b end; lia.
        + cbn. destruct o; lia. }
    intros H. apply (G0 [] (xinit SP n) tr z H). unfold xinit. cbn [fst snd oinit minit]. rewrite !sumf_repeat. cbn. lia.
  Qed.

  Lemma set_seen n tr z : xsteps SP (xinit SP n) tr z -> sets_called tr = 1 ->
    0 < b2z (fst z) + sumf xok (snd z) + waits_ok tr -> forall t m l, nth_error (snd z) t <> Some (XPend (S:=SP) m FSet l).
  Proof.
    intros H E Hw t m l Ht. destruct (flag_x _ _ _ H) as (_ & H1). specialize (H1 Hw).
    pose proof (sumf_elem xset _ _ _ xset_nn Ht) as He. change (1 <= sumf xset (snd z)) in He. lia.
  Qed.
End Flag.

Theorem C58_manual_futex_partial : forall n sched s ths tr u, Z.of_nat n < 2 ^ 31 ->
  exec ManualFutexModel.man_step (ManualFutexModel.man_init n) sched = Some ((s, ths), tr) ->
  sets_called tr = 1 -> 0 < waits_ok tr -> nth_error ths u <> Some ManualFutexModel.FOr.
Proof.
  intros n sched s ths tr u Hn H E Hw Hu.
  destruct (ManualFutexProof.FI_init n) as (I1 & I2).
  destruct (forward_sim_abs_x (flag_spec false) ManualFutexModel.man_step ManualFutexProof.fabsf ManualFutexProof.FI ManualFutexProof.fcap _ n I2 I1
    ManualFutexProof.man_step_ok sched _ _ (ManualFutexProof.man_along _ sched Hn) H) as (Hx & _).
  apply (nth_map ManualFutexProof.fabs) in Hu.
  refine (set_seen _ _ _ Hx E _ _ _ _ Hu).
  pose proof (sumf_nonneg xok (snd (ManualFutexProof.fabsf (s, ths))) xok_nn).
  pose proof (sumf_nonneg (fun _ : unit => b2z (fst (ManualFutexProof.fabsf (s, ths)))) [tt]) as Hb. cbn [sumf] in Hb.
  assert (0 <= b2z (fst (ManualFutexProof.fabsf (s, ths)))) by (unfold b2z; destruct (fst _); lia). lia.
Qed.
Print Assumptions C58_manual_futex_partial.

(** What is missing: set() may still be about to pass the address to the kernel (futex wake-up of all waiters). *)
Theorem C58_manual_futex_refuted : exists sched s ths tr,
  exec ManualFutexModel.man_step (ManualFutexModel.man_init 2) sched = Some ((s, ths), tr) /\
  sets_called tr = 1 /\ waits_ok tr = 1 /\ ths = [ManualFutexModel.FRest; ManualFutexModel.FBcast].
Proof.
  exists [ManualFutexModel.FCall 0 FWait; ManualFutexModel.FRun 0 ManualFutexModel.FNorm; ManualFutexModel.FRun 0 ManualFutexModel.FNorm;
          ManualFutexModel.FCall 1 FSet; ManualFutexModel.FRun 1 ManualFutexModel.FNorm;
          ManualFutexModel.FRun 0 ManualFutexModel.FNorm; ManualFutexModel.FRun 0 ManualFutexModel.FNorm; ManualFutexModel.FRun 0 ManualFutexModel.FNorm;
          ManualFutexModel.FRun 0 ManualFutexModel.FNorm].
  eexists. eexists. eexists. split; [vm_compute; reflexivity|]. repeat split; vm_compute; reflexivity.
Qed.
Print Assumptions C58_manual_futex_refuted.

(** A step of one thread leaves the others alone, except that it may wake them. *)
Lemma mon_run_other (SP : spec) body timed inner outer s ths t p ch s' ths' v q :
  nth_error ths t = Some p ->
  mon_run SP body timed inner outer nothrow s ths t p ch = Some (s', ths') -> v <> t -> nth_error ths' v = Some q ->
  nth_error ths v = Some q \/ exists m o ob, q = PWoken m o ob false.
Proof.
  intros Ht H Hne Hv. destruct s as [held d].
  assert (U : forall l p', nth_error (upd l t p') v = Some q -> nth_error l v = Some q)
    by (intros l p' Hn; rewrite nth_upd_neq in Hn by auto; exact Hn).
  assert (W : nth_error (map wake ths) v = Some q -> nth_error ths v = Some q \/ exists m o ob, q = PWoken m o ob false).
  { intros Hn. apply nth_map_inv in Hn. destruct Hn as (q0 & Hq & <-). destruct q0; cbn; eauto. }
  destruct p; cbn [mon_run] in H; try discriminate;
    repeat match type of H with
    | (match ?x with _ => _ end) = _ => destruct x eqn:?; try discriminate
    | (if ?x then _ else _) = _ => destruct x eqn:?; try discriminate
    end; inversion H; subst; clear H; apply U in Hv; auto.
  destruct (nth_upd_inv _ _ _ _ _ Hv) as [(_ & -> & _)|(_ & Hv')]; eauto.
Qed.

(** The thread that took effect in set() still holds the internal mutex, and it was the only one called: nobody has seen the event set. *)
Definition fresh_set (c : (bool * bool) * list (mpc FLSP)) (tr : list (event fop fres)) : Prop :=
  forall u p, nth_error (snd c) u = Some p ->
  (match p with PNotify _ o _ _ | PUnlock _ o _ => o = FSet | _ => False end) ->
  sets_called tr <= 1 -> waits_ok tr = 0 /\ forall v m o r, nth_error (snd c) v = Some (PDone (SP := FLSP) m o r) -> fl_ok o r = 0.

Lemma mre_fresh chr n sched c tr : exec (mre_step chr) (mre_init n) sched = Some (c, tr) -> fresh_set c tr.
Proof.
  intros H.
  refine (proj2 (exec_inv (mre_step chr) (fun c tr => (exists sc, exec (mre_step chr) (mre_init n) sc = Some (c, tr)) /\ fresh_set c tr) _ _ _ _ _ _ H)).
  { split; [exists []; reflexivity|]. intros u p Hu Hp. cbn in Hu. apply nth_repeat in Hu. subst. contradiction. }
  clear. intros c tr a c' e ((sc & H) & HF) Hs. split.
  { exists (sc ++ [a]). rewrite exec_app, H. cbn. rewrite Hs, app_nil_r. reflexivity. }
  destruct (mon_lin_x FLSP mre_body fl_timed chr false nothrow fl_mi any (fun _ => I) mre_done mre_fail (nothrow_ok _ _) n sc c tr (any_along _ _ _ _) H) as (Hx & HC & _).
  pose proof (flag_x _ _ _ Hx) as (_ & HJ). clear Hx H sc.
  assert (Ha : forall a b : list (event fop fres), waits_ok (a ++ b) = waits_ok a + waits_ok b) by (intros; apply sumf_app).
  assert (Hb : forall a b : list (event fop fres), sets_called (a ++ b) = sets_called a + sets_called b) by (intros; apply sumf_app).
  assert (Hnn : forall l, 0 <= sets_called l) by (intros; apply sumf_nonneg; intros [? []|]; cbn; lia).
  destruct c as [s ths], c' as [s' ths']. cbn [fst snd] in *.
  intros u p Hu Hp Hle. change (sets_called (tr ++ e) <= 1) in Hle. cbn [snd] in *. rewrite Hb in Hle. pose proof (Hnn e). pose proof (Hnn tr).
  change (waits_ok (tr ++ e) = 0 /\ forall v m o r, nth_error ths' v = Some (PDone (SP := FLSP) m o r) -> fl_ok o r = 0). rewrite Ha.
  apply tstep_cases in Hs.
  destruct Hs as [(t & o & q & q' & -> & K1 & K2 & E & ->)|[(t & ch & q & o & r & q' & -> & K1 & K2 & E & ->)|(t & ch & q & -> & K1 & K2 & K3 & ->)]].
  - (* call *) inversion E; subst; clear E. destruct q; cbn in K2; try discriminate. inversion K2; subst; clear K2.
    assert (Hu2 : nth_error ths u = Some p).
    { destruct (nth_upd_inv _ _ _ _ _ Hu) as [(_ & -> & _)|(_ & Hu')]; [contradiction|exact Hu']. }
    destruct (HF _ _ Hu2 Hp ltac:(lia)) as (F1 & F2). split; [rewrite F1; reflexivity|].
    intros v m0 o0 r0 Hv. destruct (nth_upd_inv _ _ _ _ _ Hv) as [(_ & E0 & _)|(_ & Hv')]; [discriminate|]. eapply F2; eauto.
  - (* return *) inversion E; subst; clear E. destruct q; cbn in K2; try discriminate. inversion K2; subst; clear K2.
    assert (Hu2 : nth_error ths u = Some p).
    { destruct (nth_upd_inv _ _ _ _ _ Hu) as [(_ & -> & _)|(_ & Hu')]; [contradiction|exact Hu']. }
    destruct (HF _ _ Hu2 Hp ltac:(lia)) as (F1 & F2). split.
    + rewrite F1. cbn. rewrite (F2 _ _ _ _ K1). reflexivity.
    + intros v m0 o0 r0 Hv. destruct (nth_upd_inv _ _ _ _ _ Hv) as [(_ & E0 & _)|(_ & Hv')]; [discriminate|]. eapply F2; eauto.
  - (* internal step of t *)
    assert (Hexcl : forall v w pv pw, v <> w -> nth_error ths v = Some pv -> nth_error ths w = Some pw -> crit FLSP pv = 1 -> crit FLSP pw = 1 -> False).
    { intros v w pv pw Hne Hv Hw C1 C2. pose proof (sumf_two (crit FLSP) ths v w pv pw (crit_nn FLSP) Hne Hv Hw).
      clear - HC H1 C1 C2. unfold b2z in HC. destruct (fst s); lia. }
    destruct (Nat.eq_dec u t) as [->|Hne].
    + (* t itself has just taken effect, or goes on to unlock *)
      destruct s as [held d].
      assert (Hprev : (match q with PNotify _ o _ _ | PUnlock _ o _ => o = FSet | PComp _ o _ _ _ => o = FSet | _ => False end)).
      { clear - Hu Hp K1 K3. destruct q; cbn [mon_run] in K3; try discriminate;
          repeat match type of K3 with
          | (match ?x with _ => _ end) = _ => destruct x eqn:?; try discriminate
          | (if ?x then _ else _) = _ => destruct x eqn:?; try discriminate
          end; inversion K3; subst; clear K3;
          (destruct (nth_upd_inv _ _ _ _ _ Hu) as [(_ & -> & _)|(K & _)]; [|congruence]); try contradiction; try exact Hp.
        all: match goal with nt : notif |- _ => destruct nt end; exact Hp. }
      assert (G : waits_ok tr = 0 /\ forall v m o r, nth_error ths v = Some (PDone (SP := FLSP) m o r) -> fl_ok o r = 0).
      { destruct q; try contradiction; subst.
        - (* PComp *)
          assert (Hs1 : 1 <= sumf xset (map (mabs FLSP) ths)).
          { pose proof (sumf_elem xset _ _ _ xset_nn (nth_map (mabs FLSP) _ _ _ K1)) as He. exact He. }
          assert (Hz : b2z d + sumf xok (map (mabs FLSP) ths) + waits_ok tr <= 0).
          { destruct (Z_lt_le_dec 0 (b2z d + sumf xok (map (mabs FLSP) ths) + waits_ok tr)) as [Hlt|]; [|assumption].
            specialize (HJ Hlt). change (sumf xset (map (mabs FLSP) ths) + 1 <= sets_called tr) in HJ. lia. }
          pose proof (waits_ok_nn tr). pose proof (sumf_nonneg xok (map (mabs FLSP) ths) xok_nn).
          assert (0 <= b2z d) by (destruct d; cbn; lia). split; [lia|].
          intros v m0 o0 r0 Hv. pose proof (sumf_elem xok _ _ _ xok_nn (nth_map (mabs FLSP) _ _ _ Hv)) as He.
          change (fl_ok o0 r0 <= sumf xok (map (mabs FLSP) ths)) in He. pose proof (fl_ok_nn o0 r0). lia.
        - refine (HF _ _ K1 eq_refl _). lia.
        - refine (HF _ _ K1 eq_refl _). lia. }
      destruct G as (G1 & G2). split; [rewrite G1; reflexivity|].
      intros v m0 o0 r0 Hv. destruct (Nat.eq_dec v t) as [->|Hv2].
      * rewrite Hu in Hv. inversion Hv; subst. contradiction.
      * destruct (mon_run_other _ _ _ _ _ _ _ _ _ _ _ _ _ _ K1 K3 Hv2 Hv) as [Hv3|(? & ? & ? & ?)]; [eapply G2; eauto|discriminate].
    + assert (Hu2 : nth_error ths u = Some p).
      { destruct (mon_run_other _ _ _ _ _ _ _ _ _ _ _ _ _ _ K1 K3 Hne Hu) as [Hu2|(? & ? & ? & ->)]; [exact Hu2|contradiction]. }
      assert (Hcu : crit FLSP p = 1) by (destruct p; try contradiction; reflexivity).
      destruct (HF _ _ Hu2 Hp ltac:(lia)) as (F1 & F2). split; [rewrite F1; reflexivity|].
      intros v m0 o0 r0 Hv. destruct (Nat.eq_dec v t) as [->|Hv2].
      * exfalso. assert (Hcq : crit FLSP q = 0).
        { pose proof (crit_nn FLSP q). destruct (Z.eq_dec (crit FLSP q) 1) as [E1|]; [exfalso; eapply (Hexcl u t); eauto|].
          destruct q; cbn in *; try lia. }
        destruct s as [held d]. destruct q; cbn in Hcq; try discriminate; cbn [mon_run] in K3; try discriminate;
          repeat match type of K3 with
          | (match ?x with _ => _ end) = _ => destruct x eqn:?; try discriminate
          | (if ?x then _ else _) = _ => destruct x eqn:?; try discriminate
          end; inversion K3; subst; clear K3;
          (destruct (nth_upd_inv _ _ _ _ _ Hv) as [(_ & E0 & _)|(K & _)]; [discriminate E0|congruence]).
      * destruct (mon_run_other _ _ _ _ _ _ _ _ _ _ _ _ _ _ K1 K3 Hv2 Hv) as [Hv3|(? & ? & ? & ?)]; [eapply F2; eauto|discriminate].
Qed.

Theorem C58_manual_emulation : forall chr n sched s ths tr u p,
  exec (mre_step chr) (mre_init n) sched = Some ((s, ths), tr) ->
  sets_called tr = 1 -> 0 < waits_ok tr -> nth_error ths u = Some p -> ~ emu_in (SP := FLSP) FSet p.
Proof.
  intros chr n sched s ths tr u p H E Hw Hu Hp. pose proof (mre_fresh _ _ _ _ _ H) as HF.
  destruct (mon_lin_x FLSP mre_body fl_timed chr false nothrow fl_mi any (fun _ => I) mre_done mre_fail (nothrow_ok _ _) n sched _ _ (any_along _ _ _ _) H) as (Hx & _).
  pose proof (nth_map (mabs FLSP) _ _ _ Hu) as Hm.
  assert (Hev : 0 < b2z (fst (tabs FLSP (mabs FLSP) (mg FLSP) (s, ths))) + sumf xok (snd (tabs FLSP (mabs FLSP) (mg FLSP) (s, ths))) + waits_ok tr).
  { pose proof (sumf_nonneg xok (snd (tabs FLSP (mabs FLSP) (mg FLSP) (s, ths))) xok_nn).
    assert (0 <= b2z (fst (tabs FLSP (mabs FLSP) (mg FLSP) (s, ths)))) by (unfold b2z; destruct (fst _); lia). lia. }
  destruct p; cbn [emu_in] in Hp; try contradiction; subst; cbn [mabs] in Hm; try exact (set_seen _ _ _ Hx E Hev _ _ _ Hm).
  - destruct (HF _ _ Hu eq_refl ltac:(lia)) as (F & _). lia.
  - destruct (HF _ _ Hu eq_refl ltac:(lia)) as (F & _). lia.
Qed.
Print Assumptions C58_manual_emulation.

(** ** Windows mutex: false with lock() and unlock() alone.  Thread 1 is the last user: thread 0 has released the mutex, thread 2 has released it, thread 1
    has got it, released it and returned.  Thread 0, still inside unlock(), is about to set a bit in m_active_count. *)
Theorem C58_windows_mutex_refuted : exists sched s ths tr,
  exec WinMutexModel.wm_step (WinMutexModel.wm_init 3) sched = Some ((s, ths), tr) /\
  tr = [Call 0%nat MLock; Ret 0%nat MLock ROk; Call 1%nat MLock; Call 0%nat MUnlock; Call 2%nat MTryLock; Ret 2%nat MTryLock RTrue;
        Call 2%nat MUnlock; Ret 2%nat MUnlock ROk; Ret 1%nat MLock ROk; Call 1%nat MUnlock; Ret 1%nat MUnlock ROk] /\
  WinMutexModel.word s = 0 /\ ths = [WinMutexModel.WBts; WinMutexModel.WRest false; WinMutexModel.WRest false] /\
  exists s' p, WinMutexModel.wm_run1 s WinMutexModel.WBts WinMutexModel.CNorm = Some (s', p) /\ WinMutexModel.word s' = 2 ^ 30.
Proof.
  pose (r := fun t k => repeat (TRun (Op := mop) t WinMutexModel.CNorm) k).
  exists (TCall 0%nat MLock :: r 0%nat 2%nat ++ TCall 1%nat MLock :: r 1%nat 6%nat ++ TCall 0%nat MUnlock :: r 0%nat 1%nat ++
          TCall 2%nat MTryLock :: r 2%nat 2%nat ++ TCall 2%nat MUnlock :: r 2%nat 5%nat ++ r 1%nat 3%nat ++ TCall 1%nat MUnlock :: r 1%nat 2%nat).
  eexists. eexists. eexists. split; [vm_compute; reflexivity|]. split; [vm_compute; reflexivity|]. split; [vm_compute; reflexivity|].
  split; [vm_compute; reflexivity|]. eexists. eexists. split; vm_compute; reflexivity.
Qed.
Print Assumptions C58_windows_mutex_refuted.

(** ** Condition variables: every waiter has been notified and none is blocked any more, notify_all() has returned, yet the woken thread still uses the object. *)
Theorem C58_cv_windows_refuted : exists sched s ths tr,
  exec WinCvModel.cv_step (WinCvModel.cv_init 2) sched = Some ((s, ths), tr) /\
  tr = [WinCvModel.EWaitCall 0%nat; WinCvModel.EJoin 0%nat; WinCvModel.ENotifyCall 1%nat true; WinCvModel.ENotify 1%nat true 1; WinCvModel.ENotifyRet 1%nat] /\
  WinCvModel.total s = 0 /\ ths = [WinCvModel.CTok WinCvModel.KInf 0; WinCvModel.CIdle] /\
  exists s' p e, WinCvModel.cv_run s 0 (WinCvModel.CTok WinCvModel.KInf 0) WinCvModel.CNorm = Some (s', p, e) /\ WinCvModel.sts s' <> WinCvModel.sts s.
Proof.
  exists [WinCvModel.AWait 0 WinCvModel.KInf; WinCvModel.ARun 0 WinCvModel.CNorm; WinCvModel.ARun 0 WinCvModel.CNorm;
          WinCvModel.ANotify 1 true; WinCvModel.ARun 1 WinCvModel.CNorm; WinCvModel.ARun 1 WinCvModel.CNorm; WinCvModel.ARun 0 WinCvModel.CNorm].
  eexists. eexists. eexists. split; [vm_compute; reflexivity|]. split; [vm_compute; reflexivity|]. split; [vm_compute; reflexivity|].
  split; [vm_compute; reflexivity|]. eexists. eexists. eexists. split; [vm_compute; reflexivity|]. vm_compute. discriminate.
Qed.
Print Assumptions C58_cv_windows_refuted.

Theorem C58_cv_any_generic_refuted : exists sched ths tr,
  exec CvAnyModel.gv_step (CvAnyModel.gv_init 2) sched = Some ((None, ths), tr) /\
  tr = [CvAnyModel.ERel 0%nat; CvAnyModel.ENotify 1%nat true; CvAnyModel.EWake 0%nat; CvAnyModel.ENotified 1%nat true] /\
  ths = [CvAnyModel.GWok; CvAnyModel.GIdle] /\
  exists ths', CvAnyModel.gv_step (None, ths) (CvAnyModel.ARun 0%nat CvAnyModel.CNorm) = Some ((Some 0%nat, ths'), []).
Proof.
  exists [CvAnyModel.AWait 0; CvAnyModel.ARun 0 CvAnyModel.CNorm; CvAnyModel.ARun 0 CvAnyModel.CNorm; CvAnyModel.ARun 0 CvAnyModel.CNorm;
          CvAnyModel.ANotify 1 true; CvAnyModel.ARun 1 CvAnyModel.CNorm; CvAnyModel.ARun 1 CvAnyModel.CNorm; CvAnyModel.ARun 1 CvAnyModel.CNorm].
  eexists. eexists. split; [vm_compute; reflexivity|]. split; [vm_compute; reflexivity|]. split; [vm_compute; reflexivity|].
  eexists. vm_compute. reflexivity.
Qed.
Print Assumptions C58_cv_any_generic_refuted.


(** ** Cases meeting the hypotheses while another thread is still inside the function: it has made its last access. *)
Example C58_spin_example : exists s ths tr,
  exec SpinModel.ttas_step (SpinModel.spin_init 2)
    [SpinModel.SCall 0 MLock; SpinModel.SRun 0; SpinModel.SRun 0; SpinModel.SRun 0; SpinModel.SCall 0 MUnlock; SpinModel.SRun 0;
     SpinModel.SCall 1 MTryLock; SpinModel.SRun 1; SpinModel.SRun 1] = Some ((s, ths), tr) /\
  nth_error ths 1 = Some (SpinModel.SRest true) /\ nth_error ths 0 = Some (SpinModel.SDone true MUnlock ROk).
Proof. eexists. eexists. eexists. split; [vm_compute; reflexivity|]. split; vm_compute; reflexivity. Qed.
Example C58_shared_spin_example : exists s ths tr,
  exec SharedSpinModel.rw_step (SharedSpinModel.rw_init 2)
    [SharedSpinModel.RCall 0 RwSpec.STry; SharedSpinModel.RRun 0 false; SharedSpinModel.RRun 0 false; SharedSpinModel.RRun 0 false;
     SharedSpinModel.RCall 0 RwSpec.SUnlock; SharedSpinModel.RRun 0 false;
     SharedSpinModel.RCall 1 RwSpec.XTry; SharedSpinModel.RRun 1 false; SharedSpinModel.RRun 1 false] = Some ((s, ths), tr) /\
  nth_error ths 1 = Some (SharedSpinModel.RRest RwSpec.HExcl).
Proof. eexists. eexists. eexists. split; vm_compute; reflexivity. Qed.
Example C58_auto_semaphore_example : exists s ths tr,
  exec AutoSemModel.as_step (AutoSemModel.as_init 2)
    [TCall 0%nat EPost; TRun 0%nat AutoSemModel.SNorm; TRun 0%nat AutoSemModel.SNorm; TRun 0%nat AutoSemModel.SNorm;
     TCall 1%nat EWait; TRun 1%nat AutoSemModel.SNorm; TRun 1%nat AutoSemModel.SNorm; TRun 1%nat AutoSemModel.SNorm] = Some ((s, ths), tr) /\
  takes tr = 1 /\ posts_called tr = 1 /\ nth_error ths 0 = Some (AutoSemModel.SDone EPost EOk).
Proof. eexists. eexists. eexists. split; [vm_compute; reflexivity|]. repeat split; vm_compute; reflexivity. Qed.
Example C58_semaphore_emulation_example : exists s ths tr,
  exec (sem_step 1 false) (sem_init 1 2)
    [TCall 0%nat EPost; TRun 0%nat MNorm; TRun 0%nat MNorm; TRun 0%nat MNorm; TRun 0%nat MNorm; TRun 0%nat MNorm;
     TCall 1%nat EWait; TRun 1%nat MNorm; TRun 1%nat MNorm; TRun 1%nat MNorm; TRun 1%nat MNorm; TRun 1%nat MNorm;
     TCall 1%nat EWait; TRun 1%nat MNorm; TRun 1%nat MNorm; TRun 1%nat MNorm; TRun 1%nat MNorm; TRun 1%nat MNorm] = Some ((s, ths), tr) /\
  takes tr = 2 /\ posts_called tr = 1 /\ nth_error ths 0 = Some (PDone (SP := ev_spec 1 post_count) tt EPost EOk).
Proof. eexists. eexists. eexists. split; [vm_compute; reflexivity|]. repeat split; vm_compute; reflexivity. Qed.
Example C58_manual_emulation_example : exists s ths tr,
  exec (mre_step false) (mre_init 2)
    [TCall 1%nat FWait; TRun 1%nat MNorm; TRun 1%nat MNorm; TRun 1%nat MNorm;
     TCall 0%nat FSet; TRun 0%nat MNorm; TRun 0%nat MNorm; TRun 0%nat MNorm; TRun 0%nat MNorm; TRun 0%nat MNorm;
     TRun 1%nat MNorm; TRun 1%nat MNorm; TRun 1%nat MNorm; TRun 1%nat MNorm; TRun 1%nat MNorm] = Some ((s, ths), tr) /\
  sets_called tr = 1 /\ waits_ok tr = 1 /\ nth_error ths 0 = Some (PDone (SP := FLSP) tt FSet FOk).
Proof. eexists. eexists. eexists. split; [vm_compute; reflexivity|]. repeat split; vm_compute; reflexivity. Qed.
