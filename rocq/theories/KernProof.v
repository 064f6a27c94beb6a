(** Linearizability of the programs of KernModel.v, from conditions on their labels. Proofs only; no definition here models code of /repo. *)
From Coq Require Import List Bool Arith ZArith Lia.
From Verif Require Import ListSum Exec Lin Thr EmuThrow KernModel.
Import ListNotations.

(** What is known at a label: the object has not been changed by this call; moreover it has been unavailable; it has been changed and [r] is to be returned; never reached. Proof or specification device; no counterpart in /repo. *)
Inductive lstat (R : Type) := LOpen | LSeen | LDone (r : R) | LDead.
Arguments LOpen {R}. Arguments LSeen {R}. Arguments LDone {R}. Arguments LDead {R}.

Section KernProof.
  Variable SP : spec.
  Variables sig take : nat -> op SP -> ost SP -> option (ost SP).
  Variable code : op SP -> ovl -> nat -> instr (res SP).
  Variable env : op SP -> kcall -> kres -> bool.
  Variable venv : op SP -> ovl -> bool.
  (** Operations that may throw, may fail, may fail although the object is available. *)
  Variable can fails spur : op SP -> bool.
  Variables good bad : op SP -> res SP.
  Variable lab : op SP -> ovl -> nat -> lstat (res SP).
  Variable mi : nat -> mode SP -> ost SP -> Prop.
  Notation X := (xspec SP can).
  Notation pcs := (kpc (mode SP) (op SP) (res SP)).
  Notation stp := (k_step SP sig take code env venv).

  (** [before] at a label, [after] at its successor when the object was not touched. *)
  Definition keeps (a b : lstat (res SP)) : Prop :=
    match a, b with LOpen, LOpen | LSeen, (LOpen | LSeen) => True | LDone r, LDone r' => r = r' | _, _ => False end.
  Definition untouched (a : lstat (res SP)) : Prop := match a with LOpen | LSeen => True | _ => False end.

  Hypothesis mi_init : forall t, mi t (minit SP) (oinit SP).
  Hypothesis sig_ok : forall t o k k' m, mi t m k -> pre SP m o = true -> sig t o k = Some k' -> (exists v l c, venv o v = true /\ code o v l = ICall KDo c) ->
    otrans SP t o k (good o) k' /\ mi t (next SP m o (good o)) k' /\ (forall u m', u <> t -> mi u m' k -> mi u m' k').
  Hypothesis take_ok : forall t o k k' m, mi t m k -> pre SP m o = true -> take t o k = Some k' -> (exists v l w c, venv o v = true /\ code o v l = ICall (KWait w) c) ->
    otrans SP t o k (good o) k' /\ mi t (next SP m o (good o)) k' /\ (forall u m', u <> t -> mi u m' k -> mi u m' k').
  Hypothesis busy_ok : forall t o k m, mi t m k -> pre SP m o = true -> take t o k = None -> fails o = true -> otrans SP t o k (bad o) k.
  Hypothesis bad_mi : forall t o m k, fails o = true -> mi t m k -> mi t (next SP m o (bad o)) k.
  Hypothesis spur_ok : forall t o k, spur o = true -> fails o = true /\ otrans SP t o k (bad o) k.
  Hypothesis lab0 : forall o v, venv o v = true -> lab o v 0 = LOpen.
  Hypothesis code_ok : forall o v l, venv o v = true -> lab o v l <> LDead ->
    match code o v l with
    | ICall c k =>
        untouched (lab o v l) /\ lab o v (k KOk) = LDone (good o) /\
        (match c with KWait WZero | KWait WUntil => lab o v (k KBusy) = LOpen \/ (lab o v (k KBusy) = LSeen /\ fails o = true) | _ => True end) /\
        (forall r, r = KIntr \/ r = KErr \/ (r = KFull /\ c = KDo) -> env o c r = true -> keeps (lab o v l) (lab o v (k r)))
    | IClock a e => keeps (lab o v l) (lab o v a) /\ keeps (lab o v l) (lab o v e)
    | IRet r => lab o v l = LDone r \/ (lab o v l = LSeen /\ fails o = true /\ r = bad o) \/ (untouched (lab o v l) /\ spur o = true /\ r = bad o)
    | IThrow => untouched (lab o v l) /\ can o = true
    | IStuck => False
    end.

  Definition pend (m : mode SP) (o : op SP) (ob : bool) : xth X := XPend (S := X) m o (if ob && fails o then [Some (bad o)] else []).
  Definition kabs (p : pcs) : xth X :=
    match p with
    | QRest m => XIdle (S := X) m
    | QStart m o => XPend (S := X) m o []
    | QAt m o v l ob => match lab o v l with LDone r => XDone (S := X) m o (Some r) | _ => pend m o ob end
    | QSleep m o v l ob => pend m o ob
    | QDone m o r => XDone (S := X) m o r
    end.
  Definition nextx (m : mode SP) (o : op SP) (r : option (res SP)) : mode SP := match r with Some r => next SP m o r | None => m end.
  Definition kloc (k : ost SP) (t : nat) (p : pcs) : Prop :=
    match p with
    | QRest m => mi t m k
    | QStart m o => mi t m k /\ pre SP m o = true
    | QAt m o v l ob => venv o v = true /\ lab o v l <> LDead /\ match lab o v l with
        | LDone r => mi t (next SP m o r) k
        | LSeen => mi t m k /\ pre SP m o = true /\ ob = true
        | _ => mi t m k /\ pre SP m o = true end
    | QSleep m o v l ob => venv o v = true /\ lab o v l <> LDead /\ untouched (lab o v l) /\ mi t m k /\ pre SP m o = true /\ ob = true /\ exists w c, w <> WZero /\ code o v l = ICall (KWait w) c
    | QDone m o r => mi t (nextx m o r) k
    end.
  Definition KInv (c : ost SP * list (pcs)) : Prop := forall t p, nth_error (snd c) t = Some p -> kloc (fst c) t p.

  Lemma kloc_other k k' u p : (forall m, mi u m k -> mi u m k') -> kloc k u p -> kloc k' u p.
  Proof. intros H. destruct p; cbn [kloc]; try (intuition auto; fail). destruct (lab o v l); intuition auto. Qed.
  Lemma KInv_upd k k' ths t p p' : KInv (k, ths) -> nth_error ths t = Some p -> kloc k' t p' -> (forall u m, u <> t -> mi u m k -> mi u m k') -> KInv (k', upd ths t p').
  Proof.
    intros H Ht Hp Ho u q Hu. cbn [fst snd] in *. destruct (nth_upd_inv _ _ _ _ _ Hu) as [(-> & -> & _)|(Hne & Hu')]; [exact Hp|].
    apply (kloc_other k); [intros m; apply Ho; auto|]. exact (H _ _ Hu').
  Qed.

  Notation sims k ths k' ths' := (xsteps X (k, map kabs ths) [] (k', map kabs ths')).

  Lemma sim_same k ths t p q : nth_error ths t = Some q -> kabs p = kabs q -> sims k ths k (upd ths t p).
  Proof. intros Ht Ha. rewrite map_upd, Ha, upd_same by (apply nth_map; auto). constructor. Qed.

  (** A wait that finds the object unavailable. *)
  Lemma sim_busy k ths t m o v l v' l' ob p p' :
    nth_error ths t = Some p -> kabs p = pend m o ob -> kabs p' = pend m o true -> mi t m k -> pre SP m o = true -> take t o k = None -> (p = QAt m o v l ob \/ p = QSleep m o v' l' ob) ->
    sims k ths k (upd ths t p').
  Proof.
    intros Ht Ha Ha' Hm Hp Hk _. destruct (fails o) eqn:Ef; [destruct ob|].
    - apply (sim_same _ _ _ _ p Ht). congruence.
    - rewrite map_upd, Ha'. unfold pend. rewrite Ef. cbn [andb]. apply xsteps_one. apply (nth_map kabs) in Ht. rewrite Ha in Ht. unfold pend in Ht. rewrite Ef in Ht. cbn [andb] in Ht.
      apply (xs_obs X k (map kabs ths) t m o [] (Some (bad o)) Ht). exact (busy_ok _ _ _ _ Hm Hp Hk Ef).
    - apply (sim_same _ _ _ _ p Ht). rewrite Ha, Ha'. unfold pend. rewrite Ef, !andb_false_r. reflexivity.
  Qed.
  Lemma sim_take k k' ths t m o ob p p' : nth_error ths t = Some p -> kabs p = pend m o ob -> kabs p' = XDone (S := X) m o (Some (good o)) -> otrans SP t o k (good o) k' -> sims k ths k' (upd ths t p').
  Proof.
    intros Ht Ha Ha' Ho. rewrite map_upd, Ha'. apply xsteps_one. apply (nth_map kabs) in Ht. rewrite Ha in Ht. unfold pend in Ht. exact (xs_lin X k (map kabs ths) t m o _ (Some (good o)) k' Ht Ho).
  Qed.
  Lemma sim_throw k ths t m o ob p p' : nth_error ths t = Some p -> kabs p = pend m o ob -> kabs p' = XDone (S := X) m o None -> can o = true -> sims k ths k (upd ths t p').
  Proof.
    intros Ht Ha Ha' Hc. rewrite map_upd, Ha'. apply xsteps_one. apply (nth_map kabs) in Ht. rewrite Ha in Ht. unfold pend in Ht. exact (xs_lin X k (map kabs ths) t m o _ None k Ht (conj Hc eq_refl)).
  Qed.
  Lemma untouched_abs m o v l ob : untouched (lab o v l) -> kabs (QAt m o v l ob) = pend m o ob.
  Proof. cbn [kabs]. destruct (lab o v l); cbn; tauto. Qed.
  (** Going on at another label without touching the object. *)
  Lemma go_on k t m o v l l' ob ob' : kloc k t (QAt m o v l ob) -> keeps (lab o v l) (lab o v l') -> (ob = true -> ob' = true) -> kloc k t (QAt m o v l' ob').
  Proof.
    cbn [kloc]. intros (Hv & Hd & Hl) Hk Hob. destruct (lab o v l) eqn:E1, (lab o v l') eqn:E2; cbn [keeps] in Hk; try contradiction; subst; repeat split; try discriminate; try tauto.
  Qed.
  Lemma go_on_abs m o v l l' ob : keeps (lab o v l) (lab o v l') -> kabs (QAt m o v l' ob) = kabs (QAt m o v l ob).
  Proof. cbn [kabs]. destruct (lab o v l) eqn:E1, (lab o v l') eqn:E2; cbn [keeps]; intros H; try contradiction; subst; reflexivity. Qed.
  Lemma unt_loc k t m o v l ob : untouched (lab o v l) -> kloc k t (QAt m o v l ob) -> mi t m k /\ pre SP m o = true.
  Proof. cbn [kloc]. intros Hu (_ & _ & H). destruct (lab o v l); cbn in Hu; tauto. Qed.
  Lemma mk_done k t m o v l ob r : venv o v = true -> lab o v l = LDone r -> mi t (next SP m o r) k -> kloc k t (QAt m o v l ob).
  Proof. intros Hv E H. cbn [kloc]. rewrite E. repeat split; auto; discriminate. Qed.
  Lemma mk_busy k t m o v l : venv o v = true -> lab o v l = LOpen \/ (lab o v l = LSeen /\ fails o = true) -> mi t m k -> pre SP m o = true -> kloc k t (QAt m o v l true).
  Proof. intros Hv [E|(E & _)] H1 H2; cbn [kloc]; rewrite E; repeat split; auto; discriminate. Qed.

  Lemma k_sim s ths t p ch s' ths' : KInv (s, ths) -> nth_error ths t = Some p -> k_run SP sig take code env venv s ths t p ch = Some (s', ths') -> KInv (s', ths') /\ sims s ths s' ths'.
  Proof.
    intros HI Ht Hr. unfold k_run in Hr. destruct (k_run1 SP sig take code env venv s t p ch) as [[s1 p']|] eqn:E; [|discriminate]. inversion Hr; subst; clear Hr.
    pose proof (HI _ _ Ht) as Hp. cbn [fst snd] in Hp.
    assert (Same : kloc s t p' -> kabs p' = kabs p -> s' = s -> KInv (s', upd ths t p') /\ sims s ths s' (upd ths t p')).
    { intros H1 H2 ->. split; [eapply KInv_upd; eauto|]. apply (sim_same _ _ _ _ p Ht H2). }
    destruct p as [m|m o|m o v l ob|m o v l ob|m o r]; cbn [k_run1] in E; try discriminate.
    - destruct ch as [|v| | |]; try discriminate. destruct (venv o v) eqn:Ev; [|discriminate]. inversion E; subst. cbn [kloc] in Hp. apply Same; [| |reflexivity].
      + cbn [kloc]. rewrite (lab0 _ _ Ev). repeat split; try tauto; discriminate.
      + cbn [kabs]. rewrite (lab0 _ _ Ev). unfold pend. reflexivity.
    - pose proof Hp as (Hv & Hd & _). pose proof (code_ok o v l Hv Hd) as Hc. destruct (code o v l) as [c k|a e|r| |] eqn:Ec; [|inversion E; subst; clear E|inversion E; subst; clear E|inversion E; subst; clear E|discriminate].
      + destruct Hc as (Hu & Hok & Hbz & Her). destruct (unt_loc _ _ _ _ _ _ _ Hu Hp) as (Hm & Hpre).
        destruct ch as [| |r| |]; try discriminate.
        * destruct c as [|w].
          -- destruct (sig t o s) as [s2|] eqn:Es.
             ++ inversion E; subst; clear E. destruct (sig_ok _ _ _ _ _ Hm Hpre Es) as (H1 & H2 & H3); [eauto|]. split.
                ** eapply KInv_upd; [exact HI|exact Ht| |exact H3]. eapply mk_done; eauto.
                ** eapply sim_take; [exact Ht|apply untouched_abs; exact Hu| |exact H1]. cbn [kabs]. rewrite Hok. reflexivity.
             ++ destruct (env o KDo KFull) eqn:Ev; [|discriminate]. inversion E; subst; clear E. assert (Hk := Her KFull (or_intror (or_intror (conj eq_refl eq_refl))) Ev).
                apply Same; [eapply go_on; eauto|apply go_on_abs; exact Hk|reflexivity].
          -- destruct (take t o s) as [s2|] eqn:Es.
             ++ inversion E; subst; clear E. destruct (take_ok _ _ _ _ _ Hm Hpre Es) as (H1 & H2 & H3); [eauto 6|]. split.
                ** eapply KInv_upd; [exact HI|exact Ht| |exact H3]. eapply mk_done; eauto.
                ** eapply sim_take; [exact Ht|apply untouched_abs; exact Hu| |exact H1]. cbn [kabs]. rewrite Hok. reflexivity.
             ++ assert (Hb : forall p2, kloc s t p2 -> kabs p2 = pend m o true -> KInv (s, upd ths t p2) /\ sims s ths s (upd ths t p2)).
                { intros p2 Hl Ha. split; [eapply KInv_upd; eauto|]. apply (sim_busy s ths t m o v l v l ob (QAt m o v l ob) p2 Ht); auto. apply untouched_abs; exact Hu. }
                destruct w; inversion E; subst; clear E; apply Hb.
                ** cbn [kloc]. repeat split; auto. exists WForever, k. split; [discriminate|exact Ec].
                ** reflexivity.
                ** apply mk_busy; auto.
                ** apply untouched_abs. destruct Hbz as [-> | (-> & _)]; exact I.
                ** cbn [kloc]. repeat split; auto. exists WUntil, k. split; [discriminate|exact Ec].
                ** reflexivity.
        * destruct (unexpected r) eqn:Eu; [|discriminate]. cbn [andb] in E. destruct (env o c r) eqn:Ev; [|discriminate]. inversion E; subst; clear E.
          assert (Hk : keeps (lab o v l) (lab o v (k r))) by (apply Her; [destruct r; try discriminate; auto|exact Ev]).
          apply Same; [eapply go_on; eauto|apply go_on_abs; exact Hk|reflexivity].
      + destruct Hc as (Ha & He). destruct ch; (apply Same; [eapply go_on; eauto|apply go_on_abs; assumption|reflexivity]).
      + destruct Hc as [Hl|[(Hl & Hf & ->)|(Hu & Hsp & ->)]].
        * apply Same; [| |reflexivity]; [cbn [kloc] in Hp |- *; rewrite Hl in Hp; cbn [nextx]; tauto|cbn [kabs]; rewrite Hl; reflexivity].
        * cbn [kloc] in Hp. rewrite Hl in Hp. destruct Hp as (_ & _ & Hm & Hpre & ->). split.
          -- eapply KInv_upd; [exact HI|exact Ht| |auto]. cbn [kloc nextx]. apply bad_mi; auto.
          -- rewrite map_upd. cbn [kabs]. apply xsteps_one. apply (nth_map kabs) in Ht. cbn [kabs] in Ht. rewrite Hl in Ht. unfold pend in Ht. rewrite Hf in Ht. cbn [andb] in Ht.
             apply (xs_adopt X s' (map kabs ths) t m o [Some (bad o)] (Some (bad o)) Ht). left; reflexivity.
        * destruct (unt_loc _ _ _ _ _ _ _ Hu Hp) as (Hm & _). destruct (spur_ok t o s' Hsp) as (Hf & Hot). split.
          -- eapply KInv_upd; [exact HI|exact Ht| |auto]. cbn [kloc nextx]. apply bad_mi; auto.
          -- rewrite map_upd. apply xsteps_one. apply (nth_map kabs) in Ht. rewrite (untouched_abs _ _ _ _ _ Hu) in Ht. unfold pend in Ht. exact (xs_lin X s' (map kabs ths) t m o _ (Some (bad o)) s' Ht Hot).
      + destruct Hc as (Hu & Hcan). destruct (unt_loc _ _ _ _ _ _ _ Hu Hp) as (Hm & Hpre). split.
        * eapply KInv_upd; [exact HI|exact Ht| |auto]. exact Hm.
        * eapply sim_throw; [exact Ht|apply untouched_abs; exact Hu|reflexivity|exact Hcan].
    - cbn [kloc] in Hp. destruct Hp as (Hv & Hd & Hu & Hm & Hpre & -> & w & k & Hw & Ec). pose proof (code_ok o v l Hv Hd) as Hc. rewrite Ec in E, Hc. destruct Hc as (_ & Hok & Hbz & Her).
      destruct ch as [| |r| |]; try discriminate.
      + destruct (take t o s) as [s2|] eqn:Es; [|discriminate]. inversion E; subst; clear E. destruct (take_ok _ _ _ _ _ Hm Hpre Es) as (H1 & H2 & H3); [eauto 6|]. split.
        * eapply KInv_upd; [exact HI|exact Ht| |exact H3]. eapply mk_done; eauto.
        * eapply sim_take; [exact Ht|reflexivity| |exact H1]. cbn [kabs]. rewrite Hok. reflexivity.
      + destruct (unexpected r) eqn:Eu; [|discriminate]. cbn [andb] in E. destruct (env o (KWait w) r) eqn:Ev; [|discriminate]. inversion E; subst; clear E.
        assert (Hk : keeps (lab o v l) (lab o v (k r))) by (apply Her; [destruct r; try discriminate; auto|exact Ev]).
        apply Same; [| |reflexivity].
        * cbn [kloc]. destruct (lab o v l), (lab o v (k r)); cbn in Hk, Hu; try contradiction; repeat split; auto; discriminate.
        * apply untouched_abs. destruct (lab o v l), (lab o v (k r)); cbn in Hk, Hu |- *; auto; contradiction.
      + destruct w; try discriminate. inversion E; subst; clear E. apply Same; [apply mk_busy; auto| |reflexivity].
        apply untouched_abs. destruct Hbz as [-> | (-> & _)]; exact I.
  Qed.

  Lemma kern_lin n sched c tr : exec stp (k_init SP n) sched = Some (c, tr) -> linearizable X n tr /\ KInv c.
  Proof.
    intros H. apply (tsim X (k_call SP) (k_ret SP) (k_run SP sig take code env venv) kabs (fun s _ => s) KInv (fun _ => True) (k_init SP n) n) with (sched := sched).
    - unfold tabs, k_init, xinit. cbn [fst snd]. f_equal. clear. induction n as [|n IH]; cbn; [reflexivity|]. f_equal. exact IH.
    - intros t p Hp. cbn [k_init fst snd] in *. apply nth_error_In, repeat_spec in Hp. subst. apply mi_init.
    - intros s ths t p o p' HI _ Ht Hc. destruct p; cbn [k_call] in Hc; try discriminate. destruct (pre SP m o) eqn:Ep; [|discriminate]. inversion Hc; subst.
      split; [eapply KInv_upd; [exact HI|exact Ht| |auto]|split; [reflexivity|]].
      + pose proof (HI _ _ Ht) as Hp. cbn in Hp |- *. auto.
      + exists m. auto.
    - intros s ths t p o r p' HI _ Ht Hc. destruct p; cbn [k_ret] in Hc; try discriminate. inversion Hc; subst.
      split; [eapply KInv_upd; [exact HI|exact Ht| |auto]|split; [reflexivity|]].
      + pose proof (HI _ _ Ht) as Hp. exact Hp.
      + exists m. split; reflexivity.
    - intros s ths t p ch s' ths' HI _ _ Ht _ Hr. eapply k_sim; eauto.
    - apply along_all; auto.
    - exact H.
  Qed.

  (** Unless it waits in the system for an unavailable object, a thread inside a call can move. *)
  Lemma kern_progress n sched s ths tr t p : exec stp (k_init SP n) sched = Some ((s, ths), tr) -> (forall o, exists v, venv o v = true) ->
    (forall o, sig t o s = None -> env o KDo KFull = true) ->
    nth_error ths t = Some p -> (forall m, p <> QRest m) -> (forall m o v l ob, p = QSleep m o v l ob -> take t o s <> None) -> exists ch c e, stp (s, ths) (TRun t ch) = Some (c, e).
  Proof.
    intros H Hv Hf Ht Hr Hs. destruct (kern_lin _ _ _ _ H) as (_ & HI). pose proof (HI _ _ Ht) as Hp. cbn [fst snd] in Hp.
    unfold k_step, tstep, k_run.
    destruct p as [m|m o|m o v l ob|m o v l ob|m o r].
    - destruct (Hr m eq_refl).
    - destruct (Hv o) as (v & Ev). exists (HOvl v). rewrite Ht. cbn [k_ret k_run1]. rewrite Ev. eauto.
    - exists HNorm. rewrite Ht. cbn [k_ret k_run1]. destruct Hp as (Hve & Hd & _). pose proof (code_ok o v l Hve Hd) as Hc. destruct (code o v l) as [c k|a e|r| |]; try (eauto; fail); [|contradiction].
      destruct c as [|w]; [destruct (sig t o s) eqn:Es; [eauto|rewrite (Hf o Es); eauto]|]. destruct (take t o s); [eauto|]. destruct w; eauto.
    - exists HNorm. rewrite Ht. cbn [k_ret k_run1]. cbn [kloc] in Hp. destruct Hp as (_ & _ & _ & _ & _ & _ & w & c & _ & Ec). rewrite Ec. destruct (take t o s) eqn:Es; [eauto|]. destruct (Hs _ _ _ _ _ eq_refl Es).
    - exists HNorm. rewrite Ht. cbn [k_ret]. eauto.
  Qed.
  Lemma kern_both n sched s ths tr : exec stp (k_init SP n) sched = Some ((s, ths), tr) -> linearizable X n tr /\
    forall t p, (forall o, exists v, venv o v = true) -> (forall o, sig t o s = None -> env o KDo KFull = true) ->
      nth_error ths t = Some p -> (forall m, p <> QRest m) -> (forall m o v l ob, p = QSleep m o v l ob -> take t o s <> None) -> exists ch c e, stp (s, ths) (TRun t ch) = Some (c, e).
  Proof. intros H. split; [exact (proj1 (kern_lin _ _ _ _ H))|]. intros t p Hv Hf Ht Hr Hs. exact (kern_progress n sched s ths tr t p H Hv Hf Ht Hr Hs). Qed.
End KernProof.

(** Exceptions come only from unexpected results of system calls. *)
Section Throws.
  Variable SP : spec.
  Variables sig take : nat -> op SP -> ost SP -> option (ost SP).
  Variable code : op SP -> ovl -> nat -> instr (res SP).
  Variable env : op SP -> kcall -> kres -> bool.
  Variable venv : op SP -> ovl -> bool.
  Notation pcs := (kpc (mode SP) (op SP) (res SP)).
  Definition throws (o : op SP) (v : ovl) (l : nat) : bool := match code o v l with IThrow => true | _ => false end.
  Hypothesis start_ok : forall o v, throws o v 0 = false.
  Hypothesis next_ok : forall o v l, match code o v l with
    | ICall c k => throws o v (k KOk) = false /\ match c with KDo | KWait WForever => True | _ => throws o v (k KBusy) = false end
    | IClock a e => throws o v a = false /\ throws o v e = false
    | _ => True end.
  Definition mayfail (o : op SP) : Prop := exists c r, env o c r = true.
  Definition tloc (p : pcs) : Prop := match p with QRest _ | QStart _ _ | QSleep _ _ _ _ _ => True | QAt _ o v l _ => mayfail o \/ throws o v l = false | QDone _ o None => mayfail o | QDone _ o (Some _) => True end.
  Lemma tloc_run s t p ch s' p' : tloc p -> k_run1 SP sig take code env venv s t p ch = Some (s', p') -> tloc p'.
  Proof.
    intros Hp H. destruct p as [m|m o|m o v l ob|m o v l ob|m o r]; cbn [k_run1] in H; try discriminate.
    - destruct ch as [|v| | |]; try discriminate. destruct (venv o v); inversion H; subst. right. apply start_ok.
    - pose proof (next_ok o v l) as Hn. destruct (code o v l) as [c k|a e|r| |] eqn:Ec.
      + destruct ch as [| |r| |]; try discriminate.
        * destruct c as [|w].
          -- destruct (sig t o s); [inversion H; subst; right; tauto|]. destruct (env o KDo KFull) eqn:E; inversion H; subst. left. exists KDo, KFull. exact E.
          -- destruct (take t o s); [inversion H; subst; right; tauto|]. destruct w; inversion H; subst; cbn [tloc]; auto. right; tauto.
        * destruct (unexpected r); [|discriminate]. cbn [andb] in H. destruct (env o c r) eqn:E; inversion H; subst. left. exists c, r. exact E.
      + inversion H; subst. destruct ch; right; tauto.
      + inversion H; subst. exact I.
      + inversion H; subst. cbn [tloc] in *. destruct Hp as [Hp|Hp]; [exact Hp|]. unfold throws in Hp. rewrite Ec in Hp. discriminate.
      + discriminate.
    - pose proof (next_ok o v l) as Hn. destruct (code o v l) as [[|w] k|a e|r| |] eqn:Ec; try discriminate. destruct ch as [| |r| |]; try discriminate.
      + destruct (take t o s); inversion H; subst. right; tauto.
      + destruct (unexpected r); [|discriminate]. cbn [andb] in H. destruct (env o (KWait w) r) eqn:E; inversion H; subst. left. exists (KWait w), r. exact E.
      + destruct w; inversion H; subst. right; tauto.
  Qed.
  Lemma throw_cause n sched c tr : exec (k_step SP sig take code env venv) (k_init SP n) sched = Some (c, tr) -> forall t o, In (Ret t o None) tr -> mayfail o.
  Proof.
    intros H. apply (exec_inv (k_step SP sig take code env venv) (fun c tr => (forall t p, nth_error (snd c) t = Some p -> tloc p) /\ forall t o, In (Ret t o None) tr -> mayfail o)) in H; [exact (proj2 H)| |].
    - split; [|intros t o []]. intros t p Hp. cbn in Hp. apply nth_error_In, repeat_spec in Hp. subst. exact I.
    - intros [s ths] t1 a c2 e (H1 & H2) Hs. cbn [snd] in H1. unfold k_step in Hs. apply tstep_cases in Hs.
      assert (U : forall u q t p', (forall t p, nth_error ths t = Some p -> tloc p) -> tloc p' -> nth_error (upd ths t p') u = Some q -> tloc q).
      { intros u q t p' Ha Hb Hc. destruct (nth_upd_inv _ _ _ _ _ Hc) as [(-> & -> & _)|(_ & Hu)]; [exact Hb|exact (Ha _ _ Hu)]. }
      destruct Hs as [(t & o & p & p' & -> & Ht & Hc & -> & ->)|[(t & ch & p & o & r & p' & -> & Ht & Hc & -> & ->)|(t & ch & p & -> & Ht & _ & Hc & ->)]]; cbn [snd].
      + destruct p; cbn [k_call] in Hc; try discriminate. destruct (pre SP m o); inversion Hc; subst. split; [intros u q; apply U; [exact H1|exact I]|].
        intros u o' Hi. apply in_app_or in Hi. destruct Hi as [Hi|[Hi|[]]]; [eauto|discriminate].
      + destruct p; cbn [k_ret] in Hc; try discriminate. inversion Hc; subst. split; [intros u q; apply U; [exact H1|exact I]|].
        intros u o' Hi. apply in_app_or in Hi. destruct Hi as [Hi|[Hi|[]]]; [eauto|]. inversion Hi; subst. exact (H1 _ _ Ht).
      + unfold k_run in Hc. destruct (k_run1 SP sig take code env venv s t p ch) as [[s1 p']|] eqn:E; inversion Hc; subst. rewrite app_nil_r. split; [|exact H2].
        intros u q. cbn [snd]. apply U; [exact H1|]. eapply tloc_run; [exact (H1 _ _ Ht)|exact E].
  Qed.
End Throws.
