(** manual_reset_event on Linux (/repo/include/boost/sync/detail/events/manual_reset_event_futex.hpp, "L:") on weak memory.  Program points as in ManualFutexModel.v;
    m_state is location 0.  A step's choice is the scheduler's choice of ManualFutexModel.v and the position of the message read or written.
    The comparison inside FUTEX_WAIT uses the newest value and teaches the thread nothing.
    [racq]: whether reset() has acquire order; the code's reset() is relaxed ([racq = false]). *)
From Coq Require Import List Bool Arith ZArith Lia.
From Verif Require Import ListSum Exec Events Lin Word FlagSpec ManualFutexModel ManualFutexProof Hb HbSpin HbManual Weak WeakAuto.
Import ListNotations.

(** One access of a thread, L:56-203. *)
Definition wman_run (racq : bool) (t : nat) (w : wmem) (ths : list fpc) (p : fpc) (c : fchoice * nat) : option (wmem * list fpc) :=
  let (ch, i) := c in
  match p with
  | FRest | FDone _ _ => None
  | FOr =>                          (* L:58 release *)
      match wrmw t 0 false true (fun v => Z.lor v mpost_bit) i w with
      | Some (v, w') => Some (w', upd ths t (if (Z.land v mpost_bit =? 0)%Z && negb (Z.land v mwait_mask =? 0)%Z then FBcast else FDone FSet FOk))
      | None => None
      end
  | FBcast => Some (w, upd (map wake_all ths) t (FDone FSet FOk))      (* L:60 *)
  | FAnd =>                         (* L:65 relaxed *)
      match wrmw t 0 racq false (fun v => Z.land v mwait_mask) i w with Some (_, w') => Some (w', upd ths t (FDone FReset FOk)) | None => None end
  | FLoad k _ =>                    (* L:86 acquire *)
      match wload t 0 true i w with
      | Some (v, w') => Some (w', upd ths t (if (Z.land v mpost_bit =? 0)%Z then match k with FKTry => FDone FTry FFalse | _ => FAdd k end else FDone (fkop k) (fkres k)))
      | None => None
      end
  | FAdd k =>                       (* L:74 / 114 / 152 relaxed *)
      match wrmw t 0 false false (fun v => u32 (v + mwait_one)) i w with Some (v, w') => Some (w', upd ths t (man_test k (u32 (v + mwait_one)))) | None => None end
  | FFutex k e =>
      match k, ch with
      | FKTimed, FTimeout => Some (w, upd ths t FSubT)
      | _, FSpur => Some (w, upd ths t (FReload k))
      | _, _ => if (newest w =? e)%Z then Some (w, upd ths t (FSleep k)) else Some (w, upd ths t (FReload k))
      end
  | FSleep k =>
      match k, ch with
      | FKTimed, FTimeout => Some (w, upd ths t FSubT)
      | _, FSpur => Some (w, upd ths t (FReload k))
      | _, _ => None
      end
  | FReload k =>                    (* L:78 / 138 / 177 relaxed *)
      match wload t 0 false i w with Some (v, w') => Some (w', upd ths t (man_test k v)) | None => None end
  | FSub k =>                       (* L:81 / 141 / 182 acquire *)
      match wrmw t 0 true false (fun v => u32 (v - mwait_one)) i w with Some (_, w') => Some (w', upd ths t (FDone (fkop k) (fkres k))) | None => None end
  | FSubT =>                        (* L:120 / 133 / 158 / 172 relaxed *)
      match wrmw t 0 false false (fun v => u32 (v - mwait_one)) i w with
      | Some (_, w') => Some (w', upd ths t (match ch with FAgain => FLoad FKTimed true | _ => FDone FTimed FFalse end))
      | None => None
      end
  end.
(** Entry points L:56, 63, 68, 84, 90-104. *)
Definition wman_call (p : fpc) (o : fop) : option fpc := match p with FRest => Some (man_entry o) | _ => None end.
(** Return to the caller, L:56-203. *)
Definition wman_ret (p : fpc) : option (fop * fres * fpc) := match p with FDone o r => Some (o, r, FRest) | _ => None end.
(** Interleaving of any number of threads on weak memory.  L:56-203. *)
Definition wman_step racq := wstep wman_call wman_ret (wman_run racq) 1.
(** L:52. *)
Definition wman_init (n : nat) : wmem * list fpc := (wm0 (fun _ => 0%Z), repeat FRest n).

Lemma wman_mono racq t w ths p ch w' ths' : wman_run racq t w ths p ch = Some (w', ths') -> kmono w w'.
Proof.
  destruct ch as [ch i]. unfold wman_run.
  destruct p; intros H;
    repeat first
    [ discriminate H
    | match type of H with
      | match wload ?t ?l ?a ?i ?w with _ => _ end = _ => let E := fresh "E" in destruct (wload t l a i w) as [[? ?]|] eqn:E; [apply wload_mono in E|discriminate H]
      | match wrmw ?t ?l ?a ?b ?f ?i ?w with _ => _ end = _ => let E := fresh "E" in destruct (wrmw t l a b f i w) as [[? ?]|] eqn:E; [apply wrmw_mono in E|discriminate H]
      | match ?x with _ => _ end = _ => destruct x
      end
    | apply some_pair in H; destruct H as (<- & _); first [assumption|apply kmono_refl] ].
Qed.

Local Open Scope Z_scope.
(** Proof or specification device; no counterpart in /repo. *)
Definition posted (m : msg) : bool := negb (Z.land (mval m) mpost_bit =? 0).

(** Proof or specification device; no counterpart in /repo. *)
Definition MW n (c : wmem * list fpc) : Prop :=
  length (snd c) = n /\ (exists m0 l, hist (fst c) 0 = m0 :: l /\ Forall (fun m => mrmw m = true) l) /\ FI (newest (fst c), snd c).

Lemma FI_stale s ths t q p : FI (s, ths) -> nth_error ths t = Some q -> freg p = freg q -> fslp p <= fslp q -> fbc q <= fbc p -> floc p -> floc2 p -> FI (s, upd ths t p).
Proof.
  intros HI Ht H1 H2 H3 H4 H5. pose proof HI as (b & Hb & Hs & Hw & _). cbn [fst snd] in *. eapply (FI_upd s s ths t q p b); eauto; rewrite ?H1; lia.
Qed.

(** Points after the access by which set() and reset() take effect. Proof or specification device; no counterpart in /repo. *)
Definition after (o : fop) (q : fpc) : Prop := match q with FDone o' _ => o' = o | FBcast => o = FSet | _ => False end.
(** Kinds of steps. Proof or specification device; no counterpart in /repo. *)
Inductive mfeff (racq : bool) (w : wmem) (ths : list fpc) (t : nat) (p : fpc) (w' : wmem) (ths' : list fpc) : Prop :=
| mf_read p' : hist w' 0 = hist w 0 -> ths' = upd ths t p' -> p <> FOr /\ p <> FBcast -> p <> FAnd -> p' <> FOr -> p' <> FAnd -> (forall o, o = FSet \/ o = FReset -> ~ after o p') ->
    (forall k, p' = FSub k -> exists i m, nth_error (hist w 0) i = Some m /\ readable (wkn w t) (hist w 0) i = true /\ posted m = true) ->
    (forall o r, p' = FDone o r -> fseen o r = true -> exists i m, nth_error (hist w 0) i = Some m /\ readable (wkn w t) (hist w 0) i = true /\ posted m = true /\ incl (mrel m) (wkn w' t)) ->
    (forall k a, p = FLoad k a -> exists i m, nth_error (hist w 0) i = Some m /\ readable (wkn w t) (hist w 0) i = true /\ (posted m = true -> p' = FDone (fkop k) (fkres k))) ->
    mfeff racq w ths t p w' ths'
| mf_bcast : w' = w -> p = FBcast -> ths' = upd (map wake_all ths) t (FDone FSet FOk) -> mfeff racq w ths t p w' ths'
| mf_push p' h m x : hist w 0 = h ++ [m] -> hist w' 0 = h ++ [m; x] -> mrmw x = true -> incl (mrel m) (mrel x) -> In (mid x) (wkn w' t) ->
    ths' = upd ths t p' -> p' <> FOr -> p' <> FAnd ->
    (p = FOr -> incl (wkn w t) (mrel x) /\ posted x = true) -> (p <> FOr -> p <> FAnd -> posted x = posted m) -> (p = FAnd -> posted x = false /\ (racq = true -> incl (mrel m) (wkn w' t))) ->
    (forall o r, p' = FDone o r -> fseen o r = true -> (exists k, p = FSub k) /\ incl (mrel m) (wkn w' t)) ->
    (forall k, p' = FSub k -> posted x = true) -> (p <> FBcast /\ forall k a, p <> FLoad k a) -> (forall o, o = FSet \/ o = FReset -> (after o p' <-> p = man_entry o)) ->
    mfeff racq w ths t p w' ths'.

Lemma MW_stale n w ths w' ths' : MW n (w, ths) -> hist w' 0 = hist w 0 -> length ths' = length ths -> FI (newest w, ths') -> MW n (w', ths').
Proof. intros (H1 & H2 & H3) Eh El HI. unfold MW, newest in *. cbn [fst snd] in *. rewrite Eh. repeat split; auto. congruence. Qed.

(** Effect and position of a read-modify-write when all writes are read-modify-writes. *)
Lemma rmw_push w t acq rel f i v w' m0 l : hist w 0 = m0 :: l -> Forall (fun m => mrmw m = true) l -> wrmw t 0 acq rel f i w = Some (v, w') ->
  exists h m x, hist w 0 = h ++ [m] /\ hist w' 0 = h ++ [m; x] /\ v = newest w /\ mval m = newest w /\ newest w' = f (newest w) /\ mval x = f (newest w) /\ mid x = nid w /\ mrmw x = true /\
    incl (mrel m) (mrel x) /\ In (mid x) (wkn w' t) /\ (rel = true -> incl (wkn w t) (mrel x)) /\ (acq = true -> incl (mrel m) (wkn w' t)).
Proof.
  intros E0 Hl H.
  destruct (wrmw_inv _ _ _ _ _ _ _ _ _ H) as (m & En & _ & Rm & -> & Eh & _ & _ & _ & _ & Ek). rewrite E0 in *.
  set (x := Msg (nid w) (f (mval m)) ((if rel then (if acq then mrel m else []) ++ mid m :: wkn w t else wfen w t) ++ mrel m) true) in *.
  destruct (room_rmw _ _ _ _ x Hl En Rm) as (h & E1 & E2). rewrite E2 in Eh. rewrite E1 in *.
  assert (N1 : newest w = mval m) by (apply (newest_end w h); congruence).
  assert (N2 : newest w' = mval x). { apply (newest_end w' (h ++ [m])). rewrite Eh, <- app_assoc. reflexivity. }
  exists h, m, x. rewrite N1, N2. repeat split; auto.
  - apply incl_appr, incl_refl.
  - rewrite Ek. left. reflexivity.
  - intros ->. cbn. apply incl_appl, incl_appr, incl_tl, incl_refl.
  - intros ->. rewrite Ek. apply incl_tl, incl_appl, incl_refl.
Qed.
Lemma MW_push n w ths w' ths' h m x : MW n (w, ths) -> hist w 0 = h ++ [m] -> hist w' 0 = h ++ [m; x] -> mrmw x = true -> length ths' = length ths ->
  FI (newest w', ths') -> MW n (w', ths').
Proof.
  intros (H1 & (m0 & l & H2 & H2') & H3) E E' Hx El HI. unfold MW. cbn [fst snd] in *.
  assert (E2 : hist w' 0 = hist w 0 ++ [x]) by (rewrite E, E', <- app_assoc; reflexivity). split; [congruence|]. split; [|exact HI].
  exists m0, (l ++ [x]). rewrite E2, H2. split; [reflexivity|]. apply Forall_app. auto.
Qed.

Lemma posted_mod m v : mval m = v -> posted m = negb (v mod 2 =? 0).
Proof. intros <-. unfold posted, mpost_bit. rewrite land_one. reflexivity. Qed.
Lemma mod2_parity a b : a mod 2 = b mod 2 -> negb (a mod 2 =? 0) = negb (b mod 2 =? 0). Proof. intros ->. reflexivity. Qed.

Lemma u32_mod2 v : (u32 v) mod 2 = v mod 2.
Proof. unfold u32, two32. change (2 ^ 32) with (2 * 2 ^ 31). rewrite Z.rem_mul_r by lia. rewrite Z.mul_comm, Z_mod_plus_full. apply Z.mod_mod. lia. Qed.

Lemma fcap_len c n : length (snd c) = n -> Z.of_nat n < 2 ^ 31 -> fcap c. Proof. unfold fcap. intros -> H. exact H. Qed.

Lemma fkres_seen k : fseen (fkop k) (fkres k) = true. Proof. destruct k; reflexivity. Qed.

Lemma man_push_eff racq n w ths t p acq rel f i v w' p' ch0 : Z.of_nat n < 2 ^ 31 -> MW n (w, ths) -> nth_error ths t = Some p ->
  wrmw t 0 acq rel f i w = Some (v, w') ->
  man_step (newest w, ths) (FRun t ch0) = Some ((f (newest w), upd ths t p'), []) ->
  p' <> FOr -> p' <> FAnd ->
  (p = FOr -> rel = true /\ (forall v, (f v) mod 2 = 1)) -> (p <> FOr -> p <> FAnd -> (f (newest w)) mod 2 = (newest w) mod 2) ->
  (p = FAnd -> (f (newest w)) mod 2 = 0 /\ (racq = true -> acq = true)) ->
  (forall o r, p' = FDone o r -> fseen o r = true -> (exists k, p = FSub k) /\ acq = true) ->
  (forall k, p' = FSub k -> (f (newest w)) mod 2 <> 0) -> (p <> FBcast /\ forall k a, p <> FLoad k a) -> (forall o, o = FSet \/ o = FReset -> (after o p' <-> p = man_entry o)) ->
  mfeff racq w ths t p w' (upd ths t p') /\ MW n (w', upd ths t p').
Proof.
  intros Hn HW Ht H Hs P1 P2 P3 P4 P5 P6 P7 P8 P9. pose proof HW as (L & (m0 & l & E0 & Hl) & HI). cbn [fst snd] in L, E0, HI.
  destruct (rmw_push _ _ _ _ _ _ _ _ _ _ E0 Hl H) as (h & m & x & E1 & E2 & Ev & Em & En & Ex & Ei & Er & G1 & G2 & G3 & G4).
  assert (C1 : fcap (newest w, ths)) by (eapply fcap_len; eauto).
  assert (C2 : fcap (f (newest w), upd ths t p')) by (eapply fcap_len; [|exact Hn]; cbn [snd]; rewrite upd_length; exact L).
  destruct (man_step_ok _ _ _ _ HI C1 C2 Hs) as (HI' & _).
  split; [|eapply MW_push; eauto; [apply upd_length|rewrite En; exact HI']].
  eapply mf_push; eauto.
  - intros Hp. destruct (P3 Hp) as (Q1 & Q2). split; [auto|]. rewrite (posted_mod _ _ Ex), Q2. reflexivity.
  - intros Q1 Q2. rewrite (posted_mod _ _ Ex), (posted_mod _ _ Em). apply mod2_parity. auto.
  - intros Hp. destruct (P5 Hp) as (Q1 & Q2). split; [rewrite (posted_mod _ _ Ex), Q1; reflexivity|]. auto.
  - intros o r Q1 Q2. destruct (P6 _ _ Q1 Q2) as (Q3 & Q4). auto.
  - intros k Q1. rewrite (posted_mod _ _ Ex). apply P7 in Q1. destruct (Z.eqb_spec (f (newest w) mod 2) 0); [contradiction|reflexivity].
Qed.

Lemma man_read_eff racq n w ths t p w' p' : MW n (w, ths) -> nth_error ths t = Some p -> hist w' 0 = hist w 0 ->
  freg p' = freg p -> fslp p' <= fslp p -> fbc p <= fbc p' -> floc p' -> floc2 p' ->
  p <> FOr /\ p <> FBcast -> p <> FAnd -> p' <> FOr -> p' <> FAnd -> (forall o, o = FSet \/ o = FReset -> ~ after o p') ->
  (forall k, p' = FSub k -> exists i m, nth_error (hist w 0) i = Some m /\ readable (wkn w t) (hist w 0) i = true /\ posted m = true) ->
  (forall o r, p' = FDone o r -> fseen o r = true -> exists i m, nth_error (hist w 0) i = Some m /\ readable (wkn w t) (hist w 0) i = true /\ posted m = true /\ incl (mrel m) (wkn w' t)) ->
  (forall k a, p = FLoad k a -> exists i m, nth_error (hist w 0) i = Some m /\ readable (wkn w t) (hist w 0) i = true /\ (posted m = true -> p' = FDone (fkop k) (fkres k))) ->
  mfeff racq w ths t p w' (upd ths t p') /\ MW n (w', upd ths t p').
Proof.
  intros HW Ht Eh. intros. split; [eapply mf_read; eauto|]. eapply MW_stale; eauto; [apply upd_length|]. eapply FI_stale; eauto. apply HW.
Qed.
Lemma man_kern_eff racq n w ths t p p' ch0 : Z.of_nat n < 2 ^ 31 -> MW n (w, ths) -> nth_error ths t = Some p ->
  man_step (newest w, ths) (FRun t ch0) = Some ((newest w, upd ths t p'), []) ->
  p <> FOr /\ p <> FBcast -> p <> FAnd -> p' <> FOr -> p' <> FAnd -> (forall k, p' <> FSub k) -> (forall o r, p' <> FDone o r) -> p' <> FBcast -> (forall k a, p <> FLoad k a) ->
  mfeff racq w ths t p w (upd ths t p') /\ MW n (w, upd ths t p').
Proof.
  intros Hn HW Ht Hs P1 P2 P3 P4 P5 P6 P6b P7. pose proof HW as (L & _ & HI). cbn [fst snd] in L, HI. split.
  - eapply mf_read; eauto; try (intros; exfalso; first [eapply P6; eassumption|eapply P5; eassumption|eapply P7; eassumption]).
    intros o _ Ha; destruct p'; cbn in Ha; try contradiction; first [congruence|eapply P6; reflexivity].
  - eapply MW_stale; eauto; [apply upd_length|]. refine (proj1 (man_step_ok _ _ _ _ HI _ _ Hs)); apply (fcap_len _ n); cbn [snd]; rewrite ?upd_length; assumption.
Qed.

Lemma land_mask_mod v : (Z.land v mwait_mask) mod 2 = 0.
Proof. rewrite <- land_one, <- Z.land_assoc. change (Z.land mwait_mask 1) with 0. rewrite Z.land_0_r. reflexivity. Qed.
Lemma lor_post_mod v : (Z.lor v mpost_bit) mod 2 = 1.
Proof. unfold mpost_bit. rewrite <- land_one, Z.land_lor_distr_l, !land_one. change (1 mod 2) with 1. pose proof (Z.mod_pos_bound v 2 ltac:(lia)). destruct (Z.eq_dec (v mod 2) 0) as [->|]; [reflexivity|]. replace (v mod 2) with 1 by lia. reflexivity. Qed.
Lemma add2_mod v : (u32 (v + mwait_one)) mod 2 = v mod 2.
Proof. rewrite u32_mod2. unfold mwait_one. replace (v + 2) with (v + 1 * 2) by lia. apply Z_mod_plus_full. Qed.
Lemma sub2_mod v : (u32 (v - mwait_one)) mod 2 = v mod 2.
Proof. rewrite u32_mod2. unfold mwait_one. replace (v - 2) with (v + (-1) * 2) by lia. apply Z_mod_plus_full. Qed.

Lemma wman_eff racq n w ths t p ch w' ths' : Z.of_nat n < 2 ^ 31 -> MW n (w, ths) -> nth_error ths t = Some p -> wman_run racq t w ths p ch = Some (w', ths') ->
  mfeff racq w ths t p w' ths' /\ MW n (w', ths').
Proof.
  intros Hn HW Ht H. destruct ch as [ch i]. pose proof HW as (L & (m0 & l & E0 & Hl) & HI). cbn [fst snd] in L, E0, HI.
  pose proof HI as (_ & _ & _ & _ & Hloc). cbn [snd] in Hloc. destruct (Hloc _ _ Ht) as (Hloc1 & Hloc2).
  assert (Rd : forall a v w1, wload t 0 a i w = Some (v, w1) -> hist w1 0 = hist w 0 /\ exists m, nth_error (hist w 0) i = Some m /\ readable (wkn w t) (hist w 0) i = true /\ mval m = v /\
     posted m = negb (Z.land v mpost_bit =? 0) /\ (a = true -> incl (mrel m) (wkn w1 t))).
  { intros a v w1 E. destruct (wload_inv _ _ _ _ _ _ _ E) as (m & E1 & E2 & -> & E3 & _ & _ & _ & E8). rewrite E3. split; [reflexivity|]. exists m. repeat split; auto.
    intros ->. rewrite E8. first [apply incl_tl, incl_appl, incl_refl|apply incl_appl, incl_refl|apply incl_appr, incl_refl]. }
  assert (Rm : forall a b f v w1, wrmw t 0 a b f i w = Some (v, w1) -> v = newest w).
  { intros a b f v w1 E. destruct (rmw_push _ _ _ _ _ _ _ _ _ _ E0 Hl E) as (? & ? & ? & _ & _ & -> & _). reflexivity. }
  destruct p as [| | | |k a|k|k e|k|k|k| |o r]; cbn [wman_run] in H; cbn [floc floc2] in *; try discriminate.
  - destruct (wrmw t 0 false true (fun v => Z.lor v mpost_bit) i w) as [[v w1]|] eqn:E; [|discriminate]. apply some_pair in H; destruct H as (<- & <-).
    rewrite (Rm _ _ _ _ _ E). eapply (man_push_eff racq n _ _ _ _ _ _ _ _ _ _ _ FNorm Hn HW Ht E); try (split; discriminate); try discriminate; auto using lor_post_mod.
    + cbn [man_step]. rewrite Ht. cbn [man_run]. reflexivity.
    + destruct (_ && _); discriminate.
    + destruct (_ && _); discriminate.
    + congruence.
    + destruct (_ && _); [discriminate|]. intros o r F G. injection F as <- <-. discriminate G.
    + intros k. destruct (_ && _); discriminate.
    + intros o [-> | ->]; destruct (_ && _); cbn; split; intros F; try reflexivity; discriminate F.
  - apply some_pair in H; destruct H as (<- & <-). split; [apply mf_bcast; auto|]. eapply MW_stale; eauto; [rewrite upd_length, map_length; reflexivity|].
    refine (proj1 (man_step_ok (newest w, ths) (FRun t FNorm) _ [] HI _ _ _)).
    + eapply fcap_len; eauto.
    + eapply fcap_len; [|exact Hn]. cbn [snd]. rewrite upd_length, map_length. exact L.
    + cbn [man_step]. rewrite Ht. reflexivity.
  - destruct (wrmw t 0 racq false (fun v => Z.land v mwait_mask) i w) as [[v w1]|] eqn:E; [|discriminate]. apply some_pair in H; destruct H as (<- & <-).
    eapply (man_push_eff racq n _ _ _ _ _ _ _ _ _ _ _ FNorm Hn HW Ht E); try (split; discriminate); try discriminate; auto using land_mask_mod.
    + cbn [man_step]. rewrite Ht. reflexivity.
    + intros _ F. congruence.
    + intros o r F G. injection F as <- <-. discriminate G.
    + intros o [-> | ->]; cbn; split; intros F; try reflexivity; discriminate F.
  - destruct (wload t 0 true i w) as [[v w1]|] eqn:E; [|discriminate]. apply some_pair in H; destruct H as (<- & <-).
    destruct (Rd _ _ _ E) as (R1 & m & R2 & R3 & R4 & R5 & R6).
    eapply man_read_eff; eauto; destruct (Z.land v mpost_bit =? 0) eqn:Ez; try (destruct k; cbn; solve [auto|lia|split; discriminate|discriminate|congruence|intros o [-> | ->]; first [discriminate|intros []]]).
    + intros o r F G. destruct k; try discriminate F. injection F as <- <-. discriminate G.
    + intros o r F _. exists i, m. auto 10.
    + intros k0 a0 F. exists i, m. split; [auto|]. split; [auto|]. rewrite R5. discriminate.
    + intros k0 a0 F. injection F as <- <-. exists i, m. auto.
  - destruct (wrmw t 0 false false (fun v => u32 (v + mwait_one)) i w) as [[v w1]|] eqn:E; [|discriminate]. apply some_pair in H; destruct H as (<- & <-).
    rewrite (Rm _ _ _ _ _ E). eapply (man_push_eff racq n _ _ _ _ _ _ _ _ _ _ _ FNorm Hn HW Ht E); try (split; discriminate); try discriminate; auto using add2_mod; unfold man_test.
    + cbn [man_step]. rewrite Ht. reflexivity.
    + destruct (_ =? 0); discriminate.
    + destruct (_ =? 0); discriminate.
    + intros o r. destruct (_ =? 0); discriminate.
    + intros k0. unfold mpost_bit. rewrite land_one. destruct (Z.eqb_spec (u32 (newest w + mwait_one) mod 2) 0); [discriminate|auto].
    + intros o [-> | ->]; destruct (_ =? 0); cbn; (split; [intros []|discriminate]).
  - assert (F : exists p', w' = w /\ ths' = upd ths t p' /\ p' <> FOr /\ p' <> FAnd /\ (forall k, p' <> FSub k) /\ (forall o r, p' <> FDone o r) /\ p' <> FBcast /\ man_step (newest w, ths) (FRun t ch) = Some ((newest w, upd ths t p'), [])).
    { cbn [man_step]. rewrite Ht. cbn [man_run]. destruct k, ch; try (destruct (newest w =? e)); apply some_pair in H; destruct H as (<- & <-); (eexists; split; [reflexivity|split; [reflexivity|split; [|split; [|split; [|split; [|split; [|reflexivity]]]]]]]; discriminate). }
    destruct F as (p' & -> & -> & F1 & F2 & F3 & F4 & F4b & F5). eapply man_kern_eff; eauto; try split; discriminate.
  - assert (F : exists p', w' = w /\ ths' = upd ths t p' /\ p' <> FOr /\ p' <> FAnd /\ (forall k, p' <> FSub k) /\ (forall o r, p' <> FDone o r) /\ p' <> FBcast /\ man_step (newest w, ths) (FRun t ch) = Some ((newest w, upd ths t p'), [])).
    { cbn [man_step]. rewrite Ht. cbn [man_run]. destruct k, ch; try discriminate; apply some_pair in H; destruct H as (<- & <-); (eexists; split; [reflexivity|split; [reflexivity|split; [|split; [|split; [|split; [|split; [|reflexivity]]]]]]]; discriminate). }
    destruct F as (p' & -> & -> & F1 & F2 & F3 & F4 & F4b & F5). eapply man_kern_eff; eauto; try split; discriminate.
  - destruct (wload t 0 false i w) as [[v w1]|] eqn:E; [|discriminate]. apply some_pair in H; destruct H as (<- & <-).
    destruct (Rd _ _ _ E) as (R1 & m & R2 & R3 & R4 & R5 & R6). unfold man_test.
    eapply man_read_eff; eauto; destruct (Z.land v mpost_bit =? 0) eqn:Ez; try (cbn; solve [auto|lia|split; discriminate|discriminate|congruence|intros o _ []]).
    + cbn. unfold mpost_bit in Ez. rewrite land_one in Ez. apply Z.eqb_eq. exact Ez.
    + intros _ _. exists i, m. auto.
  - destruct (wrmw t 0 true false (fun v => u32 (v - mwait_one)) i w) as [[v w1]|] eqn:E; [|discriminate]. apply some_pair in H; destruct H as (<- & <-).
    eapply (man_push_eff racq n _ _ _ _ _ _ _ _ _ _ _ FNorm Hn HW Ht E); try (split; discriminate); try discriminate; auto using sub2_mod.
    + cbn [man_step]. rewrite Ht. reflexivity.
    + intros o r _ _. split; [eauto|reflexivity].
    + intros o [-> | ->]; destruct k; cbn; split; discriminate.
  - destruct (wrmw t 0 false false (fun v => u32 (v - mwait_one)) i w) as [[v w1]|] eqn:E; [|discriminate]. apply some_pair in H; destruct H as (<- & <-).
    eapply (man_push_eff racq n _ _ _ _ _ _ _ _ _ _ _ ch Hn HW Ht E); try (split; discriminate); try discriminate; auto using sub2_mod.
    + cbn [man_step]. rewrite Ht. reflexivity.
    + destruct ch; discriminate.
    + destruct ch; discriminate.
    + intros o r F G. destruct ch; try discriminate F; injection F as <- <-; discriminate G.
    + intros k. destruct ch; discriminate.
    + intros o [-> | ->]; destruct ch; cbn; (split; [first [discriminate|intros []]|discriminate]).
Qed.

Notation mev := (hev (event fop fres)).
(** Proof or specification device; no counterpart in /repo. *)
Inductive mcase (racq : bool) (w : wmem) (ths : list fpc) (w' : wmem) (ths' : list fpc) (e : list mev) : Prop :=
| mc_call t o : nth_error ths t = Some FRest -> w' = w -> ths' = upd ths t (man_entry o) -> e = [HEv (Call t o) (wkn w t)] -> mcase racq w ths w' ths' e
| mc_ret t o r : nth_error ths t = Some (FDone o r) -> w' = w -> ths' = upd ths t FRest -> e = [HEv (Ret t o r) (wkn w t)] -> mcase racq w ths w' ths' e
| mc_run t p : nth_error ths t = Some p -> (forall o r, p <> FDone o r) -> p <> FRest -> mfeff racq w ths t p w' ths' -> e = [] -> mcase racq w ths w' ths' e
| mc_else : hist w' 0 = hist w 0 -> ths' = ths -> flat_map base_ev e = [] -> mcase racq w ths w' ths' e.

Lemma wman_case racq n w ths a w' ths' e : Z.of_nat n < 2 ^ 31 -> MW n (w, ths) -> wman_step racq (w, ths) a = Some ((w', ths'), e) ->
  MW n (w', ths') /\ kmono w w' /\ mcase racq w ths w' ths' e.
Proof.
  intros Hn HW Hs. split; [|split; [eapply wstep_mono; [apply wman_mono|exact Hs]|]]; apply wstep_cases in Hs; pose proof HW as (L & _ & HI); cbn [fst snd] in L, HI;
    (destruct Hs as [(t & o & p & p' & -> & Ht & Hc & E & ->)|[(t & ch & p & o & r & p' & -> & Ht & Hr & E & ->)|[(t & ch & p & -> & Ht & Hr & E & ->)|[(t & -> & E & ->)|(t & l & o & i & v & w1 & -> & Hl & Hc & E & ->)]]]];
     [injection E as -> ->|injection E as -> ->| |injection E as -> ->|injection E as -> ->]).
  - destruct p; try discriminate. injection Hc as <-. eapply MW_stale; eauto; [apply upd_length|]. eapply FI_stale; eauto; destruct o; cbn; try lia; exact I.
  - destruct p; try discriminate. injection Hr as <- <- <-. eapply MW_stale; eauto; [apply upd_length|]. eapply FI_stale; eauto; cbn; try lia; exact I.
  - eapply wman_eff; eauto.
  - eapply MW_stale; eauto.
  - assert (Eh : hist w1 0 = hist w 0) by (apply (wclient_inv _ _ _ _ _ _ _ Hc); lia). eapply MW_stale; eauto.
  - destruct p; try discriminate. injection Hc as <-. eapply mc_call; eauto.
  - destruct p; try discriminate. injection Hr as <- <- <-. eapply mc_ret; eauto.
  - eapply mc_run; eauto; [| |eapply wman_eff; eauto]; destruct ch; destruct p; try discriminate; try (intros ? ? ?; discriminate).
  - apply mc_else; auto.
  - apply mc_else; auto. apply (wclient_inv _ _ _ _ _ _ _ Hc). lia.
Qed.

Lemma MW_init n : MW n (wman_init n).
Proof.
  unfold MW, wman_init. cbn [fst snd wm0 hist]. split; [apply repeat_length|]. split; [eexists; eexists; split; [reflexivity|constructor]|]. exact (proj1 (FI_init n)).
Qed.
Lemma MW_exec racq n sched c tr : Z.of_nat n < 2 ^ 31 -> exec (wman_step racq) (wman_init n) sched = Some (c, tr) -> MW n c.
Proof.
  intros Hn. apply (exec_inv_state (wman_step racq) (MW n)); [apply MW_init|]. intros [w ths] a [w' ths'] e HW Hs. eapply wman_case; eauto.
Qed.
