(** shared_spin_mutex (/repo/include/boost/sync/detail/mutexes/shared_spin_mutex.hpp) on weak memory.  Program points as in SharedSpinModel.v; the state word is
    location 0.  The choice of each step is a spurious failure (weak compare-exchange only) and the position of the message read or written. *)
From Coq Require Import List Bool Arith ZArith Lia.
From Verif Require Import ListSum Exec Events Lin Word RwSpec RwSpecFacts SharedSpinModel SharedSpinProof Hb Weak.
Import ListNotations.

Definition ws_cas (t : nat) (weak : bool) (e d : Z) (ch : bool * nat) (w : wmem) : option (bool * Z * wmem) :=
  wcas t 0 weak true false false e d (fst ch) (snd ch) w.      (* acquire, on failure relaxed: 64-66, 74-75, 98-99, 111-112. One access of a thread, shared_spin_mutex.hpp 57-121. *)
Definition wshared_run (t : nat) (w : wmem) (ths : list rpc) (p : rpc) (ch : bool * nat) : option (wmem * list rpc) :=
  match p with
  | RRest _ | RDone _ _ _ => None
  | XLoad =>      (* 60: relaxed *)
      match wload t 0 false (snd ch) w with
      | Some (v, w') => Some (w', upd ths t (if (v =? rw_unlocked)%Z then XCas else XLoad))
      | None => None
      end
  | XCas =>       (* 63-67 *)
      match ws_cas t true rw_unlocked rw_locked ch w with
      | Some (true, _, w') => Some (w', upd ths t (RDone HNone XLock QOk))
      | Some (false, _, w') => Some (w', upd ths t XLoad)
      | None => None
      end
  | XTryCas =>    (* 73-78 *)
      match ws_cas t false rw_unlocked rw_locked ch w with
      | Some (b, _, w') => Some (w', upd ths t (RDone HNone XTry (if b then QTrue else QFalse)))
      | None => None
      end
  | XStore =>     (* 84: release *)
      match wstore t 0 true rw_unlocked (snd ch) w with
      | Some w' => Some (w', upd ths t (RDone HExcl XUnlock QOk))
      | None => None
      end
  | SLoad1 =>     (* 90: relaxed *)
      match wload t 0 false (snd ch) w with
      | Some (v, w') => Some (w', upd ths t (if (v =? rw_locked)%Z then SLoad1 else SLoad2))
      | None => None
      end
  | SLoad2 =>     (* 95: acquire *)
      match wload t 0 true (snd ch) w with
      | Some (v, w') => Some (w', upd ths t (SCas (Z.land v reader_mask)))
      | None => None
      end
  | SCas cur =>   (* 96-102 *)
      match ws_cas t true cur (u32 (cur + 1)) ch w with
      | Some (true, _, w') => Some (w', upd ths t (RDone HNone SLock QOk))
      | Some (false, _, w') => Some (w', upd ths t SLoad1)
      | None => None
      end
  | STryLoad =>   (* 108: acquire *)
      match wload t 0 true (snd ch) w with
      | Some (v, w') => Some (w', upd ths t (STryCas (Z.land v reader_mask)))
      | None => None
      end
  | STryCas cur => (* 109-115 *)
      match ws_cas t false cur (u32 (cur + 1)) ch w with
      | Some (b, _, w') => Some (w', upd ths t (RDone HNone STry (if b then QTrue else QFalse)))
      | None => None
      end
  | SSub =>       (* 120: fetch_sub(1, release) *)
      match wrmw t 0 false true (fun v => u32 (v - 1)) (snd ch) w with
      | Some (_, w') => Some (w', upd ths t (RDone HShared SUnlock QOk))
      | None => None
      end
  end.
(** Entry points, shared_spin_mutex.hpp 57-121. *)
Definition wshared_call (p : rpc) (o : rop) : option rpc :=
  match p with RRest m => if rpre m o then Some (rw_entry o) else None | _ => None end.
(** Return to the caller, shared_spin_mutex.hpp 57-121. *)
Definition wshared_ret (p : rpc) : option (rop * rres * rpc) :=
  match p with RDone m o r => Some (o, r, RRest (rnext m o r)) | _ => None end.
(** Interleaving of any number of threads on weak memory.  shared_spin_mutex.hpp 57-121. *)
Definition wshared_step := wstep wshared_call wshared_ret wshared_run 1.
(** shared_spin_mutex.hpp 48-50. *)
Definition wshared_init (n : nat) : wmem * list rpc := (wm0 (fun _ => rw_unlocked), repeat (RRest HNone) n).

(** Proof or specification device; no counterpart in /repo. *)
Definition ws_ev (tr : list (hev (event rop rres))) (x : rop) (u : nat) (K : list nat) : Prop := In (HEv (Call u x) K) tr.

(** A message that is followed by a store is the lock of the writer that stored. Proof or specification device; no counterpart in /repo. *)
Definition before_store (h : list msg) : Prop := forall h1 a x h2, h = h1 ++ a :: x :: h2 -> mrmw x = false -> mval a = rw_locked.

(** Proof or specification device; no counterpart in /repo. *)
Definition WSx (w : wmem) (ths : list rpc) (tr : list (hev (event rop rres))) (m : msg) (t : nat) : Prop :=
  mval m = rw_locked /\ In (mid m) (wkn w t) /\
  (exists p, nth_error ths t = Some p /\ rhold p = HExcl) /\ (forall u p, nth_error ths u = Some p -> u <> t -> rhold p = HNone) /\
  (forall u x K, ws_ev tr x u K -> x = XUnlock \/ x = SUnlock -> incl K (wkn w t)).
(** Proof or specification device; no counterpart in /repo. *)
Definition WSs (w : wmem) (ths : list rpc) (tr : list (hev (event rop rres))) (m : msg) : Prop :=
  mval m = sumf rS ths /\ (sumf rS ths <= 2 ^ 31)%Z /\ (forall u p, nth_error ths u = Some p -> rhold p <> HExcl) /\
  (forall u K, ws_ev tr XUnlock u K -> incl K (mrel m)) /\
  (forall u K, ws_ev tr SUnlock u K -> incl K (mrel m) \/ (nth_error ths u = Some SSub /\ incl K (wkn w u))) /\
  (forall t p, nth_error ths t = Some p -> rhold p = HShared ->
     (forall u K, ws_ev tr XUnlock u K -> incl K (wkn w t)) /\
     exists a y b, hist w 0 = a ++ y :: b /\ In (mid y) (wkn w t) /\ Forall (fun x => mrmw x = true) b).
(** Proof or specification device; no counterpart in /repo. *)
Definition WS (c : wmem * list rpc) (tr : list (hev (event rop rres))) : Prop :=
  before_store (hist (fst c) 0) /\ (forall t p, nth_error (snd c) t = Some p -> rloc p) /\
  exists h m, hist (fst c) 0 = h ++ [m] /\ (WSs (fst c) (snd c) tr m \/ exists t, WSx (fst c) (snd c) tr m t).

Lemma before_room h i m : before_store h -> nth_error h i = Some m -> mval m <> rw_locked -> room h i = true -> S i = length h.
Proof.
  intros G Hn Hv Rm. destruct (nth_error_split _ _ Hn) as (h1 & h2 & E & Hl). destruct h2 as [|x h2].
  - rewrite E, app_length. cbn. lia.
  - exfalso. unfold room in Rm. rewrite E in Rm.
    replace (nth_error (h1 ++ m :: x :: h2) (S i)) with (Some x) in Rm.
    + apply negb_true_iff in Rm. apply Hv. eapply G; eauto.
    + rewrite nth_error_app2 by lia. replace (S i - length h1) with 1 by lia. reflexivity.
Qed.
Lemma before_append h m x : before_store (h ++ [m]) -> (mrmw x = false -> mval m = rw_locked) -> before_store ((h ++ [m]) ++ [x]).
Proof.
  intros G Hl a y z b Eq Hy. destruct b as [|b0 b] using rev_ind.
  - change (a ++ [y; z]) with (a ++ [y] ++ [z]) in Eq. rewrite app_assoc in Eq. apply app_inj_tail in Eq. destruct Eq as (Eq & <-).
    apply app_inj_tail in Eq. destruct Eq as (_ & <-). auto.
  - clear IHb. replace (a ++ y :: z :: b ++ [b0]) with ((a ++ y :: z :: b) ++ [b0]) in Eq by (rewrite <- app_assoc; reflexivity).
    apply app_inj_tail in Eq. destruct Eq as (Eq & _). eapply G; eauto.
Qed.
Lemma nth_last {A} (h : list A) m i y : nth_error (h ++ [m]) i = Some y -> S i = length (h ++ [m]) -> y = m.
Proof. intros H Hl. rewrite app_length in Hl. cbn in Hl. replace i with (length h) in H by lia. rewrite nth_error_app2, Nat.sub_diag in H by lia. cbn in H. congruence. Qed.

Lemma rS_shared p : rhold p = HShared -> rS p = 1%Z. Proof. unfold rS. intros ->. reflexivity. Qed.
Lemma rS_other p : rhold p <> HShared -> rS p = 0%Z. Proof. unfold rS. destruct (rhold p); congruence. Qed.
Lemma sum_zero ths : sumf rS ths = 0%Z -> forall t p, nth_error ths t = Some p -> rhold p <> HShared.
Proof. intros H t p Ht Hh. pose proof (sumf_elem rS _ _ _ rS_nonneg Ht). rewrite (rS_shared _ Hh) in *. lia. Qed.

Lemma sum_none ths : (forall t p, nth_error ths t = Some p -> rS p = 0%Z) -> sumf rS ths = 0%Z.
Proof.
  induction ths as [|p ths IH]; intros H; [reflexivity|]. cbn. rewrite (H 0 p eq_refl), IH; [reflexivity|]. intros t q Hq. apply (H (S t) q Hq).
Qed.

(** Steps that leave the word alone and change hands of nothing. *)
Lemma WS_same w w' ths ths' tr tr' : WS (w, ths) tr -> hist w' 0 = hist w 0 -> kmono w w' -> sumf rS ths' = sumf rS ths ->
  (forall u q', nth_error ths' u = Some q' -> rloc q' /\ exists q, nth_error ths u = Some q /\ rhold q' = rhold q) ->
  (forall u q, nth_error ths u = Some q -> exists q', nth_error ths' u = Some q' /\ rhold q' = rhold q /\ (q = SSub -> q' = SSub)) ->
  (forall x u K, x = XUnlock \/ x = SUnlock -> ws_ev tr' x u K -> ws_ev tr x u K \/
     (x = XUnlock /\ K = wkn w u /\ exists q, nth_error ths u = Some q /\ rhold q = HExcl) \/
     (x = SUnlock /\ K = wkn w u /\ nth_error ths' u = Some SSub)) -> WS (w', ths') tr'.
Proof.
  intros (G & HL & h & m & Eh & HC) Hh Hm Hsum H1 H2 H3. cbn [fst snd] in *. split; [cbn [fst]; rewrite Hh; exact G|]. cbn [fst snd]. split; [intros t p Ht; apply (H1 _ _ Ht)|].
  exists h, m. split; [congruence|]. destruct HC as [(Hv & Hb & Hnx & Hx & Hsu & Hr)|(t & Hv & Hid & (p & Ht & Hp) & Ho & Hu)].
  - left. split; [congruence|]. split; [lia|]. split; [|split; [|split]].
    + intros u q' Hq. destruct (H1 _ _ Hq) as (_ & q & Hq0 & ->). eauto.
    + intros u K HK. destruct (H3 _ _ _ (or_introl eq_refl) HK) as [HK1|[(_ & _ & q & Hq & Hq1)|(F & _)]]; [eauto| |discriminate]. exfalso. eapply Hnx; eauto.
    + intros u K HK. destruct (H3 _ _ _ (or_intror eq_refl) HK) as [HK1|[(F & _)|(_ & -> & Hq)]]; [|discriminate|].
      * destruct (Hsu _ _ HK1) as [|(Hq & Hi)]; [auto|]. right. destruct (H2 _ _ Hq) as (q' & Hq' & _ & Es). rewrite (Es eq_refl) in Hq'. split; [exact Hq'|]. eapply incl_tran; eauto.
      * right. split; [exact Hq|apply Hm].
    + intros t p Ht Hp. destruct (H1 _ _ Ht) as (_ & q & Hq & Ep). rewrite Ep in Hp. destruct (Hr _ _ Hq Hp) as (Hr1 & a & y & b & E & Hy & Hf). split.
      * intros u K HK. destruct (H3 _ _ _ (or_introl eq_refl) HK) as [HK1|[(_ & _ & q1 & Hq1 & Hq2)|(F & _)]]; [eapply incl_tran; [exact (Hr1 _ _ HK1)|apply Hm]| |discriminate]. exfalso. eapply Hnx; eauto.
      * exists a, y, b. rewrite Hh. split; [exact E|]. split; [apply Hm; exact Hy|exact Hf].
  - right. exists t. split; [exact Hv|]. split; [apply Hm; exact Hid|]. split; [|split].
    + destruct (H2 _ _ Ht) as (q' & Hq' & Eq & _). exists q'. split; [exact Hq'|congruence].
    + intros u q' Hq Hn. destruct (H1 _ _ Hq) as (_ & q & Hq0 & ->). eauto.
    + intros u x K HK Hxx. eapply incl_tran; [|apply Hm]. destruct (H3 _ _ _ Hxx HK) as [HK1|[(_ & -> & q & Hq & Hq1)|(_ & -> & Hq)]]; [eauto| |].
      * destruct (Nat.eq_dec u t) as [->|Hn]; [apply incl_refl|]. rewrite (Ho _ _ Hq Hn) in Hq1. discriminate.
      * destruct (H1 _ _ Hq) as (_ & q & Hq0 & Eq). cbn in Eq. destruct (Nat.eq_dec u t) as [->|Hn]; [apply incl_refl|]. rewrite (Ho _ _ Hq0 Hn) in Eq. discriminate.
Qed.
Lemma ws_upd (ths : list rpc) t p p' : nth_error ths t = Some p -> (forall t p, nth_error ths t = Some p -> rloc p) -> rhold p' = rhold p -> rloc p' -> p <> SSub ->
  sumf rS (upd ths t p') = sumf rS ths /\
  (forall u q', nth_error (upd ths t p') u = Some q' -> rloc q' /\ exists q, nth_error ths u = Some q /\ rhold q' = rhold q) /\
  (forall u q, nth_error ths u = Some q -> exists q', nth_error (upd ths t p') u = Some q' /\ rhold q' = rhold q /\ (q = SSub -> q' = SSub)).
Proof.
  intros Ht HL Hh Hl Hs. split; [|split].
  - rewrite (sumf_upd rS _ _ p) by exact Ht. unfold rS. rewrite Hh. lia.
  - intros u q' Hq. destruct (nth_upd_inv _ _ _ _ _ Hq) as [(-> & -> & _)|(_ & Hq2)]; [split; [auto|]|split; [eauto|]]; eauto.
  - intros u q Hq. destruct (Nat.eq_dec t u) as [->|Hn].
    + exists p'. split; [eapply nth_upd_eq; eauto|]. split; congruence.
    + exists q. rewrite nth_upd_neq by auto. auto.
Qed.

(** A successful compare-exchange. *)
Lemma WS_cas w ths tr t p i cur d p' v w' : WS (w, ths) tr -> nth_error ths t = Some p -> rhold p = HNone -> cur <> rw_locked ->
  wrmw t 0 true false (fun _ => d) i w = Some (v, w') -> v = cur -> rloc p' ->
  (rhold p' = HExcl /\ cur = 0%Z /\ d = rw_locked) \/ (rhold p' = HShared /\ p' <> SSub /\ (0 <= cur < 2 ^ 31)%Z /\ d = (cur + 1)%Z) -> WS (w', upd ths t p') tr.
Proof.
  intros (G & HL & h & m & Eh & HC) Ht Hp Hcur Hm Hv Hl' Hd. cbn [fst snd] in *. pose proof (wrmw_mono _ _ _ _ _ _ _ _ _ Hm) as Hmono.
  destruct (wrmw_inv _ _ _ _ _ _ _ _ _ Hm) as (y & Hi & R & Rm & Hvy & Hh & Hk & Hnid & Hfen & Hu & Hkt). cbn zeta in *. set (x := Msg _ _ _ true) in Hh.
  assert (Hlast : S i = length (hist w 0)) by (apply (before_room _ _ _ G Hi); [congruence|exact Rm]).
  assert (y = m) as -> by (rewrite Eh in *; eapply nth_last; eauto). rewrite (insert_end _ _ _ Hlast) in Hh.
  destruct HC as [(Hmv & Hb & Hnx & Hx & Hsu & Hr)|(t' & Hmv & _)]; [|congruence].
  assert (HL' : forall u q, nth_error (upd ths t p') u = Some q -> rloc q).
  { intros u q Hq. destruct (nth_upd_inv _ _ _ _ _ Hq) as [(-> & -> & _)|(_ & Hq2)]; eauto. }
  split; [cbn [fst]; rewrite Hh, Eh; apply before_append; [rewrite <- Eh; exact G|discriminate]|]. split; [exact HL'|]. cbn [fst snd].
  exists (hist w 0), x. split; [exact Hh|]. destruct Hd as [(Hp' & -> & ->)|(Hp' & Hns & Hc & ->)].
  - right. exists t. split; [reflexivity|]. rewrite Hkt. assert (Hz : sumf rS ths = 0%Z) by congruence. split; [left; reflexivity|]. split; [exists p'; split; [eapply nth_upd_eq; eauto|exact Hp']|]. split.
    + intros u q Hq Hn. rewrite nth_upd_neq in Hq by auto. pose proof (sum_zero _ Hz _ _ Hq). specialize (Hnx _ _ Hq). destruct (rhold q); congruence.
    + intros u z K HK [->| ->].
      * apply incl_tl, incl_appl. eauto.
      * destruct (Hsu _ _ HK) as [Hi2|(Hq & _)]; [apply incl_tl, incl_appl; exact Hi2|]. exfalso. apply (sum_zero _ Hz _ _ Hq). reflexivity.
  - left. assert (Hsum : sumf rS (upd ths t p') = (cur + 1)%Z).
    { rewrite (sumf_upd rS _ _ p) by exact Ht. rewrite (rS_shared _ Hp'), (rS_other p) by congruence. lia. }
    split; [cbn; lia|]. split; [lia|]. split; [|split; [|split]].
    + intros u q Hq. destruct (nth_upd_inv _ _ _ _ _ Hq) as [(-> & -> & _)|(_ & Hq2)]; [congruence|eauto].
    + intros u K HK. cbn. apply incl_appr. eauto.
    + intros u K HK. destruct (Hsu _ _ HK) as [Hi2|(Hq & Hi2)]; [left; cbn; apply incl_appr; exact Hi2|]. right. rewrite nth_upd_neq by (intros ->; rewrite Ht in Hq; injection Hq as ->; discriminate). split; [exact Hq|]. eapply incl_tran; [exact Hi2|apply Hmono].
    + intros u q Hq Hqh. destruct (nth_upd_inv _ _ _ _ _ Hq) as [(<- & -> & _)|(_ & Hq2)].
      * split; [intros u K HK; rewrite Hkt; apply incl_tl, incl_appl; eauto|]. exists (hist w 0), x, []. rewrite Hkt. split; [exact Hh|]. split; [left; reflexivity|constructor].
      * destruct (Hr _ _ Hq2 Hqh) as (Hr1 & a & y & b & E & Hy & Hf). split; [intros u' K HK; eapply incl_tran; [exact (Hr1 _ _ HK)|apply Hmono]|].
        exists a, y, (b ++ [x]). rewrite Hh, E, <- app_assoc. split; [reflexivity|]. split; [apply Hmono; exact Hy|]. apply Forall_app. split; [exact Hf|]. repeat constructor.
Qed.

Lemma wshared_mono t w ths p ch w' ths' : wshared_run t w ths p ch = Some (w', ths') -> kmono w w'.
Proof.
  destruct p; cbn [wshared_run]; try discriminate; unfold ws_cas; intros H;
    match type of H with context [match ?X with _ => _ end] => destruct X as [[[b v] w1]|] eqn:E || destruct X as [[v w1]|] eqn:E || destruct X as [w1|] eqn:E; [|discriminate] end;
    try (destruct b); injection H as <- <-; eauto using wload_mono, wcas_mono, wstore_mono, wrmw_mono.
Qed.

Ltac ws_load HI Ht HL E p' :=
  let Hh := fresh in let S1 := fresh in let S2 := fresh in let S3 := fresh in let m := fresh in
  destruct (wload_inv _ _ _ _ _ _ _ E) as (m & _ & _ & _ & Hh & _);
  destruct (ws_upd _ _ _ p' Ht HL eq_refl) as (S1 & S2 & S3); [|discriminate|
  eapply WS_same; [exact HI|rewrite Hh; reflexivity|eapply wload_mono; eauto|exact S1|exact S2|exact S3|auto]].

Lemma land_mask v : (0 <= Z.land v reader_mask < 2 ^ 31)%Z.
Proof. change reader_mask with (Z.ones 31). rewrite Z.land_ones by lia. apply Z.mod_pos_bound. lia. Qed.

Lemma WS_step c tr a c' e : WS c tr -> wshared_step c a = Some (c', e) -> WS c' (tr ++ e).
Proof.
  destruct c as [w ths]. intros HI Hs. apply wstep_cases in Hs. pose proof HI as (_ & HL & _). cbn [fst snd] in HL.
  destruct Hs as [(t & o & p & p' & -> & Ht & Hc & -> & ->)|[(t & ch & p & o & r & p' & -> & Ht & Hr & -> & ->)|[(t & ch & p & -> & Ht & Hr & Hrun & ->)|[(t & -> & -> & ->)|(t & l & o & i & v & w' & -> & Hl & Hc & -> & ->)]]]].
  - destruct p; cbn in Hc; try discriminate. destruct (rpre m o) eqn:Hp; [|discriminate]. injection Hc as <-.
    assert (Hho : rhold (rw_entry o) = m) by (destruct o, m; cbn in *; congruence).
    destruct (ws_upd _ _ _ (rw_entry o) Ht HL Hho) as (S1 & S2 & S3); [destruct o; exact I|discriminate|].
    eapply WS_same; [exact HI|reflexivity|apply kmono_refl|exact S1|exact S2|exact S3|].
    intros x u K Hx HK. apply in_app_or in HK. destruct HK as [|[F|[]]]; [auto|]. right. injection F as -> -> <-.
    destruct Hx as [-> | ->].
    + left. split; [reflexivity|]. split; [reflexivity|]. exists (RRest m). split; [exact Ht|]. destruct m; cbn in *; congruence.
    + right. split; [reflexivity|]. split; [reflexivity|]. eapply nth_upd_eq; eauto.
  - destruct p; cbn in Hr; try discriminate. injection Hr as -> -> <-.
    destruct (ws_upd _ _ _ (RRest (rnext m o r)) Ht HL eq_refl I) as (S1 & S2 & S3); [discriminate|].
    eapply WS_same; [exact HI|reflexivity|apply kmono_refl|exact S1|exact S2|exact S3|]. intros x u K _ HK. apply in_app_or in HK. destruct HK as [|[F|[]]]; [auto|discriminate].
  - rewrite app_nil_r. destruct p; cbn [wshared_run] in Hrun; try discriminate.
    + destruct (wload _ _ _ _ _) as [[v w1]|] eqn:E; [|discriminate]. injection Hrun as <-. destruct (v =? rw_unlocked)%Z; [ws_load HI Ht HL E XCas|ws_load HI Ht HL E XLoad]; exact I.
    + unfold ws_cas in Hrun. destruct (wcas _ _ _ _ _ _ _ _ _ _ _) as [[[b v] w1]|] eqn:E; [|discriminate].
      destruct (wcas_inv _ _ _ _ _ _ _ _ _ _ _ _ _ _ E) as [(-> & Hv & E1)|(-> & _ & E1)]; injection Hrun as <-.
      * eapply WS_cas; [exact HI|exact Ht|reflexivity| |exact E1|exact Hv|exact I|left; auto]. discriminate.
      * ws_load HI Ht HL E1 XLoad. exact I.
    + unfold ws_cas in Hrun. destruct (wcas _ _ _ _ _ _ _ _ _ _ _) as [[[b v] w1]|] eqn:E; [|discriminate].
      destruct (wcas_inv _ _ _ _ _ _ _ _ _ _ _ _ _ _ E) as [(-> & Hv & E1)|(-> & _ & E1)]; injection Hrun as <-.
      * eapply WS_cas; [exact HI|exact Ht|reflexivity| |exact E1|exact Hv|exact I|left; auto]. discriminate.
      * ws_load HI Ht HL E1 (RDone HNone XTry QFalse). exact I.
    + (* XStore *)
      destruct (wstore _ _ _ _ _ _) as [w1|] eqn:E; [|discriminate]. injection Hrun as <-. destruct HI as (G & _ & h & m & Eh & HC). cbn [fst snd] in *.
      destruct HC as [(_ & _ & Hnx & _)|(u & Hv & Hid & _ & Ho & Hu)]; [exfalso; eapply Hnx; [exact Ht|reflexivity]|].
      assert (t = u) as <- by (destruct (Nat.eq_dec t u) as [|Hn]; [assumption|]; specialize (Ho _ _ Ht Hn); discriminate).
      destruct (wstore_inv _ _ _ _ _ _ _ E) as (y & Hi & R & Rm & Hh & Hk & Hnid & Hfen & Hou & Hkt). set (x := Msg _ _ _ false) in Hh.
      assert (Hend : S (snd ch) = length (hist w 0)).
      { rewrite Eh in *. eapply room_end; eauto. apply nth_error_Some. congruence. }
      rewrite (insert_end _ _ _ Hend) in Hh. split; [cbn [fst]; rewrite Hh, Eh; apply before_append; [rewrite <- Eh; exact G|auto]|]. cbn [fst snd].
      split; [intros u q Hq; destruct (nth_upd_inv _ _ _ _ _ Hq) as [(-> & -> & _)|(_ & Hq2)]; [exact I|eauto]|].
      exists (hist w 0), x. split; [exact Hh|]. left.
      assert (Hz : sumf rS (upd ths t (RDone HExcl XUnlock QOk)) = 0%Z).
      { apply sum_none. intros u q Hq. destruct (nth_upd_inv _ _ _ _ _ Hq) as [(-> & -> & _)|(Hn & Hq2)]; [reflexivity|]. apply rS_other. rewrite (Ho _ _ Hq2) by auto. discriminate. }
      split; [rewrite Hz; reflexivity|]. split; [rewrite Hz; lia|]. split; [|split; [|split]].
      * intros u q Hq. destruct (nth_upd_inv _ _ _ _ _ Hq) as [(-> & -> & _)|(Hn & Hq2)]; [discriminate|]. rewrite (Ho _ _ Hq2) by auto. discriminate.
      * intros u K HK. cbn. eauto.
      * intros u K HK. left. cbn. eauto.
      * intros u q Hq Hqh. exfalso. eapply sum_zero; eauto.
    + destruct (wload _ _ _ _ _) as [[v w1]|] eqn:E; [|discriminate]. injection Hrun as <-. destruct (v =? rw_locked)%Z; [ws_load HI Ht HL E SLoad1|ws_load HI Ht HL E SLoad2]; exact I.
    + destruct (wload _ _ _ _ _) as [[v w1]|] eqn:E; [|discriminate]. injection Hrun as <-. ws_load HI Ht HL E (SCas (Z.land v reader_mask)). apply land_mask.
    + unfold ws_cas in Hrun. destruct (wcas _ _ _ _ _ _ _ _ _ _ _) as [[[b v] w1]|] eqn:E; [|discriminate]. pose proof (HL _ _ Ht) as Hcur. cbn in Hcur.
      destruct (wcas_inv _ _ _ _ _ _ _ _ _ _ _ _ _ _ E) as [(-> & Hv & E1)|(-> & _ & E1)]; injection Hrun as <-.
      * eapply WS_cas; [exact HI|exact Ht|reflexivity| |exact E1|exact Hv|exact I|]; [unfold rw_locked; lia|]. right. split; [reflexivity|]. split; [discriminate|]. split; [exact Hcur|].
        apply u32_id. unfold two32. lia.
      * ws_load HI Ht HL E1 SLoad1. exact I.
    + destruct (wload _ _ _ _ _) as [[v w1]|] eqn:E; [|discriminate]. injection Hrun as <-. ws_load HI Ht HL E (STryCas (Z.land v reader_mask)). apply land_mask.
    + unfold ws_cas in Hrun. destruct (wcas _ _ _ _ _ _ _ _ _ _ _) as [[[b v] w1]|] eqn:E; [|discriminate]. pose proof (HL _ _ Ht) as Hcur. cbn in Hcur.
      destruct (wcas_inv _ _ _ _ _ _ _ _ _ _ _ _ _ _ E) as [(-> & Hv & E1)|(-> & _ & E1)]; injection Hrun as <-.
      * eapply WS_cas; [exact HI|exact Ht|reflexivity| |exact E1|exact Hv|exact I|]; [unfold rw_locked; lia|]. right. split; [reflexivity|]. split; [discriminate|]. split; [exact Hcur|].
        apply u32_id. unfold two32. lia.
      * ws_load HI Ht HL E1 (RDone HNone STry QFalse). exact I.
    + (* SSub *)
      destruct (wrmw _ _ _ _ _ _ _) as [[v w1]|] eqn:E; [|discriminate]. injection Hrun as <-. destruct HI as (G & _ & h & m & Eh & HC). cbn [fst snd] in *.
      pose proof (wrmw_mono _ _ _ _ _ _ _ _ _ E) as Hmono.
      destruct (wrmw_inv _ _ _ _ _ _ _ _ _ E) as (y & Hi & R & Rm & Hvy & Hh & Hk & Hnid & Hfen & Hou & Hkt). cbn zeta in *. set (x := Msg _ _ _ true) in Hh.
      destruct HC as [(Hmv & Hb & Hnx & Hx & Hsu & Hr0)|(u & Hv & Hid & (q & Hq & Hqh) & Ho & Hu)].
      2: { exfalso. destruct (Nat.eq_dec t u) as [->|Hn]; [rewrite Ht in Hq; injection Hq as <-; discriminate|]. specialize (Ho _ _ Ht Hn). discriminate. }
      destruct (Hr0 _ _ Ht eq_refl) as (_ & a0 & y0 & b0 & Eh0 & Hy0 & Hf0).
      assert (Hend : S (snd ch) = length (hist w 0)).
      { rewrite Eh0 in *. eapply room_end; eauto. apply nth_error_Some. congruence. }
      rewrite (insert_end _ _ _ Hend) in Hh. assert (y = m) as -> by (rewrite Eh in *; eapply nth_last; eauto).
      split; [cbn [fst]; rewrite Hh, Eh; apply before_append; [rewrite <- Eh; exact G|discriminate]|]. cbn [fst snd].
      split; [intros u q Hq; destruct (nth_upd_inv _ _ _ _ _ Hq) as [(-> & -> & _)|(_ & Hq2)]; [exact I|eauto]|].
      exists (hist w 0), x. split; [exact Hh|]. left.
      assert (Hsum : sumf rS (upd ths t (RDone HShared SUnlock QOk)) = (sumf rS ths - 1)%Z).
      { rewrite (sumf_upd rS _ _ SSub) by exact Ht. unfold rS at 2 3. cbn. lia. }
      pose proof (sumf_nonneg rS (upd ths t (RDone HShared SUnlock QOk)) rS_nonneg) as Hnn.
      split; [cbn; rewrite Hsum, Hmv; apply u32_id; unfold two32; lia|]. split; [lia|]. split; [|split; [|split]].
      * intros u q Hq. destruct (nth_upd_inv _ _ _ _ _ Hq) as [(-> & -> & _)|(_ & Hq2)]; [discriminate|eauto].
      * intros u K HK. cbn. apply incl_tl, incl_appr. eauto.
      * intros u K HK. destruct (Hsu _ _ HK) as [Hi2|(Hq & Hi2)]; [left; cbn; apply incl_tl, incl_appr; exact Hi2|].
        destruct (Nat.eq_dec t u) as [->|Hn]; [left; cbn; apply incl_tl, incl_appl; exact Hi2|]. right. rewrite nth_upd_neq by auto. split; [exact Hq|]. eapply incl_tran; [exact Hi2|apply Hmono].
      * intros u q Hq Hqh. destruct (nth_upd_inv _ _ _ _ _ Hq) as [(-> & -> & _)|(_ & Hq2)]; [discriminate|].
        destruct (Hr0 _ _ Hq2 Hqh) as (Hr1 & a & y & b & E2 & Hy & Hf). split; [intros u' K HK; eapply incl_tran; [exact (Hr1 _ _ HK)|apply Hmono]|].
        exists a, y, (b ++ [x]). rewrite Hh, E2, <- app_assoc. split; [reflexivity|]. split; [apply Hmono; exact Hy|]. apply Forall_app. split; [exact Hf|]. repeat constructor.
  - eapply WS_same with (ths := ths); [exact HI|reflexivity|apply wwork_mono|reflexivity| | |].
    + intros u q Hq. split; eauto.
    + intros u q Hq. exists q. auto.
    + intros x u K _ HK. apply in_app_or in HK. destruct HK as [|[F|[]]]; [auto|discriminate].
  - rewrite app_nil_r. destruct (wclient_inv _ _ _ _ _ _ _ Hc) as (Hm & Hk & _). eapply WS_same with (ths := ths); [exact HI|apply Hk; lia|exact Hm|reflexivity| | |].
    + intros u q Hq. split; eauto.
    + intros u q Hq. exists q. auto.
    + auto.
Qed.

Lemma WS_init n : WS (wshared_init n) [].
Proof.
  assert (Hn : forall t p, nth_error (repeat (RRest HNone) n) t = Some p -> p = RRest HNone) by (intros t p H; eapply nth_repeat; eauto).
  split; [|split]; cbn [wshared_init fst snd wm0 hist].
  - intros h1 m x h2 E. destruct h1 as [|? [|]]; discriminate.
  - intros t p H. rewrite (Hn _ _ H). exact I.
  - exists [], (Msg 0 rw_unlocked [] false). split; [reflexivity|]. left.
    assert (Hz : sumf rS (repeat (RRest HNone) n) = 0%Z) by (rewrite sumf_repeat; cbn; lia).
    split; [rewrite Hz; reflexivity|]. split; [lia|]. split; [|split; [|split]].
    + intros u p H. rewrite (Hn _ _ H). discriminate.
    + intros u K [].
    + intros u K [].
    + intros t p H. rewrite (Hn _ _ H). discriminate.
Qed.
Lemma WS_exec n sched c tr : exec wshared_step (wshared_init n) sched = Some (c, tr) -> WS c tr.
Proof. apply exec_inv; [apply WS_init|]. intros c1 t1 a c2 e. apply WS_step. Qed.

Lemma wshared_pub n sched c tr a t o r K' d :
  exec wshared_step (wshared_init n) sched = Some (c, tr) -> tr = a ++ HEv (Ret t o r) K' :: d ->
  (rnext HNone o r = HExcl -> forall u x K, ws_ev a x u K -> x = XUnlock \/ x = SUnlock -> incl K K') /\
  (rnext HNone o r = HShared -> forall u K, ws_ev a XUnlock u K -> incl K K').
Proof.
  intros H E0.
  apply (exec_events _ WS (fun a x => match x with HEv (Ret t o r) K' =>
      (rnext HNone o r = HExcl -> forall u x K, ws_ev a x u K -> x = XUnlock \/ x = SUnlock -> incl K K') /\
      (rnext HNone o r = HShared -> forall u K, ws_ev a XUnlock u K -> incl K K') | _ => True end) (wshared_init n))
    with (a := a) (x := HEv (Ret t o r) K') (b := d) in H; [exact H| | | |exact E0].
  - apply WS_init.
  - intros c1 t1 a1 c2 e1. apply WS_step.
  - intros [w ths] t1 a1 c2 es d1 x b1 (G & HL & h & m & Eh & HC) Hs He1. cbn [fst snd] in *. destruct x as [|[|t0 o0 r0] K0]; [exact I|exact I|]. apply wstep_cases in Hs.
    assert (Hone : forall y, es = [y] -> d1 = [] /\ y = HEv (Ret t0 o0 r0) K0).
    { intros y ->. destruct d1 as [|? [|]]; inversion He1; auto. }
    destruct Hs as [(? & ? & ? & ? & _ & _ & _ & _ & E)|[(t2 & ch & p & o2 & r2 & p' & _ & Ht & Hr & _ & E)|[(? & ? & ? & _ & _ & _ & _ & E)|[(t3 & _ & _ & E)|(? & ? & ? & ? & ? & ? & _ & _ & _ & _ & E)]]]].
    + destruct (Hone _ E) as (_ & F). discriminate.
    + destruct (Hone _ E) as (-> & F). injection F as -> -> -> <-. rewrite app_nil_r. destruct p; cbn in Hr; try discriminate. injection Hr as -> -> <-.
      destruct HC as [(Hmv & Hb & Hnx & Hx & Hsu & Hr0)|(u & Hv & Hid & _ & Ho & Hu)].
      * split; intros Hg.
        -- exfalso. eapply Hnx; [exact Ht|]. cbn. destruct o0, r0; cbn in *; congruence.
        -- apply (proj1 (Hr0 _ _ Ht ltac:(cbn; destruct o0, r0; cbn in *; congruence))).
      * destruct (Nat.eq_dec t0 u) as [->|Hn].
        -- split; intros Hg; [intros; eauto|intros; eauto].
        -- specialize (Ho _ _ Ht Hn). cbn in Ho. split; intros Hg; destruct o0, r0; cbn in *; congruence.
    + rewrite E in He1. destruct d1; discriminate.
    + destruct (Hone _ E) as (_ & F). discriminate.
    + rewrite E in He1. destruct d1; discriminate.
Qed.
