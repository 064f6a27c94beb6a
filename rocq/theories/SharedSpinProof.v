(** Proofs about the shared_spin_mutex model. *)
From Coq Require Import List Bool Arith ZArith Lia.
From Verif Require Import ListSum Exec Lin Word RwSpec RwSpecFacts SharedSpinModel.
Import ListNotations.
Local Open Scope Z_scope.

Notation RSP := (rw_spec true).

Definition rabs (p : rpc) : xth RSP :=
  match p with
  | RRest m => XIdle (S:=RSP) m
  | XLoad | XCas => XPend (S:=RSP) HNone XLock []
  | XTryCas => XPend (S:=RSP) HNone XTry []
  | XStore => XPend (S:=RSP) HExcl XUnlock []
  | SLoad1 | SLoad2 | SCas _ => XPend (S:=RSP) HNone SLock []
  | STryLoad | STryCas _ => XPend (S:=RSP) HNone STry []
  | SSub => XPend (S:=RSP) HShared SUnlock []
  | RDone m o r => XDone (S:=RSP) m o r
  end.

Definition rhold (p : rpc) : rmode :=
  match p with
  | RRest m => m
  | XStore => HExcl
  | SSub => HShared
  | RDone m o r => rnext m o r
  | _ => HNone
  end.

Definition rS (p : rpc) : Z := match rhold p with HShared => 1 | _ => 0 end.

Definition rloc (p : rpc) : Prop :=
  match p with
  | SCas cur | STryCas cur => 0 <= cur < 2 ^ 31
  | _ => True
  end.

Definition RR (c : rcfg) (x : xstate RSP) : Prop :=
  snd x = map rabs (snd c) /\
  (forall t p, nth_error (snd c) t = Some p -> (rhold p = HExcl <-> fst (fst x) = Some t) /\ rloc p) /\
  (forall t, fst (fst x) = Some t -> (t < length (snd c))%nat) /\
  snd (fst x) = sumf rS (snd c) /\
  match fst (fst x) with
  | Some _ => fst c = rw_locked /\ snd (fst x) = 0
  | None => fst c = snd (fst x) /\ 0 <= snd (fst x) <= 2 ^ 31
  end.

Lemma rS_nonneg p : 0 <= rS p.
Proof. unfold rS. destruct (rhold p); lia. Qed.

Lemma RR_init n : RR (rw_init n) (xinit RSP n).
Proof.
  unfold RR, rw_init, xinit. cbn [fst snd oinit rw_spec].
  split; [|split; [|split; [|split]]].
  - cbn. induction n as [|n IH]; cbn; congruence.
  - intros t p H. apply nth_repeat in H. subst. cbn. repeat split; intros; discriminate.
  - discriminate.
  - rewrite sumf_repeat. cbn. lia.
  - split; [reflexivity|]. lia.
Qed.

Lemma RR_intro s ths t q p w w' r r' :
  nth_error ths t = Some q ->
  (forall u q, nth_error ths u = Some q -> (rhold q = HExcl <-> w = Some u) /\ rloc q) ->
  (forall u, w = Some u -> (u < length ths)%nat) ->
  (forall u, u <> t -> (w = Some u <-> w' = Some u)) ->
  (rhold p = HExcl <-> w' = Some t) -> rloc p ->
  r = sumf rS ths -> r' = r - rS q + rS p ->
  match w' with Some _ => s = rw_locked /\ r' = 0 | None => s = r' /\ 0 <= r' <= 2 ^ 31 end ->
  RR (s, upd ths t p) ((w', r'), upd (map rabs ths) t (rabs p)).
Proof.
  intros Ht Hall Hl Ho Hp Hlp Hr Hr' Hw. repeat split; cbn [fst snd] in *.
  - rewrite map_upd. reflexivity.
  - destruct (nth_upd_inv _ _ _ _ _ H) as [(<- & -> & _)|(Hne & Hu)]; [apply Hp|].
    intros G. apply Ho; auto. apply (Hall _ _ Hu); auto.
  - destruct (nth_upd_inv _ _ _ _ _ H) as [(<- & -> & _)|(Hne & Hu)]; [apply Hp|].
    intros G. apply (Hall _ _ Hu). apply Ho; auto.
  - destruct (nth_upd_inv _ _ _ _ _ H) as [(<- & -> & _)|(Hne & Hu)]; auto. apply (Hall _ _ Hu).
  - intros u Hu. rewrite upd_length. destruct (Nat.eq_dec u t) as [->|Hne].
    + apply nth_error_Some. congruence.
    + apply Hl. apply Ho; auto.
  - rewrite (sumf_upd rS _ _ _ _ Ht). lia.
  - exact Hw.
Qed.

Ltac rr_silent Et :=
  eexists; split;
  [ rewrite <- (upd_same _ _ _ Et) at 1; constructor
  | eapply RR_intro; eauto; cbn; try tauto; try lia ].

Lemma RR_step c x a c' e :
  RR c x -> rw_step c a = Some (c', e) -> exists x', xsteps RSP x e x' /\ RR c' x'.
Proof.
  destruct c as [s ths], x as [[w r] xs]. intros (Hx & Hall & Hl & Hsum & Hw) H.
  cbn [fst snd] in *. subst xs.
  destruct a as [t o|t spur]; cbn [rw_step] in H.
  - destruct (nth_error ths t) as [q|] eqn:Et; [|discriminate].
    destruct q as [m| | | | | | |cur| |cur| |m o' r']; try discriminate.
    destruct (rpre m o) eqn:Ep; [|discriminate].
    inversion H; subst; clear H.
    destruct (Hall _ _ Et) as (Hq & _).
    exists ((w, sumf rS ths), upd (map rabs ths) t (rabs (rw_entry o))). split.
    + apply xsteps_one.
      replace (rabs (rw_entry o)) with (XPend (S:=RSP) m o []) by (destruct o, m; cbn in *; try discriminate; reflexivity).
      constructor; auto. apply (nth_map rabs) in Et. exact Et.
    + eapply RR_intro; eauto; try tauto.
      * rewrite <- Hq. destruct o, m; cbn in *; try discriminate; split; intros; congruence.
      * destruct o; cbn; auto.
      * unfold rS. destruct o, m; cbn in *; try discriminate; lia.
  - destruct (nth_error ths t) as [q|] eqn:Et; [|discriminate].
    pose proof (nth_map rabs _ _ _ Et) as Ets.
    destruct (Hall _ _ Et) as (Hq & Hlq).
    assert (Hcase : (exists m o r, q = RDone m o r /\ c' = (s, upd ths t (RRest (rnext m o r))) /\ e = [Ret t o r])
            \/ exists s' p', rw_run s q spur = Some (s', p') /\ c' = (s', upd ths t p') /\ e = []).
    { destruct q as [m| | | | | | |cur| |cur| |m o' r'].
      12: { inversion H; subst. left; eauto 6. }
      all: match type of H with context [rw_run ?s0 ?q0 ?b] =>
             destruct (rw_run s0 q0 b) as [[s1 p1]|] eqn:Er; [|discriminate] end;
           inversion H; subst; right; eauto 6. }
    clear H. destruct Hcase as [(m & o & r0 & -> & -> & ->)|(s' & p' & Er & -> & ->)].
    + exists ((w, r), upd (map rabs ths) t (rabs (RRest (rnext m o r0)))). split.
      * apply xsteps_one. cbn [rabs]. change (rnext m o r0) with (next RSP m o r0). constructor. exact Ets.
      * eapply RR_intro; eauto; try tauto; cbn; auto. unfold rS. cbn. lia.
    + assert (Hsil : forall p2, rabs p2 = rabs q -> rhold p2 = rhold q -> rloc p2 ->
                exists x', xsteps RSP (w, r, map rabs ths) [] x' /\ RR (s, upd ths t p2) x').
      { intros p2 Ha Hh2 Hl2. exists ((w, r), upd (map rabs ths) t (rabs p2)). split.
        - rewrite Ha, upd_same by exact Ets. constructor.
        - eapply RR_intro; eauto; try tauto; cbn; auto.
          + rewrite Hh2. exact Hq.
          + unfold rS. rewrite Hh2. lia. }
      assert (Hlin : forall s2 p2 m o rr w2 r2, rabs q = XPend (S:=RSP) m o [] -> p2 = RDone m o rr ->
                rtrans true t o (w, r) rr (w2, r2) -> rhold q = m ->
                match w2 with Some _ => s2 = rw_locked /\ r2 = 0 | None => s2 = r2 /\ 0 <= r2 <= 2 ^ 31 end ->
                exists x', xsteps RSP (w, r, map rabs ths) [] x' /\ RR (s2, upd ths t p2) x').
      { intros s2 p2 m o rr w2 r2 Ha -> Htr Hm Hw2.
        exists ((w2, r2), upd (map rabs ths) t (rabs (RDone m o rr))). split.
        - apply xsteps_one. cbn [rabs]. rewrite Ha in Ets. eapply (xs_lin RSP); [exact Ets|exact Htr].
        - eapply RR_intro; eauto.
          + intros u Hu. inversion Htr; subst; split; intros; congruence.
          + cbn. rewrite Hm in Hq.
            assert (Hpre : rpre m o = true).
            { destruct q; cbn in Ha; inversion Ha; subst; reflexivity. }
            inversion Htr; subst; destruct (rhold q); cbn in *; try discriminate; try tauto;
              split; intros; try congruence; try tauto.
          + cbn; auto.
          + assert (Hpre : rpre m o = true).
            { destruct q; cbn in Ha; inversion Ha; subst; reflexivity. }
            unfold rS. cbn. rewrite Hm. inversion Htr; subst; destruct (rhold q); cbn in *; try discriminate; lia. }
      assert (Hmask : 0 <= Z.land s reader_mask < 2 ^ 31).
      { unfold reader_mask. rewrite land_ones_mod by lia. apply Z.mod_pos_bound. reflexivity. }
      pose proof (sumf_nonneg rS ths rS_nonneg) as Hnn.
      unfold rw_locked, rw_unlocked in *.
      destruct q as [m| | | | | | |cur| |cur| |m o' r']; cbn [rw_run] in Er; try discriminate.
      * (* XLoad *) destruct (Z.eqb_spec s rw_unlocked); inversion Er; subst; apply Hsil; cbn; auto.
      * (* XCas *) destruct (Z.eqb_spec s rw_unlocked) as [E|E]; cbn [andb] in Er.
        -- destruct spur; cbn [negb] in Er; inversion Er; subst; [apply Hsil; cbn; auto|].
           unfold rw_unlocked in *. destruct w as [u|]; [lia|]. destruct Hw as (Hw & _).
           eapply Hlin; cbn; eauto.
           ++ replace (sumf rS ths) with 0 by lia. constructor.
           ++ cbn. auto.
        -- inversion Er; subst; apply Hsil; cbn; auto.
      * (* XTryCas *) destruct (Z.eqb_spec s rw_unlocked) as [E|E]; inversion Er; subst.
        -- unfold rw_unlocked in *. destruct w as [u|]; [lia|]. destruct Hw as (Hw & _).
           eapply Hlin; cbn; eauto.
           ++ replace (sumf rS ths) with 0 by lia. constructor.
           ++ cbn. auto.
        -- unfold rw_unlocked in *. eapply Hlin; cbn; eauto. constructor.
           destruct w; [left; discriminate|right; lia].
      * (* XStore *) inversion Er; subst. cbn in Hq. assert (w = Some t) as -> by tauto.
        destruct Hw as (Hw & Hr0). eapply Hlin; cbn; eauto.
        ++ rewrite Hr0. constructor.
        ++ cbn. unfold rw_unlocked. lia.
      * (* SLoad1 *) destruct (Z.eqb_spec s rw_locked); inversion Er; subst; apply Hsil; cbn; auto.
      * (* SLoad2 *) inversion Er; subst. apply Hsil; cbn; auto.
      * (* SCas *) cbn in Hlq. destruct (Z.eqb_spec s cur) as [E|E]; cbn [andb] in Er.
        -- destruct spur; cbn [negb] in Er; inversion Er; subst; [apply Hsil; cbn; auto|].
           destruct w as [u|]; [lia|]. destruct Hw as (Hw & Hb).
           rewrite u32_id by (unfold two32; lia).
           eapply Hlin; cbn; eauto.
           ++ constructor. lia.
           ++ cbn. lia.
        -- inversion Er; subst; apply Hsil; cbn; auto.
      * (* STryLoad *) inversion Er; subst. apply Hsil; cbn; auto.
      * (* STryCas *) cbn in Hlq. destruct (Z.eqb_spec s cur) as [E|E]; inversion Er; subst.
        -- destruct w as [u|]; [lia|]. destruct Hw as (Hw & Hb).
           rewrite u32_id by (unfold two32; lia).
           eapply Hlin; cbn; eauto.
           ++ constructor. lia.
           ++ cbn. lia.
        -- eapply Hlin; cbn; eauto. constructor. auto.
      * (* SSub *) inversion Er; subst.
        assert (Hel : rS SSub <= sumf rS ths) by (eapply sumf_elem; eauto; apply rS_nonneg).
        change (rS SSub) with 1 in Hel.
        destruct w as [u|]; [lia|]. destruct Hw as (Hw & Hb).
        rewrite u32_id by (unfold two32; lia).
        eapply Hlin; cbn; eauto.
        ++ constructor. lia.
        ++ cbn. lia.
Qed.

Lemma rw_lin n sched c tr :
  exec rw_step (rw_init n) sched = Some (c, tr) -> linearizable RSP n tr /\ exists x, RR c x.
Proof. apply (forward_sim RSP); [apply RR_init|]. intros; eapply RR_step; eauto. Qed.

Lemma rw_excl n sched c tr t u :
  exec rw_step (rw_init n) sched = Some (c, tr) -> t <> u ->
  rw_hold t tr = HExcl -> rw_hold u tr = HNone.
Proof. intros H. apply (rw_exclusion true n). apply (rw_lin _ _ _ _ H). Qed.

(** Solo progress. *)
Lemma rw_word n sched s ths tr :
  exec rw_step (rw_init n) sched = Some ((s, ths), tr) ->
  (forall t p, nth_error ths t = Some p -> rhold p <> HExcl) -> s = sumf rS ths /\ 0 <= s <= 2 ^ 31.
Proof.
  intros H Hno. destruct (rw_lin _ _ _ _ H) as (_ & ((w & r) & xs) & Hx & Hall & Hl & Hsum & Hw).
  cbn [fst snd] in *. destruct w as [u|].
  - exfalso. pose proof (Hl _ eq_refl) as Hlt. apply nth_error_Some in Hlt.
    destruct (nth_error ths u) as [p|] eqn:Eu; [|congruence].
    apply (Hno _ _ Eu). apply (Hall _ _ Eu). reflexivity.
  - lia.
Qed.

Lemma rw_xlock_solo n sched s ths tr t p :
  exec rw_step (rw_init n) sched = Some ((s, ths), tr) ->
  nth_error ths t = Some p -> p = XLoad \/ p = XCas ->
  (forall u q, nth_error ths u = Some q -> rhold q = HNone) ->
  exists k c', (k <= 3)%nat /\ exec rw_step (s, ths) (repeat (RRun t false) k) = Some (c', [Ret t XLock QOk]).
Proof.
  intros H Ht Hp Hfree.
  assert (s = 0) as ->.
  { destruct (rw_word _ _ _ _ _ H) as (-> & _).
    { intros u q Hu. rewrite (Hfree _ _ Hu). discriminate. }
    clear H Ht. induction ths as [|a l IH]; cbn; auto. rewrite IH.
    - unfold rS. rewrite (Hfree 0%nat a eq_refl). reflexivity.
    - intros u q Hu. apply (Hfree (S u) q Hu). }
  destruct Hp as [->| ->].
  - exists 3%nat. eexists. split; [lia|]. cbn [repeat exec]. unfold rw_step. rewrite Ht. cbn.
    rewrite (nth_upd_eq _ _ _ _ Ht). cbn.
    rewrite upd_upd, (nth_upd_eq _ _ _ _ Ht). cbn. reflexivity.
  - exists 2%nat. eexists. split; [lia|]. cbn [repeat exec]. unfold rw_step. rewrite Ht. cbn.
    rewrite (nth_upd_eq _ _ _ _ Ht). cbn. reflexivity.
Qed.

Lemma land_mask_small s : 0 <= s < 2 ^ 31 -> Z.land s reader_mask = s.
Proof. intros H. unfold reader_mask. rewrite land_ones_mod by lia. apply Z.mod_small; auto. Qed.

(* the number of shared owners is below the capacity of the reader field *)
Lemma rw_slock_solo n sched s ths tr t p :
  exec rw_step (rw_init n) sched = Some ((s, ths), tr) ->
  nth_error ths t = Some p -> (p = SLoad1 \/ p = SLoad2 \/ exists cur, p = SCas cur) ->
  (forall u q, nth_error ths u = Some q -> rhold q <> HExcl) ->
  Z.of_nat n <= 2 ^ 31 ->
  exists k c', (k <= 5)%nat /\ exec rw_step (s, ths) (repeat (RRun t false) k) = Some (c', [Ret t SLock QOk]).
Proof.
  intros H Ht Hp Hfree Hn.
  assert (Hlen : length ths = n).
  { assert (G : length (snd (s, ths)) = n).
    { eapply (exec_inv_state rw_step (fun c => length (snd c) = n)); [| |exact H].
      - cbn. apply repeat_length.
      - intros [s1 l1] a [s2 l2] e Hl Hs. cbn [snd] in *. destruct a as [u o|u b]; cbn in Hs.
        + destruct (nth_error l1 u) as [[]|]; try discriminate. destruct (rpre m o); inversion Hs; subst.
          apply upd_length.
        + destruct (nth_error l1 u) as [q|]; try discriminate.
          destruct q; try (inversion Hs; subst; apply upd_length);
            destruct (rw_run _ _ _) as [[? ?]|]; inversion Hs; subst; apply upd_length. }
    exact G. }
  destruct (rw_word _ _ _ _ _ H Hfree) as (Hs & Hb).
  assert (s < 2 ^ 31).
  { enough (sumf rS ths + 1 <= Z.of_nat (length ths)) by lia.
    assert (Z0 : rS p = 0) by (destruct Hp as [-> |[-> |(cur & ->)]]; reflexivity).
    clear - Ht Z0. revert t Ht. induction ths as [|a l IH]; intros [|t] Ht; cbn [nth_error] in Ht; try discriminate.
    - inversion Ht; subst. cbn [sumf length]. rewrite Z0.
      assert (sumf rS l <= Z.of_nat (length l)).
      { clear. induction l as [|b l IH]; cbn [sumf length]; [lia|].
        assert (rS b <= 1) by (unfold rS; destruct (rhold b); lia). lia. }
      lia.
    - specialize (IH _ Ht). cbn [sumf length].
      assert (rS a <= 1) by (unfold rS; destruct (rhold a); lia). lia. }
  assert (Full : forall l, nth_error l t = Some SLoad1 -> exists c', exec rw_step (s, l) (repeat (RRun t false) 4) = Some (c', [Ret t SLock QOk])).
  { intros l Hl. eexists. cbn [repeat exec]. unfold rw_step. rewrite Hl. cbn [rw_run]. unfold rw_locked.
    destruct (Z.eqb_spec s (2 ^ 31)) as [|_]; [lia|].
    rewrite (nth_upd_eq _ _ _ _ Hl). cbn [rw_run]. rewrite land_mask_small by lia.
    rewrite upd_upd, (nth_upd_eq _ _ _ _ Hl). cbn [rw_run]. rewrite Z.eqb_refl. cbn [andb negb].
    rewrite upd_upd, (nth_upd_eq _ _ _ _ Hl). cbn. reflexivity. }
  destruct Hp as [-> |[-> |(cur & ->)]].
  - destruct (Full _ Ht) as (c' & Hc). exists 4%nat, c'. split; [lia|exact Hc].
  - exists 3%nat. eexists. split; [lia|]. cbn [repeat exec]. unfold rw_step. rewrite Ht. cbn [rw_run]. rewrite land_mask_small by lia.
    rewrite (nth_upd_eq _ _ _ _ Ht). cbn [rw_run]. rewrite Z.eqb_refl. cbn [andb negb].
    rewrite upd_upd, (nth_upd_eq _ _ _ _ Ht). cbn. reflexivity.
  - destruct (Z.eqb_spec s cur) as [<-|N].
    + exists 2%nat. eexists. split; [lia|]. cbn [repeat exec]. unfold rw_step. rewrite Ht. cbn [rw_run]. rewrite Z.eqb_refl. cbn [andb negb].
      rewrite (nth_upd_eq _ _ _ _ Ht). cbn. reflexivity.
    + destruct (Full (upd ths t SLoad1) (nth_upd_eq _ _ _ _ Ht)) as (c' & Hc). exists 5%nat, c'. split; [lia|].
      change (repeat (RRun t false) 5) with (RRun t false :: repeat (RRun t false) 4). cbn [exec]. unfold rw_step at 1. rewrite Ht. cbn [rw_run].
      destruct (Z.eqb_spec s cur) as [|_]; [congruence|]. cbn [andb]. rewrite Hc. reflexivity.
Qed.

(** try_lock_shared that runs without interference succeeds iff nobody owns the mutex exclusively
    (as long as the reader field is not full). *)
Lemma rw_stry_solo n sched s ths tr t :
  exec rw_step (rw_init n) sched = Some ((s, ths), tr) ->
  nth_error ths t = Some STryLoad ->
  Z.of_nat n <= 2 ^ 31 ->
  exists c' r, exec rw_step (s, ths) (repeat (RRun t false) 3) = Some (c', [Ret t STry r]) /\
    (r = QTrue <-> forall u q, nth_error ths u = Some q -> rhold q <> HExcl) /\ (r = QTrue \/ r = QFalse).
Proof.
  intros H Ht Hn.
  destruct (rw_lin _ _ _ _ H) as (_ & ((w & r) & xs) & Hx & Hall & Hl & Hsum & Hw).
  cbn [fst snd] in *.
  assert (Hlen : length ths = n).
  { assert (G : length (snd (s, ths)) = n).
    { eapply (exec_inv_state rw_step (fun c => length (snd c) = n)); [| |exact H].
      - cbn. apply repeat_length.
      - intros [s1 l1] a [s2 l2] e Hl1 Hs. cbn [snd] in *. destruct a as [u o|u b]; cbn in Hs.
        + destruct (nth_error l1 u) as [[]|]; try discriminate. destruct (rpre m o); inversion Hs; subst.
          apply upd_length.
        + destruct (nth_error l1 u) as [q|]; try discriminate.
          destruct q; try (inversion Hs; subst; apply upd_length);
            destruct (rw_run _ _ _) as [[? ?]|]; inversion Hs; subst; apply upd_length. }
    exact G. }
  destruct w as [u|].
  - (* held exclusively: the masked CAS fails *)
    destruct Hw as (-> & _). eexists. exists QFalse. split; [|split].
    + cbn [repeat exec]. unfold rw_step. rewrite Ht. cbn [rw_run].
      rewrite (nth_upd_eq _ _ _ _ Ht). cbn [rw_run].
      replace (rw_locked =? Z.land rw_locked reader_mask) with false by reflexivity.
      rewrite upd_upd, (nth_upd_eq _ _ _ _ Ht). cbn. reflexivity.
    + split; [discriminate|]. intros Hno. exfalso.
      pose proof (Hl _ eq_refl) as Hlt. apply nth_error_Some in Hlt.
      destruct (nth_error ths u) as [p|] eqn:Eu; [|congruence].
      apply (Hno _ _ Eu). apply (Hall _ _ Eu). reflexivity.
    + auto.
  - destruct Hw as (Hs & Hb).
    assert (s < 2 ^ 31).
    { enough (sumf rS ths + 1 <= Z.of_nat (length ths)) by lia.
      clear - Ht. revert t Ht. induction ths as [|a l IH]; intros [|t] Ht; cbn [nth_error] in Ht; try discriminate.
      - inversion Ht; subst. cbn [sumf length]. change (rS STryLoad) with 0.
        assert (sumf rS l <= Z.of_nat (length l)).
        { clear. induction l as [|b l IH]; cbn [sumf length]; [lia|].
          assert (rS b <= 1) by (unfold rS; destruct (rhold b); lia). lia. }
        lia.
      - specialize (IH _ Ht). cbn [sumf length].
        assert (rS a <= 1) by (unfold rS; destruct (rhold a); lia). lia. }
    eexists. exists QTrue. split; [|split].
    + cbn [repeat exec]. unfold rw_step. rewrite Ht. cbn [rw_run]. rewrite land_mask_small by lia.
      rewrite (nth_upd_eq _ _ _ _ Ht). cbn [rw_run]. rewrite Z.eqb_refl.
      rewrite upd_upd, (nth_upd_eq _ _ _ _ Ht). cbn. reflexivity.
    + split; auto. intros _ u q Hu Hc. apply (Hall _ _ Hu) in Hc. discriminate.
    + auto.
Qed.

(** Filling the reader field: 2^31 shared owners make the word look exclusively locked. *)
Fixpoint fill (k : nat) : list ract :=
  match k with
  | O => []
  | S k' => fill k' ++ [RCall k' SLock; RRun k' false; RRun k' false; RRun k' false; RRun k' false]
  end.
Fixpoint fill_tr (k : nat) : list (event rop rres) :=
  match k with
  | O => []
  | S k' => fill_tr k' ++ [Call k' SLock; Ret k' SLock QOk]
  end.

Lemma nth_mid {A} (a b : A) k l : nth_error (repeat a k ++ b :: l) k = Some b.
Proof. induction k; cbn; auto. Qed.
Lemma upd_mid {A} (a b c : A) k l : upd (repeat a k ++ b :: l) k c = repeat a k ++ c :: l.
Proof. induction k as [|k IH]; cbn; auto. rewrite IH. reflexivity. Qed.
Lemma repeat_snoc {A} (a : A) k l : repeat a k ++ a :: l = repeat a (S k) ++ l.
Proof. induction k as [|k IH]; cbn in *; auto. rewrite IH. reflexivity. Qed.

Lemma fill_exec k : forall m, Z.of_nat k <= 2 ^ 31 ->
  exec rw_step (rw_init (k + m)) (fill k) =
    Some ((Z.of_nat k, repeat (RRest HShared) k ++ repeat (RRest HNone) m), fill_tr k).
Proof.
  induction k as [|k IH]; intros m Hk; [reflexivity|].
  replace (S k + m)%nat with (k + S m)%nat by lia.
  cbn [fill fill_tr]. rewrite exec_app, IH by lia.
  cbn [repeat exec]. unfold rw_step. rewrite nth_mid. cbn [rpre]. rewrite upd_mid. cbn [rw_entry].
  rewrite nth_mid. cbn [rw_run]. unfold rw_locked.
  destruct (Z.eqb_spec (Z.of_nat k) (2 ^ 31)) as [|_]; [lia|].
  rewrite upd_mid, nth_mid. cbn [rw_run]. rewrite land_mask_small by lia.
  rewrite upd_mid, nth_mid. cbn [rw_run]. rewrite Z.eqb_refl. cbn [andb negb].
  rewrite upd_mid, nth_mid. cbn [rnext].
  rewrite upd_mid, repeat_snoc, u32_id by (unfold two32; lia).
  replace (Z.of_nat k + 1) with (Z.of_nat (S k)) by lia. cbn [app]. reflexivity.
Qed.

Lemma fill_tr_no_excl k : existsb excl_call (fill_tr k) = false.
Proof. induction k as [|k IH]; cbn; auto. rewrite existsb_app, IH. reflexivity. Qed.

Lemma spin_forever s ths t j :
  nth_error ths t = Some SLoad1 -> s = rw_locked ->
  exec rw_step (s, ths) (repeat (RRun t false) j) = Some ((s, ths), []).
Proof.
  intros Ht ->. induction j as [|j IH]; [reflexivity|]. cbn [repeat exec]. unfold rw_step at 1.
  rewrite Ht. cbn [rw_run]. rewrite Z.eqb_refl, upd_same by exact Ht. rewrite IH. reflexivity.
Qed.

Lemma full_blocks : exists n sched c tr t,
  exec rw_step (rw_init n) sched = Some (c, tr) /\ existsb excl_call tr = false /\
  nth_error (snd c) t = Some SLoad1 /\
  forall j, exec rw_step c (repeat (RRun t false) j) = Some (c, []).
Proof.
  assert (E : Z.of_nat (Z.to_nat (2 ^ 31)) = 2 ^ 31) by (apply Z2Nat.id; lia).
  revert E. generalize (Z.to_nat (2 ^ 31)). intros k E.
  exists (k + 1)%nat, (fill k ++ [RCall k SLock]),
    (Z.of_nat k, repeat (RRest HShared) k ++ [SLoad1]), (fill_tr k ++ [Call k SLock]), k.
  split; [|split; [|split]].
  - rewrite exec_app, fill_exec by lia. cbn [repeat exec]. unfold rw_step. rewrite nth_mid. cbn [rpre].
    rewrite upd_mid. reflexivity.
  - rewrite existsb_app, fill_tr_no_excl. reflexivity.
  - cbn [snd]. apply nth_mid.
  - intros j. apply spin_forever; [apply nth_mid|]. rewrite E. reflexivity.
Qed.

Lemma full_try_fails : exists n sched c tr t,
  exec rw_step (rw_init n) sched = Some (c, tr) /\ existsb excl_call tr = false /\
  exec rw_step c [RCall t STry; RRun t false; RRun t false; RRun t false]
    = Some (c, [Call t STry; Ret t STry QFalse]).
Proof.
  assert (E : Z.of_nat (Z.to_nat (2 ^ 31)) = 2 ^ 31) by (apply Z2Nat.id; lia).
  revert E. generalize (Z.to_nat (2 ^ 31)). intros k E.
  exists (k + 1)%nat, (fill k),
    (Z.of_nat k, repeat (RRest HShared) k ++ [RRest HNone]), (fill_tr k), k.
  split; [|split].
  - rewrite fill_exec by lia. reflexivity.
  - apply fill_tr_no_excl.
  - rewrite E. cbn [repeat exec]. unfold rw_step. rewrite nth_mid. cbn [rpre rw_entry].
    rewrite upd_mid, nth_mid. cbn [rw_run].
    rewrite upd_mid, nth_mid. cbn [rw_run].
    replace (2 ^ 31 =? Z.land (2 ^ 31) reader_mask) with false by reflexivity.
    rewrite upd_mid, nth_mid. cbn [rnext]. rewrite upd_mid. reflexivity.
Qed.

Lemma stry_interfered :
  exists c tr, exec rw_step (rw_init 2)
    [RCall 0 STry; RRun 0 false; RCall 1 SLock; RRun 1 false; RRun 1 false; RRun 1 false; RRun 1 false;
     RRun 0 false; RRun 0 false]%nat = Some (c, tr) /\
  existsb excl_call tr = false /\ In (Ret 0%nat STry QFalse) tr.
Proof. eexists. eexists. split; [vm_compute; reflexivity|]. split; [reflexivity|]. cbn. tauto. Qed.
