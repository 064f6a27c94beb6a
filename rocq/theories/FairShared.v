(** Proofs of progress under fair scheduling: shared_spin_mutex. *)
From Coq Require Import List Bool Arith ZArith Lia.
From Verif Require Import ListSum Exec Lin Word RwSpec SharedSpinModel SharedSpinProof Fair.
Import ListNotations.
Local Open Scope Z_scope.

(** A step of thread [t] inside shared_spin_mutex.hpp 57-121. *)
Definition rw_acts (a : ract) (t : nat) : Prop := match a with RRun u _ => u = t | RCall _ _ => False end.
(** Every thread inside a function of shared_spin_mutex.hpp 57-121 can make its next access: nothing blocks. *)
Definition rw_enabled (c : rcfg) (t : nat) : Prop := exists c' e, rw_step c (RRun t false) = Some (c', e).

(** The step from [c] to [c'] is a successful compare-exchange of shared_spin_mutex.hpp 64, 74, 98 or 111 by thread [u]. *)
Definition rw_taken (c c' : rcfg) (u : nat) : Prop :=
  fst c <> rw_locked /\ exists o r, nth_error (snd c') u = Some (RDone HNone o r) /\
    ((o = XLock /\ r = QOk \/ o = XTry /\ r = QTrue) /\ fst c = rw_unlocked /\ fst c' = rw_locked
     \/ (o = SLock /\ r = QOk \/ o = STry /\ r = QTrue) /\ fst c' = fst c + 1).

Lemma rw_inv n cf ac : Z.of_nat n < 2 ^ 31 -> infinite rw_step (rw_init n) cf ac -> forall i, fst (cf i) <> rw_locked ->
  0 <= fst (cf i) < 2 ^ 31 /\ (forall u p, nth_error (snd (cf i)) u = Some p -> rhold p <> HExcl /\ rloc p) /\
  (forall u, nth_error (snd (cf i)) u = Some SSub -> 1 <= fst (cf i)).
Proof.
  intros Hn Hi i Hs. destruct (inf_reach _ _ _ _ Hi i) as (sched & tr & H).
  assert (L : length (snd (cf i)) = n).
  { assert (X : length (snd (cf i)) = length (snd (rw_init n))); [|rewrite X; unfold rw_init; cbn [snd]; apply repeat_length].
    revert H. apply (exec_inv_state rw_step (fun c => length (snd c) = length (snd (rw_init n)))); auto.
    intros [s ths] a c' e IH Hst. rewrite <- IH. unfold rw_step in Hst.
    destruct a as [u o|u b]; destruct (nth_error ths u) as [p|]; try discriminate.
    - destruct p; try discriminate. destruct (rpre m o); [|discriminate]. inversion Hst; subst. apply upd_length.
    - destruct p; try (destruct (rw_run s _ b) as [[s1 p1]|]; [|discriminate]); inversion Hst; subst; apply upd_length. }
  destruct (rw_lin _ _ _ _ H) as (_ & ((w & r) & xs) & Hx & Hall & Hl & Hsum & Hw). cbn [fst snd] in *.
  destruct w as [u|]; [exfalso; tauto|]. destruct Hw as (Hw & Hr).
  assert (B : sumf rS (snd (cf i)) <= 1 * Z.of_nat (length (snd (cf i)))).
  { rewrite Z.mul_comm. apply sumf_bound. intros p. unfold rS. destruct (rhold p); lia. }
  rewrite L in B. repeat split; try lia.
  - intros E. destruct (Hall _ _ H0) as ((A & _) & _). specialize (A E). discriminate.
  - apply (Hall _ _ H0).
  - intros u Eu. pose proof (sumf_elem rS _ _ _ rS_nonneg Eu) as E. cbn in E. lia.
Qed.

Definition rw_rank (c : rcfg) (t : nat) : nat :=
  match nth_error (snd c) t with Some SLoad1 => 3 | Some SLoad2 => 2 | Some (SCas cur) => if cur =? fst c then 1 else 4 | _ => 0 end.
Definition rw_reading (c : rcfg) (t : nat) : Prop :=
  exists p, nth_error (snd c) t = Some p /\ (p = SLoad1 \/ p = SLoad2 \/ exists cur, p = SCas cur).

Lemma rw_rank_le c t : (rw_rank c t <= 4)%nat.
Proof. unfold rw_rank. destruct (nth_error (snd c) t) as [[]|]; try lia. destruct (_ =? _); lia. Qed.
Lemma rw_rank_ge c t : rw_reading c t -> (1 <= rw_rank c t)%nat.
Proof. unfold rw_rank. intros (p & -> & [->|[->|(cur & ->)]]); try lia. destruct (_ =? _); lia. Qed.

Definition rw_ok (c : rcfg) : Prop :=
  0 <= fst c < 2 ^ 31 /\ (forall u p, nth_error (snd c) u = Some p -> rhold p <> HExcl /\ rloc p) /\
  (forall u, nth_error (snd c) u = Some SSub -> 1 <= fst c).

Lemma u32_small x : 0 <= x < 2 ^ 32 -> u32 x = x.
Proof. intros H. unfold u32, two32. apply Z.mod_small. exact H. Qed.

Lemma rw_other c a c' e t : rw_ok c -> rw_step c a = Some (c', e) -> ~ rw_acts a t ->
  (exists u, rw_taken c c' u) \/
  (forall p, nth_error (snd c) t = Some p -> (forall m, p <> RRest m) -> nth_error (snd c') t = Some p) /\ (fst c' = fst c \/ fst c' = fst c - 1 /\ 1 <= fst c).
Proof.
  destruct c as [s ths], c' as [s' ths']. intros (Hs & Hall & Hsub) Hst Ha. cbn [fst snd] in *. unfold rw_step in Hst.
  assert (NL : s <> rw_locked) by (unfold rw_locked; lia).
  assert (O : forall u p, u <> t -> (forall q, nth_error ths t = Some q -> (forall m, q <> RRest m) -> nth_error (upd ths u p) t = Some q)) by (intros u p Hu q Hq _; rewrite nth_upd_neq by auto; exact Hq).
  destruct a as [u o|u b]; destruct (nth_error ths u) as [p|] eqn:Eu; try discriminate.
  - destruct p; try discriminate. destruct (rpre m o); [|discriminate]. inversion Hst; subst. right. split; [|auto].
    intros p Ht Hp. rewrite nth_upd_neq; [exact Ht|]. intros ->. rewrite Ht in Eu. inversion Eu. eapply Hp; eauto.
  - cbn [rw_acts] in Ha. destruct (Hall _ _ Eu) as (He & Hc).
    assert (T : forall s2 p2, Some ((s2, upd ths u p2), @nil (event rop rres)) = Some ((s', ths'), e) -> s2 = s' /\ ths' = upd ths u p2 /\ nth_error ths' u = Some p2).
    { intros s2 p2 E. inversion E; subst. rewrite (nth_upd_eq _ _ _ _ Eu). auto. }
    destruct p; cbn [rw_run] in Hst; try discriminate.
    + destruct (s =? rw_unlocked); apply T in Hst as (-> & -> & _); right; auto.
    + destruct ((s =? rw_unlocked) && negb b) eqn:E1.
      * apply T in Hst as (<- & -> & E2). left. exists u. split; [exact NL|]. exists XLock, QOk. apply andb_prop in E1 as (E1 & _). apply Z.eqb_eq in E1. cbn [fst snd]. rewrite E1. split; [exact E2|auto].
      * apply T in Hst as (-> & -> & _); right; auto.
    + destruct (s =? rw_unlocked) eqn:E1.
      * apply T in Hst as (<- & -> & E2). left. exists u. split; [exact NL|]. exists XTry, QTrue. apply Z.eqb_eq in E1. cbn [fst snd]. rewrite E1. split; [exact E2|auto].
      * apply T in Hst as (-> & -> & _); right; auto.
    + exfalso. apply He. reflexivity.
    + destruct (s =? rw_locked); apply T in Hst as (-> & -> & _); right; auto.
    + apply T in Hst as (-> & -> & _); right; auto.
    + destruct ((s =? cur) && negb b) eqn:E1.
      * apply T in Hst as (<- & -> & E2). left. exists u. split; [exact NL|]. exists SLock, QOk. apply andb_prop in E1 as (E1 & _). apply Z.eqb_eq in E1. cbn [fst snd]. split; [exact E2|]. right. split; [auto|]. rewrite u32_small by lia. lia.
      * apply T in Hst as (-> & -> & _); right; auto.
    + apply T in Hst as (-> & -> & _); right; auto.
    + destruct (s =? cur) eqn:E1.
      * apply T in Hst as (<- & -> & E2). left. exists u. split; [exact NL|]. exists STry, QTrue. apply Z.eqb_eq in E1. cbn [fst snd]. split; [exact E2|]. right. split; [auto|]. rewrite u32_small by lia. lia.
      * apply T in Hst as (-> & -> & _); right; auto.
    + apply T in Hst as (<- & -> & _). right. split; [auto|]. right. specialize (Hsub _ Eu). rewrite u32_small by lia. lia.
    + inversion Hst; subst. right; auto.
Qed.

Section Rw.
  Variables (n : nat) (cf : nat -> rcfg) (ac : nat -> option ract) (i0 t : nat).
  Hypothesis Hn : Z.of_nat n < 2 ^ 31.
  Hypothesis Hinf : infinite rw_step (rw_init n) cf ac.
  Hypothesis Hfair : fair rw_acts rw_enabled cf ac.
  Hypothesis Hspur : forall j, (i0 <= j)%nat -> ac j <> Some (RRun t true).

  Lemma rw_ok_at i : fst (cf i) <> rw_locked -> rw_ok (cf i).
  Proof. apply (rw_inv n cf ac Hn Hinf). Qed.

  Lemma rw_fair_shared : fst (cf i0) <> rw_locked -> rw_reading (cf i0) t -> exists j u, (i0 <= j)%nat /\ rw_taken (cf j) (cf (S j)) u.
  Proof.
    intros Hs Hr.
    destruct (countdown_step rw_step rw_acts rw_enabled cf ac (fun _ => True)
      (fun c => rw_ok c /\ rw_reading c t)
      (fun c _ c' => exists u, rw_taken c c' u) (fun c => (4 * Z.to_nat (fst c) + rw_rank c t)%nat) t i0) with (i := i0) as (j & a & Hj & _ & u & Hu); eauto.
    - exact (proj2 Hinf).
    - intros [s ths] _ (_ & p & Ep & Hp). unfold rw_enabled, rw_step. cbn [snd] in Ep. rewrite Ep.
      destruct Hp as [->|[->|(cur & ->)]]; cbn [rw_run negb]; [destruct (_ =? _)| |destruct (_ && _)]; eauto.
    - intros k a e Hk Ea (Hok & Hread) Hst.
      assert (D : rw_acts a t \/ ~ rw_acts a t) by (destruct a; cbn; [tauto|lia]).
      destruct D as [D|D].
      + destruct a as [v o|v b]; [contradiction|]. cbn [rw_acts] in *. subst v.
        assert (b = false) as -> by (destruct b; [exfalso; eapply Hspur; eauto|reflexivity]). clear Ea.
        destruct (cf k) as [s ths], (cf (S k)) as [s' ths']. pose proof Hok as (Hv & Hall & Hsub). destruct Hread as (p & Ep & Hp). cbn [fst snd] in *. unfold rw_step in Hst. rewrite Ep in Hst.
        assert (NL : (s =? rw_locked) = false) by (apply Z.eqb_neq; unfold rw_locked; lia).
        assert (K : forall p2, (p2 = SLoad1 \/ p2 = SLoad2 \/ exists cur, p2 = SCas cur) -> rloc p2 -> (rw_rank (s, upd ths t p2) t < rw_rank (s, ths) t)%nat ->
                   Some ((s, upd ths t p2), @nil (event rop rres)) = Some ((s', ths'), e) ->
                   (exists u, rw_taken (s, ths) (s', ths') u) \/
                   (rw_ok (s', ths') /\ rw_reading (s', ths') t) /\ (4 * Z.to_nat s' + rw_rank (s', ths') t <= 4 * Z.to_nat s + rw_rank (s, ths) t)%nat /\
                   (t = t -> (4 * Z.to_nat s' + rw_rank (s', ths') t < 4 * Z.to_nat s + rw_rank (s, ths) t)%nat)).
        { intros p2 Hp2 Hl2 Hm E. inversion E; subst. right. split; [|split; [lia|lia]]. split.
          - split; [exact Hv|]. cbn [fst snd]. split.
            + intros u q Hq. destruct (nth_upd_inv _ _ _ _ _ Hq) as [(<- & -> & _)|(_ & Hu)]; [|eauto].
              split; [destruct Hp2 as [->|[->|(cur & ->)]]; discriminate|exact Hl2].
            + intros u Hq. destruct (nth_upd_inv _ _ _ _ _ Hq) as [(<- & E2 & _)|(_ & Hu)]; [|eauto]. destruct Hp2 as [->|[->|(cur & ->)]]; discriminate.
          - exists p2. cbn [snd]. rewrite (nth_upd_eq _ _ _ _ Ep). auto. }
        destruct Hp as [->|[->|(cur & ->)]]; cbn [rw_run] in Hst.
        * rewrite NL in Hst. apply (K SLoad2); auto; [cbn; auto|]. unfold rw_rank. cbn [snd fst]. rewrite (nth_upd_eq _ _ _ _ Ep), Ep. lia.
        * rewrite land_mask_small in Hst by lia. apply (K (SCas s)); eauto. unfold rw_rank. cbn [snd fst]. rewrite (nth_upd_eq _ _ _ _ Ep), Ep, Z.eqb_refl. lia.
        * destruct (s =? cur) eqn:E1; cbn [andb negb] in Hst.
          -- left. exists t. apply Z.eqb_eq in E1. subst cur. inversion Hst; subst. split; [apply Z.eqb_neq in NL; exact NL|]. exists SLock, QOk. cbn [snd fst]. rewrite (nth_upd_eq _ _ _ _ Ep). split; [reflexivity|]. right. split; [auto|]. rewrite u32_small by lia. reflexivity.
          -- apply (K SLoad1); auto; [cbn; auto|]. unfold rw_rank. cbn [snd fst]. rewrite (nth_upd_eq _ _ _ _ Ep), Ep. rewrite Z.eqb_sym, E1. lia.
      + destruct (rw_other _ _ _ _ t Hok Hst D) as [T|(Hp & Hv)]; [left; exact T|]. right.
        assert (Hread' : rw_reading (cf (S k)) t).
        { destruct Hread as (p & Ep & Hpp). exists p. split; [apply Hp; [exact Ep|]|exact Hpp]. intros m. destruct Hpp as [->|[->|(cur & ->)]]; discriminate. }
        assert (Hok' : rw_ok (cf (S k))) by (apply rw_ok_at; destruct Hok as (Hok & _); unfold rw_locked; lia).
        split; [auto|]. destruct Hv as [Hv|(Hv & Hv1)].
        * assert (E : rw_rank (cf (S k)) t = rw_rank (cf k) t).
          { destruct Hread as (p & Ep & Hpp). unfold rw_rank. rewrite (Hp p Ep), Ep, Hv; [reflexivity|]. intros m. destruct Hpp as [->|[->|(cur & ->)]]; discriminate. }
          rewrite Hv, E. split; [lia|tauto].
        * pose proof (rw_rank_le (cf (S k)) t). pose proof (rw_rank_ge (cf k) t Hread). rewrite Hv. split; [lia|tauto].
    - split; [apply rw_ok_at; exact Hs|exact Hr].
  Qed.

  Lemma rw_fair_excl : fst (cf i0) = rw_unlocked -> (nth_error (snd (cf i0)) t = Some XLoad \/ nth_error (snd (cf i0)) t = Some XCas) ->
    exists j u, (i0 <= j)%nat /\ rw_taken (cf j) (cf (S j)) u.
  Proof.
    intros Hs Hr.
    destruct (countdown_step rw_step rw_acts rw_enabled cf ac (fun _ => True)
      (fun c => rw_ok c /\ fst c = rw_unlocked /\ (nth_error (snd c) t = Some XLoad \/ nth_error (snd c) t = Some XCas))
      (fun c _ c' => exists u, rw_taken c c' u) (fun c => match nth_error (snd c) t with Some XLoad => 2 | Some XCas => 1 | _ => 0 end%nat) t i0) with (i := i0) as (j & a & Hj & _ & u & Hu); eauto.
    - exact (proj2 Hinf).
    - intros [s ths] _ (_ & _ & Hp). unfold rw_enabled, rw_step. cbn [snd] in Hp.
      destruct Hp as [->| ->]; cbn [rw_run negb]; [destruct (_ =? _)|destruct (_ && _)]; eauto.
    - intros k a e Hk Ea (Hok & Hz & Hread) Hst.
      assert (D : rw_acts a t \/ ~ rw_acts a t) by (destruct a; cbn; [tauto|lia]).
      destruct D as [D|D].
      + destruct a as [v o|v b]; [contradiction|]. cbn [rw_acts] in *. subst v.
        assert (b = false) as -> by (destruct b; [exfalso; eapply Hspur; eauto|reflexivity]). clear Ea.
        pose proof (rw_ok_at (S k)) as HS.
        destruct (cf k) as [s ths], (cf (S k)) as [s' ths']. cbn [fst snd] in *. subst s. unfold rw_step in Hst.
        destruct Hread as [Ep|Ep]; rewrite Ep in Hst; cbn in Hst; inversion Hst; subst.
        * right. rewrite (nth_upd_eq _ _ _ _ Ep), Ep. split; [|split; intros; lia]. split; [apply HS; discriminate|]. auto.
        * left. exists t. split; [discriminate|]. exists XLock, QOk. cbn [fst snd]. rewrite (nth_upd_eq _ _ _ _ Ep). auto 8.
      + destruct (rw_other _ _ _ _ t Hok Hst D) as [T|(Hp & Hv)]; [left; exact T|]. right.
        assert (E : nth_error (snd (cf (S k))) t = nth_error (snd (cf k)) t).
        { destruct Hread as [Ep|Ep]; rewrite Ep; (apply Hp; [exact Ep|discriminate]). }
        assert (Hv' : fst (cf (S k)) = rw_unlocked) by (unfold rw_unlocked in *; lia).
        rewrite E. split; [|split; [lia|tauto]]. split; [|auto]. apply rw_ok_at. rewrite Hv'. discriminate.
    - split; [apply rw_ok_at; rewrite Hs; discriminate|auto].
  Qed.
End Rw.
