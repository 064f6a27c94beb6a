(** Proofs of progress under fair scheduling: auto_reset_event built on a semaphore. *)
From Coq Require Import List Bool Arith ZArith Lia.
From Verif Require Import ListSum Exec Lin Thr Word EventSpec AutoSemModel AutoSemProof Fair.
Import ListNotations.
Local Open Scope Z_scope.

(** A step of thread [t] inside auto_reset_event_semaphore.hpp 43-95, whatever the environment chooses. *)
Definition as_acts (a : tact eop schoice) (t : nat) : Prop := match a with TRun u _ => u = t | TCall _ _ => False end.
(** Thread [t] has a next access or semaphore operation that does not block (auto_reset_event_semaphore.hpp 45-94). *)
Definition as_enabled (c : ssh * list spc) (t : nat) : Prop := exists c' e, as_step c (TRun t SNorm) = Some (c', e).
(** The thread called wait() or timed_wait() and its semaphore wait has not ended: auto_reset_event_semaphore.hpp 68-69, 87-89. *)
Definition as_wants (p : spc) : Prop := match p with SAdd SKWait | SAdd SKTimed | SSemWait SKWait | SSemWait SKTimed => True | _ => False end.
(** The step from [c] to [c'] takes a unit of the semaphore (auto_reset_event_semaphore.hpp 69, 76, 89) and the function of [u] is about to report success. *)
Definition as_taken (c c' : ssh * list spc) (u : nat) : Prop :=
  snd (fst c') = snd (fst c) - 1 /\ exists k, nth_error (snd c') u = Some (SDone (skop k) (skres k)).
Definition srank (p : spc) : nat := match p with SAdd _ => 2 | SSemWait _ => 1 | _ => 0 end%nat.
Definition trank (t : nat) (c : ssh * list spc) : nat := match nth_error (snd c) t with Some p => srank p | None => 0%nat end.

(** One step: what happens to the semaphore, to a thread that waits, and to one that is about to post. *)
Lemma as_effect c a c' e : as_step c a = Some (c', e) -> 0 <= snd (fst c) ->
  (exists u, as_taken c c' u) \/
  snd (fst c) <= snd (fst c') /\
  (forall t p, nth_error (snd c) t = Some p -> as_wants p ->
     a = TRun t STimeout \/ a = TRun t SFail \/ exists p', nth_error (snd c') t = Some p' /\ as_wants p' /\ (srank p' <= srank p)%nat /\ (as_acts a t -> (srank p' < srank p)%nat)) /\
  (forall u, nth_error (snd c) u = Some SSemPost -> as_acts a u -> 0 < snd (fst c')) /\
  (forall u, nth_error (snd c) u = Some SSemPost -> ~ as_acts a u -> nth_error (snd c') u = Some SSemPost).
Proof.
  intros H Hv. destruct c as [[st v] ths]. cbn [fst snd] in *.
  destruct (tstep_cases _ _ _ _ _ _ _ _ H) as [(w & o & p1 & p' & -> & Hw & Hc & -> & _)|[(w & ch & p1 & o & r & p' & -> & Hw & Hc & -> & _)|(w & ch & p1 & -> & Hw & Hc & Hr & _)]]; cbn [fst snd as_acts].
  - right. destruct p1; try discriminate. split; [lia|]. split; [|split].
    + intros t p Ht Hp. assert (w <> t) by (intros ->; rewrite Hw in Ht; inversion Ht; subst; exact Hp). right; right. exists p. rewrite nth_upd_neq by auto. split; [exact Ht|]. split; [exact Hp|]. split; [lia|tauto].
    + tauto.
    + intros u Hu _. assert (w <> u) by (intros ->; rewrite Hw in Hu; discriminate). rewrite nth_upd_neq by auto. exact Hu.
  - right. destruct p1; try discriminate. split; [lia|]. split; [|split].
    + intros t p Ht Hp. assert (w <> t) by (intros ->; rewrite Hw in Ht; inversion Ht; subst; exact Hp). right; right. exists p. rewrite nth_upd_neq by auto. split; [exact Ht|]. split; [exact Hp|]. split; [lia|intros; congruence].
    + intros u Hu <-. rewrite Hw in Hu. discriminate.
    + intros u Hu Hne. rewrite nth_upd_neq by auto. exact Hu.
  - unfold as_run in Hr. destruct (as_run1 (st, v) p1 ch) as [[[st' v'] q]|] eqn:Er; [|discriminate]. inversion Hr; subst c'. cbn [fst snd].
    assert (X : (v' = v - 1 /\ exists k, q = SDone (skop k) (skres k)) \/
      v <= v' /\ (as_wants p1 -> ch = STimeout \/ ch = SFail \/ as_wants q /\ (srank q < srank p1)%nat) /\ (p1 = SSemPost -> v' = v + 1)).
    { unfold as_run1 in Er. destruct p1; try discriminate.
      - inversion Er; subst. right. split; [lia|]. split; [intros []|discriminate].
      - right. destruct (_ && _); inversion Er; subst; (split; [lia|split; [intros []|discriminate]]).
      - inversion Er; subst. right. split; [lia|]. split; [intros []|reflexivity].
      - inversion Er; subst. right. split; [lia|]. split; [|discriminate]. intros Hp. right; right. destruct k; cbn in *; auto; contradiction.
      - destruct (_ && _) eqn:Eb.
        + inversion Er; subst. left. eauto.
        + right. destruct k, ch; inversion Er; subst; (split; [lia|split; [|discriminate]]); cbn; auto; intros [].
      - inversion Er; subst. right. split; [lia|]. split; [intros []|discriminate]. }
    destruct X as [(-> & k & ->)|(X1 & X2 & X3)].
    + left. exists w. split; [reflexivity|]. exists k. eapply nth_upd_eq; eauto.
    + right. split; [exact X1|]. split; [|split].
      * intros t p Ht Hp. destruct (Nat.eq_dec w t) as [->|Hne].
        -- rewrite Hw in Ht. inversion Ht; subst p. destruct (X2 Hp) as [->|[->|(Q1 & Q2)]]; auto. right; right. exists q. split; [eapply nth_upd_eq; eauto|]. split; [exact Q1|]. split; [lia|auto].
        -- right; right. exists p. rewrite nth_upd_neq by auto. split; [exact Ht|]. split; [exact Hp|]. split; [lia|congruence].
      * intros u Hu <-. rewrite Hw in Hu. inversion Hu; subst p1. rewrite (X3 eq_refl). lia.
      * intros u Hu Hne. rewrite nth_upd_neq by auto. exact Hu.
Qed.

Theorem as_fair_taken n cf ac : Z.of_nat n < 2 ^ 31 - 1 -> infinite as_step (as_init n) cf ac -> fair as_acts as_enabled cf ac ->
  forall i t p, 0 < snd (fst (cf i)) + sumf spst (snd (cf i)) -> nth_error (snd (cf i)) t = Some p -> as_wants p ->
  exists j, (i <= j)%nat /\ ((exists u, as_taken (cf j) (cf (S j)) u) \/ ac j = Some (TRun t STimeout) \/ ac j = Some (TRun t SFail)).
Proof.
  intros Hn Hinf HF i t p Hu Ht Hp.
  assert (HV : forall k, 0 <= snd (fst (cf k))).
  { intros k. destruct (inf_reach _ _ _ _ Hinf k) as (sched & tr & H). destruct (cf k) as [[st v] ths]. destruct (as_main _ _ _ _ Hn H) as (_ & H1 & _). exact H1. }
  set (Q := fun (c : ssh * list spc) (a : tact eop schoice) c' => (exists u, as_taken c c' u) \/ a = TRun t STimeout \/ a = TRun t SFail).
  assert (P1 : forall i p, 0 < snd (fst (cf i)) -> nth_error (snd (cf i)) t = Some p -> as_wants p ->
    exists j, (i <= j)%nat /\ ((exists u, as_taken (cf j) (cf (S j)) u) \/ ac j = Some (TRun t STimeout) \/ ac j = Some (TRun t SFail))).
  { clear i p Hu Ht Hp. intros i p Hv Ht Hp.
    destruct (countdown_step as_step as_acts as_enabled cf ac (fun _ => True) (fun c => 0 < snd (fst c) /\ exists p, nth_error (snd c) t = Some p /\ as_wants p)
      Q (trank t) t i (proj2 Hinf) HF) with (i := i) as (j & a & Hj & Ea & HQ); auto.
    - intros [[st v] ths] _ (Hv' & q & Hq & Hw). cbn [fst snd] in *. unfold as_enabled, as_step, tstep. rewrite Hq. destruct q; try contradiction; cbn [as_ret]; unfold as_run, as_run1.
      + eexists _, _. reflexivity.
      + replace (0 <? v) with true by (symmetry; apply Z.ltb_lt; lia). destruct k; eexists _, _; reflexivity.
    - intros k a e Hk Ea (Hv' & q & Hq & Hw) Hst. unfold Q.
      destruct (as_effect _ _ _ _ Hst (HV k)) as [Htk|(E1 & E2 & _)]; [auto|]. destruct (E2 t q Hq Hw) as [->|[->|(q' & Hq' & Hw' & L1 & L2)]]; auto.
      right. split; [split; [lia|eauto]|]. unfold trank. rewrite Hq, Hq'. auto.
    - split; [exact Hv|eauto].
    - exists j. split; [exact Hj|]. destruct HQ as [HQ|[->| ->]]; auto. }
  destruct (Z_lt_le_dec 0 (snd (fst (cf i)))) as [Hv|Hv]; [exact (P1 i p Hv Ht Hp)|].
  destruct (sumf_pos_ex spst (snd (cf i))) as (u & q & Hq & Hq'); [specialize (HV i); lia|]. destruct q; cbn in Hq'; try lia. clear Hq'.
  destruct (countdown_step as_step as_acts as_enabled cf ac (fun _ => True)
    (fun c => nth_error (snd c) u = Some SSemPost /\ exists p, nth_error (snd c) t = Some p /\ as_wants p)
    (fun c a c' => Q c a c' \/ 0 < snd (fst c') /\ exists p, nth_error (snd c') t = Some p /\ as_wants p) (fun _ => 0%nat) u i (proj2 Hinf) HF) with (i := i) as (j & a & Hj & Ea & HQ); auto.
  - intros [[st v] ths] _ (Hs & _). cbn [fst snd] in *. unfold as_enabled, as_step, tstep. rewrite Hs. eexists _, _. reflexivity.
  - intros k a e Hk Ea (Hs & q & Hq2 & Hw) Hst. unfold Q.
    destruct (as_effect _ _ _ _ Hst (HV k)) as [Htk|(E1 & E2 & E3 & E4)]; [auto|]. destruct (E2 t q Hq2 Hw) as [->|[->|(q' & Hq' & Hw' & L1 & L2)]]; auto.
    assert (D : as_acts a u \/ ~ as_acts a u) by (destruct a as [w o|w o]; cbn; [tauto|destruct (Nat.eq_dec w u); tauto]).
    destruct D as [D|D]; [left; right; eauto|]. right. split; [split; [auto|eauto]|]. split; [lia|tauto].
  - eauto.
  - destruct HQ as [HQ|(HQ & q & Hq1 & Hq2)].
    + exists j. split; [exact Hj|]. destruct HQ as [HQ|[->| ->]]; auto.
    + destruct (P1 (S j) q HQ Hq1 Hq2) as (j' & Hj' & HH). exists j'. split; [lia|exact HH].
Qed.

(** A waiting thread stays where it is until it acts; when it acts it gets on, takes a unit, or its timed wait ends without one. *)
Lemma as_own c a c' e t p : as_step c a = Some (c', e) -> nth_error (snd c) t = Some p -> as_wants p ->
  ~ as_acts a t /\ nth_error (snd c') t = Some p \/
  as_acts a t /\ (a = TRun t STimeout \/ a = TRun t SFail \/ (exists k, nth_error (snd c') t = Some (SDone (skop k) (skres k)) /\ snd (fst c') = snd (fst c) - 1) \/
    exists p', nth_error (snd c') t = Some p' /\ as_wants p' /\ (srank p' < srank p)%nat).
Proof.
  intros H Ht Hp. destruct c as [[st v] ths]. cbn [fst snd] in *.
  destruct (tstep_cases _ _ _ _ _ _ _ _ H) as [(w & o & p1 & p' & -> & Hw & Hc & -> & _)|[(w & ch & p1 & o & r & p' & -> & Hw & Hc & -> & _)|(w & ch & p1 & -> & Hw & Hc & Hr & _)]]; cbn [fst snd as_acts].
  - left. split; [auto|]. rewrite nth_upd_neq; [exact Ht|]. intros ->. rewrite Hw in Ht. inversion Ht; subst p1. destruct p; cbn in *; try discriminate; contradiction.
  - left. assert (w <> t) by (intros ->; rewrite Hw in Ht; inversion Ht; subst p1; destruct p; cbn in *; try discriminate; contradiction).
    split; [auto|]. rewrite nth_upd_neq; auto.
  - unfold as_run in Hr. destruct (as_run1 (st, v) p1 ch) as [[[st' v'] q]|] eqn:Er; [|discriminate]. inversion Hr; subst c'. cbn [fst snd].
    destruct (Nat.eq_dec w t) as [->|Hne]; [|left; split; [auto|]; rewrite nth_upd_neq; auto].
    right. split; [reflexivity|]. rewrite Hw in Ht. inversion Ht; subst p1. rewrite (nth_upd_eq _ _ _ _ Hw).
    unfold as_run1 in Er. destruct p; cbn in Hp; try contradiction.
    + inversion Er; subst. right; right; right. eexists. split; [reflexivity|]. destruct k; cbn; auto.
    + destruct (_ && _).
      * inversion Er; subst. right; right; left. eauto.
      * destruct k, ch; try discriminate; try contradiction; auto.
Qed.

Theorem as_strong_served n cf ac : infinite as_step (as_init n) cf ac -> strongly_fair as_acts as_enabled cf ac ->
  forall i t p, nth_error (snd (cf i)) t = Some p -> as_wants p -> (forall j, (i <= j)%nat -> exists k, (j <= k)%nat /\ 0 < snd (fst (cf k))) ->
  exists j, (i <= j)%nat /\ (as_taken (cf j) (cf (S j)) t
    \/ ac j = Some (TRun t STimeout) \/ ac j = Some (TRun t SFail)).
Proof.
  intros Hinf HF.
  assert (G : forall m i t p, (srank p <= m)%nat -> nth_error (snd (cf i)) t = Some p -> as_wants p -> (forall j, (i <= j)%nat -> exists k, (j <= k)%nat /\ 0 < snd (fst (cf k))) ->
    exists j, (i <= j)%nat /\ (as_taken (cf j) (cf (S j)) t
      \/ ac j = Some (TRun t STimeout) \/ ac j = Some (TRun t SFail))).
  2: { intros. eapply G; eauto. }
  induction m as [|m IH]; intros i t p Hm Ht Hp Hv; [destruct p; cbn in *; try contradiction; lia|].
  (* until t acts it stays at p *)
  assert (St : forall d, nth_error (snd (cf (i + d)%nat)) t = Some p \/ exists j a, (i <= j)%nat /\ ac j = Some a /\ as_acts a t /\ nth_error (snd (cf j)) t = Some p).
  { induction d as [|d [W|W]]; [left; rewrite Nat.add_0_r; exact Ht| |auto]. replace (i + S d)%nat with (S (i + d)) by lia.
    pose proof (proj2 Hinf (i + d)%nat) as Hh. unfold happens in Hh. destruct (ac (i + d)%nat) as [a|] eqn:Ea; [|rewrite Hh; auto].
    destruct Hh as (e & He). destruct (as_own _ _ _ _ _ _ He W Hp) as [(_ & Q)|(Q & _)]; [auto|]. right. exists (i + d)%nat, a. split; [lia|auto]. }
  assert (Act : exists j a, (i <= j)%nat /\ ac j = Some a /\ as_acts a t /\ nth_error (snd (cf j)) t = Some p).
  { destruct (HF t i) as (j & Hj & [(a & Ea & Hact)|Hn]).
    - destruct (St (j - i)%nat) as [W|W]; [|exact W]. replace (i + (j - i))%nat with j in W by lia. exists j, a. auto.
    - destruct (Hv j Hj) as (k & Hk & Hk'). destruct (St (k - i)%nat) as [W|W]; [|exact W]. replace (i + (k - i))%nat with k in W by lia.
      exfalso. apply (Hn k Hk). destruct (cf k) as [[st v] ths]. cbn [fst snd] in *. unfold as_enabled, as_step, tstep. rewrite W.
      destruct p; try contradiction; cbn [as_ret]; unfold as_run, as_run1; [eexists _, _; reflexivity|].
      replace (0 <? v) with true by (symmetry; apply Z.ltb_lt; lia). destruct k0; eexists _, _; reflexivity. }
  destruct Act as (j & a & Hj & Ea & Hact & Hj').
  pose proof (proj2 Hinf j) as Hh. unfold happens in Hh. rewrite Ea in Hh. destruct Hh as (e & He).
  destruct (as_own _ _ _ _ _ _ He Hj' Hp) as [(Q & _)|(_ & [->|[->|[(k & Q1 & Q2)|(p' & Q1 & Q2 & Q3)]]])]; [contradiction| | | |].
  - exists j. split; [exact Hj|]. auto.
  - exists j. split; [exact Hj|]. auto.
  - exists j. split; [exact Hj|]. left. split; [exact Q2|eauto].
  - destruct (IH (S j) t p' ltac:(lia) Q1 Q2) as (j2 & H2 & H3). { intros j3 Hj3. apply Hv. lia. }
    exists j2. split; [lia|exact H3].
Qed.
