(** Memory orders of the Linux manual_reset_event
    (/repo/include/boost/sync/detail/events/manual_reset_event_futex.hpp, "L:"), over ManualFutexModel.v. *)
From Coq Require Import List Bool Arith ZArith Lia.
From Verif Require Import ListSum Exec Events Lin Word FlagSpec ManualFutexModel Hb HbSpin.
Import ListNotations.
Local Open Scope Z_scope.

(** Model machinery: the thread of a step; no counterpart in /repo. *)
Definition man_who (a : fact) : nat := match a with FCall t _ => t | FRun t _ => t end.
(** One atomic object, number 0.  The futex system calls are not counted as synchronisation. *)
Definition man_mem (p : fpc) : list mact :=
  match p with
  | FOr => [MRmw false true 0]          (* L:58 release *)
  | FAnd => [MRmw false false 0]        (* L:65 relaxed *)
  | FLoad _ _ => [MLoad true 0]         (* L:86 acquire *)
  | FAdd _ => [MRmw false false 0]      (* L:74 / 114 / 152 relaxed *)
  | FReload _ => [MLoad false 0]        (* L:78 / 138 / 177 relaxed *)
  | FSub _ => [MRmw true false 0]       (* L:81 / 141 / 182 acquire *)
  | FSubT => [MRmw false false 0]       (* L:120 / 133 / 158 / 172 relaxed *)
  | FRest | FBcast | FFutex _ _ | FSleep _ | FDone _ _ => []
  end.
(** Memory operations of a step of L:56-203. *)
Definition man_acts (c : fcfg) (a : fact) : list mact :=
  match a with
  | FCall _ _ => []
  | FRun t _ => match nth_error (snd c) t with Some p => man_mem p | None => [] end
  end.
(** L:56-203 with happens-before. *)
Definition man_hstep := hstep man_step man_who man_acts.

(** A wait that reports the event as signalled. Proof or specification device; no counterpart in /repo. *)
Definition fseen (o : fop) (r : fres) : bool :=
  match o, r with FWait, FOk | FTry, FTrue | FTimed, FTrue => true | _, _ => false end.
(** Proof or specification device; no counterpart in /repo. *)
Definition fgood (e : event fop fres) : bool := match e with Ret _ o r => fseen o r | _ => false end.
(** Proof or specification device; no counterpart in /repo. *)
Definition fsucc (c : fcfg) (t : nat) : bool := match nth_error (snd c) t with Some (FDone o r) => fseen o r | _ => false end.

Lemma man_cases s ths a c' e : man_step (s, ths) a = Some (c', e) ->
  (exists t o, a = FCall t o /\ nth_error ths t = Some FRest /\ c' = (s, upd ths t (man_entry o)) /\ e = [Call t o])
  \/ (exists t ch o r, a = FRun t ch /\ nth_error ths t = Some (FDone o r) /\ c' = (s, upd ths t FRest) /\ e = [Ret t o r])
  \/ (exists t ch, a = FRun t ch /\ nth_error ths t = Some FBcast /\ c' = (s, upd (map wake_all ths) t (FDone FSet FOk)) /\ e = [])
  \/ (exists t ch p s' p', a = FRun t ch /\ nth_error ths t = Some p /\ man_run s p ch = Some (s', p') /\ c' = (s', upd ths t p') /\ e = []).
Proof.
  destruct a as [t o|t ch]; cbn [man_step]; destruct (nth_error ths t) as [q|] eqn:Et; try discriminate.
  - destruct q; try discriminate. intros H; inversion H; subst. left. eauto 10.
  - intros H. destruct q.
    3: { inversion H; subst. right; right; left. eauto 10. }
    11: { inversion H; subst. right; left. eauto 10. }
    all: match type of H with context [man_run ?s0 ?q0 ?c0] => destruct (man_run s0 q0 c0) as [[s1 p1]|] eqn:Er; [|discriminate] end; inversion H; subst; right; right; right; eauto 12.
Qed.

Lemma man_thr : forall c a c' es e, man_step c a = Some (c', es) -> In e es -> ev_thr e = man_who a.
Proof.
  intros [s ths] a c' es e Hs Hin. apply man_cases in Hs.
  destruct Hs as [(t & o & -> & _ & _ & ->)|[(t & ch & o & r & -> & _ & _ & ->)|[(t & ch & -> & _ & _ & ->)|(t & ch & p & s' & p' & -> & _ & _ & _ & ->)]]]; cbn in Hin; try tauto; destruct Hin as [<-|[]]; reflexivity.
Qed.
Lemma man_one : forall c a c' es, man_step c a = Some (c', es) -> (length es <= 1)%nat.
Proof.
  intros [s ths] a c' es Hs. apply man_cases in Hs.
  destruct Hs as [(t & o & -> & _ & _ & ->)|[(t & ch & o & r & -> & _ & _ & ->)|[(t & ch & -> & _ & _ & ->)|(t & ch & p & s' & p' & -> & _ & _ & _ & ->)]]]; cbn; lia.
Qed.
Lemma man_nostore : forall c a, forallb nostore (man_acts c a) = true.
Proof. intros [s ths] [t o|t ch]; cbn; [reflexivity|]. destruct (nth_error ths t) as [[]|]; reflexivity. Qed.

(* what an internal step can lead to *)
Lemma man_eff s p ch s' p' : man_run s p ch = Some (s', p') ->
  (forall o r, p' = FDone o r -> fseen o r = true -> existsb (acquires 0) (man_mem p) = true) /\ p' <> FOr /\ p' <> FRest.
Proof.
  intros H. destruct p as [| | | |k again|k|k e|k|k|k| |o r]; cbn [man_run] in H; try discriminate.
  - inversion H; subst. destruct ((Z.land s mpost_bit =? 0) && negb (Z.land s mwait_mask =? 0)); repeat split; try discriminate. intros o r F Hs. inversion F; subst. discriminate.
  - inversion H; subst. repeat split; try discriminate. intros o r F Hs. inversion F; subst. discriminate.
  - destruct (Z.land s mpost_bit =? 0); [destruct k|]; inversion H; subst; repeat split; discriminate.
  - inversion H; subst. unfold man_test. destruct (Z.land (u32 (s + mwait_one)) mpost_bit =? 0); repeat split; discriminate.
  - assert (F : p' = FSubT \/ (exists k', p' = FReload k') \/ exists k', p' = FSleep k') by (destruct k, ch; try (destruct (s =? e)); inversion H; subst; eauto).
    destruct F as [->|[(k' & ->)|(k' & ->)]]; repeat split; discriminate.
  - assert (F : p' = FSubT \/ (exists k', p' = FReload k')) by (destruct k, ch; inversion H; subst; eauto).
    destruct F as [->|(k' & ->)]; repeat split; discriminate.
  - inversion H; subst. unfold man_test. destruct (Z.land s' mpost_bit =? 0); repeat split; discriminate.
  - inversion H; subst. repeat split; discriminate.
  - inversion H; subst. destruct ch; repeat split; try discriminate; intros o r F Hs; inversion F; subst; discriminate.
Qed.

Lemma wake_inv ths t p u q : nth_error (upd (map wake_all ths) t p) u = Some q -> (u = t /\ q = p) \/ (exists q0, nth_error ths u = Some q0 /\ q = wake_all q0).
Proof.
  intros H. destruct (nth_upd_inv _ _ _ _ _ H) as [(<- & -> & _)|(Hn & Hu)]; [left; auto|right]. apply nth_map_inv in Hu. destruct Hu as (q0 & H1 & H2). eauto.
Qed.

Lemma man_succ_acq : forall c a c' es t, man_step c a = Some (c', es) -> fsucc c' t = true -> fsucc c t = true \/ (t = man_who a /\ existsb (acquires 0) (man_acts c a) = true).
Proof.
  intros [s ths] a c' es t Hs Ht. unfold fsucc in *. apply man_cases in Hs.
  destruct Hs as [(t0 & o & -> & Et & -> & ->)|[(t0 & ch & o & r & -> & Et & -> & ->)|[(t0 & ch & -> & Et & -> & ->)|(t0 & ch & p & s' & p' & -> & Et & Er & -> & ->)]]]; cbn [snd man_who man_acts] in *.
  - destruct (Nat.eq_dec t t0) as [->|Hn]; [rewrite (nth_upd_eq _ _ _ _ Et) in Ht; destruct o; discriminate|rewrite nth_upd_neq in Ht by auto; auto].
  - destruct (Nat.eq_dec t t0) as [->|Hn]; [rewrite (nth_upd_eq _ _ _ _ Et) in Ht; discriminate|rewrite nth_upd_neq in Ht by auto; auto].
  - destruct (nth_error (upd (map wake_all ths) t0 (FDone FSet FOk)) t) as [q|] eqn:Eq; [|discriminate].
    destruct (wake_inv _ _ _ _ _ Eq) as [(-> & ->)|(q0 & H1 & ->)]; [discriminate|]. rewrite H1. left. destruct q0; try discriminate. exact Ht.
  - destruct (Nat.eq_dec t t0) as [->|Hn]; [|rewrite nth_upd_neq in Ht by auto; auto]. right. split; [reflexivity|]. rewrite Et.
    rewrite (nth_upd_eq _ _ _ _ Et) in Ht. destruct p'; try discriminate. eapply (proj1 (man_eff _ _ _ _ _ Er)); eauto.
Qed.
Lemma man_good : forall c a c' es e, man_step c a = Some (c', es) -> In e es -> fgood e = true -> fsucc c (ev_thr e) = true.
Proof.
  intros [s ths] a c' es e Hs Hin Hg. apply man_cases in Hs.
  destruct Hs as [(t & o & -> & Et & _ & ->)|[(t & ch & o & r & -> & Et & _ & ->)|[(t & ch & -> & _ & _ & ->)|(t & ch & p & s' & p' & -> & _ & _ & _ & ->)]]]; cbn in Hin; try tauto; destruct Hin as [<-|[]]; [discriminate|].
  unfold fsucc. cbn [snd ev_thr]. rewrite Et. exact Hg.
Qed.
Lemma man_nosucc : forall c a c' es e, man_step c a = Some (c', es) -> In e es -> fsucc c' (ev_thr e) = false.
Proof.
  intros [s ths] a c' es e Hs Hin. apply man_cases in Hs.
  destruct Hs as [(t & o & -> & Et & -> & ->)|[(t & ch & o & r & -> & Et & -> & ->)|[(t & ch & -> & _ & _ & ->)|(t & ch & p & s' & p' & -> & _ & _ & _ & ->)]]]; cbn in Hin; try tauto; destruct Hin as [<-|[]];
    unfold fsucc; cbn [snd ev_thr]; rewrite (nth_upd_eq _ _ _ _ Et); [destruct o; reflexivity|reflexivity].
Qed.

(** Proof or specification device; no counterpart in /repo. *)
Definition man_pub := hb_pub man_step man_who man_acts ev_thr man_thr 0 fsucc fgood man_nostore man_succ_acq man_good man_nosucc man_one.

(** Every set() is published or its thread has not yet done the fetch_or. Proof or specification device; no counterpart in /repo. *)
Definition FJ (c : fcfg * hst) (tr : list (hev (event fop fres))) : Prop :=
  forall u K, In (HEv (Call u FSet) K) tr -> incl K (mem (snd c) 0) \/ (nth_error (snd (fst c)) u = Some FOr /\ incl K (kn (snd c) u)).

Lemma work_mono t k h u : incl (kn h u) (kn (work t k h) u).
Proof. cbn. destruct (Nat.eq_dec t u) as [->|Hn]; [rewrite fset_eq; apply incl_tl, incl_refl|rewrite fset_neq by auto; apply incl_refl]. Qed.

Lemma FJ_step c tr a c' e : FJ c tr -> man_hstep c a = Some (c', e) -> FJ c' (tr ++ e).
Proof.
  destruct c as [[s ths] h]. intros HJ H u K Hin. cbn [fst snd] in *. unfold man_hstep in H. unfold FJ in HJ. cbn [fst snd] in HJ.
  destruct a as [t k|a]; cbn [hstep fst snd] in H.
  - injection H as <- <-. apply in_app_or in Hin. destruct Hin as [Hin|[F|[]]]; [|discriminate]. cbn [fst snd].
    destruct (HJ u K Hin) as [|(G1 & G2)]; [left; auto|right]. split; [auto|]. eapply incl_tran; [exact G2|apply work_mono].
  - destruct (man_step (s, ths) a) as [[c1 es]|] eqn:Es; [|discriminate]. injection H as <- He. cbn [fst snd].
    pose proof (performs_mem (man_who a) h (man_acts (s, ths) a) 0 (man_nostore _ _)) as HM.
    pose proof (fun v => performs_mono (man_who a) v (man_acts (s, ths) a) h) as HK.
    assert (Hor : In (HEv (Call u FSet) K) tr \/ In (HEv (Call u FSet) K) e) by (apply in_app_or; exact Hin). clear Hin.
    apply man_cases in Es. destruct Es as [(t & o & -> & Et & -> & ->)|[(t & ch & o & r & -> & Et & -> & ->)|[(t & ch & -> & Et & -> & ->)|(t & ch & p & s' & p' & -> & Et & Er & -> & ->)]]]; cbn [snd man_who man_acts map] in *; subst e.
    + destruct Hor as [Hin|[F|[]]].
      * destruct (HJ u K Hin) as [|(G1 & G2)]; [left; auto|right]. split; [|exact G2]. rewrite nth_upd_neq; [exact G1|]. intros ->. congruence.
      * injection F as -> -> <-. right. split; [apply (nth_upd_eq _ _ _ _ Et)|apply incl_refl].
    + destruct Hor as [Hin|[F|[]]]; [|discriminate]. rewrite Et in *. cbn [man_mem performs fold_left] in *.
      destruct (HJ u K Hin) as [|(G1 & G2)]; [left; auto|right]. split; [|exact G2]. rewrite nth_upd_neq; [exact G1|]. intros ->. congruence.
    + destruct Hor as [Hin|[]]. rewrite Et in *. cbn [man_mem performs fold_left] in *.
      destruct (HJ u K Hin) as [|(G1 & G2)]; [left; auto|right]. split; [|exact G2]. rewrite nth_upd_neq; [|intros ->; congruence]. apply (nth_map wake_all) in G1. exact G1.
    + destruct Hor as [Hin|[]]. rewrite Et in *. destruct (HJ u K Hin) as [G|(G1 & G2)]; [left; eapply incl_tran; eauto|].
      destruct (Nat.eq_dec u t) as [->|Hne].
      * left. assert (p = FOr) as -> by congruence. cbn. apply incl_appl. exact G2.
      * right. split; [rewrite nth_upd_neq by auto; exact G1|]. eapply incl_tran; [exact G2|apply HK].
Qed.

Lemma FJ_run n sched c tr : exec man_hstep (man_init n, hst0) sched = Some (c, tr) -> FJ c tr.
Proof. apply (exec_inv man_hstep FJ); [intros u K []|]. intros; eapply FJ_step; eauto. Qed.

(** set() completed before the wait was called. *)
Lemma man_published n sched c tr a u K b Kr b2 t o Kc b3 r K' d :
  exec man_hstep (man_init n, hst0) sched = Some (c, tr) ->
  tr = a ++ HEv (Call u FSet) K :: b ++ HEv (Ret u FSet FOk) Kr :: b2 ++ HEv (Call t o) Kc :: b3 ++ HEv (Ret t o r) K' :: d ->
  fseen o r = true -> incl K K'.
Proof.
  intros H E0 Hg.
  assert (E1 : tr = (a ++ HEv (Call u FSet) K :: b) ++ HEv (Ret u FSet FOk) Kr :: (b2 ++ HEv (Call t o) Kc :: b3 ++ HEv (Ret t o r) K' :: d)) by (rewrite E0, <- app_assoc; reflexivity).
  destruct (exec_cut _ _ _ _ _ _ _ _ H E1) as (s1 & a1 & s2 & [c1 h1] & [c2 h2] & x1 & dd & es & d' & y1 & H1 & H2 & H3 & H4 & H5 & H6).
  destruct a1 as [t0 k0|a0]; unfold man_hstep in H2; cbn [hstep fst snd] in H2; [injection H2 as _ _ <-; destruct dd as [|? [|]]; discriminate|].
  destruct (man_step c1 a0) as [[c3 es0]|] eqn:Es; [|discriminate]. injection H2 as <- <- He. subst es.
  destruct c1 as [s ths]. pose proof Es as Es2. apply man_cases in Es.
  destruct Es as [(t1 & o1 & -> & Et & -> & ->)|[(t1 & ch & o1 & r1 & -> & Et & -> & ->)|[(t1 & ch & -> & Et & -> & ->)|(t1 & ch & p & s' & p' & -> & Et & Er & -> & ->)]]]; cbn [map] in H4; try (destruct dd as [|? [|]]; discriminate).
  destruct dd as [|? [|]]; [|discriminate|discriminate]. cbn in H4. injection H4 as -> -> -> _ <-. rewrite app_nil_r in H5. cbn in H6. subst x1 y1.
  pose proof (FJ_run _ _ _ _ H1) as HJ. destruct (HJ u K) as [G|(G & _)]; [apply in_or_app; right; left; reflexivity| |cbn in G; congruence].
  cbn [fst snd man_who man_acts] in *. rewrite Et in *. cbn [man_mem performs fold_left] in *.
  refine (man_pub K _ _ _ _ _ G H3 (b2 ++ HEv (Call t o) Kc :: b3) (Ret t o r) K' d _ Hg _).
  - rewrite <- app_assoc. reflexivity.
  - right. exists (Call t o), Kc. split; [apply in_or_app; right; left; reflexivity|reflexivity].
Qed.

(** At the fetch_or of set(): every wait that has not yet got its result by then, and every later one. *)
Lemma man_published_now n s1 s ths h tr1 u ch c2 e2 s2 c tr2 a t o r K' d :
  exec man_hstep (man_init n, hst0) s1 = Some (((s, ths), h), tr1) ->
  nth_error ths u = Some FOr ->
  man_hstep ((s, ths), h) (HBase (FRun u ch)) = Some (c2, e2) ->
  exec man_hstep c2 s2 = Some (c, tr2) -> tr2 = a ++ HEv (Ret t o r) K' :: d -> fseen o r = true ->
  (forall o r, nth_error ths t <> Some (FDone o r)) -> incl (kn h u) K'.
Proof.
  intros _ Hu Hs H E0 Hg Hnd. unfold man_hstep in Hs. cbn [hstep fst snd] in Hs. destruct (man_step (s, ths) (FRun u ch)) as [[c3 es]|] eqn:Es; [|discriminate]. injection Hs as <- _.
  refine (man_pub (kn h u) _ _ _ _ _ _ H a (Ret t o r) K' d E0 Hg _).
  - cbn [man_who man_acts snd]. rewrite Hu. cbn. apply incl_appl, incl_refl.
  - left. cbn [ev_thr]. destruct (fsucc c3 t) eqn:Ef; [|reflexivity]. exfalso. destruct (man_succ_acq _ _ _ _ _ Es Ef) as [F|(-> & F)].
    + unfold fsucc in F. cbn [snd] in F. destruct (nth_error ths t) as [[]|] eqn:Et; try discriminate. eapply Hnd; eauto.
    + cbn [man_who man_acts snd] in F. rewrite Hu in F. discriminate.
Qed.

(** Every wait that reports the event as signalled knows what happened before some set(). Proof or specification device; no counterpart in /repo. *)
Definition sfrom (tr : list (hev (event fop fres))) (x : list nat) : Prop := exists u K, In (HEv (Call u FSet) K) tr /\ incl K x.
Lemma sfrom_app tr e x : sfrom tr x -> sfrom (tr ++ e) x.
Proof. intros (u & K & H1 & H2). exists u, K. split; [apply in_or_app; auto|auto]. Qed.
Lemma sfrom_mono tr x y : sfrom tr x -> incl x y -> sfrom tr y.
Proof. intros (u & K & H1 & H2) H. exists u, K. split; [auto|eapply incl_tran; eauto]. Qed.

(** Proof or specification device; no counterpart in /repo. *)
Definition bit_set (s : Z) : Prop := Z.land s mpost_bit <> 0.
Lemma bit_odd s : Z.land s mpost_bit = s mod 2.
Proof. unfold mpost_bit. change 1 with (Z.ones 1). rewrite Z.land_ones by lia. reflexivity. Qed.
Lemma bit_u32 s k : Z.land (u32 (s + 2 * k)) mpost_bit = Z.land s mpost_bit.
Proof.
  rewrite !bit_odd. unfold u32, two32. rewrite <- Znumtheory.Zmod_div_mod; [|lia|lia|exists (2 ^ 31); reflexivity].
  rewrite Z.mul_comm, Z_mod_plus_full. reflexivity.
Qed.
Lemma bit_and s : Z.land (Z.land s mwait_mask) mpost_bit = 0.
Proof. rewrite <- Z.land_assoc. replace (Z.land mwait_mask mpost_bit) with 0 by reflexivity. apply Z.land_0_r. Qed.

(** Proof or specification device; no counterpart in /repo. *)
Definition needs (p : fpc) : bool := match p with FSub _ => true | _ => false end.

(* bit and FSub after an internal step *)
Lemma man_bits s p ch s' p' : man_run s p ch = Some (s', p') ->
  p = FOr \/ ((bit_set s' -> bit_set s) /\ (needs p' = true -> bit_set s \/ needs p = true) /\ (forall o r, p' = FDone o r -> fseen o r = true -> bit_set s \/ needs p = true)).
Proof.
  intros H. unfold bit_set. destruct p as [| | | |k again|k|k e|k|k|k| |o r]; cbn [man_run] in H; try discriminate; auto; right.
  - injection H as <- <-. rewrite bit_and. split; [congruence|]. split; [discriminate|]. intros o r F; inversion F; discriminate.
  - destruct (Z.eqb_spec (Z.land s mpost_bit) 0); [destruct k|]; inversion H; subst; split; auto; split; try discriminate; auto. intros o r F; inversion F; discriminate.
  - injection H as <- <-. pose proof (bit_u32 s 1) as B. change (2 * 1) with 2 in B. unfold mwait_one, man_test. rewrite B. split; [auto|].
    destruct (Z.eqb_spec (Z.land s mpost_bit) 0); cbn; split; auto; discriminate.
  - assert (F : s' = s /\ (p' = FSubT \/ (exists k', p' = FReload k') \/ exists k', p' = FSleep k')) by (destruct k, ch; try (destruct (s =? e)); inversion H; subst; eauto).
    destruct F as (-> & [->|[(k' & ->)|(k' & ->)]]); repeat split; auto; discriminate.
  - assert (F : s' = s /\ (p' = FSubT \/ (exists k', p' = FReload k'))) by (destruct k, ch; inversion H; subst; eauto).
    destruct F as (-> & [->|(k' & ->)]); repeat split; auto; discriminate.
  - injection H as <- <-. unfold man_test. split; [auto|]. destruct (Z.eqb_spec (Z.land s mpost_bit) 0); cbn; split; auto; discriminate.
  - injection H as <- <-. pose proof (bit_u32 s (-1)) as B. unfold mwait_one. change (s + 2 * -1) with (s - 2) in B. rewrite B. repeat split; auto.
  - injection H as <- <-. pose proof (bit_u32 s (-1)) as B. unfold mwait_one. change (s + 2 * -1) with (s - 2) in B. rewrite B.
    split; [auto|]. destruct ch; split; try discriminate; intros o r F; inversion F; discriminate.
Qed.

(** Proof or specification device; no counterpart in /repo. *)
Definition EJ (c : fcfg * hst) (tr : list (hev (event fop fres))) : Prop :=
  (bit_set (fst (fst c)) -> sfrom tr (mem (snd c) 0)) /\
  (forall t p, nth_error (snd (fst c)) t = Some p -> needs p = true -> sfrom tr (mem (snd c) 0)) /\
  (forall t, nth_error (snd (fst c)) t = Some FOr -> sfrom tr (kn (snd c) t)) /\
  (forall t, fsucc (fst c) t = true -> sfrom tr (kn (snd c) t)).

Lemma EJ_base s ths h tr a c' es : EJ ((s, ths), h) tr -> man_step (s, ths) a = Some (c', es) ->
  let h' := performs (man_who a) (man_acts (s, ths) a) h in EJ (c', h') (tr ++ map (fun e => HEv e (kn h' (man_who a))) es).
Proof.
  intros (J1 & J2 & J3 & J4) Hs. cbn [fst snd] in *. pose proof Hs as Hs0. apply man_cases in Hs.
  pose proof (performs_mem (man_who a) h (man_acts (s, ths) a) 0 (man_nostore _ _)) as HM.
  pose proof (fun v => performs_mono (man_who a) v (man_acts (s, ths) a) h) as HK. cbv zeta. unfold EJ. cbn [fst snd].
  destruct Hs as [(t & o & -> & Et & -> & ->)|[(t & ch & o & r & -> & Et & -> & ->)|[(t & ch & -> & Et & -> & ->)|(t & ch & p & s' & p' & -> & Et & Er & -> & ->)]]]; cbn [fst snd man_who map] in *.
  - cbn [man_acts performs fold_left]. split; [intros B; apply sfrom_app; auto|]. split; [|split].
    + intros u q Hu Hq. apply sfrom_app. destruct (nth_upd_inv _ _ _ _ _ Hu) as [(<- & -> & _)|(_ & Hu')]; [destruct o; discriminate|eauto].
    + intros u Hu. destruct (nth_upd_inv _ _ _ _ _ Hu) as [(<- & F & _)|(_ & Hu')]; [|apply sfrom_app; auto].
      destruct o; try discriminate. exists t, (kn h t). split; [apply in_or_app; right; left; reflexivity|apply incl_refl].
    + intros u Hu. apply sfrom_app. apply J4. destruct (man_succ_acq _ _ _ _ _ Hs0 Hu) as [|(_ & F)]; [auto|discriminate].
  - cbn [man_acts snd]. rewrite Et. cbn [man_mem performs fold_left]. split; [intros B; apply sfrom_app; auto|]. split; [|split].
    + intros u q Hu Hq. apply sfrom_app. destruct (nth_upd_inv _ _ _ _ _ Hu) as [(<- & -> & _)|(_ & Hu')]; [discriminate|eauto].
    + intros u Hu. apply sfrom_app. destruct (nth_upd_inv _ _ _ _ _ Hu) as [(_ & F & _)|(_ & Hu')]; [discriminate|auto].
    + intros u Hu. apply sfrom_app. apply J4. destruct (man_succ_acq _ _ _ _ _ Hs0 Hu) as [|(_ & F)]; [auto|]. cbn in F. rewrite Et in F. discriminate.
  - cbn [man_acts snd]. rewrite Et, app_nil_r. cbn [man_mem performs fold_left]. split; [auto|]. split; [|split].
    + intros u q Hu Hq. destruct (wake_inv _ _ _ _ _ Hu) as [(-> & ->)|(q0 & H1 & ->)]; [discriminate|]. eapply J2; eauto. destruct q0; cbn in *; auto.
    + intros u Hu. destruct (wake_inv _ _ _ _ _ Hu) as [(-> & F)|(q0 & H1 & F)]; [discriminate|]. apply J3. destruct q0; try discriminate. exact H1.
    + intros u Hu. apply J4. destruct (man_succ_acq _ _ _ _ _ Hs0 Hu) as [|(_ & F)]; [auto|]. cbn in F. rewrite Et in F. discriminate.
  - rewrite app_nil_r.
    assert (G : sfrom tr (mem (performs t (man_acts (s, ths) (FRun t ch)) h) 0) \/ (~ bit_set s' /\ (needs p' = false) /\ (forall o r, p' = FDone o r -> fseen o r = false) /\ (forall u q, nth_error ths u = Some q -> needs q = false))).
    { destruct (man_bits _ _ _ _ _ Er) as [->|(B1 & B2 & B3)].
      - left. eapply sfrom_mono; [exact (J3 _ Et)|]. cbn [man_acts snd]. rewrite Et. cbn. apply incl_appl, incl_refl.
      - assert (D : sfrom tr (mem h 0) \/ (~ bit_set s /\ forall u q, nth_error ths u = Some q -> needs q = false)).
        { destruct (Z.eq_dec (Z.land s mpost_bit) 0) as [Hz|Hz]; [|left; apply J1; exact Hz].
          assert (Hex : (exists u q, nth_error ths u = Some q /\ needs q = true) \/ (forall u q, nth_error ths u = Some q -> needs q = false)).
          { destruct (existsb needs ths) eqn:Ex.
            - left. apply existsb_exists in Ex. destruct Ex as (q & H1 & H2). apply In_nth_error in H1. destruct H1 as (u & H1). eauto.
            - right. intros u q Hu. destruct (needs q) eqn:En; [|reflexivity]. exfalso.
              assert (existsb needs ths = true) by (apply existsb_exists; exists q; split; [eapply nth_error_In; eauto|auto]). congruence. }
          destruct Hex as [(u & q & H1 & H2)|Hall]; [left; eapply J2; eauto|right]. split; [intros F; exact (F Hz)|exact Hall]. }
        destruct D as [D|(D1 & D2)]; [left; eapply sfrom_mono; [exact D|exact HM]|right].
        pose proof (D2 _ _ Et) as Dp. split; [intros F; auto|]. split; [destruct (needs p') eqn:En; [destruct (B2 eq_refl); [contradiction|congruence]|reflexivity]|]. split; [|exact D2].
        intros o r F. destruct (fseen o r) eqn:Ef; [|reflexivity]. destruct (B3 _ _ F Ef); [contradiction|congruence]. }
    split; [|split; [|split]].
    + intros B. destruct G as [G|(G & _)]; [exact G|contradiction].
    + intros u q Hu Hq. destruct G as [G|(_ & G1 & _ & G2)]; [exact G|]. exfalso. destruct (nth_upd_inv _ _ _ _ _ Hu) as [(<- & -> & _)|(_ & Hu')]; [congruence|]. rewrite (G2 _ _ Hu') in Hq. discriminate.
    + intros u Hu. destruct (nth_upd_inv _ _ _ _ _ Hu) as [(<- & F & _)|(_ & Hu')].
      * exfalso. apply (proj1 (proj2 (man_eff _ _ _ _ _ Er))). auto.
      * eapply sfrom_mono; [exact (J3 _ Hu')|apply HK].
    + intros u Hu. destruct (man_succ_acq _ _ _ _ _ Hs0 Hu) as [F|(Ew & F)]; [eapply sfrom_mono; [exact (J4 _ F)|apply HK]|]. cbn [man_who] in Ew. subst u.
      assert (K0 : sfrom tr (mem h 0)).
      { destruct (man_bits _ _ _ _ _ Er) as [->|(B1 & B2 & B3)]; [cbn in F; rewrite Et in F; discriminate|].
        unfold fsucc in Hu. cbn [snd] in Hu. rewrite (nth_upd_eq _ _ _ _ Et) in Hu. destruct p'; try discriminate. destruct (B3 _ _ eq_refl Hu); [auto|eapply J2; eauto]. }
      eapply sfrom_mono; [exact K0|]. eapply performs_acq; [apply man_nostore|exact F].
Qed.

Lemma man_some n sched c tr a t o r K' b : exec man_hstep (man_init n, hst0) sched = Some (c, tr) -> tr = a ++ HEv (Ret t o r) K' :: b -> fseen o r = true -> sfrom a K'.
Proof.
  intros H E0 Hg.
  refine (proj2 (hb_events man_step man_who man_acts EJ (fun x e K' => fgood e = true -> sfrom x K') (man_init n) _ _ _ _ sched c tr H) a (Ret t o r) K' b E0 Hg); clear H E0 Hg a t o r K' b.
  - split; [intros F; exfalso; apply F; reflexivity|]. cbn [fst snd man_init]. split; [|split].
    + intros t p Ht Hp. apply nth_repeat in Ht. subst. discriminate.
    + intros t Ht. apply nth_repeat in Ht. discriminate.
    + intros t Ht. unfold fsucc, man_init in Ht. cbn [snd] in Ht. destruct (nth_error (repeat FRest n) t) as [p|] eqn:E; [|discriminate]. apply nth_repeat in E. subst. discriminate.
  - intros c1 h1 tr1 t k _ (J1 & J2 & J3 & J4). cbn [fst snd] in *. split; [|split; [|split]]; cbn [fst snd].
    + intros B. apply sfrom_app. auto.
    + intros u p Hu Hp. apply sfrom_app. eapply J2; eauto.
    + intros u Hu. apply sfrom_app. eapply sfrom_mono; [exact (J3 _ Hu)|apply work_mono].
    + intros u Hu. apply sfrom_app. eapply sfrom_mono; [exact (J4 _ Hu)|apply work_mono].
  - intros [s ths] h1 tr1 a c2 es _ HJ Hs. apply EJ_base; auto.
  - intros [s ths] h1 tr1 a c2 es d e b _ (_ & _ & _ & J4) Hs Hes. cbv zeta. intros Hg. cbn [fst snd] in *.
    apply sfrom_app. eapply sfrom_mono; [|apply performs_mono]. apply J4.
    assert (Hin : In e es) by (rewrite Hes; apply in_or_app; right; left; reflexivity).
    rewrite <- (man_thr _ _ _ _ _ Hs Hin). eapply man_good; eauto.
Qed.
