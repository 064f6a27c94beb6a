(** auto_reset_event built on a semaphore (/repo/include/boost/sync/detail/events/auto_reset_event_semaphore.hpp, "L:") on weak memory.
    Program points as in AutoSemModel.v; m_state is location 0.  A step's choice is the scheduler's choice of AutoSemModel.v and the position of the
    message read or written.
    The semaphore is location 1: an object of the kernel, which orders its operations totally, so they always act on the newest value; its post releases
    and its successful wait acquires (POSIX memory synchronisation; the Windows and Mach calls give the same).  A wait that fails orders nothing. *)
From Coq Require Import List Bool Arith ZArith Lia.
From Verif Require Import ListSum Exec Events Lin Word EventSpec AutoSemModel AutoSemProof Hb HbSpin HbTokens HbAutoSem Weak WeakAuto WeakAutoHb.
Import ListNotations.

(** The newest value of a location. Proof or specification device; no counterpart in /repo. *)
Definition top (w : wmem) (l : nat) : Z := mval (last (hist w l) (Msg 0 0 [] false)).
(** A spurious failure of compare_exchange_weak; no counterpart in /repo. *)
Definition s_spur (ch : schoice) : bool := match ch with SSpur => true | _ => false end.

(** post(), L:46, 57, 63: negative: release fence and return. *)
Definition wsem_test (t : nat) (v : Z) (w : wmem) (ths : list spc) : wmem * list spc :=
  if (0 <=? v)%Z then (w, upd ths t (SCas v)) else (wfence t w, upd ths t (SDone EPost EOk)).

(** One access or semaphore call of a thread, L:43-95. *)
Definition wsem_run (t : nat) (w : wmem) (ths : list spc) (p : spc) (c : schoice * nat) : option (wmem * list spc) :=
  let (ch, i) := c in
  match p with
  | SRest | SDone _ _ => None
  | SLoad =>                        (* L:45 relaxed *)
      match wload t 0 false i w with Some (v, w') => Some (wsem_test t v w' ths) | None => None end
  | SCas old =>                     (* L:50 weak, release / relaxed *)
      match wcas t 0 true false true false old (i32 (old - 1)) (s_spur ch) i w with
      | Some (true, _, w') => Some (w', upd ths t SSemPost)
      | Some (false, v, w') => Some (wsem_test t v w' ths)
      | None => None
      end
  | SSemPost =>                     (* L:52 m_sem.post() *)
      match wrmw t 1 false true (fun v => v + 1)%Z (pred (length (hist w 1))) w with
      | Some (_, w') => Some (w', upd ths t (SDone EPost EOk))
      | None => None
      end
  | SAdd k =>                       (* L:68 / 74 / 87 acquire *)
      match wrmw t 0 true false (fun v => i32 (v + 1)) i w with Some (_, w') => Some (w', upd ths t (SSemWait k)) | None => None end
  | SSemWait k =>                   (* L:69 / 76 / 89 m_sem.wait() / try_wait() / timed_wait() *)
      if ((0 <? top w 1)%Z && negb (s_fail k ch))%bool
      then match wrmw t 1 true false (fun v => v - 1)%Z (pred (length (hist w 1))) w with
           | Some (_, w') => Some (w', upd ths t (SDone (skop k) (skres k)))
           | None => None
           end
      else match k, ch with
           | SKTry, _ => Some (w, upd ths t (SSub k))
           | SKTimed, STimeout | SKTimed, SFail => Some (w, upd ths t (SSub k))
           | _, _ => None                                   (* blocked *)
           end
  | SSub k =>                       (* L:80 / 93 relaxed *)
      match wrmw t 0 false false (fun v => i32 (v - 1)) i w with Some (_, w') => Some (w', upd ths t (SDone (skop k) EFalse)) | None => None end
  end.
(** Interleaving of any number of threads on weak memory.  L:43-95. *)
Definition wsem_step := wstep as_call as_ret wsem_run 2.
(** L:39. *)
Definition wsem_init (n : nat) : wmem * list spc := (wm0 (fun _ => 0%Z), repeat SRest n).

Local Open Scope Z_scope.
Notation wev := (hev (event eop eres)).

(** * What a step does *)
Lemma top_end w l h m : hist w l = h ++ [m] -> top w l = mval m.
Proof. intros E. unfold top. rewrite E, last_last. reflexivity. Qed.
(** Proof or specification device; no counterpart in /repo. *)
Definition trel (w : wmem) (l : nat) : list nat := mrel (last (hist w l) (Msg 0 0 [] false)).
Lemma trel_end w l h m : hist w l = h ++ [m] -> trel w l = mrel m.
Proof. intros E. unfold trel. rewrite E, last_last. reflexivity. Qed.

(** Proof or specification device; no counterpart in /repo. *)
Definition WS (n : nat) (c : wmem * list spc) : Prop :=
  length (snd c) = n /\ (forall l, (l < 2)%nat -> exists m0 h, hist (fst c) l = m0 :: h /\ Forall (fun m => mrmw m = true) h) /\
  SI ((top (fst c) 0, top (fst c) 1), snd c).

(** A wait of any form that has its result. Proof or specification device; no counterpart in /repo. *)
Definition sdone (p : spc) : bool := match p with SDone EPost _ => false | SDone _ _ => true | _ => false end.

(** Of the threads: a step of one of them. Proof or specification device; no counterpart in /repo. *)
Inductive seff (w : wmem) (t : nat) (p : spc) (w' : wmem) (p' : spc) : Prop :=
| sf_read : hist w' 0%nat = hist w 0%nat -> hist w' 1%nat = hist w 1%nat -> sreg p' = sreg p -> spst p = 0 -> spst p' = 0 -> sdtake p' = 0 -> sinpost p' <= sinpost p ->
    (sinpost p = 1 -> sinpost p' = 1 \/ exists i m, nth_error (hist w 0%nat) i = Some m /\ readable (wkn w t) (hist w 0%nat) i = true /\ mval m < 0) -> sdone p' = false -> seff w t p w' p'
| sf_state x : hist w' 0%nat = hist w 0%nat ++ [x] -> hist w' 1%nat = hist w 1%nat -> mrmw x = true -> In (mid x) (wkn w' t) -> mval x = top w 0 + sreg p' - sreg p - spst p' ->
    spst p = 0 -> sdtake p' = 0 -> sinpost p' = sinpost p -> (spst p' = 1 -> 0 <= top w 0 /\ sinpost p = 1) ->
    incl (trel w 0) (mrel x) -> (spst p' = 1 -> incl (wkn w t) (mrel x)) -> (sreg p < sreg p' -> incl (trel w 0) (wkn w' t)) -> (sdone p' = true -> sreg p = 1) -> seff w t p w' p'
| sf_post x : hist w' 0%nat = hist w 0%nat -> hist w' 1%nat = hist w 1%nat ++ [x] -> mrmw x = true -> p = SSemPost -> p' = SDone EPost EOk -> mval x = top w 1 + 1 ->
    incl (trel w 1) (mrel x) -> incl (wkn w t) (mrel x) -> seff w t p w' p'
| sf_take k x : hist w' 0%nat = hist w 0%nat -> hist w' 1%nat = hist w 1%nat ++ [x] -> mrmw x = true -> p = SSemWait k -> p' = SDone (skop k) (skres k) -> mval x = top w 1 - 1 ->
    0 < top w 1 -> incl (trel w 1) (mrel x) -> incl (trel w 1) (wkn w' t) -> seff w t p w' p'.

Lemma wsem_mono t w ths p ch w' ths' : wsem_run t w ths p ch = Some (w', ths') -> kmono w w'.
Proof.
  destruct ch as [ch i]. unfold wsem_run, wsem_test.
  destruct p; intros H;
    repeat first
    [ discriminate H
    | match type of H with
      | match wload ?t ?l ?a ?i ?w with _ => _ end = _ => let E := fresh "E" in destruct (wload t l a i w) as [[? ?]|] eqn:E; [apply wload_mono in E|discriminate H]
      | match wrmw ?t ?l ?a ?b ?f ?i ?w with _ => _ end = _ => let E := fresh "E" in destruct (wrmw t l a b f i w) as [[? ?]|] eqn:E; [apply wrmw_mono in E|discriminate H]
      | match wcas ?t ?l ?k ?a ?b ?c ?e ?d ?sp ?i ?w with _ => _ end = _ => let E := fresh "E" in destruct (wcas t l k a b c e d sp i w) as [[[[|] ?] ?]|] eqn:E; [apply wcas_mono in E|apply wcas_mono in E|discriminate H]
      | context [if ?b then _ else _] => destruct b
      | match ?x with _ => _ end = _ => destruct x
      end
    | injection H as <- <-; first [assumption|apply kmono_refl] ].
Qed.

(** A read-modify-write acts on the newest message. *)
Lemma rmw_top n c t l acq rel f i v w' : WS n c -> (l < 2)%nat -> wrmw t l acq rel f i (fst c) = Some (v, w') ->
  exists x, hist w' l = hist (fst c) l ++ [x] /\ (forall k, k <> l -> hist w' k = hist (fst c) k) /\ v = top (fst c) l /\ mval x = f (top (fst c) l) /\ mrmw x = true /\
    incl (trel (fst c) l) (mrel x) /\ In (mid x) (wkn w' t) /\ (rel = true -> incl (wkn (fst c) t) (mrel x)) /\ (acq = true -> incl (trel (fst c) l) (wkn w' t)).
Proof.
  intros (_ & HH & _) Hl H. destruct c as [w ths]. cbn [fst] in *. destruct (HH l Hl) as (m0 & h & E0 & Hr). clear HH.
  destruct (wrmw_inv _ _ _ _ _ _ _ _ _ H) as (m & En & _ & Rm & -> & Eh & Ek & _ & _ & _ & Et). rewrite E0 in *.
  set (x := Msg (nid w) (f (mval m)) ((if rel then (if acq then mrel m else []) ++ mid m :: wkn w t else wfen w t) ++ mrel m) true) in *.
  destruct (room_rmw _ _ _ _ x Hr En Rm) as (h' & E1 & E2). rewrite E2 in Eh. rewrite E1 in *.
  assert (N1 : top w l = mval m) by (apply (top_end w l h'); congruence).
  assert (N2 : trel w l = mrel m) by (apply (trel_end w l h'); congruence).
  exists x. rewrite N1, N2. split; [rewrite Eh, <- app_assoc; reflexivity|]. repeat split; auto.
  - apply incl_appr, incl_refl.
  - rewrite Et. left. reflexivity.
  - intros ->. cbn. apply incl_appl, incl_appr, incl_tl, incl_refl.
  - intros ->. rewrite Et. apply incl_tl, incl_appl, incl_refl.
Qed.
Lemma wsem_test_inv t v w ths w' ths' : Some (wsem_test t v w ths) = Some (w', ths') ->
  hist w' = hist w /\ ((0 <= v /\ ths' = upd ths t (SCas v)) \/ (v < 0 /\ ths' = upd ths t (SDone EPost EOk))).
Proof.
  unfold wsem_test. destruct (Z.leb_spec 0 v); intros E; injection E as <- <-; split; auto.
Qed.

Lemma sreg_room n c t p : WS n c -> nth_error (snd c) t = Some p -> sreg p = 0 -> sumf sreg (snd c) + 1 <= Z.of_nat n.
Proof.
  intros (L & _) Ht Hp. pose proof (sumf_bound sreg (upd (snd c) t (SSub SKTry)) 1 sreg_le) as B.
  rewrite upd_length, (sumf_upd sreg _ _ _ _ Ht), L, Hp in B. cbn [sreg] in B. lia.
Qed.

Lemma wsem_eff n w ths t p ch w' ths' : Z.of_nat n < 2 ^ 31 - 1 -> WS n (w, ths) -> nth_error ths t = Some p -> wsem_run t w ths p ch = Some (w', ths') ->
  exists p', ths' = upd ths t p' /\ seff w t p w' p' /\ sloc p'.
Proof.
  intros Hn HW Ht H. destruct ch as [ch i]. pose proof HW as (L & _ & (Hv & Hst & Hb & Hl)). cbn [fst snd] in *. specialize (Hl _ _ Ht).
  pose proof (sumf_nonneg sreg ths sreg_nn) as R0. pose proof (sumf_nonneg spst ths spst_nn) as P0.
  assert (R1 : sumf sreg ths <= Z.of_nat n) by (pose proof (sumf_bound sreg ths 1 sreg_le); lia).
  destruct p; cbn [wsem_run] in H; try discriminate H.
  - destruct (wload t 0 false i w) as [[v w1]|] eqn:E; [|discriminate]. destruct (wload_inv _ _ _ _ _ _ _ E) as (m & E1 & E2 & -> & E3 & _).
    destruct (wsem_test_inv _ _ _ _ _ _ H) as (Eh & [(Hm & ->)|(Hm & ->)]); eexists; (split; [reflexivity|]); (split; [|try exact I; exact Hm]);
      apply sf_read; rewrite ?Eh, ?E3; cbn [sreg spst sdtake sinpost took]; auto; try lia. intros _. right. eauto.
  - destruct (wcas t 0 true false true false old (i32 (old - 1)) (s_spur ch) i w) as [[[[|] v] w1]|] eqn:E; [| |discriminate];
      destruct (wcas_inv _ _ _ _ _ _ _ _ _ _ _ _ _ _ E) as [(B & Ev & E1)|(B & _ & E1)]; try discriminate B.
    + injection H as <- <-. destruct (rmw_top n (w, ths) t 0 _ _ _ _ _ _ HW ltac:(lia) E1) as (x & G1 & G2 & G3 & G4 & G5 & G6 & G7 & G8 & G9). cbn [fst] in *.
      eexists. split; [reflexivity|]. split; [|exact I]. cbn [sloc] in Hl. rewrite i32_id in G4 by lia.
      apply (sf_state _ _ _ _ _ x); cbn [sreg spst sdtake sinpost]; auto; try lia; try discriminate; try (intros _; split; [lia|reflexivity]).
    + destruct (wload_inv _ _ _ _ _ _ _ E1) as (m & E2 & E3 & -> & E4 & _).
      destruct (wsem_test_inv _ _ _ _ _ _ H) as (Eh & [(Hm & ->)|(Hm & ->)]); eexists; (split; [reflexivity|]); (split; [|try exact I; exact Hm]);
        apply sf_read; rewrite ?Eh, ?E4; cbn [sreg spst sdtake sinpost took]; auto; try lia. intros _. right. eauto.
  - destruct (wrmw t 1 false true _ _ w) as [[v w1]|] eqn:E1; [|discriminate]. injection H as <- <-.
    destruct (rmw_top n (w, ths) t 1 _ _ _ _ _ _ HW ltac:(lia) E1) as (x & G1 & G2 & G3 & G4 & G5 & G6 & G7 & G8 & G9). cbn [fst] in *.
    eexists. split; [reflexivity|]. split; [|exact I]. apply (sf_post _ _ _ _ _ x); auto.
  - destruct (wrmw t 0 true false _ i w) as [[v w1]|] eqn:E1; [|discriminate]. injection H as <- <-.
    destruct (rmw_top n (w, ths) t 0 _ _ _ _ _ _ HW ltac:(lia) E1) as (x & G1 & G2 & G3 & G4 & G5 & G6 & G7 & G8 & G9). cbn [fst] in *.
    eexists. split; [reflexivity|]. split; [|exact I]. pose proof (sreg_room n (w, ths) t _ HW Ht eq_refl) as R2. cbn [snd] in R2.
    rewrite i32_id in G4 by lia. apply (sf_state _ _ _ _ _ x); cbn [sreg spst sdtake sinpost]; auto; try lia; try discriminate.
  - destruct ((0 <? top w 1) && negb (s_fail k ch)) eqn:Eb.
    + assert (Hpos : 0 < top w 1) by (apply andb_true_iff in Eb as [Eb _]; apply Z.ltb_lt; exact Eb).
      destruct (wrmw t 1 true false _ _ w) as [[v w1]|] eqn:E1; [|discriminate]. injection H as <- <-.
      destruct (rmw_top n (w, ths) t 1 _ _ _ _ _ _ HW ltac:(lia) E1) as (x & G1 & G2 & G3 & G4 & G5 & G6 & G7 & G8 & G9). cbn [fst] in *.
      eexists. split; [reflexivity|]. split; [|exact I]. apply (sf_take _ _ _ _ _ k x); auto.
    + destruct k, ch; try discriminate H; injection H as <- <-; eexists; (split; [reflexivity|]); (split; [|discriminate]); apply sf_read; cbn [sreg spst sdtake sinpost]; auto; lia.
  - destruct (wrmw t 0 false false _ i w) as [[v w1]|] eqn:E1; [|discriminate]. injection H as <- <-.
    destruct (rmw_top n (w, ths) t 0 _ _ _ _ _ _ HW ltac:(lia) E1) as (x & G1 & G2 & G3 & G4 & G5 & G6 & G7 & G8 & G9). cbn [fst] in *.
    eexists. split; [reflexivity|]. split; [|exact I].
    rewrite i32_id in G4 by lia. apply (sf_state _ _ _ _ _ x); cbn [sreg spst sdtake sinpost]; auto; try lia; try discriminate.
    cbn [sloc] in Hl. destruct k; try reflexivity. congruence.
Qed.

Lemma top_same w w' l : hist w' l = hist w l -> top w' l = top w l. Proof. intros E. unfold top. rewrite E. reflexivity. Qed.
Lemma trel_same w w' l : hist w' l = hist w l -> trel w' l = trel w l. Proof. intros E. unfold trel. rewrite E. reflexivity. Qed.

Lemma hists_push (w w' : wmem) l x : (forall l, (l < 2)%nat -> exists m0 h, hist w l = m0 :: h /\ Forall (fun m => mrmw m = true) h) -> mrmw x = true ->
  hist w' l = hist w l ++ [x] -> (forall k, (k < 2)%nat -> k <> l -> hist w' k = hist w k) -> forall k, (k < 2)%nat -> exists m0 h, hist w' k = m0 :: h /\ Forall (fun m => mrmw m = true) h.
Proof.
  intros H Hx E1 E2 k Hk. destruct (H k Hk) as (m0 & h & E & F). destruct (Nat.eq_dec k l) as [->|Hne].
  - exists m0, (h ++ [x]). rewrite E1, E. split; [reflexivity|]. apply Forall_app. auto.
  - exists m0, h. rewrite (E2 k Hk Hne). auto.
Qed.
Lemma WS_eff n w ths t p w' p' : WS n (w, ths) -> nth_error ths t = Some p -> seff w t p w' p' -> sloc p' -> WS n (w', upd ths t p').
Proof.
  intros (L & HH & HI) Ht He Hl. pose proof HI as (Hv & Hst & Hb & _). cbn [fst snd] in *.
  pose proof (sumf_nonneg sreg ths sreg_nn) as R0. pose proof (sumf_nonneg spst ths spst_nn) as P0.
  assert (R1 : sumf sreg ths <= Z.of_nat (length ths)) by (pose proof (sumf_bound sreg ths 1 sreg_le); lia).
  pose proof (sumf_elem sreg _ _ _ sreg_nn Ht) as R2. pose proof (sumf_elem spst _ _ _ spst_nn Ht) as P2.
  split; [cbn [snd]; rewrite upd_length; exact L|].
  destruct He as [E0 E1 S1 S2 S3 S4 S5 S6 S7|x E0 E1 X1 X2 X3 S1 S2 S3 S4 Y1 Y2 Y3 Y4|x E0 E1 X1 -> -> X2 X3 X4|k x E0 E1 X1 -> -> X2 X3 X4 X5]; cbn [fst snd]; split.
  - intros k Hk. destruct (HH k Hk) as (m0 & h & E & F). exists m0, h. destruct k as [|[|]]; [rewrite E0; auto|rewrite E1; auto|lia].
  - rewrite (top_same _ _ _ E0), (top_same _ _ _ E1). eapply SI_upd; eauto; lia.
  - apply (hists_push w w' 0 x); auto. intros k Hk Hne. assert (k = 1%nat) as -> by lia. exact E1.
  - rewrite (top_end _ _ _ _ E0), (top_same _ _ _ E1), X3. eapply SI_upd; eauto; try lia. pose proof (spst_nn p'). destruct (Z.eq_dec (spst p') 1) as [F|F]; [destruct (S4 F); lia|]. destruct p'; cbn in *; lia.
  - apply (hists_push w w' 1 x); auto. intros k Hk Hne. assert (k = 0%nat) as -> by lia. exact E0.
  - rewrite (top_end _ _ _ _ E1), (top_same _ _ _ E0), X2. cbn [sreg spst] in *. eapply SI_upd; eauto; cbn [sreg spst]; try lia.
  - apply (hists_push w w' 1 x); auto. intros j Hk Hne. assert (j = 0%nat) as -> by lia. exact E0.
  - rewrite (top_end _ _ _ _ E1), (top_same _ _ _ E0), X2. cbn [sreg spst] in *. eapply SI_upd; eauto; cbn [sreg spst]; try lia.
Qed.

(** Proof or specification device; no counterpart in /repo. *)
Definition sentry (o : eop) : spc := match o with EPost => SLoad | EWait => SAdd SKWait | ETry => SAdd SKTry | ETimed => SAdd SKTimed end.
(** Proof or specification device; no counterpart in /repo. *)
Inductive scase (w : wmem) (ths : list spc) (w' : wmem) (ths' : list spc) (e : list wev) : Prop :=
| sc_call t o : nth_error ths t = Some SRest -> w' = w -> ths' = upd ths t (sentry o) -> e = [HEv (Call t o) (wkn w t)] -> scase w ths w' ths' e
| sc_ret t o r : nth_error ths t = Some (SDone o r) -> w' = w -> ths' = upd ths t SRest -> e = [HEv (Ret t o r) (wkn w t)] -> scase w ths w' ths' e
| sc_run t p p' : nth_error ths t = Some p -> sdtake p = 0 -> ths' = upd ths t p' -> seff w t p w' p' -> e = [] -> scase w ths w' ths' e
| sc_else : hist w' 0%nat = hist w 0%nat -> hist w' 1%nat = hist w 1%nat -> ths' = ths -> flat_map base_ev e = [] -> scase w ths w' ths' e.

Lemma WS_thr n w ths t p p' : WS n (w, ths) -> nth_error ths t = Some p -> sreg p' = sreg p -> spst p' = spst p -> sloc p' -> WS n (w, upd ths t p').
Proof.
  intros (L & HH & HI) Ht S1 S2 Hl. pose proof HI as (Hv & Hst & Hb & _). cbn [fst snd] in *. split; [cbn [snd]; rewrite upd_length; exact L|]. split; [exact HH|]. eapply SI_upd; eauto; cbn [fst]; rewrite ?S1, ?S2; lia.
Qed.
Lemma wsem_case n w ths a w' ths' e : Z.of_nat n < 2 ^ 31 - 1 -> WS n (w, ths) -> wsem_step (w, ths) a = Some ((w', ths'), e) ->
  WS n (w', ths') /\ kmono w w' /\ scase w ths w' ths' e.
Proof.
  intros Hn HW Hs. assert (HM : kmono w w') by (eapply wstep_mono; [exact wsem_mono|exact Hs]). apply wstep_cases in Hs.
  destruct Hs as [(t & o & p & p' & -> & Ht & Hc & E & ->)|[(t & ch & p & o & r & p' & -> & Ht & Hr & E & ->)|[(t & ch & p & -> & Ht & Hr & E & ->)|[(t & -> & E & ->)|(t & l & o & i & v & w1 & -> & Hl & Hc & E & ->)]]]];
    [injection E as -> ->|injection E as -> ->| |injection E as -> ->|injection E as -> ->].
  - destruct p; try discriminate. injection Hc as <-. fold (sentry o). split; [apply (WS_thr n w ths t SRest); auto; destruct o; try reflexivity; exact I|]. split; [exact HM|]. eapply sc_call; eauto.
  - destruct p; try discriminate. injection Hr as <- <- <-. split; [apply (WS_thr n w ths t (SDone o0 r0)); auto; exact I|]. split; [exact HM|]. eapply sc_ret; eauto.
  - destruct (wsem_eff _ _ _ _ _ _ _ _ Hn HW Ht E) as (p' & -> & He & Hl). split; [eapply WS_eff; eauto|]. split; [exact HM|]. eapply sc_run; eauto. destruct p; try reflexivity. discriminate Hr.
  - split; [exact HW|]. split; [exact HM|]. apply sc_else; auto.
  - assert (Eh : forall k, (k < 2)%nat -> hist w1 k = hist w k) by (intros k Hk; apply (wclient_inv _ _ _ _ _ _ _ Hc); lia).
    split; [|split; [exact HM|apply sc_else; auto]]. destruct HW as (L & HH & HI). split; [exact L|]. cbn [fst snd] in *. split.
    + intros k Hk. destruct (HH k Hk) as (m0 & h & E & F). exists m0, h. rewrite Eh by exact Hk. auto.
    + rewrite !(top_same w w1) by (apply Eh; lia). exact HI.
Qed.
Lemma WS_init n : WS n (wsem_init n).
Proof.
  unfold WS, wsem_init. cbn [fst snd wm0 hist]. split; [apply repeat_length|]. split; [intros l _; eexists; eexists; split; [reflexivity|constructor]|].
  unfold SI, top. cbn [wm0 hist last mval]. rewrite !sumf_repeat, repeat_length. cbn [sreg spst]. repeat split; try lia. intros t p Hp. apply nth_repeat in Hp. subst. exact I.
Qed.
Lemma WS_exec n sched c tr : Z.of_nat n < 2 ^ 31 - 1 -> exec wsem_step (wsem_init n) sched = Some (c, tr) -> WS n c.
Proof.
  intros Hn. apply (exec_inv_state wsem_step (WS n)); [apply WS_init|]. intros [w ths] a [w' ths'] e HW Hs. eapply wsem_case; eauto.
Qed.

(** * Posts and waits *)
(** Proof or specification device; no counterpart in /repo. *)
Definition SC (c : wmem * list spc) (tr : list wev) : Prop :=
  top (fst c) 1 + wtakes tr + sumf sdtake (snd c) + sumf sinpost (snd c) <= wcalled tr.
Lemma SC_step n w ths tr a w' ths' e : Z.of_nat n < 2 ^ 31 - 1 -> WS n (w, ths) -> SC (w, ths) tr -> wsem_step (w, ths) a = Some ((w', ths'), e) -> SC (w', ths') (tr ++ e).
Proof.
  intros Hn HW HC Hs. destruct (wsem_case _ _ _ _ _ _ _ Hn HW Hs) as (_ & _ & Hc). unfold SC in *. cbn [fst snd] in *. rewrite wtakes_app, wcalled_app.
  destruct Hc as [t o Ht -> -> ->|t o r Ht -> -> ->|t p p' Ht Hd -> He ->|E0 E1 -> Ee].
  - rewrite (sumf_upd sdtake _ _ _ _ Ht), (sumf_upd sinpost _ _ _ _ Ht). unfold wtakes at 2, wcalled at 2, takes, posts_called. cbn [flat_map base_ev app sumf sdtake sinpost]. destruct o; cbn [sentry sdtake sinpost]; lia.
  - rewrite (sumf_upd sdtake _ _ _ _ Ht), (sumf_upd sinpost _ _ _ _ Ht). unfold wtakes at 2, wcalled at 2, takes, posts_called. cbn [flat_map base_ev app sumf sdtake sinpost]. lia.
  - rewrite (sumf_upd sdtake _ _ _ _ Ht), (sumf_upd sinpost _ _ _ _ Ht). unfold wtakes at 2, wcalled at 2, takes, posts_called. cbn [flat_map base_ev app sumf].
    destruct He as [E0 E1 S1 S2 S3 S4 S5 S6 S7|x E0 E1 X1 X2 X3 S1 S2 S3 S4 Y1 Y2 Y3 Y4|x E0 E1 X1 -> -> X2 X3 X4|k x E0 E1 X1 -> -> X2 X3 X4 X5].
    + rewrite (top_same _ _ _ E1). lia.
    + rewrite (top_same _ _ _ E1). lia.
    + rewrite (top_end _ _ _ _ E1), X2. cbn [sdtake sinpost took] in *. lia.
    + rewrite (top_end _ _ _ _ E1), X2. cbn [sdtake sinpost] in *. assert (took (skop k) (skres k) = 1) by (destruct k; reflexivity). lia.
  - unfold wtakes at 2, wcalled at 2. rewrite Ee, (top_same _ _ _ E1). unfold takes, posts_called. cbn [sumf]. lia.
Qed.

(** * What a message says about the present *)

(** Sum over the threads with their numbers. Proof or specification device; no counterpart in /repo. *)
Fixpoint isum (f : nat -> spc -> Z) (i : nat) (l : list spc) : Z := match l with [] => 0 | p :: l => f i p + isum f (S i) l end.
Lemma isum_upd f l : forall i t q p, nth_error l t = Some q -> isum f i (upd l t p) = isum f i l - f (i + t)%nat q + f (i + t)%nat p.
Proof.
  induction l as [|a l IH]; intros i t q p H; destruct t; cbn in H; try discriminate; cbn [upd isum].
  - injection H as ->. rewrite Nat.add_0_r. lia.
  - rewrite (IH _ _ _ _ H). replace (S i + t)%nat with (i + S t)%nat by lia. lia.
Qed.
Lemma isum_le f g l : forall i, (forall j p, nth_error l j = Some p -> f (i + j)%nat p <= g (i + j)%nat p) -> isum f i l <= isum g i l.
Proof.
  induction l as [|a l IH]; intros i H; cbn [isum]; [lia|]. pose proof (H 0%nat a eq_refl) as H0. rewrite Nat.add_0_r in H0.
  assert (isum f (S i) l <= isum g (S i) l); [|lia]. apply IH. intros j p Hj. specialize (H (S j) p Hj). replace (S i + j)%nat with (i + S j)%nat by lia. exact H.
Qed.
Lemma isum_sumf f l i : isum (fun _ p => f p) i l = sumf f l.
Proof. revert i. induction l as [|a l IH]; intros i; cbn [isum sumf]; [reflexivity|]. rewrite IH. reflexivity. Qed.

(** One that knows [K] knows of a change of m_state after message [i]. Proof or specification device; no counterpart in /repo. *)
Definition late (h : list msg) (i : nat) (K : list nat) : Z := if readable K h i then 0 else 1.
(** Proof or specification device; no counterpart in /repo. *)
Definition tlate (h : list msg) (i : nat) (tr : list wev) : Z := sumf (fun e => match e with HEv (Ret _ o r) K => took o r * late h i K | _ => 0 end) tr.
(** Proof or specification device; no counterpart in /repo. *)
Definition plate (w : wmem) (i : nat) (t : nat) (p : spc) : Z := late (hist w 0%nat) i (wkn w t) * (sreg p + sdtake p).

(** Since message [i], m_state has risen by at most the number of waits that know of a change after [i] and are registered or consumed a post. Proof or specification device; no counterpart in /repo. *)
Definition SL (c : wmem * list spc) (tr : list wev) : Prop := forall i m, nth_error (hist (fst c) 0%nat) i = Some m ->
  top (fst c) 0 - mval m <= isum (plate (fst c) i) 0 (snd c) + tlate (hist (fst c) 0%nat) i tr.

Lemma late01 h i K : 0 <= late h i K <= 1. Proof. unfold late. destruct (readable K h i); lia. Qed.
Lemma late_mono h h2 i K K' : incl K K' -> late h i K <= late (h ++ h2) i K'.
Proof.
  intros Hi. unfold late. destruct (readable K' (h ++ h2) i) eqn:E; [|destruct (readable K h i); lia]. rewrite (readable_mono _ _ _ _ _ Hi E). lia.
Qed.
Lemma tlate_mono h h2 i tr : tlate h i tr <= tlate (h ++ h2) i tr.
Proof.
  unfold tlate. apply sumf_le. intros [|[|t o r] K]; try lia. pose proof (stook_nn o r). pose proof (late_mono h h2 i K K (incl_refl K)). nia.
Qed.
Lemma tlate_app h i a b : tlate h i (a ++ b) = tlate h i a + tlate h i b. Proof. unfold tlate. apply sumf_app. Qed.
Lemma plate_mono w w' h2 i t p : hist w' 0%nat = hist w 0%nat ++ h2 -> incl (wkn w t) (wkn w' t) -> plate w i t p <= plate w' i t p.
Proof. intros E Hi. unfold plate. rewrite E. pose proof (late_mono (hist w 0%nat) h2 i _ _ Hi). pose proof (sreg_nn p). pose proof (sdtake01 p). nia. Qed.
Lemma plate_nn w i t p : 0 <= plate w i t p.
Proof. unfold plate. pose proof (late01 (hist w 0%nat) i (wkn w t)). pose proof (sreg_nn p). pose proof (sdtake01 p). nia. Qed.
Lemma isum_nn f l : (forall i p, 0 <= f i p) -> forall i, 0 <= isum f i l.
Proof. intros H. induction l as [|a l IH]; intros i; cbn [isum]; [lia|]. specialize (H i a). specialize (IH (S i)). lia. Qed.
Lemma tlate_nn h i tr : 0 <= tlate h i tr.
Proof. apply sumf_nonneg. intros [|[|t o r] K]; try lia. pose proof (stook_nn o r). pose proof (late01 h i K). nia. Qed.
Lemma late_known h x i K : (i < length h)%nat -> In (mid x) K -> late (h ++ [x]) i K = 1.
Proof.
  intros Hi Hk. unfold late. destruct (readable K (h ++ [x]) i) eqn:E; [|reflexivity]. pose proof (readable_after _ _ _ _ _ Hk E). lia.
Qed.
Lemma tlate0 h i e : flat_map base_ev e = [] -> tlate h i e = 0.
Proof.
  induction e as [|x e IH]; intros H; [reflexivity|]. unfold tlate in *. cbn [sumf]. destruct x as [|ev K]; cbn in H; [rewrite IH by exact H; lia|discriminate H].
Qed.

Lemma SL_step n w ths tr a w' ths' e : Z.of_nat n < 2 ^ 31 - 1 -> WS n (w, ths) -> SL (w, ths) tr -> wsem_step (w, ths) a = Some ((w', ths'), e) -> SL (w', ths') (tr ++ e).
Proof.
  intros Hn HW HL Hs. destruct (wsem_case _ _ _ _ _ _ _ Hn HW Hs) as (_ & HM & Hc). unfold SL in *. cbn [fst snd] in *. intros i m Hi. rewrite tlate_app.
  assert (PM : forall h2 i, hist w' 0%nat = hist w 0%nat ++ h2 -> isum (plate w i) 0 ths <= isum (plate w' i) 0 ths).
  { intros h2 i0 E. apply isum_le. intros j p _. eapply plate_mono; [exact E|apply HM]. }
  assert (PM0 : hist w' 0%nat = hist w 0%nat -> isum (plate w i) 0 ths <= isum (plate w' i) 0 ths) by (intros E; apply (PM []); rewrite app_nil_r; exact E).
  destruct Hc as [t o Ht -> -> ->|t o r Ht -> -> ->|t p p' Ht Hd -> He ->|E0 E1 -> Ee].
  - specialize (HL _ _ Hi). rewrite (isum_upd _ _ _ _ _ _ Ht). unfold plate at 2 3. cbn [Nat.add]. unfold tlate at 2. cbn [sumf]. destruct o; cbn [sentry sreg sdtake]; lia.
  - specialize (HL _ _ Hi). rewrite (isum_upd _ _ _ _ _ _ Ht). unfold plate at 2 3. cbn [Nat.add sreg sdtake]. unfold tlate at 2. cbn [sumf]. lia.
  - rewrite (isum_upd _ _ _ _ _ _ Ht). cbn [Nat.add]. change (tlate (hist w' 0%nat) i []) with 0. unfold plate at 2 3. rewrite Hd. pose proof (late01 (hist w' 0%nat) i (wkn w' t)) as L1.
    destruct He as [E0 E1 S1 S2 S3 S4 S5 S6 S7|x E0 E1 X1 X2 X3 S1 S2 S3 S4 Y1 Y2 Y3 Y4|x E0 E1 X1 -> -> X2 X3 X4|k x E0 E1 X1 -> -> X2 X3 X4 X5].
    + specialize (PM0 E0). rewrite S1, S4, (top_same _ _ _ E0), E0 in *. specialize (HL _ _ Hi).  lia.
    + rewrite (top_end _ _ _ _ E0), X3, S2. specialize (PM [x] i E0). rewrite E0 in Hi. destruct (lt_dec i (length (hist w 0%nat))) as [Hlt|Hge].
      * rewrite nth_error_app1 in Hi by exact Hlt. specialize (HL _ _ Hi). rewrite E0 in *. pose proof (tlate_mono (hist w 0%nat) [x] i tr) as TM.
        rewrite (late_known _ _ _ _ Hlt X2) in *. pose proof (spst_nn p'). lia.
      * rewrite nth_error_app2 in Hi by lia. destruct (i - length (hist w 0%nat))%nat as [|[|]]; cbn in Hi; try discriminate Hi. injection Hi as <-. rewrite X3.
        pose proof (isum_nn (plate w' i) (upd ths t p') (plate_nn w' i) 0) as N. rewrite (isum_upd _ _ _ _ _ _ Ht) in N. cbn [Nat.add] in N. unfold plate at 2 3 in N. rewrite Hd, S2 in N.
        pose proof (tlate_nn (hist w' 0%nat) i tr). lia.
    + specialize (PM0 E0). rewrite (top_same _ _ _ E0), E0 in *. specialize (HL _ _ Hi).  cbn [sreg sdtake took]. lia.
    + specialize (PM0 E0). rewrite (top_same _ _ _ E0), E0 in *. specialize (HL _ _ Hi).  cbn [sreg sdtake].
      assert (took (skop k) (skres k) = 1) by (destruct k; reflexivity). lia.
  - specialize (PM0 E0). pose proof (top_same _ _ _ E0) as ET. rewrite E0 in *. rewrite ET, (tlate0 _ _ _ Ee). specialize (HL _ _ Hi).  lia.
Qed.

(** * Together *)
(** Proof or specification device; no counterpart in /repo. *)
Definition WSK n (c : wmem * list spc) (tr : list wev) : Prop := WS n c /\ SC c tr /\ SL c tr.
Lemma WSK_init n : WSK n (wsem_init n) [].
Proof.
  split; [apply WS_init|]. split.
  - unfold SC, wsem_init. cbn [fst snd]. rewrite !sumf_repeat. cbn. lia.
  - intros i m Hi. unfold wsem_init in *. cbn [fst snd wm0 hist] in *. pose proof (isum_nn (plate (wm0 (fun _ => 0)) i) (repeat SRest n) (plate_nn _ i) 0).
    destruct i as [|[|]]; cbn in Hi; try discriminate Hi. injection Hi as <-. unfold top. cbn [wm0 hist last mval]. change (tlate _ 0 []) with 0. lia.
Qed.
Lemma WSK_step n : Z.of_nat n < 2 ^ 31 - 1 -> forall c tr a c' e, WSK n c tr -> wsem_step c a = Some (c', e) -> WSK n c' (tr ++ e).
Proof. intros Hn [w ths] tr a [w' ths'] e (H1 & H2 & H3) Hs. split; [eapply wsem_case; eauto|]. split; [eapply SC_step; eauto|eapply SL_step; eauto]. Qed.
Lemma WSK_exec n sched c tr : Z.of_nat n < 2 ^ 31 - 1 -> exec wsem_step (wsem_init n) sched = Some (c, tr) -> WSK n c tr.
Proof. intros Hn. apply exec_inv; [apply WSK_init|]. intros. eapply WSK_step; eauto. Qed.
