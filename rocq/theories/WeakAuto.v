(** auto_reset_event on Linux (/repo/include/boost/sync/detail/events/auto_reset_event_futex.hpp, "L:") on weak memory.  Program points as in AutoFutexModel.v;
    m_state is location 0.  A step's choice is the scheduler's choice of AutoFutexModel.v and the position of the message read or written.
    The comparison inside FUTEX_WAIT uses the newest value and teaches the thread nothing: the kernel orders its futex operations on a word totally. *)
From Coq Require Import List Bool Arith ZArith Lia.
From Verif Require Import ListSum Exec Events Lin Word EventSpec AutoFutexModel AutoFutexProof Hb HbSpin HbAuto Weak.
Import ListNotations.

(** The newest value of m_state, L:319. *)
Definition newest (w : wmem) : Z := mval (last (hist w 0) (Msg 0 0 [] false)).
(** A spurious failure of compare_exchange_weak; no counterpart in /repo. *)
Definition is_spur (ch : achoice) : bool := match ch with CSpur => true | _ => false end.

(** post(), L:62-79: enough undelivered posts: release fence and return. *)
Definition wpost_try (t : nat) (v : Z) (w : wmem) (ths : list apc) : wmem * list apc :=
  (if (posts_of v <=? waiters_of v)%Z then w else wfence t w, upd ths t (post_try v)).
(** try_wait(), L:134-139: nothing is written when there is no undelivered post. *)
Definition wtry_test (t : nat) (k : wkind) (ch : achoice) (v : Z) (w : wmem) (ths : list apc) : option (wmem * list apc) :=
  match try_test k ch v with Some p' => Some (w, upd ths t p') | None => None end.

(** One access of a thread, L:58-315. *)
Definition wauto_run (t : nat) (w : wmem) (ths : list apc) (p : apc) (c : achoice * nat) : option (wmem * list apc) :=
  let (ch, i) := c in
  match p with
  | ARest | ADone _ _ => None
  | PLoad =>                        (* L:60 relaxed *)
      match wload t 0 false i w with Some (v, w') => Some (wpost_try t v w' ths) | None => None end
  | PCas old =>                     (* L:68 weak, release / relaxed *)
      match wcas t 0 true false true false old (u32 (old + post_one)) (is_spur ch) i w with
      | Some (true, _, w') => Some (w', upd ths t (if (0 <? waiters_of old)%Z then PSignal else ADone EPost EOk))
      | Some (false, v, w') => Some (wpost_try t v w' ths)
      | None => None
      end
  | PSignal =>                      (* L:81 futex_signal *)
      match ch with
      | CWake u => match nth_error ths u with
                   | Some (WSleep k) => Some (w, upd (upd ths u (WLoad k)) t (ADone EPost EOk))
                   | _ => None
                   end
      | _ => if existsb is_sleep ths then None else Some (w, upd ths t (ADone EPost EOk))
      end
  | TLoad k =>                      (* L:133 relaxed *)
      match wload t 0 false i w with Some (v, w') => wtry_test t k ch v w' ths | None => None end
  | TCas k old =>                   (* L:137 weak, acquire / relaxed *)
      match wcas t 0 true true false false old (u32 (old - post_one)) (is_spur ch) i w with
      | Some (true, _, w') => Some (w', upd ths t (ADone (kop k) (kres k)))
      | Some (false, v, w') => wtry_test t k ch v w' ths
      | None => None
      end
  | WAdd k =>                       (* L:91 / 172 / 231 relaxed *)
      match wrmw t 0 false false (fun v => u32 (v + 1)) i w with Some (v, w') => Some (w', upd ths t (wait_test k v)) | None => None end
  | WFutex k e =>
      match k, ch with
      | KTimed, CTime => Some (w, upd ths t OLoad)
      | _, CSpur => Some (w, upd ths t (WLoad k))
      | _, _ => if (newest w =? e)%Z then Some (w, upd ths t (WSleep k)) else Some (w, upd ths t (WLoad k))
      end
  | WSleep k =>
      match k, ch with
      | KTimed, CTime => Some (w, upd ths t OLoad)
      | _, CSpur => Some (w, upd ths t (WLoad k))
      | _, _ => None
      end
  | WLoad k =>                      (* L:116 / 203 / 258 relaxed *)
      match wload t 0 false i w with
      | Some (v, w') => Some (w', upd ths t (if (0 <? posts_of v)%Z then WCas k v else WFutex k v))
      | None => None
      end
  | WCas k old =>                   (* L:124 / 211 / 266 weak, acquire / relaxed *)
      match wcas t 0 true true false false old (u32 (old - (post_one + 1))) (is_spur ch) i w with
      | Some (true, _, w') => Some (w', upd ths t (ADone (kop k) (kres k)))
      | Some (false, v, w') => Some (w', upd ths t (wait_test k v))
      | None => None
      end
  | OLoad =>                        (* L:296 relaxed *)
      match wload t 0 false i w with Some (v, w') => Some (w', upd ths t (OCas v)) | None => None end
  | OCas old =>
      if (posts_of old =? 0)%Z then (* L:303 weak, relaxed *)
        match wcas t 0 true false false false old (u32 (old - 1)) (is_spur ch) i w with
        | Some (true, _, w') => Some (w', upd ths t (match ch with CAgain => TLoad KTimed | _ => ADone ETimed EFalse end))
        | Some (false, v, w') => Some (w', upd ths t (OCas v))
        | None => None
        end
      else                          (* L:309 weak, acquire / relaxed *)
        match wcas t 0 true true false false old (u32 (old - (post_one + 1))) (is_spur ch) i w with
        | Some (true, _, w') => Some (w', upd ths t (ADone ETimed ETrue))
        | Some (false, v, w') => Some (w', upd ths t (OCas v))
        | None => None
        end
  end.
(** Entry points L:58, 84, 131, 147-161. *)
Definition wauto_call (p : apc) (o : eop) : option apc := match p with ARest => Some (auto_entry o) | _ => None end.
(** Return to the caller, L:58-315. *)
Definition wauto_ret (p : apc) : option (eop * eres * apc) := match p with ADone o r => Some (o, r, ARest) | _ => None end.
(** Interleaving of any number of threads on weak memory.  L:58-315. *)
Definition wauto_step := wstep wauto_call wauto_ret wauto_run 1.
(** L:54. *)
Definition wauto_init (n : nat) : wmem * list apc := (wm0 (fun _ => 0%Z), repeat ARest n).

(** * Values and positions *)
Local Open Scope Z_scope.

Lemma room_rmw m0 l i m x : Forall (fun m => mrmw m = true) l -> nth_error (m0 :: l) i = Some m -> room (m0 :: l) i = true ->
  exists h, m0 :: l = h ++ [m] /\ insert (m0 :: l) i x = h ++ [m; x].
Proof.
  intros Hl Hn Hr. unfold room in Hr. cbn [nth_error] in Hr. destruct (nth_error l i) as [y|] eqn:E.
  - apply nth_error_In in E. rewrite Forall_forall in Hl. rewrite (Hl _ E) in Hr. discriminate.
  - destruct (insert_split _ _ _ x Hn) as (h1 & h2 & E1 & E2 & E3). apply nth_error_None in E.
    assert (h2 = []) as ->. { apply (f_equal (@length msg)) in E1. rewrite app_length in E1. cbn in E1. destruct h2; [reflexivity|cbn in E1; lia]. }
    exists h1. split; [exact E1|rewrite E2; reflexivity].
Qed.
Lemma newest_end w h m : hist w 0 = h ++ [m] -> newest w = mval m.
Proof. intros E. unfold newest. rewrite E, last_last. reflexivity. Qed.

(** A word that can occur: at most 1022 registered waiters, at most one more post than waiters. *)
Definition vok (v : Z) : Prop := exists P W, v = P * post_one + W /\ 0 <= W <= 1022 /\ 0 <= P <= W + 1.
Lemma vok_posts v : vok v -> 0 <= posts_of v /\ 0 <= waiters_of v <= 1022 /\ v = posts_of v * post_one + waiters_of v /\ posts_of v <= waiters_of v + 1.
Proof. intros (P & W & -> & HW & HP). rewrite posts_val, waiters_val by (ap_unf; lia). repeat split; lia. Qed.
Lemma AI_vok s ths : AI (s, ths) -> acap (s, ths) -> vok s.
Proof.
  intros (P & H1 & H2 & _) Hc. unfold acap in Hc. cbn [fst snd] in *. pose proof (sumf_nonneg areg ths areg_nn). exists P, (sumf areg ths). repeat split; lia.
Qed.
Lemma AI_stale s ths t q p : AI (s, ths) -> nth_error ths t = Some q -> areg p = areg q -> aaw q <= aaw p -> aloc p -> AI (s, upd ths t p).
Proof.
  intros HI Ht Hr Ha Hl. pose proof HI as (P & H1 & H2 & H3 & H4). cbn [fst snd] in *. eapply (AI_upd s s ths t q p P); eauto; rewrite ?Hr; try lia.
Qed.
Lemma acap_len s ths n : length ths = n -> Z.of_nat n <= 1022 -> acap (s, ths).
Proof.
  intros <- H. unfold acap. cbn [snd]. assert (G : forall l, sumf areg l <= Z.of_nat (length l)); [|specialize (G ths); lia].
  induction l as [|p l IH]; cbn [sumf length]; [lia|]. assert (areg p <= 1) by (destruct p; cbn; lia). lia.
Qed.

Lemma post_try_loc v : aloc (post_try v) /\ areg (post_try v) = 0 /\ aaw (post_try v) = 0 /\ inpost (post_try v) <= 1 /\ dtake (post_try v) = 0 /\
  (inpost (post_try v) = 1 \/ waiters_of v < posts_of v).
Proof. unfold post_try. destruct (Z.leb_spec (posts_of v) (waiters_of v)); cbn; repeat split; auto; lia. Qed.
Lemma wait_test_loc k v : vok v -> aloc (wait_test k v) /\ areg (wait_test k v) = 1 /\ aaw (wait_test k v) = 1 /\ inpost (wait_test k v) = 0 /\ dtake (wait_test k v) = 0.
Proof.
  intros Hv. destruct (vok_posts _ Hv) as (H1 & H2 & H3 & H4). unfold wait_test. destruct (Z.eqb_spec (posts_of v) 0) as [E|E]; cbn [aloc areg aaw inpost dtake].
  - repeat split; auto; rewrite E in H3; rewrite u32_id by (unfold two32; ap_unf; lia); ap_unf; lia.
  - repeat split; auto; lia.
Qed.

(** * What a step does *)

(** Waiting on the object: every message after the first is a read-modify-write. Proof or specification device; no counterpart in /repo. *)
Definition WA (n : nat) (c : wmem * list apc) : Prop :=
  length (snd c) = n /\ (exists m0 l, hist (fst c) 0 = m0 :: l /\ Forall (fun m => mrmw m = true) l) /\
  Forall (fun m => vok (mval m)) (hist (fst c) 0) /\ AI (newest (fst c), snd c).

(** Proof or specification device; no counterpart in /repo. *)
Inductive weff (w : wmem) (ths : list apc) (t : nat) (p : apc) (w' : wmem) (ths' : list apc) : Prop :=
| wf_stale p' : hist w' 0 = hist w 0 -> ths' = upd ths t p' -> inpost p' <= inpost p -> dtake p' = 0 ->
    (inpost p = 1 -> inpost p' = 1 \/ exists i m, nth_error (hist w 0) i = Some m /\ readable (wkn w t) (hist w 0) i = true /\ waiters_of (mval m) < posts_of (mval m)) ->
    weff w ths t p w' ths'
| wf_wake u k : hist w' 0 = hist w 0 -> p = PSignal -> nth_error ths u = Some (WSleep k) -> ths' = upd (upd ths u (WLoad k)) t (ADone EPost EOk) -> weff w ths t p w' ths'
| wf_push p' h m x : hist w 0 = h ++ [m] -> hist w' 0 = h ++ [m; x] -> mid x = nid w -> mrmw x = true -> incl (mrel m) (mrel x) -> In (mid x) (wkn w' t) ->
    ths' = upd ths t p' -> inpost p' = 0 ->
    (posts_of (mval x) = posts_of (mval m) /\ inpost p = 0 /\ dtake p' = 0) \/
    (posts_of (mval x) = posts_of (mval m) + 1 /\ inpost p = 1 /\ dtake p' = 0 /\ incl (wkn w t) (mrel x)) \/
    (posts_of (mval x) = posts_of (mval m) - 1 /\ 0 < posts_of (mval m) /\ inpost p = 0 /\ dtake p' = 1 /\ incl (mrel m) (wkn w' t)) ->
    weff w ths t p w' ths'.

Lemma wauto_mono t w ths p ch w' ths' : wauto_run t w ths p ch = Some (w', ths') -> kmono w w'.
Proof.
  destruct ch as [ch i]. unfold wauto_run, wtry_test, wpost_try.
  destruct p; intros H;
    repeat first
    [ discriminate H
    | match type of H with
      | match wload ?t ?l ?a ?i ?w with _ => _ end = _ => let E := fresh "E" in destruct (wload t l a i w) as [[? ?]|] eqn:E; [apply wload_mono in E|discriminate H]
      | match wrmw ?t ?l ?a ?b ?f ?i ?w with _ => _ end = _ => let E := fresh "E" in destruct (wrmw t l a b f i w) as [[? ?]|] eqn:E; [apply wrmw_mono in E|discriminate H]
      | match wcas ?t ?l ?k ?a ?b ?c ?e ?d ?sp ?i ?w with _ => _ end = _ => let E := fresh "E" in destruct (wcas t l k a b c e d sp i w) as [[[[|] ?] ?]|] eqn:E; [apply wcas_mono in E|apply wcas_mono in E|discriminate H]
      | match try_test ?k ?c ?v with _ => _ end = _ => destruct (try_test k c v); [|discriminate H]
      | context [if ?b then _ else _] => destruct b
      | match ?x with _ => _ end = _ => destruct x
      end
    | injection H as <- <-; first [assumption|apply kmono_refl] ].
Qed.

Lemma push_posts s ths t ch p s' p' : AI (s, ths) -> acap (s, ths) -> acap (s', upd ths t p') -> nth_error ths t = Some p -> p <> PSignal ->
  auto_step (s, ths) (ARun t ch) = Some ((s', upd ths t p'), []) ->
  (posts_of s' = posts_of s /\ inpost p' <= inpost p /\ dtake p' = 0 /\ (inpost p = 1 -> inpost p' = 1 \/ waiters_of s < posts_of s)) \/
  (posts_of s' = posts_of s + 1 /\ inpost p = 1 /\ inpost p' = 0 /\ dtake p' = 0) \/
  (posts_of s' = posts_of s - 1 /\ 0 < posts_of s /\ inpost p = 0 /\ inpost p' = 0 /\ dtake p' = 1).
Proof.
  intros HI Hc Hc' Ht Hp H.
  assert (Hup : forall q, upd ths t p' = upd ths t q -> q = p').
  { intros q E. apply (f_equal (fun l => nth_error l t)) in E. rewrite !(nth_upd_eq _ _ _ _ Ht) in E. congruence. }
  destruct (auto_eff _ _ _ _ _ _ HI Hc Hc' H) as [t1 o Ea Et Es Eths Ee|t1 ch1 o r Ea Et Es Eths Ee|t1 ch1 Ea Et Es Ee Eths|t1 ch1 q q' Ea Et Es Eths Ee G1 G2 G3 G4|t1 ch1 old q' Ea Et Es Eths Ee G1 G2 G3|t1 ch1 q q' Ea Et Es Es0 Eths Ee G1 G2 G3 G4 G5];
    try discriminate; injection Ea as <- <-; rewrite Ht in Et; injection Et as Et.
  - congruence.
  - rewrite (Hup _ Eths), <- Et in *. left. auto.
  - rewrite (Hup _ Eths) in *. subst p. right; left. auto.
  - rewrite (Hup _ Eths), <- Et in *. right; right. auto.
Qed.

Lemma WA_stale n w ths w' ths' : WA n (w, ths) -> hist w' 0 = hist w 0 -> length ths' = length ths -> AI (newest w, ths') -> WA n (w', ths').
Proof.
  intros (H1 & H2 & H3 & H4) Eh El HI. unfold WA, newest in *. cbn [fst snd] in *. rewrite Eh. repeat split; auto. congruence.
Qed.

(** Effect and position of a read-modify-write. *)
Lemma wrmw_push n w ths t acq rel f i v w' : WA n (w, ths) -> wrmw t 0 acq rel f i w = Some (v, w') ->
  exists h m x, hist w 0 = h ++ [m] /\ hist w' 0 = h ++ [m; x] /\ v = newest w /\ mval m = newest w /\ newest w' = f (newest w) /\ mval x = f (newest w) /\ mid x = nid w /\ mrmw x = true /\
    incl (mrel m) (mrel x) /\ In (mid x) (wkn w' t) /\ (rel = true -> incl (wkn w t) (mrel x)) /\ (acq = true -> incl (mrel m) (wkn w' t)).
Proof.
  intros (_ & (m0 & l & E0 & Hl) & _ & _) H. cbn [fst] in *.
  destruct (wrmw_inv _ _ _ _ _ _ _ _ _ H) as (m & En & _ & Rm & -> & Eh & _ & _ & _ & _ & Ek). rewrite E0 in *.
  set (x := Msg (nid w) (f (mval m)) ((if rel then (if acq then mrel m else []) ++ mid m :: wkn w t else wfen w t) ++ mrel m) true) in *.
  destruct (room_rmw _ _ _ _ x Hl En Rm) as (h & E1 & E2). rewrite E2 in Eh. rewrite E1 in *.
  assert (N1 : newest w = mval m) by (apply (newest_end w h); congruence).
  assert (N2 : newest w' = mval x). { apply (newest_end w' (h ++ [m])). rewrite Eh, <- app_assoc. reflexivity. }
  exists h, m, x. rewrite N1, N2. repeat split; auto.
  - apply incl_appr, incl_refl.
  - rewrite Ek. left. reflexivity.
  - intros ->. cbn. apply incl_appl, incl_appr, incl_tl, incl_refl.
  - intros ->. rewrite Ek. apply incl_tl, incl_appl, incl_refl.
Qed.
Lemma WA_push n w ths w' ths' h m x : Z.of_nat n <= 1022 -> WA n (w, ths) -> hist w 0 = h ++ [m] -> hist w' 0 = h ++ [m; x] -> mrmw x = true -> length ths' = length ths ->
  AI (mval x, ths') -> WA n (w', ths').
Proof.
  intros Hn (H1 & (m0 & l & H2 & H2') & H3 & H4) E E' Hx El HI. unfold WA. cbn [fst snd] in *.
  assert (E2 : hist w' 0 = hist w 0 ++ [x]) by (rewrite E, E', <- app_assoc; reflexivity).
  assert (N : newest w' = mval x) by (apply (newest_end w' (hist w 0) x E2)).
  repeat split.
  - congruence.
  - exists m0, (l ++ [x]). rewrite E2, H2. split; [reflexivity|]. apply Forall_app. auto.
  - rewrite E2. apply Forall_app. split; [exact H3|]. constructor; [|constructor]. eapply AI_vok; [exact HI|]. eapply acap_len; [|exact Hn]. congruence.
  - rewrite N. exact HI.
Qed.

(** A successful read-modify-write is a step of the model with one value per location. *)
Lemma push_eff n w ths t p acq rel f i v w' p' ch0 : Z.of_nat n <= 1022 -> WA n (w, ths) -> nth_error ths t = Some p -> p <> PSignal ->
  wrmw t 0 acq rel f i w = Some (v, w') ->
  auto_step (newest w, ths) (ARun t ch0) = Some ((f (newest w), upd ths t p'), []) ->
  inpost p' = 0 -> (inpost p = 1 -> rel = true /\ posts_of (newest w) <= waiters_of (newest w)) -> (dtake p' = 1 -> acq = true) ->
  weff w ths t p w' (upd ths t p') /\ WA n (w', upd ths t p').
Proof.
  intros Hn HW Ht Hp H Hs Hip Hrel Hacq.
  destruct (wrmw_push _ _ _ _ _ _ _ _ _ _ HW H) as (h & m & x & E1 & E2 & Ev & Em & En & Ex & Ei & Er & G1 & G2 & G3 & G4).
  pose proof HW as (L & _ & _ & HI). cbn [fst snd] in L, HI.
  assert (C1 : acap (newest w, ths)) by (eapply acap_len; eauto).
  assert (C2 : acap (f (newest w), upd ths t p')) by (eapply acap_len; [|exact Hn]; rewrite upd_length; exact L).
  pose proof (push_posts _ _ _ _ _ _ _ HI C1 C2 Ht Hp Hs) as HP.
  destruct (auto_step_ok _ _ _ _ HI C1 C2 Hs) as (HI' & _).
  split; [|eapply WA_push; eauto; [apply upd_length|rewrite Ex; exact HI']].
  eapply wf_push; eauto. rewrite Ex, Em.
  destruct HP as [(P1 & P2 & P3 & P4)|[(P1 & P2 & P3 & P4)|(P1 & P2 & P3 & P4 & P5)]].
  - left. split; [exact P1|]. split; [|exact P3]. pose proof (inpost01 p). destruct (Z.eq_dec (inpost p) 1) as [E|E]; [|lia]. destruct (P4 E) as [F|F]; [lia|]. destruct (Hrel E). lia.
  - right; left. destruct (Hrel P2). auto.
  - right; right. auto 10.
Qed.

Lemma hist_nth n w ths i m : WA n (w, ths) -> nth_error (hist w 0) i = Some m -> vok (mval m).
Proof. intros (_ & _ & H & _) E. cbn [fst] in H. rewrite Forall_forall in H. apply H. eapply nth_error_In; eauto. Qed.

(** A step that only reads (a possibly old value) or does not access the word. *)
Lemma stale_eff n w ths t p w' p' : WA n (w, ths) -> nth_error ths t = Some p -> hist w' 0 = hist w 0 ->
  areg p' = areg p -> aaw p <= aaw p' -> aloc p' -> inpost p' <= inpost p -> dtake p' = 0 ->
  (inpost p = 1 -> inpost p' = 1 \/ exists i m, nth_error (hist w 0) i = Some m /\ readable (wkn w t) (hist w 0) i = true /\ waiters_of (mval m) < posts_of (mval m)) ->
  weff w ths t p w' (upd ths t p') /\ WA n (w', upd ths t p').
Proof.
  intros HW Ht Eh H1 H2 H3 H4 H5 H6. split; [eapply wf_stale; eauto|]. eapply WA_stale; eauto; [apply upd_length|]. eapply AI_stale; eauto. apply HW.
Qed.

Lemma kern_eff n w ths t p p' ch0 : Z.of_nat n <= 1022 -> WA n (w, ths) -> nth_error ths t = Some p ->
  auto_step (newest w, ths) (ARun t ch0) = Some ((newest w, upd ths t p'), []) -> inpost p = 0 -> inpost p' = 0 -> dtake p' = 0 ->
  weff w ths t p w (upd ths t p') /\ WA n (w, upd ths t p').
Proof.
  intros Hn HW Ht Hs H1 H2 H3. pose proof HW as (L & _ & _ & HI). cbn [fst snd] in L, HI. split; [eapply wf_stale; eauto; lia|].
  eapply WA_stale; eauto; [apply upd_length|]. refine (proj1 (auto_step_ok _ _ _ _ HI _ _ Hs)); apply (acap_len _ _ n); rewrite ?upd_length; assumption.
Qed.

Lemma some_pair {A B} (a c : A) (b d : B) : Some (a, b) = Some (c, d) -> a = c /\ b = d.
Proof. intros H. injection H as -> ->. auto. Qed.

Lemma wpost_try_inv t v w ths w' ths' : Some (wpost_try t v w ths) = Some (w', ths') -> hist w' 0 = hist w 0 /\ ths' = upd ths t (post_try v).
Proof.
  unfold wpost_try. generalize (post_try v). generalize (posts_of v <=? waiters_of v). intros b q H. apply some_pair in H. destruct H as (<- & <-). destruct b; auto.
Qed.

Lemma wauto_eff n w ths t p ch w' ths' : Z.of_nat n <= 1022 -> WA n (w, ths) -> nth_error ths t = Some p -> wauto_run t w ths p ch = Some (w', ths') ->
  weff w ths t p w' ths' /\ WA n (w', ths').
Proof.
  intros Hn HW Ht H. destruct ch as [ch i]. pose proof HW as (L & _ & _ & HI). cbn [fst snd] in L, HI.
  pose proof HI as (_ & _ & _ & _ & Hloc). cbn [snd] in Hloc. specialize (Hloc _ _ Ht).
  assert (Rd : forall a v w1, wload t 0 a i w = Some (v, w1) -> hist w1 0 = hist w 0 /\ vok v /\ (waiters_of v < posts_of v ->
     exists i m, nth_error (hist w 0) i = Some m /\ readable (wkn w t) (hist w 0) i = true /\ waiters_of (mval m) < posts_of (mval m))).
  { intros a v w1 E. destruct (wload_inv _ _ _ _ _ _ _ E) as (m & E1 & E2 & -> & E3 & _). rewrite E3. split; [reflexivity|]. split; [eapply hist_nth; eauto|]. eauto. }
  assert (Ps : forall w1 v, hist w1 0 = hist w 0 -> (waiters_of v < posts_of v ->
     exists i m, nth_error (hist w 0) i = Some m /\ readable (wkn w t) (hist w 0) i = true /\ waiters_of (mval m) < posts_of (mval m)) ->
     inpost p = 1 -> areg p = 0 -> aaw p = 0 -> Some (wpost_try t v w1 ths) = Some (w', ths') -> weff w ths t p w' ths' /\ WA n (w', ths')).
  { intros w1 v E1 E2 P1 P2 P3 F. destruct (wpost_try_inv _ _ _ _ _ _ F) as (Ew & ->). destruct (post_try_loc v) as (Q1 & Q2 & Q3 & Q4 & Q5 & Q6).
    rewrite E1 in Ew. apply (stale_eff n w ths t p w' (post_try v) HW Ht Ew); [congruence|lia|exact Q1|lia|exact Q5|]. intros _. destruct Q6 as [Q6|Q6]; [left; exact Q6|right; exact (E2 Q6)]. }
  assert (Ts : forall w1 k v, hist w1 0 = hist w 0 -> vok v -> inpost p = 0 -> areg p = 0 -> aaw p = 0 ->
     wtry_test t k ch v w1 ths = Some (w', ths') -> weff w ths t p w' ths' /\ WA n (w', ths')).
  { intros w1 k v E1 E2 P1 P2 P3 F. unfold wtry_test in F. destruct (try_test k ch v) as [p1|] eqn:E; [|discriminate]. apply some_pair in F; destruct F as (<- & <-).
    destruct (try_test_neut _ _ _ _ E) as (Q1 & Q2), (try_test_loc _ _ _ _ E) as (Q3 & Q4 & Q5 & _). apply (stale_eff n w ths t p w1 p1 HW Ht E1); try lia. exact Q3. }
  destruct p as [| |old| |k|k old|k|k x|k|k|k old| |old|o r]; cbn [wauto_run] in H; cbn [aloc] in Hloc; try discriminate.
  - destruct (wload t 0 false i w) as [[v w1]|] eqn:E; [|discriminate]. destruct (Rd _ _ _ E) as (R1 & R2 & R3). eapply Ps; eauto.
  - destruct (wcas t 0 true false true false old (u32 (old + post_one)) (is_spur ch) i w) as [[[[|] v] w1]|] eqn:E; [| |discriminate];
      destruct (wcas_inv _ _ _ _ _ _ _ _ _ _ _ _ _ _ E) as [(B & Ev & E1)|(B & _ & E1)]; try discriminate B.
    + apply some_pair in H; destruct H as (<- & <-).
      assert (Eo : newest w = old). { destruct (wrmw_push _ _ _ _ _ _ _ _ _ _ HW E1) as (? & ? & ? & _ & _ & -> & _). exact Ev. }
      eapply (push_eff n _ _ _ _ _ _ _ _ _ _ _ CNorm Hn HW Ht); [discriminate|exact E1| | | |].
      * cbn [auto_step]. rewrite Ht. cbn [auto_run]. rewrite Eo, Z.eqb_refl. reflexivity.
      * destruct (0 <? waiters_of old); reflexivity.
      * intros _. rewrite Eo. auto.
      * destruct (0 <? waiters_of old); discriminate.
    + destruct (Rd _ _ _ E1) as (R1 & R2 & R3). eapply Ps; eauto.
  - destruct ch as [| | | |u].
    1-4: destruct (existsb is_sleep ths) eqn:Ex; [discriminate|]; apply some_pair in H; destruct H as (<- & <-); eapply (kern_eff _ _ _ _ _ _ CNorm); eauto; cbn [auto_step]; rewrite Ht, Ex; reflexivity.
    destruct (nth_error ths u) as [qu|] eqn:Eu; [|discriminate]. destruct qu; try discriminate. apply some_pair in H; destruct H as (<- & <-). split; [eapply wf_wake; eauto|].
    eapply WA_stale; eauto; [rewrite !upd_length; reflexivity|].
    refine (proj1 (auto_step_ok (newest w, ths) (ARun t (CWake u)) (newest w, upd (upd ths u (WLoad k)) t (ADone EPost EOk)) [] HI _ _ _)).
    + eapply acap_len; eauto.
    + eapply acap_len; [|exact Hn]. rewrite !upd_length. exact L.
    + cbn [auto_step]. rewrite Ht, Eu. reflexivity.
  - destruct (wload t 0 false i w) as [[v w1]|] eqn:E; [|discriminate]. destruct (Rd _ _ _ E) as (R1 & R2 & R3). eapply Ts; eauto.
  - destruct (wcas t 0 true true false false old (u32 (old - post_one)) (is_spur ch) i w) as [[[[|] v] w1]|] eqn:E; [| |discriminate];
      destruct (wcas_inv _ _ _ _ _ _ _ _ _ _ _ _ _ _ E) as [(B & Ev & E1)|(B & _ & E1)]; try discriminate B.
    + apply some_pair in H; destruct H as (<- & <-).
      assert (Eo : newest w = old). { destruct (wrmw_push _ _ _ _ _ _ _ _ _ _ HW E1) as (? & ? & ? & _ & _ & -> & _). exact Ev. }
      eapply (push_eff n _ _ _ _ _ _ _ _ _ _ _ CNorm Hn HW Ht); [discriminate|exact E1| |reflexivity|discriminate|reflexivity].
      cbn [auto_step]. rewrite Ht. cbn [auto_run]. rewrite Eo, Z.eqb_refl. reflexivity.
    + destruct (Rd _ _ _ E1) as (R1 & R2 & R3). eapply Ts; eauto.
  - destruct (wrmw t 0 false false (fun v => u32 (v + 1)) i w) as [[v w1]|] eqn:E; [|discriminate]. apply some_pair in H; destruct H as (<- & <-).
    assert (Ev : v = newest w) by (destruct (wrmw_push _ _ _ _ _ _ _ _ _ _ HW E) as (? & ? & ? & _ & _ & -> & _); reflexivity).
    assert (Hv : vok v). { rewrite Ev. eapply AI_vok; [exact HI|]. eapply acap_len; eauto. }
    destruct (wait_test_loc k v Hv) as (Q1 & Q2 & Q3 & Q4 & Q5).
    eapply (push_eff n _ _ _ _ _ _ _ _ _ _ _ CNorm Hn HW Ht); [discriminate|exact E| |exact Q4|discriminate|rewrite Q5; discriminate].
    cbn [auto_step]. rewrite Ht. cbn [auto_run]. rewrite Ev. reflexivity.
  - assert (F : exists p', w' = w /\ ths' = upd ths t p' /\ inpost p' = 0 /\ dtake p' = 0 /\ auto_step (newest w, ths) (ARun t ch) = Some ((newest w, upd ths t p'), [])).
    { cbn [auto_step]. rewrite Ht. cbn [auto_run]. destruct k, ch; try (destruct (newest w =? x)); apply some_pair in H; destruct H as (<- & <-); (eexists; split; [reflexivity|split; [reflexivity|split; [|split; [|reflexivity]]]]; reflexivity). }
    destruct F as (p' & -> & -> & F1 & F2 & F3). eapply kern_eff; eauto.
  - assert (F : exists p', w' = w /\ ths' = upd ths t p' /\ inpost p' = 0 /\ dtake p' = 0 /\ auto_step (newest w, ths) (ARun t ch) = Some ((newest w, upd ths t p'), [])).
    { cbn [auto_step]. rewrite Ht. cbn [auto_run]. destruct k, ch; try discriminate; apply some_pair in H; destruct H as (<- & <-); (eexists; split; [reflexivity|split; [reflexivity|split; [|split; [|reflexivity]]]]; reflexivity). }
    destruct F as (p' & -> & -> & F1 & F2 & F3). eapply kern_eff; eauto.
  - destruct (wload t 0 false i w) as [[v w1]|] eqn:E; [|discriminate]. destruct (Rd _ _ _ E) as (R1 & R2 & R3). apply some_pair in H; destruct H as (<- & <-). destruct (vok_posts _ R2) as (V1 & V2 & V3 & V4).
    destruct (Z.ltb_spec 0 (posts_of v)); refine (stale_eff n w ths t (WLoad k) w1 _ HW Ht R1 _ _ _ _ _ _); cbn [areg aaw aloc inpost dtake]; try lia. replace (posts_of v) with 0 in V3 by lia. ap_unf; lia.
  - destruct (wcas t 0 true true false false old (u32 (old - (post_one + 1))) (is_spur ch) i w) as [[[[|] v] w1]|] eqn:E; [| |discriminate];
      destruct (wcas_inv _ _ _ _ _ _ _ _ _ _ _ _ _ _ E) as [(B & Ev & E1)|(B & _ & E1)]; try discriminate B; apply some_pair in H; destruct H as (<- & <-).
    + assert (Eo : newest w = old). { destruct (wrmw_push _ _ _ _ _ _ _ _ _ _ HW E1) as (? & ? & ? & _ & _ & -> & _). exact Ev. }
      eapply (push_eff n _ _ _ _ _ _ _ _ _ _ _ CNorm Hn HW Ht); [discriminate|exact E1| |reflexivity|discriminate|reflexivity].
      cbn [auto_step]. rewrite Ht. cbn [auto_run]. rewrite Eo, Z.eqb_refl. reflexivity.
    + destruct (Rd _ _ _ E1) as (R1 & R2 & R3). destruct (wait_test_loc k v R2) as (Q1 & Q2 & Q3 & Q4 & Q5).
      apply (stale_eff n w ths t (WCas k old) w1 (wait_test k v) HW Ht R1); [exact Q2|rewrite Q3; cbn; lia|exact Q1|rewrite Q4; cbn; lia|exact Q5|cbn; lia].
  - destruct (wload t 0 false i w) as [[v w1]|] eqn:E; [|discriminate]. destruct (Rd _ _ _ E) as (R1 & R2 & R3). apply some_pair in H; destruct H as (<- & <-). apply (stale_eff n w ths t OLoad w1 (OCas v) HW Ht R1); cbn [areg aaw aloc inpost dtake]; try lia; exact I.
  - destruct (Z.eqb_spec (posts_of old) 0) as [E0|E0];
      [destruct (wcas t 0 true false false false old (u32 (old - 1)) (is_spur ch) i w) as [[[[|] v] w1]|] eqn:E; [| |discriminate]
      |destruct (wcas t 0 true true false false old (u32 (old - (post_one + 1))) (is_spur ch) i w) as [[[[|] v] w1]|] eqn:E; [| |discriminate]];
      destruct (wcas_inv _ _ _ _ _ _ _ _ _ _ _ _ _ _ E) as [(B & Ev & E1)|(B & _ & E1)]; try discriminate B; apply some_pair in H; destruct H as (<- & <-).
    2,4: destruct (Rd _ _ _ E1) as (R1 & R2 & R3); apply (stale_eff n w ths t (OCas old) w1 (OCas v) HW Ht R1); cbn [areg aaw aloc inpost dtake]; try lia; exact I.
    + assert (Eo : newest w = old). { destruct (wrmw_push _ _ _ _ _ _ _ _ _ _ HW E1) as (? & ? & ? & _ & _ & -> & _). exact Ev. }
      assert (Hsp : ch <> CSpur). { intros ->. unfold wcas in E. cbn [is_spur] in E. destruct (nth_error (hist w 0) i); [|discriminate]. rewrite andb_false_r in E. destruct (wload _ _ _ _ _) as [[? ?]|]; discriminate. }
      eapply (push_eff n _ _ _ _ _ _ _ _ _ _ _ ch Hn HW Ht); [discriminate|exact E1| | |discriminate|destruct ch; discriminate].
      * cbn [auto_step]. rewrite Ht. cbn [auto_run]. rewrite Eo, Z.eqb_refl, E0. destruct ch; try reflexivity. congruence.
      * destruct ch; reflexivity.
    + assert (Eo : newest w = old). { destruct (wrmw_push _ _ _ _ _ _ _ _ _ _ HW E1) as (? & ? & ? & _ & _ & -> & _). exact Ev. }
      eapply (push_eff n _ _ _ _ _ _ _ _ _ _ _ CNorm Hn HW Ht); [discriminate|exact E1| |reflexivity|discriminate|reflexivity].
      cbn [auto_step]. rewrite Ht. cbn [auto_run]. rewrite Eo, Z.eqb_refl. destruct (Z.eqb_spec (posts_of old) 0); [lia|reflexivity].
Qed.

Notation wev := (hev (event eop eres)).
(** Proof or specification device; no counterpart in /repo. *)
Inductive wcase (w : wmem) (ths : list apc) (w' : wmem) (ths' : list apc) (e : list wev) : Prop :=
| wc_call t o : nth_error ths t = Some ARest -> w' = w -> ths' = upd ths t (auto_entry o) -> e = [HEv (Call t o) (wkn w t)] -> wcase w ths w' ths' e
| wc_ret t o r : nth_error ths t = Some (ADone o r) -> w' = w -> ths' = upd ths t ARest -> e = [HEv (Ret t o r) (wkn w t)] -> wcase w ths w' ths' e
| wc_run t p : nth_error ths t = Some p -> dtake p = 0 -> weff w ths t p w' ths' -> e = [] -> wcase w ths w' ths' e
| wc_else : hist w' 0 = hist w 0 -> ths' = ths -> flat_map base_ev e = [] -> wcase w ths w' ths' e.

Lemma wauto_case n w ths a w' ths' e : Z.of_nat n <= 1022 -> WA n (w, ths) -> wauto_step (w, ths) a = Some ((w', ths'), e) ->
  WA n (w', ths') /\ kmono w w' /\ wcase w ths w' ths' e.
Proof.
  intros Hn HW Hs. split; [|split; [eapply wstep_mono; [exact wauto_mono|exact Hs]|]]; apply wstep_cases in Hs; pose proof HW as (L & _ & _ & HI); cbn [fst snd] in L, HI;
    (destruct Hs as [(t & o & p & p' & -> & Ht & Hc & E & ->)|[(t & ch & p & o & r & p' & -> & Ht & Hr & E & ->)|[(t & ch & p & -> & Ht & Hr & E & ->)|[(t & -> & E & ->)|(t & l & o & i & v & w1 & -> & Hl & Hc & E & ->)]]]];
     [injection E as -> ->|injection E as -> ->| |injection E as -> ->|injection E as -> ->]).
  - destruct p; try discriminate. injection Hc as <-. eapply WA_stale; eauto; [apply upd_length|]. eapply AI_stale; eauto; destruct o; cbn; try lia; exact I.
  - destruct p; try discriminate. injection Hr as <- <- <-. eapply WA_stale; eauto; [apply upd_length|]. eapply AI_stale; eauto; cbn; try lia; exact I.
  - eapply wauto_eff; eauto.
  - eapply WA_stale; eauto.
  - assert (Eh : hist w1 0 = hist w 0) by (apply (wclient_inv _ _ _ _ _ _ _ Hc); lia). eapply WA_stale; eauto.
  - destruct p; try discriminate. injection Hc as <-. eapply wc_call; eauto.
  - destruct p; try discriminate. injection Hr as <- <- <-. eapply wc_ret; eauto.
  - eapply wc_run; eauto; [|eapply wauto_eff; eauto]. destruct p; try reflexivity. discriminate.
  - apply wc_else; auto.
  - apply wc_else; auto. apply (wclient_inv _ _ _ _ _ _ _ Hc). lia.
Qed.

Lemma WA_init n : Z.of_nat n <= 1022 -> WA n (wauto_init n).
Proof.
  intros Hn. unfold WA, wauto_init. cbn [fst snd wm0 hist]. split; [apply repeat_length|]. split; [eexists; eexists; split; [reflexivity|constructor]|].
  split; [constructor; [|constructor]; exists 0, 0; cbn; lia|]. exists 0. unfold newest. cbn [fst snd wm0 hist last mval]. rewrite !sumf_repeat. cbn [areg aaw]. repeat split; try lia.
  intros t p Hp. apply nth_repeat in Hp. subst. exact I.
Qed.
Lemma WA_exec n sched c tr : Z.of_nat n <= 1022 -> exec wauto_step (wauto_init n) sched = Some (c, tr) -> WA n c.
Proof.
  intros Hn. apply (exec_inv_state wauto_step (WA n)); [apply WA_init; exact Hn|]. intros [w ths] a [w' ths'] e HW Hs. eapply wauto_case; eauto.
Qed.

(** * Posts and waits *)
(** Proof or specification device; no counterpart in /repo. *)
Definition wtakes (tr : list wev) : Z := takes (flat_map base_ev tr).
(** Proof or specification device; no counterpart in /repo. *)
Definition wcalled (tr : list wev) : Z := posts_called (flat_map base_ev tr).
Lemma wtakes_app a b : wtakes (a ++ b) = wtakes a + wtakes b. Proof. unfold wtakes, takes. rewrite flat_map_app, sumf_app. reflexivity. Qed.
Lemma wcalled_app a b : wcalled (a ++ b) = wcalled a + wcalled b. Proof. unfold wcalled, posts_called. rewrite flat_map_app, sumf_app. reflexivity. Qed.

(** Proof or specification device; no counterpart in /repo. *)
Definition WC (c : wmem * list apc) (tr : list wev) : Prop :=
  posts_of (newest (fst c)) + wtakes tr + sumf dtake (snd c) + sumf inpost (snd c) <= wcalled tr.

Lemma weff_newest w ths t p w' ths' : weff w ths t p w' ths' ->
  (newest w' = newest w) \/ exists h m x, hist w 0 = h ++ [m] /\ hist w' 0 = h ++ [m; x] /\ newest w = mval m /\ newest w' = mval x.
Proof.
  intros [p' Eh _ _ _ _|u k Eh _ _ _|p' h m x E1 E2 _ _ _ _ _ _ _].
  - left. unfold newest. rewrite Eh. reflexivity.
  - left. unfold newest. rewrite Eh. reflexivity.
  - right. exists h, m, x. repeat split; auto; [eapply newest_end; eauto|]. apply (newest_end w' (h ++ [m])). rewrite E2, <- app_assoc. reflexivity.
Qed.

Lemma WC_step n w ths tr a w' ths' e : Z.of_nat n <= 1022 -> WA n (w, ths) -> WC (w, ths) tr -> wauto_step (w, ths) a = Some ((w', ths'), e) -> WC (w', ths') (tr ++ e).
Proof.
  intros Hn HW HC Hs. destruct (wauto_case _ _ _ _ _ _ _ Hn HW Hs) as (_ & _ & Hc). unfold WC in *. cbn [fst snd] in *. rewrite wtakes_app, wcalled_app.
  destruct Hc as [t o Ht -> -> ->|t o r Ht -> -> ->|t p Ht Hd He ->|Eh -> Ee].
  - rewrite (sumf_upd dtake _ _ _ _ Ht), (sumf_upd inpost _ _ _ _ Ht). unfold wtakes at 2, wcalled at 2, takes, posts_called. cbn [flat_map base_ev app sumf dtake inpost]. destruct o; cbn [auto_entry dtake inpost]; lia.
  - rewrite (sumf_upd dtake _ _ _ _ Ht), (sumf_upd inpost _ _ _ _ Ht). unfold wtakes at 2, wcalled at 2, takes, posts_called. cbn [flat_map base_ev app sumf dtake inpost]. lia.
  - unfold wtakes at 2, wcalled at 2, takes, posts_called. cbn [flat_map base_ev app sumf].
    destruct He as [p' Eh -> P1 P2 _|u k Eh -> Hu ->|p' h m x E1 E2 _ _ _ _ -> P0 P].
    + rewrite (sumf_upd dtake _ _ _ _ Ht), (sumf_upd inpost _ _ _ _ Ht). unfold newest in *. rewrite Eh. lia.
    + assert (Hne : u <> t) by (intros ->; congruence). assert (Ht2 : nth_error (upd ths u (WLoad k)) t = Some PSignal) by (rewrite nth_upd_neq by auto; exact Ht).
      rewrite (sumf_upd dtake _ _ _ _ Ht2), (sumf_upd inpost _ _ _ _ Ht2), (sumf_upd dtake _ _ _ _ Hu), (sumf_upd inpost _ _ _ _ Hu). unfold newest in *. rewrite Eh. cbn [dtake inpost took]. lia.
    + rewrite (sumf_upd dtake _ _ _ _ Ht), (sumf_upd inpost _ _ _ _ Ht).
      rewrite (newest_end w h m E1) in HC. rewrite (newest_end w' (h ++ [m]) x) by (rewrite E2, <- app_assoc; reflexivity). lia.
  - unfold wtakes at 2, wcalled at 2. rewrite Ee. unfold newest in *. rewrite Eh. unfold takes, posts_called. cbn [sumf]. lia.
Qed.

(** Proof or specification device; no counterpart in /repo. *)
Definition WAC n (c : wmem * list apc) (tr : list wev) : Prop := WA n c /\ WC c tr.
Lemma WAC_init n : Z.of_nat n <= 1022 -> WAC n (wauto_init n) [].
Proof. intros Hn. split; [apply WA_init; exact Hn|]. unfold WC, wauto_init. cbn [fst snd]. rewrite !sumf_repeat. cbn. lia. Qed.
Lemma WAC_step n : Z.of_nat n <= 1022 -> forall c tr a c' e, WAC n c tr -> wauto_step c a = Some (c', e) -> WAC n c' (tr ++ e).
Proof. intros Hn [w ths] tr a [w' ths'] e (H1 & H2) Hs. split; [eapply wauto_case; eauto|eapply WC_step; eauto]. Qed.
Lemma WAC_exec n sched c tr : Z.of_nat n <= 1022 -> exec wauto_step (wauto_init n) sched = Some (c, tr) -> WAC n c tr.
Proof. intros Hn. apply exec_inv; [apply WAC_init; exact Hn|]. intros. eapply WAC_step; eauto. Qed.
Lemma WA_newest n w ths : Z.of_nat n <= 1022 -> WA n (w, ths) -> vok (newest w).
Proof. intros Hn (L & _ & _ & HI). cbn [fst snd] in *. eapply AI_vok; [exact HI|]. eapply acap_len; eauto. Qed.
