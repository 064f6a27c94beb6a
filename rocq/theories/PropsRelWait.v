(** Property theorems: relative timed waits have one overall deadline (C56). *)
From Coq Require Import List Bool ZArith Lia.
From Verif Require Import Word TimedLoops PropsTimed RelWaitModel.
Import ListNotations.
Local Open Scope Z_scope.

(** POSIX semaphores and timed mutexes: however often the wait is woken in vain, the call returns by its deadline plus one latency and one
    turn of the loop. *)
Theorem C56_posix : forall t0 rel env ws v t p l, 0 <= rel -> 0 <= l -> 0 <= p ->
  rel_wait Once t0 rel env = (ws, Some (v, t)) -> Forall (prompt_pre p) env -> Forall (prompt_kernel l) ws ->
  t <= t0 + rel + p + 2 * l.
Proof.
  intros t0 rel env ws v t p l Hr Hl Hp. unfold rel_wait.
  assert (G : forall env lf now ws, now <= t0 + rel + l -> rel_loop Once t0 rel lf now env = (ws, Some (v, t)) ->
    Forall (prompt_pre p) env -> Forall (prompt_kernel l) ws -> t <= t0 + rel + p + 2 * l).
  { clear env ws. induction env as [|k env IH]; intros lf now ws Hn H Hk Hw; cbn [rel_loop] in H; [discriminate|].
    inversion Hk as [|? ? Hk1 Hk2]; subst. unfold prompt_pre in Hk1. destruct (k_res k) eqn:Er.
    - destruct (k_avail k).
      + inversion H; subst. inversion Hw as [|? ? Hw1 _]; subst. unfold prompt_kernel in Hw1. cbn in Hw1. lia.
      + destruct (rel_loop Once t0 rel lf (k_end k) env) as [ws1 r1] eqn:E. inversion H; subst.
        inversion Hw as [|? ? Hw1 Hw2]; subst. unfold prompt_kernel in Hw1. cbn in Hw1. destruct Hw1 as (Hw1 & Hw3).
        destruct (Z_lt_dec (t0 + rel) (now + k_pre k)) as [L|L]; [specialize (Hw3 L); discriminate|].
        apply (IH lf (k_end k) ws1); auto. lia.
    - inversion H; subst. inversion Hw as [|? ? Hw1 _]; subst. unfold prompt_kernel in Hw1. cbn in Hw1. lia. }
  intros H. apply (G env rel t0 ws); auto. lia.
Qed.
Print Assumptions C56_posix.

(** Windows events and semaphores: the slices add up to the duration, so the call returns by its deadline plus one latency and one turn for each
    slice of 2^32-2 ms. *)
Theorem C56_windows_event_semaphore : forall t0 rel env ws v t p l, 0 < rel < two63 -> 0 <= l -> 0 <= p ->
  rel_wait Slices t0 rel env = (ws, Some (v, t)) -> Forall (prompt_pre p) env -> Forall (prompt_kernel l) ws ->
  t <= t0 + rel + (p + l) * (rel / max_wait + 1).
Proof.
  intros t0 rel env ws v t p l Hr Hl Hp. unfold rel_wait.
  assert (G : forall env lf now ws, 0 < lf < two63 -> rel_loop Slices t0 rel lf now env = (ws, Some (v, t)) ->
    Forall (prompt_pre p) env -> Forall (prompt_kernel l) ws -> t <= now + lf + (p + l) * (lf / max_wait + 1)).
  { clear env ws. induction env as [|k env IH]; intros lf now ws Hlf H Hk Hw; cbn [rel_loop] in H; [discriminate|].
    inversion Hk as [|? ? Hk1 Hk2]; subst. unfold prompt_pre in Hk1.
    pose proof (slice_spec lf ltac:(lia)) as (S1 & S2 & S3).
    assert (Q : 0 <= lf / max_wait) by (apply Z.div_pos; [lia|reflexivity]).
    destruct (k_res k) eqn:Er.
    - inversion H; subst. inversion Hw as [|? ? Hw1 _]; subst. unfold prompt_kernel in Hw1. cbn in Hw1. nia.
    - destruct (Z.ltb_spec 0 (lf - slice lf)) as [L|L].
      + destruct (rel_loop Slices t0 rel (lf - slice lf) (k_end k) env) as [ws1 r1] eqn:E. inversion H; subst.
        inversion Hw as [|? ? Hw1 Hw2]; subst. unfold prompt_kernel in Hw1. cbn in Hw1. destruct Hw1 as (Hw1 & _).
        assert (Es : slice lf = max_wait).
        { unfold slice in *. destruct (Z.ltb_spec max_wait lf); [reflexivity|]. rewrite u32_id in L by (unfold max_wait, two32 in *; lia). lia. }
        assert (Hlf' : 0 < lf - slice lf < two63) by lia.
        specialize (IH _ _ _ Hlf' E Hk2 Hw2). rewrite Es in *.
        replace (lf - max_wait) with (lf + (-1) * max_wait) in IH at 2 by ring. rewrite Z.div_add in IH by discriminate. nia.
      + inversion H; subst. inversion Hw as [|? ? Hw1 _]; subst. unfold prompt_kernel in Hw1. cbn in Hw1. nia. }
  intros H Hk Hw. eapply G; eauto.
Qed.
Print Assumptions C56_windows_event_semaphore.

(** The remaining ones have no bound: a thread that is woken again and again one unit before the timeout and finds the object taken. *)
Fixpoint teased (rel now : Z) (n : nat) : list kturn :=
  match n with O => [] | S n' => KT 0 (now + rel - 1) KWoken false :: teased rel (now + rel - 1) n' end.

Lemma teased_spec st t0 rel : (st = Full /\ 2 <= rel) \/ (st = SlicesStale /\ 2 <= rel <= max_wait) -> forall n now, exists ws,
  rel_loop st t0 rel rel now (teased rel now n) = (ws, None) /\ Forall (prompt_pre 0) (teased rel now n) /\ Forall (prompt_kernel 0) ws /\
  (n <> O -> exists w, In w ws /\ kw_res w = KWoken /\ kw_end w = now + Z.of_nat n * (rel - 1)).
Proof.
  intros Hst. induction n as [|n IH]; intros now; cbn [teased rel_loop]; [exists []; repeat split; auto; congruence|].
  cbn [k_res k_avail k_pre k_end]. destruct (IH (now + rel - 1)) as (ws & E & F1 & F2 & F3).
  assert (Hsl : st = SlicesStale -> slice rel = rel).
  { intros ->. destruct Hst as [(? & _)|(_ & ?)]; [discriminate|]. unfold slice. destruct (Z.ltb_spec max_wait rel); [lia|].
    apply u32_id. unfold max_wait, two32 in *. lia. }
  exists (KW (now + 0) (match st with Once => t0 + rel | Full => now + 0 + rel | _ => now + 0 + slice rel end) (now + rel - 1) KWoken :: ws).
  split; [|split; [|split]].
  - destruct Hst as [(-> & _)|(-> & _)]; rewrite E; reflexivity.
  - constructor; [unfold prompt_pre; cbn; lia|exact F1].
  - constructor; [|exact F2]. unfold prompt_kernel. cbn [kw_start kw_end kw_deadline kw_res].
    destruct Hst as [(-> & Hr)|(-> & Hr)]; [|rewrite Hsl by reflexivity]; (split; [lia|intros; lia]).
  - intros _. destruct n as [|n].
    + eexists. split; [left; reflexivity|]. cbn [kw_res kw_end]. split; [reflexivity|]. change (Z.of_nat 1) with 1. lia.
    + destruct F3 as (w & W1 & W2 & W3); [discriminate|]. exists w. split; [right; exact W1|]. split; [exact W2|]. rewrite W3. lia.
Qed.

(** Linux events (relative overloads) and all emulated events and semaphores: for every duration of at least 2 units and every bound there is a perfectly
    prompt environment in which the call has not returned within the bound. *)
Theorem C56_futex_emulation_refuted : exists st, st = Full /\ forall t0 rel b, 2 <= rel -> exists env ws,
  rel_wait st t0 rel env = (ws, None) /\ Forall (prompt_pre 0) env /\ Forall (prompt_kernel 0) ws /\
  exists w, In w ws /\ kw_res w = KWoken /\ kw_end w >= t0 + b.
Proof.
  exists Full. split; [reflexivity|]. intros t0 rel b Hr.
  destruct (teased_spec Full t0 rel (or_introl (conj eq_refl Hr)) (S (Z.to_nat b)) t0) as (ws & E & F1 & F2 & F3).
  exists (teased rel t0 (S (Z.to_nat b))), ws. repeat split; auto. destruct F3 as (w & W1 & W2 & W3); [discriminate|].
  exists w. repeat split; auto. rewrite W3. nia.
Qed.
Print Assumptions C56_futex_emulation_refuted.

(** Windows timed_mutex (and the plain relative wait of the Windows condition variable): a woken thread that finds the mutex taken waits for the
    whole slice again. *)
Theorem C56_windows_mutex_refuted : exists st, st = SlicesStale /\ forall t0 rel b, 2 <= rel <= max_wait -> exists env ws,
  rel_wait st t0 rel env = (ws, None) /\ Forall (prompt_pre 0) env /\ Forall (prompt_kernel 0) ws /\
  exists w, In w ws /\ kw_res w = KWoken /\ kw_end w >= t0 + b.
Proof.
  exists SlicesStale. split; [reflexivity|]. intros t0 rel b Hr.
  destruct (teased_spec SlicesStale t0 rel (or_intror (conj eq_refl Hr)) (S (Z.to_nat b)) t0) as (ws & E & F1 & F2 & F3).
  exists (teased rel t0 (S (Z.to_nat b))), ws. repeat split; auto. destruct F3 as (w & W1 & W2 & W3); [discriminate|].
  exists w. repeat split; auto. rewrite W3. nia.
Qed.
Print Assumptions C56_windows_mutex_refuted.

(** The overloads for time points of other clocks inherit it: [b] units after the deadline [t] the call may still be in its first inner wait. *)
Theorem C56_clock_refuted : exists st, st = Full /\ forall t0 t b, t0 + 2 <= t -> exists envs ws,
  clock_wait st t t0 envs = (ws, None) /\ Forall (Forall (prompt_pre 0)) envs /\ Forall (prompt_kernel 0) ws /\
  exists w, In w ws /\ kw_res w = KWoken /\ kw_end w >= t + b.
Proof.
  exists Full. split; [reflexivity|]. intros t0 t b Hr.
  assert (Hr' : 2 <= t - t0) by lia.
  destruct (teased_spec Full t0 (t - t0) (or_introl (conj eq_refl Hr')) (S (Z.to_nat (t - t0 + b))) t0) as (ws & E & F1 & F2 & F3).
  exists [teased (t - t0) t0 (S (Z.to_nat (t - t0 + b)))], ws.
  split; [|split; [constructor; [exact F1|constructor]|split; [exact F2|]]].
  - cbn [clock_wait]. unfold rel_wait. rewrite E. reflexivity.
  - destruct F3 as (w & W1 & W2 & W3); [discriminate|]. exists w. repeat split; auto. rewrite W3. nia.
Qed.
Print Assumptions C56_clock_refuted.

(** Without vain wake-ups every strategy is on time: a call whose kernel waits are all timeouts or successes returns by its deadline. *)
Theorem C56_undisturbed_partial : forall st t0 rel env ws v t p l, 0 < rel < two63 -> 0 <= l -> 0 <= p ->
  rel_wait st t0 rel env = (ws, Some (v, t)) -> Forall (prompt_pre p) env -> Forall (prompt_kernel l) ws ->
  Forall (fun k => k_res k = KWoken -> k_avail k = true) env ->
  t <= t0 + rel + (p + l) * (rel / max_wait + 1).
Proof.
  intros st t0 rel env ws v t p l Hr Hl Hp. unfold rel_wait.
  assert (Q : 0 <= rel / max_wait) by (apply Z.div_pos; [lia|reflexivity]).
  assert (G : forall env lf now ws, 0 < lf < two63 -> (match st with Once | Full => now = t0 /\ lf = rel | _ => True end) ->
    rel_loop st t0 rel lf now env = (ws, Some (v, t)) ->
    Forall (prompt_pre p) env -> Forall (prompt_kernel l) ws -> Forall (fun k => k_res k = KWoken -> k_avail k = true) env ->
    t <= now + lf + (p + l) * (lf / max_wait + 1)).
  { clear env ws. induction env as [|k env IH]; intros lf now ws Hlf Hst H Hk Hw Hn; cbn [rel_loop] in H; [discriminate|].
    inversion Hk as [|? ? Hk1 Hk2]; subst. unfold prompt_pre in Hk1. inversion Hn as [|? ? Hn1 Hn2]; subst.
    pose proof (slice_spec lf ltac:(lia)) as (S1 & S2 & S3).
    assert (Q' : 0 <= lf / max_wait) by (apply Z.div_pos; [lia|reflexivity]).
    assert (Fin : forall b, ([KW (now + k_pre k) (match st with Once => t0 + rel | Full => now + k_pre k + rel | _ => now + k_pre k + slice lf end) (k_end k) (k_res k)], Some (b, k_end k)) = (ws, Some (v, t)) ->
      t <= now + lf + (p + l) * (lf / max_wait + 1)).
    { intros b F. inversion F; subst. inversion Hw as [|? ? Hw1 _]; subst. unfold prompt_kernel in Hw1. cbn in Hw1.
      destruct st; try (destruct Hst as (-> & ->)); nia. }
    destruct (k_res k) eqn:Er.
    - rewrite (Hn1 eq_refl) in H. eapply Fin. destruct st; exact H.
    - destruct st; try (eapply Fin; exact H).
      all: destruct (Z.ltb_spec 0 (lf - slice lf)) as [L|L]; [|eapply Fin; exact H].
      all: match type of H with context [rel_loop ?s ?a ?b ?x ?y ?e] => destruct (rel_loop s a b x y e) as [ws1 r1] eqn:E end;
        inversion H; subst;
        inversion Hw as [|? ? Hw1 Hw2]; subst; unfold prompt_kernel in Hw1; cbn in Hw1; destruct Hw1 as (Hw1 & _);
        assert (Es : slice lf = max_wait)
          by (unfold slice in *; destruct (Z.ltb_spec max_wait lf); [reflexivity|]; rewrite u32_id in L by (unfold max_wait, two32 in *; lia); lia);
        assert (Hlf' : 0 < lf - slice lf < two63) by lia;
        specialize (IH _ _ _ Hlf' I E Hk2 Hw2 Hn2); rewrite Es in *;
        replace (lf - max_wait) with (lf + (-1) * max_wait) in IH at 2 by ring; rewrite Z.div_add in IH by discriminate; nia. }
  intros H Hk Hw Hn. eapply G; eauto. destruct st; auto.
Qed.
Print Assumptions C56_undisturbed_partial.

(** Not early.  A kernel that reports a timeout only at or after the deadline it was given: a call that returns false has waited for its whole
    duration, whatever the strategy, the number of turns and the wake-ups in between. *)
Definition honest_kernel (w : kwait) : Prop := kw_start w <= kw_end w /\ (kw_res w = KTimeout -> kw_deadline w <= kw_end w).

Theorem C56_not_early : forall st t0 rel env ws t, 0 < rel < two63 ->
  rel_wait st t0 rel env = (ws, Some (false, t)) -> Forall (fun k => 0 <= k_pre k) env -> Forall honest_kernel ws ->
  t0 + rel <= t.
Proof.
  intros st t0 rel env ws t Hr. unfold rel_wait.
  assert (G : forall env lf now ws, 0 < lf < two63 -> t0 <= now -> (match st with Once | Full => True | _ => t0 + rel <= now + lf end) ->
    rel_loop st t0 rel lf now env = (ws, Some (false, t)) ->
    Forall (fun k => 0 <= k_pre k) env -> Forall honest_kernel ws -> t0 + rel <= t).
  { clear env ws. induction env as [|k env IH]; intros lf now ws Hlf Hnow Hst H Hk Hw; cbn [rel_loop] in H; [discriminate|].
    inversion Hk as [|? ? Hk1 Hk2]; subst.
    pose proof (slice_spec lf ltac:(lia)) as (S1 & S2 & S3).
    destruct (k_res k) eqn:Er.
    - destruct (match st with Slices => true | _ => k_avail k end); [discriminate|].
      destruct (rel_loop st t0 rel lf (k_end k) env) as [ws1 r1] eqn:E. inversion H; subst.
      inversion Hw as [|? ? Hw1 Hw2]; subst. unfold honest_kernel in Hw1. cbn in Hw1. destruct Hw1 as (Hw1 & _).
      eapply IH; [| | |exact E|exact Hk2|exact Hw2]; auto; [lia|destruct st; auto; lia].
    - destruct st;
        try (inversion H; subst; inversion Hw as [|? ? Hw1 _]; subst; unfold honest_kernel in Hw1; cbn in Hw1; destruct Hw1 as (Hw1 & Hw3);
          specialize (Hw3 eq_refl); lia).
      all: destruct (Z.ltb_spec 0 (lf - slice lf)) as [L|L];
        [match type of H with context [rel_loop ?s ?a ?b ?x ?y ?e] => destruct (rel_loop s a b x y e) as [ws1 r1] eqn:E end;
         inversion H; subst; inversion Hw as [|? ? Hw1 Hw2]; subst; unfold honest_kernel in Hw1; cbn in Hw1; destruct Hw1 as (Hw1 & Hw3);
         specialize (Hw3 eq_refl); eapply IH; [| | |exact E|exact Hk2|exact Hw2]; cbv beta iota in Hst |- *; lia
        |inversion H; subst; inversion Hw as [|? ? Hw1 _]; subst; unfold honest_kernel in Hw1; cbn in Hw1; destruct Hw1 as (Hw1 & Hw3);
         specialize (Hw3 eq_refl); lia]. }
  intros H Hk Hw. eapply (G env rel t0); eauto; [lia|destruct st; auto; lia].
Qed.
Print Assumptions C56_not_early.

(** Waits until a time point of another clock return false only when that clock has reached the time point, even if the inner waits end early. *)
Theorem C56_clock_not_early : forall st t envs now ws e, clock_wait st t now envs = (ws, Some (false, e)) -> t <= e.
Proof.
  intros st t. induction envs as [|env envs IH]; intros now ws e H; cbn [clock_wait] in H; [discriminate|].
  destruct (rel_wait st now (t - now) env) as [ws1 [[[] e1]|]]; try discriminate.
  destruct (Z.ltb_spec e1 t) as [L|L].
  - destruct (clock_wait st t e1 envs) as [ws2 r2] eqn:E. inversion H; subst. eapply IH; eauto.
  - inversion H; subst. lia.
Qed.
Print Assumptions C56_clock_not_early.

Lemma rel_loop_time st t0 rel : forall env lf now ws v e, rel_loop st t0 rel lf now env = (ws, Some (v, e)) ->
  Forall (fun k => 0 <= k_pre k) env -> Forall (fun w => kw_start w <= kw_end w) ws -> now <= e.
Proof.
  induction env as [|k env IH]; intros lf now ws v e H Hk Hw; cbn [rel_loop] in H; [discriminate|].
  inversion Hk as [|? ? Hk1 Hk2]; subst.
  repeat match type of H with
  | context [match k_res k with _ => _ end] => destruct (k_res k)
  | context [match st with _ => _ end] => destruct st
  | context [if ?b then _ else _] => destruct b
  end;
  try (match type of H with context [rel_loop ?s ?a ?b ?x ?y ?e] => destruct (rel_loop s a b x y e) as [ws1 r1] eqn:E end);
  inversion H; subst; inversion Hw as [|? ? Hw1 Hw2]; subst; cbn in Hw1; try lia;
  specialize (IH _ _ _ _ _ E Hk2 Hw2); lia.
Qed.

(** And without vain wake-ups they end on time, however many inner waits are needed. *)
Theorem C56_clock_undisturbed_partial : forall st t envs now ws v e p l, 0 < t - now < two63 -> 0 <= l -> 0 <= p ->
  clock_wait st t now envs = (ws, Some (v, e)) -> Forall (Forall (prompt_pre p)) envs -> Forall (prompt_kernel l) ws ->
  Forall (Forall (fun k => k_res k = KWoken -> k_avail k = true)) envs ->
  e <= t + (p + l) * ((t - now) / max_wait + 1).
Proof.
  intros st t. induction envs as [|env envs IH]; intros now ws v e p l Ht Hl Hp H Hk Hw Hn; cbn [clock_wait] in H; [discriminate|].
  inversion Hk as [|? ? Hk1 Hk2]; inversion Hn as [|? ? Hn1 Hn2]; subst.
  destruct (rel_wait st now (t - now) env) as [ws1 [[b e1]|]] eqn:E; [|discriminate].
  assert (B : Forall (prompt_kernel l) ws1 -> e1 <= t + (p + l) * ((t - now) / max_wait + 1)).
  { intros Hw1. pose proof (C56_undisturbed_partial st now (t - now) env ws1 b e1 p l Ht Hl Hp E Hk1 Hw1 Hn1). lia. }
  destruct b; [inversion H; subst; auto|].
  destruct (Z.ltb_spec e1 t) as [L|L]; [|inversion H; subst; auto].
  destruct (clock_wait st t e1 envs) as [ws2 r2] eqn:E2. inversion H; subst.
  apply Forall_app in Hw. destruct Hw as (Hw1 & Hw2).
  assert (Hm : now <= e1).
  { eapply rel_loop_time; [exact E| |].
    - eapply Forall_impl; [|exact Hk1]. unfold prompt_pre. intros; lia.
    - eapply Forall_impl; [|exact Hw1]. unfold prompt_kernel. intros; lia. }
  assert (D : (t - e1) / max_wait <= (t - now) / max_wait) by (apply Z.div_le_mono; [reflexivity|lia]).
  specialize (IH e1 ws2 v e p l ltac:(lia) Hl Hp E2 Hk2 Hw2 Hn2). nia.
Qed.
Print Assumptions C56_clock_undisturbed_partial.

Example C56_not_early_example :
  rel_wait SlicesStale 0 (max_wait + 5) [KT 0 10 KWoken false; KT 0 (10 + max_wait) KTimeout false; KT 0 (15 + max_wait) KTimeout false] =
  ([KW 0 max_wait 10 KWoken; KW 10 (10 + max_wait) (10 + max_wait) KTimeout; KW (10 + max_wait) (15 + max_wait) (15 + max_wait) KTimeout],
   Some (false, 15 + max_wait)) /\
  clock_wait Once 100 90 [[KT 0 99 KTimeout false]; [KT 0 100 KTimeout false]] =
  ([KW 90 100 99 KTimeout; KW 99 100 100 KTimeout], Some (false, 100)).
Proof. split; reflexivity. Qed.

Example C56_example :
  rel_wait Once 100 50 [KT 1 120 KWoken false; KT 1 151 KTimeout false] = ([KW 101 150 120 KWoken; KW 121 150 151 KTimeout], Some (false, 151)) /\
  rel_wait Full 100 50 [KT 1 120 KWoken false; KT 1 171 KTimeout false] = ([KW 101 151 120 KWoken; KW 121 171 171 KTimeout], Some (false, 171)).
Proof. split; reflexivity. Qed.
