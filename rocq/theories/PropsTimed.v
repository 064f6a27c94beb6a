(** Property theorems: timed wait loops (C37, C38, C40). *)
From Coq Require Import List Bool ZArith Lia.
From Verif Require Import Word TimeModel PropsTime TimedLoops.
Import ListNotations.
Local Open Scope Z_scope.

(** ** C37 *)
Lemma slice_spec x : 0 <= x < two63 -> 0 <= slice x <= max_wait /\ slice x <= x /\ (0 < x -> 0 < slice x).
Proof.
  intros H. unfold slice. destruct (Z.ltb_spec max_wait x); unfold max_wait in *; [lia|].
  rewrite u32_id by (unfold two32; lia). lia.
Qed.

Lemma ev_loop_spec ks : forall x o l, 0 <= x < two63 -> ev_loop x ks = (o, l) ->
  Forall (fun '(d, _) => 0 <= d <= max_wait) l /\ (o = WFalse -> waited l = x) /\ (o <> WFalse -> waited l <= x).
Proof.
  induction ks as [|k ks IH]; intros x o l Hx H; pose proof (slice_spec x Hx) as (S1 & S2 & S3); cbn [ev_loop] in H.
  - inversion H; subst. split; [constructor; [lia|constructor]|]. split; [discriminate|cbn; lia].
  - destruct k.
    + inversion H; subst. split; [constructor; [lia|constructor]|]. split; [discriminate|cbn; lia].
    + destruct (Z.ltb_spec 0 (x - slice x)) as [L|L].
      * destruct (ev_loop (x - slice x) ks) as [o' l'] eqn:E. inversion H; subst.
        assert (Hx' : 0 <= x - slice x < two63) by lia.
        destruct (IH _ _ _ Hx' E) as (I1 & I2 & I3).
        split; [constructor; [lia|auto]|]. cbn [waited]. split; intros; [rewrite I2 by auto; lia|specialize (I3 H0); lia].
      * inversion H; subst. split; [constructor; [lia|constructor]|]. cbn. split; [lia|congruence].
    + inversion H; subst. split; [constructor; [lia|constructor]|]. split; [discriminate|cbn; lia].
Qed.

(** Events and semaphores: for every 64-bit duration and every sequence of kernel results, no kernel wait is infinite or
    longer than 2^32-2 ms, and a timeout is reported only after kernel waits that timed out add up to the whole duration. *)
Theorem C37_event_semaphore : forall t ks o l, - two63 <= t < two63 -> ev_timed_wait t ks = (o, l) ->
  Forall (fun '(d, _) => 0 <= d < infinite) l /\ (o = WFalse -> waited l = Z.max 0 t).
Proof.
  intros t ks o l Ht H. unfold ev_timed_wait in H.
  assert (Hx : 0 <= (if t <? 0 then 0 else t) < two63) by (destruct (Z.ltb_spec t 0); unfold two63 in *; lia).
  destruct (ev_loop_spec ks _ _ _ Hx H) as (H1 & H2 & _). split.
  - eapply Forall_impl; [|exact H1]. intros [d k]. unfold max_wait, infinite. lia.
  - intros E. rewrite H2 by exact E. destruct (Z.ltb_spec t 0); lia.
Qed.
Print Assumptions C37_event_semaphore.

Lemma cv_loop_spec late ks : forall x o l, x < two63 -> cv_loop late x ks = (o, l) ->
  Forall (fun '(d, _) => 0 <= d <= max_wait) l /\ (o = WFalse -> waited l = Z.max 0 x).
Proof.
  induction ks as [|[k b] ks IH]; intros x o l Hx H; cbn [cv_loop] in H; destruct (Z.ltb_spec 0 x) as [L|L].
  - pose proof (slice_spec x ltac:(lia)) as (S1 & S2 & S3). inversion H; subst. split; [constructor; [lia|constructor]|discriminate].
  - inversion H; subst. split; [constructor|]. cbn. lia.
  - pose proof (slice_spec x ltac:(lia)) as (S1 & S2 & S3). destruct k.
    + destruct b; [inversion H; subst; split; [constructor; [lia|constructor]|discriminate]|].
      destruct (cv_loop late x ks) as [o' l'] eqn:E. inversion H; subst. destruct (IH _ _ _ Hx E) as (I1 & I2).
      split; [constructor; [lia|auto]|]. exact I2.
    + destruct (cv_loop late (x - slice x) ks) as [o' l'] eqn:E. inversion H; subst.
      assert (Hx' : x - slice x < two63) by lia. destruct (IH _ _ _ Hx' E) as (I1 & I2). split; [constructor; [lia|auto]|].
      cbn [waited]. intros EE. rewrite I2 by exact EE. lia.
    + inversion H; subst. split; [constructor; [lia|constructor]|discriminate].
  - inversion H; subst. split; [constructor|]. cbn. lia.
Qed.

(** Condition variables and timed_mutex: the same, with any pattern of stale signals in between. *)
Theorem C37_condition_mutex : forall late t ks o l, - two63 <= t < two63 -> cv_loop late t ks = (o, l) ->
  Forall (fun '(d, _) => 0 <= d < infinite) l /\ (o = WFalse -> waited l = Z.max 0 t).
Proof.
  intros late t ks o l Ht H. destruct (cv_loop_spec late ks _ _ _ (proj2 Ht) H) as (H1 & H2). split; auto.
  eapply Forall_impl; [|exact H1]. intros [d k]. unfold max_wait, infinite. lia.
Qed.
Print Assumptions C37_condition_mutex.

(** A wait whose kernel calls all time out does end: [m] slices suffice for m * (2^32-2) ms. *)
Theorem C37_terminates : forall m t, 0 <= t < two63 -> t <= Z.of_nat m * max_wait -> (0 < m)%nat ->
  exists l, ev_timed_wait t (repeat WTime m) = (WFalse, l).
Proof.
  assert (K : forall m x, 0 <= x < two63 -> x <= Z.of_nat m * max_wait -> (0 < m)%nat -> exists l, ev_loop x (repeat WTime m) = (WFalse, l)).
  { induction m as [|m IH]; intros x Hx Hm Hp; [lia|]. cbn [repeat ev_loop].
    pose proof (slice_spec x Hx) as (S1 & S2 & S3).
    destruct (Z.ltb_spec 0 (x - slice x)) as [L|L]; [|eauto].
    assert (slice x = max_wait).
    { unfold slice in *. destruct (Z.ltb_spec max_wait x); [reflexivity|]. rewrite u32_id in L by (unfold max_wait, two32 in *; lia). lia. }
    destruct (IH (x - slice x)) as (l & El); [lia|nia| |rewrite El; eauto].
    destruct m; [|lia]. unfold max_wait in *. lia. }
  intros m t Ht Hm Hp. unfold ev_timed_wait. destruct (Z.ltb_spec t 0); [lia|]. apply K; auto.
Qed.
Print Assumptions C37_terminates.

(** The results, completely.  [before]: kernel waits that did not decide anything.  Every kernel wait made is accounted for, in order. *)
Definition undecided (x : Z * option wres) : Prop := snd x = Some WTime.
Theorem C37_event_semaphore_result : forall t ks o l, - two63 <= t < two63 -> ev_timed_wait t ks = (o, l) ->
  exists before d, Forall undecided before /\
  match o with
  | WTrue => l = before ++ [(d, Some WSig)] /\ waited before < Z.max 1 t
  | WThrow e => l = before ++ [(d, Some (WFail e))] /\ waited before < Z.max 1 t
  | WFalse => l = before ++ [(d, Some WTime)] /\ waited l = Z.max 0 t
  | WBlocked => l = before ++ [(d, None)] /\ waited before < Z.max 1 t
  end /\ exists rest, map Some ks = map snd (filter (fun x => match snd x with None => false | _ => true end) l) ++ rest.
Proof.
  assert (K : forall ks x o l, 0 <= x < two63 -> ev_loop x ks = (o, l) ->
    exists before d, Forall undecided before /\
    match o with
    | WTrue => l = before ++ [(d, Some WSig)] /\ waited before < Z.max 1 x
    | WThrow e => l = before ++ [(d, Some (WFail e))] /\ waited before < Z.max 1 x
    | WFalse => l = before ++ [(d, Some WTime)] /\ waited l = Z.max 0 x
    | WBlocked => l = before ++ [(d, None)] /\ waited before < Z.max 1 x
    end /\ exists rest, map Some ks = map snd (filter (fun x => match snd x with None => false | _ => true end) l) ++ rest).
  { induction ks as [|k ks IH]; intros x o l Hx H; pose proof (slice_spec x Hx) as (S1 & S2 & S3); cbn [ev_loop] in H.
    - inversion H; subst. exists [], (slice x). split; [constructor|]. split; [split; [reflexivity|cbn; lia]|]. exists []. reflexivity.
    - destruct k.
      + inversion H; subst. exists [], (slice x). split; [constructor|]. split; [split; [reflexivity|cbn; lia]|]. exists (map Some ks). reflexivity.
      + destruct (Z.ltb_spec 0 (x - slice x)) as [L|L].
        * destruct (ev_loop (x - slice x) ks) as [o' l'] eqn:E. inversion H; subst.
          destruct (IH (x - slice x) _ _ ltac:(lia) E) as (before & d & F & R & rest & Er).
          exists ((slice x, Some WTime) :: before), d. split; [constructor; [reflexivity|exact F]|]. split.
          -- destruct o; cbn [app waited]; destruct R as (-> & R); (split; [reflexivity|lia]).
          -- exists rest. cbn [map filter snd app]. rewrite Er. reflexivity.
        * inversion H; subst. exists [], (slice x). split; [constructor|]. split; [split; [reflexivity|cbn; lia]|]. exists (map Some ks). reflexivity.
      + inversion H; subst. exists [], (slice x). split; [constructor|]. split; [split; [reflexivity|cbn; lia]|]. exists (map Some ks). reflexivity. }
  intros t ks o l Ht H. unfold ev_timed_wait in H.
  assert (Hx : 0 <= (if t <? 0 then 0 else t) < two63) by (destruct (Z.ltb_spec t 0); unfold two63 in *; lia).
  destruct (K ks _ _ _ Hx H) as (before & d & F & R & Er). exists before, d. split; [exact F|]. split; [|exact Er].
  destruct (Z.ltb_spec t 0); destruct o; destruct R as (-> & R); (split; [reflexivity|lia]).
Qed.
Print Assumptions C37_event_semaphore_result.

(** Condition variables and timed_mutex: a kernel wait decides if it failed or if it was signalled and a notification was there / the lock was free
    ([snd] of its answer).  [passed]: the answers before the deciding one. *)
Definition passing (k : wres * bool) : Prop := k = (WTime, true) \/ k = (WTime, false) \/ k = (WSig, false).
Theorem C37_condition_mutex_result : forall late t ks o l, - two63 <= t < two63 -> cv_loop late t ks = (o, l) ->
  exists passed before rest, map fst passed = map snd before /\ Forall (fun x => exists k, x = (Some (fst k), snd k) /\ passing k) passed /\
  match o with
  | WBlocked => map (fun k => (Some (fst k), snd k)) ks = passed /\ waited before < t /\ exists d, l = before ++ [(d, None)]
  | WThrow e => exists b d, map (fun k => (Some (fst k), snd k)) ks = passed ++ (Some (WFail e), b) :: rest /\ waited before < t /\ l = before ++ [(d, Some (WFail e))]
  | WFalse => map (fun k => (Some (fst k), snd k)) ks = passed ++ rest /\ late = false /\ l = before /\ waited l = Z.max 0 t
  | WTrue => (exists d, map (fun k => (Some (fst k), snd k)) ks = passed ++ (Some WSig, true) :: rest /\ waited before < t /\ l = before ++ [(d, Some WSig)]) \/
             (map (fun k => (Some (fst k), snd k)) ks = passed ++ rest /\ late = true /\ l = before /\ waited l = Z.max 0 t)
  end.
Proof.
  intros late t ks o l Ht. assert (Hx : t < two63) by lia. clear Ht. revert t o l Hx.
  induction ks as [|[k b] ks IH]; intros x o l Hx H; cbn [cv_loop] in H; destruct (Z.ltb_spec 0 x) as [L|L].
  - inversion H; subst. exists [], [], []. split; [reflexivity|]. split; [constructor|]. split; [reflexivity|]. split; [cbn; lia|]. exists (slice x). reflexivity.
  - exists [], [], []. split; [reflexivity|]. split; [constructor|]. destruct late; inversion H; subst; [right|]; (split; [reflexivity|]); (split; [reflexivity|]); (split; [reflexivity|cbn; lia]).
  - pose proof (slice_spec x ltac:(lia)) as (S1 & S2 & S3).
    assert (Hstep : forall o' l' w y, y < two63 -> cv_loop late y ks = (o', l') -> x = y + (match w with WTime => slice x | _ => 0 end) ->
      passing (w, b) -> exists passed before rest, map fst passed = map snd before /\ Forall (fun z => exists k0, z = (Some (fst k0), snd k0) /\ passing k0) passed /\
      match o' with
      | WBlocked => map (fun k0 => (Some (fst k0), snd k0)) ((w, b) :: ks) = passed /\ waited before < x /\ exists d, (slice x, Some w) :: l' = before ++ [(d, None)]
      | WThrow e => exists b0 d, map (fun k0 => (Some (fst k0), snd k0)) ((w, b) :: ks) = passed ++ (Some (WFail e), b0) :: rest /\ waited before < x /\ (slice x, Some w) :: l' = before ++ [(d, Some (WFail e))]
      | WFalse => map (fun k0 => (Some (fst k0), snd k0)) ((w, b) :: ks) = passed ++ rest /\ late = false /\ (slice x, Some w) :: l' = before /\ waited ((slice x, Some w) :: l') = Z.max 0 x
      | WTrue => (exists d, map (fun k0 => (Some (fst k0), snd k0)) ((w, b) :: ks) = passed ++ (Some WSig, true) :: rest /\ waited before < x /\ (slice x, Some w) :: l' = before ++ [(d, Some WSig)]) \/
                 (map (fun k0 => (Some (fst k0), snd k0)) ((w, b) :: ks) = passed ++ rest /\ late = true /\ (slice x, Some w) :: l' = before /\ waited ((slice x, Some w) :: l') = Z.max 0 x)
      end).
    { intros o' l' w y Hy E Exy Hp. destruct (IH y o' l' Hy E) as (passed & before & rest & E1 & F & R).
      exists ((Some w, b) :: passed), ((slice x, Some w) :: before), rest. split; [cbn; rewrite E1; reflexivity|].
      split; [constructor; [exists (w, b); split; [reflexivity|exact Hp]|exact F]|].
      assert (Hw : forall l0, waited ((slice x, Some w) :: l0) = (match w with WTime => slice x | _ => 0 end) + waited l0) by (intros l0; destruct w; reflexivity).
      assert (Hy0 : 0 <= y) by (destruct w; lia).
      destruct o'; cbn [map fst snd app]; rewrite ?Hw.
      - destruct R as [(d & -> & R1 & ->)|(-> & R1 & -> & R2)]; [left; exists d|right]; (split; [reflexivity|]); (split; [try exact R1; lia|]); [reflexivity|]. split; [reflexivity|]. rewrite R2. lia.
      - destruct R as (-> & R1 & -> & R2). split; [reflexivity|]. split; [exact R1|]. split; [reflexivity|]. rewrite R2. lia.
      - destruct R as (b0 & d & -> & R1 & ->). exists b0, d. split; [reflexivity|]. split; [lia|]. reflexivity.
      - destruct R as (-> & R1 & d & ->). split; [reflexivity|]. split; [lia|]. exists d. reflexivity. }
    destruct k.
    + destruct b.
      * inversion H; subst. exists [], [], (map (fun k0 => (Some (fst k0), snd k0)) ks). split; [reflexivity|]. split; [constructor|]. left. exists (slice x).
        split; [reflexivity|]. split; [cbn; lia|reflexivity].
      * destruct (cv_loop late x ks) as [o' l'] eqn:E. inversion H; subst. apply (Hstep o l' WSig x Hx E); [lia|right; right; reflexivity].
    + destruct (cv_loop late (x - slice x) ks) as [o' l'] eqn:E. inversion H; subst.
      apply (Hstep o l' WTime (x - slice x) ltac:(lia) E); [lia|destruct b; [left|right; left]; reflexivity].
    + inversion H; subst. exists [], [], (map (fun k0 => (Some (fst k0), snd k0)) ks). split; [reflexivity|]. split; [constructor|]. exists b, (slice x).
      split; [reflexivity|]. split; [cbn; lia|reflexivity].
  - exists [], [], (map (fun k0 => (Some (fst k0), snd k0)) ((k, b) :: ks)). split; [reflexivity|]. split; [constructor|].
    destruct late; inversion H; subst; [right|]; (split; [reflexivity|]); (split; [reflexivity|]); (split; [reflexivity|cbn; lia]).
Qed.
Print Assumptions C37_condition_mutex_result.

Example C37_example : ev_timed_wait (2 ^ 32) [WTime; WTime] = (WFalse, [(2 ^ 32 - 2, Some WTime); (2, Some WTime)]) /\
  cv_loop false 7 [(WSig, false); (WTime, false)] = (WFalse, [(7, Some WSig); (7, Some WTime)]).
Proof. split; vm_compute; reflexivity. Qed.

(** ** C38 *)

(** The clock readings taken: the first and those after inner waits that failed. *)
Fixpoint readings (now : Z) (env : list (bool * Z)) : list Z :=
  now :: match env with (false, now') :: env' => readings now' env' | _ => [] end.

(** do-while form: false only after a clock reading (not the initial one) at or beyond the deadline, true only because an inner
    wait succeeded; whatever the clock does. *)
Theorem C38_do : forall t env now o l, chrono_do t now env = (o, l) ->
  (o = CFalse -> exists now', In (false, now') env /\ t <= now') /\ (o = CTrue -> exists now', In (true, now') env).
Proof.
  intros t env. induction env as [|[b n'] env IH]; intros now o l H; cbn [chrono_do] in H.
  - inversion H; subst. split; discriminate.
  - destruct b.
    + inversion H; subst. split; [discriminate|]. intros _. exists n'. left. reflexivity.
    + destruct (Z.ltb_spec n' t) as [L|L].
      * destruct (chrono_do t n' env) as [o' l'] eqn:E. inversion H; subst. destruct (IH _ _ _ E) as (I1 & I2). split; intros K.
        -- destruct (I1 K) as (x & Hx & Hx'). exists x. split; [right; auto|auto].
        -- destruct (I2 K) as (x & Hx). exists x. right; auto.
      * inversion H; subst. split; [|discriminate]. intros _. exists n'. split; [left; reflexivity|auto].
Qed.
Print Assumptions C38_do.

(** while form. *)
Theorem C38_while : forall t env now o l, chrono_while t now env = (o, l) ->
  (o = CFalse -> exists now', In now' (readings now env) /\ t <= now') /\ (o = CTrue -> exists now', In (true, now') env) /\
  Forall (fun d => 0 < d) l.
Proof.
  intros t env. induction env as [|[b n'] env IH]; intros now o l H; cbn [chrono_while] in H; destruct (Z.ltb_spec now t) as [L|L].
  - inversion H; subst. split; [discriminate|]. split; [discriminate|]. constructor; [lia|constructor].
  - inversion H; subst. split; [|split; [discriminate|constructor]]. intros _. exists now. split; [left; reflexivity|auto].
  - destruct b.
    + inversion H; subst. split; [discriminate|]. split; [|constructor; [lia|constructor]]. intros _. exists n'. left. reflexivity.
    + destruct (chrono_while t n' env) as [o' l'] eqn:E. inversion H; subst. destruct (IH _ _ _ E) as (I1 & I2 & I3).
      split; [|split; [|constructor; [lia|auto]]]; intros K.
      * destruct (I1 K) as (x & Hx & Hx'). exists x. split; [right; auto|auto].
      * destruct (I2 K) as (x & Hx). exists x. right; auto.
  - inversion H; subst. split; [|split; [discriminate|constructor]]. intros _. exists now. split; [left; reflexivity|auto].
Qed.
Print Assumptions C38_while.

(** Both forms, completely: the inner waits are made one after the other, each for the rest of the time at the last clock reading, until one succeeds or a
    reading ([last]) is at or beyond the time point; earlier readings ([early]) were before it. *)
Theorem C38_do_exact : forall t env now o l, chrono_do t now env = (o, l) ->
  exists early, Forall (fun n => n < t) early /\ l = map (fun n => t - n) (now :: early) /\
  match o with
  | CTrue => exists x rest, env = map (pair false) early ++ (true, x) :: rest
  | CFalse => exists last rest, env = map (pair false) early ++ (false, last) :: rest /\ t <= last
  | CBlocked => env = map (pair false) early
  end.
Proof.
  intros t env. induction env as [|[b n'] env IH]; intros now o l H; cbn [chrono_do] in H.
  - inversion H; subst. exists []. split; [constructor|]. split; reflexivity.
  - destruct b.
    + inversion H; subst. exists []. split; [constructor|]. split; [reflexivity|]. exists n', env. reflexivity.
    + destruct (Z.ltb_spec n' t) as [L|L].
      * destruct (chrono_do t n' env) as [o' l'] eqn:E. inversion H; subst. destruct (IH _ _ _ E) as (early & F & El & R).
        exists (n' :: early). split; [constructor; assumption|]. split; [rewrite El; reflexivity|].
        destruct o; cbn [map app]; [destruct R as (x & rest & ->)|destruct R as (x & rest & -> & R)|subst env]; eauto.
      * inversion H; subst. exists []. split; [constructor|]. split; [reflexivity|]. exists n', env. split; [reflexivity|exact L].
Qed.
Print Assumptions C38_do_exact.

Theorem C38_while_exact : forall t env now o l, chrono_while t now env = (o, l) ->
  if t <=? now then o = CFalse /\ l = [] else
  exists early, Forall (fun n => n < t) early /\ l = map (fun n => t - n) (now :: early) /\
  match o with
  | CTrue => exists x rest, env = map (pair false) early ++ (true, x) :: rest
  | CFalse => exists last rest, env = map (pair false) early ++ (false, last) :: rest /\ t <= last
  | CBlocked => env = map (pair false) early
  end.
Proof.
  intros t env. induction env as [|[b n'] env IH]; intros now o l H; cbn [chrono_while] in H; destruct (Z.leb_spec t now) as [L|L].
  1, 3: destruct (Z.ltb_spec now t); [lia|]; inversion H; auto.
  - destruct (Z.ltb_spec now t); [|lia]. inversion H; subst. exists []. split; [constructor|]. split; reflexivity.
  - destruct (Z.ltb_spec now t); [|lia]. destruct b.
    + inversion H; subst. exists []. split; [constructor|]. split; [reflexivity|]. exists n', env. reflexivity.
    + destruct (chrono_while t n' env) as [o' l'] eqn:E. inversion H; subst. specialize (IH _ _ _ E). destruct (Z.leb_spec t n') as [L2|L2].
      * destruct IH as (-> & ->). exists []. split; [constructor|]. split; [reflexivity|]. exists n', env. split; [reflexivity|exact L2].
      * destruct IH as (early & F & El & R). exists (n' :: early). split; [constructor; assumption|]. split; [rewrite El; reflexivity|].
        destruct o; cbn [map app]; [destruct R as (x & rest & ->)|destruct R as (x & rest & -> & R)|subst env]; eauto.
Qed.
Print Assumptions C38_while_exact.

(** The Linux events, completely: turns that decide nothing ([f_now] before the deadline, not timed out, not signalled), then one that does.  [late]: what the last look
    of the auto-reset event finds. *)
Definition idle_turn (abs : Z) (f : fturn) : Prop := f_now f < abs /\ f_status f <> FTimedOut /\ f_signalled f = false.
Theorem C38_system_clock_exact : forall abs late env,
  match futex_until abs late env with
  | CBlocked => Forall (idle_turn abs) env
  | CTrue => exists idle f rest, env = idle ++ f :: rest /\ Forall (idle_turn abs) idle /\
               ((abs <= f_now f \/ f_status f = FTimedOut) /\ late = true \/ f_now f < abs /\ f_status f <> FTimedOut /\ f_signalled f = true)
  | CFalse => exists idle f rest, env = idle ++ f :: rest /\ Forall (idle_turn abs) idle /\ (abs <= f_now f \/ f_status f = FTimedOut) /\ late = false
  end.
Proof.
  intros abs late env. induction env as [|f env IH]; cbn [futex_until]; [constructor|].
  assert (Hend : (abs <= f_now f \/ f_status f = FTimedOut) -> match (if late then CTrue else CFalse) with
    | CBlocked => Forall (idle_turn abs) (f :: env)
    | CTrue => exists idle g rest, f :: env = idle ++ g :: rest /\ Forall (idle_turn abs) idle /\
                 ((abs <= f_now g \/ f_status g = FTimedOut) /\ late = true \/ f_now g < abs /\ f_status g <> FTimedOut /\ f_signalled g = true)
    | CFalse => exists idle g rest, f :: env = idle ++ g :: rest /\ Forall (idle_turn abs) idle /\ (abs <= f_now g \/ f_status g = FTimedOut) /\ late = false
    end) by (intros K; destruct late; exists [], f, env; auto).
  destruct (Z.leb_spec (abs - f_now f) 0) as [L|L]; [apply Hend; left; lia|].
  assert (Hgo : f_status f <> FTimedOut -> match (if f_signalled f then CTrue else futex_until abs late env) with
    | CBlocked => Forall (idle_turn abs) (f :: env)
    | CTrue => exists idle g rest, f :: env = idle ++ g :: rest /\ Forall (idle_turn abs) idle /\
                 ((abs <= f_now g \/ f_status g = FTimedOut) /\ late = true \/ f_now g < abs /\ f_status g <> FTimedOut /\ f_signalled g = true)
    | CFalse => exists idle g rest, f :: env = idle ++ g :: rest /\ Forall (idle_turn abs) idle /\ (abs <= f_now g \/ f_status g = FTimedOut) /\ late = false
    end).
  { intros Hn. destruct (f_signalled f) eqn:Es.
    - exists [], f, env. split; [reflexivity|]. split; [constructor|]. right. split; [lia|auto].
    - assert (Hi : idle_turn abs f) by (split; [lia|auto]).
      destruct (futex_until abs late env); [destruct IH as (idle & g & rest & -> & F & R)|destruct IH as (idle & g & rest & -> & F & R)|constructor; auto];
        exists (f :: idle), g, rest; (split; [reflexivity|]); (split; [constructor; auto|exact R]). }
  destruct (f_status f) eqn:Es; try (apply Hgo; discriminate). apply Hend. right. reflexivity.
Qed.
Print Assumptions C38_system_clock_exact.

(** Linux events given a system clock deadline.  Between reading [f_now f] and the end of a futex wait that reported a
    timeout, the monotonic clock advanced by at least the timeout; [after] is what the system clock shows then.
    If the system clock is not set back meanwhile, a false result means the deadline was reached. *)
Fixpoint no_set_back (abs : Z) (env : list (fturn * Z)) : Prop :=
  match env with
  | [] => True
  | (f, after) :: env' =>
      (f_status f = FTimedOut -> exists elapsed, abs - f_now f <= elapsed /\ f_now f + elapsed <= after) /\ no_set_back abs env'
  end.

Theorem C38_system_clock_partial : forall abs env, no_set_back abs env -> futex_until abs false (map fst env) = CFalse ->
  exists f after, In (f, after) env /\ (abs <= f_now f \/ (f_status f = FTimedOut /\ abs <= after)).
Proof.
  intros abs env. induction env as [|[f after] env IH]; cbn [map futex_until fst no_set_back]; intros N H; [discriminate|]. destruct N as (N1 & N2).
  destruct (Z.leb_spec (abs - f_now f) 0) as [L|L].
  - exists f, after. split; [left; reflexivity|left; lia].
  - destruct (f_status f) eqn:Es.
    1-3: destruct (f_signalled f); [discriminate|]; destruct (IH N2 H) as (g & a & Hg & Hx); exists g, a; split; [right; auto|auto].
    exists f, after. split; [left; reflexivity|]. right. split; [exact Es|].
    destruct (N1 eq_refl) as (e & He1 & He2). lia.
Qed.
Print Assumptions C38_system_clock_partial.

(** If it is set back, the event reports a timeout although the clock never reached the deadline: the futex timeout is relative
    and nothing is rechecked after ETIMEDOUT.  10 s requested at 0; the clock is set back by 100 s while waiting. *)
Theorem C38_system_clock_set_back_refuted : exists abs f after, futex_until abs false [f] = CFalse /\
  f_status f = FTimedOut /\ f_now f < abs /\ after < abs.
Proof. exists 10, {| f_now := 0; f_status := FTimedOut; f_signalled := false |}, (-90). cbn. repeat split; lia. Qed.
Print Assumptions C38_system_clock_set_back_refuted.

Example C38_example : chrono_do 10 0 [(false, 7); (false, 9); (false, 11)] = (CFalse, [10; 3; 1]) /\
  chrono_while 10 12 [] = (CFalse, []).
Proof. split; reflexivity. Qed.

(** ** C40 *)

(** Linux: the timespec given to FUTEX_WAIT is normalised and exact; non-positive durations never reach the kernel. *)
Theorem C40_futex : forall d, - two63 <= d < two63 ->
  match futex_rel_timeout d with
  | None => d <= 0
  | Some ts => 0 < d /\ ts_ok ts /\ ts_ns ts = d
  end.
Proof.
  intros d H. unfold futex_rel_timeout. destruct (Z.leb_spec d 0); [auto|]. split; [auto|].
  apply (C36_point_posix_partial d). lia.
Qed.
Print Assumptions C40_futex.

(** macOS semaphores: exact below 2^32 seconds, negative durations become zero ... *)
Theorem C40_mach_partial : forall d, d < 2 ^ 32 * NS ->
  let '(s, n) := mach_timeout d in 0 <= n < NS /\ s * NS + n = Z.max 0 d.
Proof.
  intros d H. unfold mach_timeout. set (x := if d <? 0 then 0 else d).
  assert (Hx : 0 <= x < 2 ^ 32 * NS /\ x = Z.max 0 d) by (unfold x; destruct (Z.ltb_spec d 0); unfold NS in *; lia).
  clearbody x. destruct Hx as (Hx & <-). destruct (div_NS x (proj1 Hx)) as (-> & -> & E & Hm).
  assert (0 <= x / NS < two32) by (split; [apply Z.div_pos; [lia|reflexivity]|apply Z.div_lt_upper_bound; [reflexivity|unfold two32 in *; lia]]).
  rewrite u32_id by auto. change (cdiv 1000000000 NS) with 1. unfold cdiv. rewrite Z.quot_1_r.
  assert (Ei : i32 (x mod NS) = x mod NS).
  { unfold i32. rewrite Z.mod_small by (unfold NS, two32 in *; lia). destruct (Z.ltb_spec (x mod NS) two31); [reflexivity|unfold two31, NS in *; lia]. }
  rewrite Ei. unfold NS in *. lia.
Qed.
Print Assumptions C40_mach_partial.

(** ... but the seconds are narrowed to 32 bits: a wait of 2^32 s becomes no wait at all. *)
Theorem C40_mach_refuted : exists d, 0 < d < two63 /\ mach_timeout d = (0, 0).
Proof. exists (2 ^ 32 * NS). split; [unfold two63, NS; lia|vm_compute; reflexivity]. Qed.
Print Assumptions C40_mach_refuted.

Theorem C40_dispatch : forall d, match dispatch_timeout d with None => d <= 0 | Some n => 0 < d /\ n = d end.
Proof.
  intros d. unfold dispatch_timeout. destruct (Z.ltb_spec 0 d); [|auto]. split; auto.
  change (cdiv 1000000000 NS) with 1. apply Z.quot_1_r.
Qed.
Print Assumptions C40_dispatch.

(** POSIX: a non-negative relative timeout becomes the exact absolute deadline. *)
Theorem C40_posix_partial : forall now d, ts_ok now -> 0 <= d < two63 - NS -> fst now < 2 ^ 62 ->
  exists dl, posix_deadline now d = Some dl /\ ts_ok dl /\ ts_ns dl = ts_ns now + d.
Proof.
  intros [s n] d Hok Hd Hs. pose proof Hok as (H1 & H2). cbn [fst snd] in *.
  apply C34_add_exact_partial; auto; [unfold two63, NS in *; lia|].
  unfold ts_ns. cbn [fst snd]. replace (s * NS + n + d) with ((n + d) + s * NS) by ring. rewrite Z.div_add by discriminate.
  assert (0 <= (n + d) / NS < 2 ^ 62).
  { split; [apply Z.div_pos; [lia|reflexivity]|apply Z.div_lt_upper_bound; unfold NS, two63 in *; lia]. }
  unfold two63 in *. lia.
Qed.
Print Assumptions C40_posix_partial.

(** POSIX: every relative timeout of minus one second or less, at any time of day, makes the kernel wait for at least
    2^63 ns (292 years) instead of not at all.  Used by condition_variable, timed_mutex and semaphore. *)
Theorem C40_posix_negative_waits_for_centuries : forall now d, ts_ok now -> fst now < 2 ^ 62 -> - two63 <= d <= - NS ->
  exists dl, posix_deadline now d = Some dl /\ ts_ns dl >= ts_ns now + two63.
Proof.
  intros [s n] d Hok Hs Hd. pose proof Hok as (H1 & H2). cbn [fst snd] in *.
  destruct (C34_add_borrow_wrong s n d Hok) as (tp & Ht & Hv); [unfold two63, NS in *; lia|auto|].
  exists tp. split; [exact Ht|]. rewrite Hv. unfold two63, two64 in *. lia.
Qed.
Print Assumptions C40_posix_negative_waits_for_centuries.

Theorem C40_posix_refuted : exists now d dl, ts_ok now /\ d = -1000000000 /\ posix_deadline now d = Some dl /\
  ts_ns dl - ts_ns now > two63.
Proof.
  exists (1700000000, 500000000), (-1000000000), (20146744073, 209551616).
  split; [unfold ts_ok, NS, two63; cbn; lia|]. split; [reflexivity|]. split; [vm_compute; reflexivity|].
  unfold ts_ns, NS, two63. cbn [fst snd]. lia.
Qed.
Print Assumptions C40_posix_refuted.

(** The do-while chrono loop hands such a negative duration to the POSIX semaphore when the deadline has already passed:
    whatever the present time, an expired deadline (by a second or more, below 292 years) blocks for centuries. *)
Theorem C40_posix_semaphore_expired_deadline_waits_for_centuries : forall t now env wall, ts_ok wall -> fst wall < 2 ^ 62 ->
  now - two63 <= t <= now - NS ->
  exists d rest, snd (chrono_do t now env) = d :: rest /\
    exists dl, posix_deadline wall d = Some dl /\ ts_ns dl >= ts_ns wall + two63.
Proof.
  intros t now env wall Hw Hs Ht. exists (t - now).
  assert (E : exists rest, snd (chrono_do t now env) = (t - now) :: rest).
  { destruct env as [|[b n'] env]; cbn [chrono_do]; [eexists; reflexivity|]. destruct b; [eexists; reflexivity|].
    destruct (n' <? t); [|eexists; reflexivity]. destruct (chrono_do t n' env). eexists; reflexivity. }
  destruct E as (rest & E). exists rest. split; [exact E|].
  apply C40_posix_negative_waits_for_centuries; auto. lia.
Qed.
Print Assumptions C40_posix_semaphore_expired_deadline_waits_for_centuries.

(** Windows: time points from 1601 to year 30828 are absolute timers; ... *)
Theorem C40_windows_timer_partial : forall tp, 0 <= tp < two63 -> timer_due tp = inl tp.
Proof.
  intros tp H. unfold timer_due. rewrite i64_id by (unfold two63 in *; lia). destruct (Z.ltb_spec tp 0); [lia|reflexivity].
Qed.
Print Assumptions C40_windows_timer_partial.

(** ... but system_clock::time_point::min() (100 ns ticks), the canonical "already expired" deadline, becomes a relative timer of
    more than 28000 years. *)
Theorem C40_windows_min_refuted : exists tp rel, chrono_point_win 1 10000000 (- two63) = Some tp /\ timer_due tp = inr rel /\
  rel > 28000 * 365 * 24 * 3600 * 10000000.
Proof.
  eexists. eexists. split; [vm_compute; reflexivity|]. split; [vm_compute; reflexivity|]. vm_compute. reflexivity.
Qed.
Print Assumptions C40_windows_min_refuted.

Example C40_example : futex_rel_timeout 1500000000 = Some (1, 500000000) /\ futex_rel_timeout (-5) = None /\
  mach_timeout 2500000000 = (2, 500000000) /\ mach_timeout (-1) = (0, 0).
Proof. repeat split; vm_compute; reflexivity. Qed.
