(** C90: the futex wrappers reach exactly the threads that wait on the same word, after exactly the requested time (FutexModel.v).
    True when the headers define both private operations or neither and the process and the system call agree on the timespec; false otherwise. *)
From Coq Require Import List Bool Arith ZArith Lia Permutation.
From Verif Require Import Word TimeModel FutexModel.
Import ListNotations.
Local Open Scope Z_scope.

(** ** What the callers rely on: waiting threads with their word and their exact deadline, nothing else *)
(** The specification's waiting thread: number, word, deadline.  No counterpart in /repo. *)
Record waiter := { wthr : nat; wword : nat; wdl : option Z }.
(** The specification's state; no counterpart in /repo. *)
Record sst := { smem : nat -> Z; snow : Z; sws : list waiter }.
(** No counterpart in /repo. *)
Definition waits (s : sst) (t : nat) : bool := existsb (fun w => Nat.eqb (wthr w) t) (sws s).
(** The first waiter of a word and the others; no counterpart in /repo. *)
Fixpoint pick (a : nat) (ws : list waiter) : option waiter * list waiter :=
  match ws with
  | [] => (None, [])
  | w :: ws' => if Nat.eqb (wword w) a then (Some w, ws') else let '(o, r) := pick a ws' in (o, w :: r)
  end.
(** What "checks that the value is expected and blocks" (futex.hpp 55, 70), "wakes all threads waiting" (89), "wakes the specified number" (104, here
    one) mean. *)
Definition sstep (s : sst) (e : hev) : sst * list out :=
  let sleep t a x dl :=
    if waits s t then (s, [])
    else if smem s a =? x then ({| smem := smem s; snow := snow s; sws := sws s ++ [{| wthr := t; wword := a; wdl := dl |}] |}, [])
    else (s, [ORet t EWOULDBLOCK]) in
  let out_of t := {| smem := smem s; snow := snow s; sws := filter (fun w => negb (Nat.eqb (wthr w) t)) (sws s) |} in
  match e with
  | HWait t a x => sleep t a x None
  | HTimed t a x ns => sleep t a x (Some (snow s + ns))
  | HSignal t a =>
      if waits s t then (s, [])
      else match pick a (sws s) with
           | (Some w, r) => ({| smem := smem s; snow := snow s; sws := r |}, [ORet (wthr w) 0; OWoken 1])
           | (None, _) => (s, [OWoken 0])
           end
  | HBroadcast t a =>
      if waits s t then (s, [])
      else let l := filter (fun w => Nat.eqb (wword w) a) (sws s) in
           ({| smem := smem s; snow := snow s; sws := filter (fun w => negb (Nat.eqb (wword w) a)) (sws s) |},
            map (fun w => ORet (wthr w) 0) l ++ [OWoken (Z.of_nat (length l))])
  | HStore a v => ({| smem := fun b => if Nat.eqb b a then u32 v else smem s b; snow := snow s; sws := sws s |}, [])
  | HIntr t => if waits s t then (out_of t, [ORet t EINTR]) else (s, [])
  | HTick d => ({| smem := smem s; snow := snow s + Z.max 0 d; sws := sws s |}, [])
  | HExpire t =>
      if existsb (fun w => Nat.eqb (wthr w) t && match wdl w with Some d => d <=? snow s | None => false end) (sws s)
      then (out_of t, [ORet t ETIMEDOUT]) else (s, [])
  end.
(** No counterpart in /repo. *)
Fixpoint srun (s : sst) (h : list hev) : sst * list (list out) :=
  match h with
  | [] => (s, [])
  | e :: h' => let '(s1, o) := sstep s e in let '(s2, os) := srun s1 h' in (s2, o :: os)
  end.
(** No counterpart in /repo. *)
Definition s0 : sst := {| smem := fun _ => 0; snow := 0; sws := [] |}.

(** The headers agree: both private operations or neither, and the kernel knows what they use.  No counterpart in /repo. *)
Definition same_keys (p : plat) : Prop := wait_priv p = wake_priv p /\ (wait_priv p = true -> kern_priv p = true).
(** The calls the library makes: at most [n] threads, unsigned int expectations, timeouts that were tested to be positive (auto_reset_event_futex.hpp
    183, 227, manual_reset_event_futex.hpp 117, 154); with a 32-bit time_t also below 2^31 seconds. *)
Definition call_ok (p : plat) (n : nat) (e : hev) : Prop :=
  match e with
  | HWait t _ x => (t < n)%nat /\ 0 <= x < 2 ^ 32
  | HTimed t _ x ns => (t < n)%nat /\ 0 <= x < 2 ^ 32 /\ 0 < ns < 2 ^ 63 /\ (user64 p = false -> ns < 2 ^ 31 * 1000000000)
  | _ => True
  end.

(** ** Arithmetic *)
Lemma u32_i32 x : 0 <= x < 2 ^ 32 -> u32 (i32 x) = x.
Proof.
  intros H. unfold i32, u32, two32, two31. rewrite (Z.mod_small x) by exact H. destruct (Z.ltb_spec x (2 ^ 31)).
  - apply Z.mod_small; lia.
  - rewrite <- (Z_mod_plus_full _ 1), Z.mod_small; lia.
Qed.
Lemma i32_id x : - 2 ^ 31 <= x < 2 ^ 31 -> i32 x = x.
Proof.
  intros H. unfold i32, two32, two31. destruct (Z_lt_le_dec x 0) as [Hn|Hp].
  - rewrite <- (Z_mod_plus_full x 1), Z.mod_small by lia. destruct (Z.ltb_spec (x + 1 * 2 ^ 32) (2 ^ 31)); lia.
  - rewrite Z.mod_small by lia. destruct (Z.ltb_spec x (2 ^ 31)); lia.
Qed.
Lemma i32_range x : - 2 ^ 31 <= i32 x < 2 ^ 31.
Proof. unfold i32, two32, two31. pose proof (Z.mod_pos_bound x (2 ^ 32) ltac:(reflexivity)). destruct (Z.ltb_spec (x mod 2 ^ 32) (2 ^ 31)); lia. Qed.
Lemma i32_le x : 0 <= x -> i32 x <= x.
Proof.
  intros H. unfold i32, two32, two31. pose proof (Z.mod_le x (2 ^ 32) H ltac:(reflexivity)). pose proof (Z.mod_pos_bound x (2 ^ 32) ltac:(reflexivity)).
  destruct (Z.ltb_spec (x mod 2 ^ 32) (2 ^ 31)); lia.
Qed.
Lemma ns_split ns : 0 < ns < 2 ^ 63 ->
  exists s r, cdiv (u64 ns) 1000000000 = s /\ crem (u64 ns) 1000000000 = r /\ ns = s * 1000000000 + r /\ 0 <= r < 1000000000 /\ 0 <= s < 2 ^ 34.
Proof.
  intros H. exists (ns / 1000000000), (ns mod 1000000000). unfold cdiv, crem. rewrite u64_id by (unfold two64; lia).
  rewrite Z.quot_div_nonneg, Z.rem_mod_nonneg by lia. pose proof (Z.div_mod ns 1000000000 ltac:(lia)). pose proof (Z.mod_pos_bound ns 1000000000 ltac:(lia)).
  repeat split; try lia; try (apply Z.div_pos; lia); apply Z.div_lt_upper_bound; lia.
Qed.

(** ** The kernel's queue *)
(** The kernel's sleeper for a waiter of the specification; no counterpart in /repo. *)
Definition sl (p : plat) (w : waiter) : sleeper := {| sthr := wthr w; skey := (wait_priv p, wword w); sdl := wdl w |}.
(** Sleeps on word [a]; no counterpart in /repo. *)
Definition on (a : nat) (s : sleeper) : bool := Nat.eqb (snd (skey s)) a.

Lemma kwake_all b a nr : forall q ret, Forall (fun s => fst (skey s) = b) q -> ret + Z.of_nat (length q) <= nr ->
  kwake (b, a) nr ret q = (filter (on a) q, filter (fun s => negb (on a s)) q).
Proof.
  induction q as [|s q IH]; intros ret Hk Hn; [reflexivity|]. inversion Hk as [|? ? K1 K2]; subst. cbn [kwake filter fst snd]. rewrite Bool.eqb_reflx. change (on a s) with (Nat.eqb (snd (skey s)) a). cbn [andb].
  cbn [length] in Hn. rewrite Nat2Z.inj_succ in Hn. destruct (Nat.eqb (snd (skey s)) a) eqn:E; cbn [negb].
  - destruct (Z.leb_spec nr (ret + 1)).
    + destruct q; [reflexivity|]. cbn [length] in Hn. rewrite Nat2Z.inj_succ in Hn. lia.
    + rewrite IH by (auto; lia). reflexivity.
  - rewrite IH by (auto; lia). reflexivity.
Qed.
Lemma kwake_one b a : forall q, Forall (fun s => fst (skey s) = b) q ->
  (kwake (b, a) 1 0 q = ([], q) /\ forallb (fun s => negb (on a s)) q = true) \/
  (exists q1 s q2, q = q1 ++ s :: q2 /\ forallb (fun s => negb (on a s)) q1 = true /\ on a s = true /\ kwake (b, a) 1 0 q = ([s], q1 ++ q2)).
Proof.
  induction q as [|s q IH]; intros Hk; [left; auto|]. inversion Hk as [|? ? K1 K2]; subst. cbn [kwake fst snd]. rewrite Bool.eqb_reflx. cbn [andb].
  destruct (Nat.eqb (snd (skey s)) a) eqn:E.
  - right. exists [], s, q. repeat split; auto.
  - destruct (IH K2) as [(A & B)|(q1 & s1 & q2 & A & B & C & F)].
    + left. rewrite A. split; [reflexivity|]. cbn [forallb]. unfold on at 1. rewrite E, B. reflexivity.
    + right. exists (s :: q1), s1, q2. rewrite F. subst q. repeat split; auto. cbn [forallb]. unfold on at 1. rewrite E, B. reflexivity.
Qed.
Lemma kwake_none b a nr : forall q ret, Forall (fun s => fst (skey s) = negb b) q -> kwake (b, a) nr ret q = ([], q).
Proof.
  induction q as [|s q IH]; intros ret Hk; [reflexivity|]. inversion Hk as [|? ? K1 K2]; subst. cbn [kwake fst snd]. rewrite K1.
  replace (Bool.eqb (negb b) b) with false by (destruct b; reflexivity). cbn [andb]. rewrite IH by auto. reflexivity.
Qed.

(** The four calls, once and for all. *)
Lemma ksys_wake p k t r : rop r = wake_op p -> ksys p k t r =
  if wake_priv p && negb (kern_priv p) then (k, [ORet t ENOSYS])
  else let '(w, q) := kwake (wake_priv p, raddr r) (rval r) 0 (kq k) in
       ({| kmem := kmem k; know := know k; kq := q |}, map (fun s => ORet (sthr s) 0) w ++ [OWoken (Z.of_nat (length w))]).
Proof. intros H. unfold ksys. rewrite H. unfold wake_op. destruct (wake_priv p), (kern_priv p); reflexivity. Qed.
Lemma ksys_wait p k t a x : 0 <= x < 2 ^ 32 -> ksys p k t (futex_wait p a x) =
  if wait_priv p && negb (kern_priv p) then (k, [ORet t ENOSYS])
  else if kmem k a =? x then ({| kmem := kmem k; know := know k; kq := kq k ++ [{| sthr := t; skey := (wait_priv p, a); sdl := None |}] |}, [])
  else (k, [ORet t EWOULDBLOCK]).
Proof.
  intros H. unfold ksys, futex_wait. cbn [raddr rop rval rtime]. rewrite (u32_i32 x H). unfold wait_op. destruct (wait_priv p), (kern_priv p); cbn; destruct (kmem k a =? x); reflexivity.
Qed.
Lemma ksys_timed p k t a x ns : 0 <= x < 2 ^ 32 -> ksys p k t (futex_timedwait p a x ns) =
  let ts := kread p (to_time_t p (cdiv (u64 ns) 1000000000), crem (u64 ns) 1000000000) in
  if wait_priv p && negb (kern_priv p) then (k, [ORet t ENOSYS])
  else if negb (ts_valid ts) then (k, [ORet t EINVAL])
  else if kmem k a =? x then ({| kmem := kmem k; know := know k; kq := kq k ++ [{| sthr := t; skey := (wait_priv p, a); sdl := Some (know k + fst ts * 1000000000 + snd ts) |}] |}, [])
  else (k, [ORet t EWOULDBLOCK]).
Proof.
  intros H. unfold ksys, futex_timedwait. cbn [raddr rop rval rtime]. rewrite (u32_i32 x H). cbv zeta.
  set (ts := kread p (to_time_t p (cdiv (u64 ns) 1000000000), crem (u64 ns) 1000000000)). clearbody ts. unfold wait_op.
  destruct (wait_priv p), (kern_priv p); cbn -[ts_valid]; destruct (ts_valid ts); cbn; destruct (kmem k a =? x); reflexivity.
Qed.

(** The value argument of every call is an int (for any unsigned int expected), and that of a broadcast is the largest there is. *)
Theorem C90_values_fit : forall p a x ns, 0 <= x < 2 ^ 32 ->
  Forall (fun r => - 2 ^ 31 <= rval r < 2 ^ 31 /\ rval r <= rval (futex_broadcast p a)) [futex_wait p a x; futex_timedwait p a x ns; futex_signal p a; futex_broadcast p a].
Proof. intros p a x ns H. pose proof (i32_range x). repeat (apply Forall_cons || apply Forall_nil); cbn [rval futex_wait futex_timedwait futex_signal futex_broadcast]; unfold INT_MAX; lia. Qed.
Print Assumptions C90_values_fit.

(** ** One call with a timeout: exactly when the kernel's deadline is the requested one *)
Lemma some_inj (a b : Z) : Some a = Some b -> a = b.
Proof. congruence. Qed.
Lemma deadline_cases p ns : 0 < ns < 2 ^ 63 -> exists s r,
  ns = s * 1000000000 + r /\ 0 <= r < 1000000000 /\ 0 <= s < 2 ^ 34 /\
  kread p (to_time_t p (cdiv (u64 ns) 1000000000), crem (u64 ns) 1000000000) =
  if kern64 p then ((if user64 p then s else i32 s), r) else if user64 p then (i32 s, s / 2 ^ 32) else (i32 s, r).
Proof.
  intros H. destruct (ns_split ns H) as (s & r & E1 & E2 & E3 & R & S). exists s, r. split; [exact E3|]. split; [exact R|]. split; [exact S|]. rewrite E1, E2. unfold kread, to_time_t.
  assert (i64 s = s) as I by (apply i64_id; unfold two63; lia). destruct (kern64 p), (user64 p); cbn [fst snd]; rewrite ?I; auto.
  rewrite Z.shiftr_div_pow2 by lia. rewrite (i32_id (s / 2 ^ 32)); [reflexivity|]. split; [pose proof (Z.div_pos s (2 ^ 32)); lia|]. apply Z.div_lt_upper_bound; lia.
Qed.

(** On every platform (a 32-bit process has a 32-bit system call), a thread that goes to sleep with a timeout has exactly the requested deadline if and only
    if both sides use 64 bits, or both use 32 bits and the timeout is below 2^31 seconds, or the process has a 64-bit time_t, the system call a
    32-bit one, and the timeout is a whole number of seconds below 2^31. *)
Theorem C90_deadline_iff : forall p k t a x ns k' w, 0 <= x < 2 ^ 32 -> 0 < ns < 2 ^ 63 -> (kern64 p = true -> user64 p = true) ->
  ksys p k t (futex_timedwait p a x ns) = (k', []) -> kq k' = kq k ++ [w] ->
  (sdl w = Some (know k + ns) <->
   (kern64 p = true \/ (user64 p = false /\ ns < 2 ^ 31 * 1000000000) \/ (user64 p = true /\ ns < 2 ^ 31 * 1000000000 /\ ns mod 1000000000 = 0))).
Proof.
  intros p k t a x ns k' w Hx Hn HU E Q. rewrite ksys_timed in E by exact Hx. cbv zeta in E. destruct (deadline_cases p ns Hn) as (s & r & E3 & R & S & EK). rewrite EK in E. clear EK.
  destruct (wait_priv p && negb (kern_priv p)); [discriminate|].
  assert (ns mod 1000000000 = r) as EM by (rewrite E3, Z.add_comm, Z_mod_plus_full; apply Z.mod_small; lia).
  match type of E with (if negb (ts_valid ?x) then _ else _) = _ => remember x as ts eqn:ET end.
  destruct (ts_valid ts) eqn:V; cbn [negb] in E; [|discriminate]. destruct (kmem k a =? x); [|discriminate]. injection E as <-. cbn [kq] in Q. apply app_inv_head in Q. injection Q as <-. cbn [sdl].
  unfold ts_valid in V. rewrite !andb_true_iff, !Z.leb_le, Z.ltb_lt in V. destruct V as ((V1 & V2) & V3).
  destruct (kern64 p) eqn:EK; [rewrite (HU eq_refl) in ET; subst ts; cbn [fst snd] in *; split; [auto|]; intros _; f_equal; lia|].
  pose proof (i32_range s) as IR. pose proof (i32_le s ltac:(lia)) as IL.
  destruct (user64 p) eqn:EU; subst ts; cbn [fst snd] in *.
  - split.
    + intros EQ. apply some_inj in EQ. right. right. pose proof (Z.div_mod s (2 ^ 32) ltac:(lia)) as DM. pose proof (Z.mod_pos_bound s (2 ^ 32) ltac:(lia)) as MB.
      assert (0 <= s / 2 ^ 32 < 4) as D4 by (split; [apply Z.div_pos; lia|apply Z.div_lt_upper_bound; lia]).
      assert (s < 2 ^ 31) as SS by nia. assert (s / 2 ^ 32 = 0) as D0 by (apply Z.div_small; lia). rewrite i32_id in EQ by lia. rewrite D0 in EQ. split; [reflexivity|]. split; lia.
    + intros [?|[(? & ?)|(_ & L & M)]]; try discriminate. assert (r = 0) by lia. subst r. assert (s < 2 ^ 31) by lia. rewrite i32_id by lia. rewrite (Z.div_small s) by lia. f_equal. lia.
  - split.
    + intros EQ. apply some_inj in EQ. right. left. split; [reflexivity|]. assert (i32 s = s) by lia. lia.
    + intros [?|[(_ & L)|(? & ?)]]; try discriminate. assert (s < 2 ^ 31) by lia. rewrite i32_id by lia. f_equal. lia.
Qed.
Print Assumptions C90_deadline_iff.

(** On no platform does the kernel's deadline lie after the requested one. *)
Theorem C90_never_later : forall p k t a x ns k' w d, 0 <= x < 2 ^ 32 -> 0 < ns < 2 ^ 63 ->
  ksys p k t (futex_timedwait p a x ns) = (k', []) -> kq k' = kq k ++ [w] -> sdl w = Some d -> know k <= d <= know k + ns.
Proof.
  intros p k t a x ns k' w d Hx Hn E Q D. rewrite ksys_timed in E by exact Hx. cbv zeta in E. destruct (deadline_cases p ns Hn) as (s & r & E3 & R & S & EK). rewrite EK in E. clear EK.
  destruct (wait_priv p && negb (kern_priv p)); [discriminate|].
  match type of E with (if negb (ts_valid ?x) then _ else _) = _ => remember x as ts eqn:ET end.
  destruct (ts_valid ts) eqn:V; cbn [negb] in E; [|discriminate]. destruct (kmem k a =? x); [|discriminate]. injection E as <-. cbn [kq] in Q. apply app_inv_head in Q. injection Q as <-. cbn [sdl] in D. apply some_inj in D. subst d.
  unfold ts_valid in V. rewrite !andb_true_iff, !Z.leb_le, Z.ltb_lt in V. destruct V as ((V1 & V2) & V3). pose proof (i32_le s ltac:(lia)) as IL. pose proof (i32_range s) as IR.
  destruct (kern64 p), (user64 p); subst ts; cbn [fst snd] in *; try lia.
  destruct (Z_lt_le_dec s (2 ^ 32)).
  - rewrite (Z.div_small s) by lia. lia.
  - assert (s / 2 ^ 32 < 4) by (apply Z.div_lt_upper_bound; lia). lia.
Qed.
Print Assumptions C90_never_later.

(** ** Histories *)
(** The invariant of the kernel's queue; no counterpart in /repo. *)
Definition QI (p : plat) (n : nat) (q : list sleeper) : Prop :=
  Forall (fun s => fst (skey s) = wait_priv p) q /\ Forall (fun s => (sthr s < n)%nat) q /\ NoDup (map sthr q).
(** Only threads [0 .. n-1] call; no counterpart in /repo. *)
Definition below (n : nat) (e : hev) : Prop := match e with HWait t _ _ | HTimed t _ _ _ => (t < n)%nat | _ => True end.

Lemma kwake_perm key nr : forall q ret, Permutation (fst (kwake key nr ret q) ++ snd (kwake key nr ret q)) q.
Proof.
  induction q as [|s q IH]; intros ret; [constructor|]. cbn [kwake]. destruct (_ && _).
  - destruct (_ <=? _); [apply Permutation_refl|]. specialize (IH (ret + 1)). destruct (kwake key nr (ret + 1) q) as [w r]. cbn [fst snd app] in *. constructor. exact IH.
  - specialize (IH ret). destruct (kwake key nr ret q) as [w r]. cbn [fst snd] in *. eapply Permutation_trans; [apply Permutation_sym, Permutation_middle|]. constructor. exact IH.
Qed.
Lemma QI_perm p n w q q' : Permutation (w ++ q') q -> QI p n q -> QI p n q'.
Proof.
  intros P (A & B & C). apply Permutation_sym in P. pose proof (Permutation_map sthr P) as PM. rewrite map_app in PM.
  pose proof (Permutation_Forall P A) as A'. pose proof (Permutation_Forall P B) as B'. apply Forall_app in A'. apply Forall_app in B'.
  repeat split; try tauto. apply (Permutation_NoDup PM) in C. clear - C. induction (map sthr w); [exact C|]. inversion C; auto.
Qed.
Lemma filter_perm {A} (f : A -> bool) q : Permutation (filter f q ++ filter (fun x => negb (f x)) q) q.
Proof.
  induction q as [|a q IH]; [constructor|]. cbn [filter]. destruct (f a); cbn [negb app].
  - constructor. exact IH.
  - eapply Permutation_trans; [apply Permutation_sym, Permutation_middle|]. constructor. exact IH.
Qed.
Lemma QI_leave p n q t : QI p n q -> QI p n (leave q t).
Proof. apply QI_perm with (w := filter (fun s => Nat.eqb (sthr s) t) q). apply filter_perm. Qed.
Lemma QI_enter p n q t a dl : QI p n q -> asleep q t = false -> (t < n)%nat -> QI p n (q ++ [{| sthr := t; skey := (wait_priv p, a); sdl := dl |}]).
Proof.
  intros (A & B & C) N L. repeat split; try (apply Forall_app; split; auto). rewrite map_app. cbn [map sthr].
  apply (Permutation_NoDup (l := t :: map sthr q)); [apply Permutation_cons_append|]. constructor; [|exact C]. intros I. apply in_map_iff in I. destruct I as (s & E & I).
  unfold asleep in N. assert (existsb (fun s => Nat.eqb (sthr s) t) q = true); [|congruence]. apply existsb_exists. exists s. rewrite E, Nat.eqb_refl. auto.
Qed.
Lemma op_wait p : (FUTEX_PRIVATE_FLAG <=? wait_op p) = wait_priv p.
Proof. unfold wait_op. destruct (wait_priv p); reflexivity. Qed.
Lemma op_wait2 p : (if wait_priv p then wait_op p - FUTEX_PRIVATE_FLAG else wait_op p) = FUTEX_WAIT.
Proof. unfold wait_op. destruct (wait_priv p); reflexivity. Qed.
(** What any step does to the queue. *)
Lemma kstep_queue p k e k' o : kstep p k e = (k', o) ->
  kq k' = kq k \/ (exists w, Permutation (w ++ kq k') (kq k)) \/
  (exists t a dl, asleep (kq k) t = false /\ kq k' = kq k ++ [{| sthr := t; skey := (wait_priv p, a); sdl := dl |}] /\
     ((exists x, e = HWait t a x) \/ (exists x ns, e = HTimed t a x ns))).
Proof.
  assert (forall t r k' o, rop r = wake_op p -> ksys p k t r = (k', o) -> kq k' = kq k \/ (exists w, Permutation (w ++ kq k') (kq k))) as WK.
  { intros t r k1 o1 ER E. rewrite ksys_wake in E by exact ER. destruct (_ && _); [injection E as <- <-; auto|]. pose proof (kwake_perm (wake_priv p, raddr r) (rval r) (kq k) 0) as P.
    destruct (kwake (wake_priv p, raddr r) (rval r) 0 (kq k)) as [w q]. injection E as <- <-. right. exists w. exact P. }
  destruct e as [t a x|t a x ns|t a|t a|a v|t|d|t]; cbn [kstep]; intros E.
  - destruct (asleep (kq k) t) eqn:N; [injection E as <- <-; auto|]. unfold ksys, futex_wait in E. cbn [raddr rop rval rtime] in E. rewrite op_wait, op_wait2 in E. cbn -[u32 i32] in E.
    destruct (_ && _); [injection E as <- <-; auto|]. destruct (_ =? _); cbn [negb] in E; injection E as <- <-; auto. right. right. exists t, a, None. split; [exact N|]. split; [reflexivity|]. left. eauto.
  - destruct (asleep (kq k) t) eqn:N; [injection E as <- <-; auto|]. unfold ksys, futex_timedwait in E. cbn [raddr rop rval rtime] in E. rewrite op_wait, op_wait2 in E. cbv zeta in E.
    set (ts := kread p (to_time_t p (cdiv (u64 ns) 1000000000), crem (u64 ns) 1000000000)) in E. clearbody ts. change (FUTEX_WAIT =? FUTEX_WAIT) with true in E. cbv iota in E.
    destruct (_ && _); [injection E as <- <-; auto|]. destruct (ts_valid ts); cbn [negb] in E; [|injection E as <- <-; auto].
    destruct (_ =? _); cbn [negb] in E; injection E as <- <-; auto. right. right. exists t, a. eexists. split; [exact N|]. split; [reflexivity|]. right. eauto.
  - destruct (asleep (kq k) t); [injection E as <- <-; auto|]. destruct (WK t (futex_signal p a) k' o eq_refl E); auto.
  - destruct (asleep (kq k) t); [injection E as <- <-; auto|]. destruct (WK t (futex_broadcast p a) k' o eq_refl E); auto.
  - injection E as <- <-. auto.
  - destruct (asleep (kq k) t); injection E as <- <-; auto. right. left. exists (filter (fun s => Nat.eqb (sthr s) t) (kq k)). apply filter_perm.
  - injection E as <- <-. auto.
  - destruct (due (kq k) (know k) t); injection E as <- <-; auto. right. left. exists (filter (fun s => Nat.eqb (sthr s) t) (kq k)). apply filter_perm.
Qed.
Lemma QI_step p n k e k' o : kstep p k e = (k', o) -> below n e -> QI p n (kq k) -> QI p n (kq k').
Proof.
  intros E B I. destruct (kstep_queue _ _ _ _ _ E) as [->|[(w & P)|(t & a & dl & N & -> & D)]]; [exact I|eapply QI_perm; eauto|].
  apply QI_enter; auto. destruct D as [(x & ->)|(x & ns & ->)]; exact B.
Qed.
Lemma krun_QI p n : forall h k, Forall (below n) h -> QI p n (kq k) -> QI p n (kq (fst (krun p k h))).
Proof.
  induction h as [|e h IH]; intros k B I; [exact I|]. inversion B as [|? ? B1 B2]; subst. cbn [krun]. destruct (kstep p k e) as [k1 o] eqn:E. specialize (IH k1 B2 (QI_step _ _ _ _ _ _ E B1 I)).
  destruct (krun p k1 h) as [k2 os]. exact IH.
Qed.
Lemma QI_0 p n : QI p n [].
Proof. repeat split; constructor. Qed.
Lemma QI_len p n q : QI p n q -> (length q <= n)%nat.
Proof.
  intros (_ & B & C). rewrite <- (map_length sthr). rewrite <- (seq_length n 0). apply NoDup_incl_length; [exact C|]. intros t I. apply in_map_iff in I. destruct I as (s & <- & I).
  rewrite Forall_forall in B. apply in_seq. specialize (B s I). lia.
Qed.

(** Broadcast: whatever happened before, on a platform whose headers agree, every thread that sleeps on the word returns 0 and every other one keeps sleeping. *)
Theorem C90_broadcast_wakes_all : forall p n h t a, same_keys p -> Z.of_nat n < 2 ^ 31 -> Forall (below n) h ->
  let k := fst (krun p k0 h) in asleep (kq k) t = false ->
  let '(k', o) := kstep p k (HBroadcast t a) in
  kmem k' = kmem k /\ know k' = know k /\
  (forall s, In s (kq k') <-> In s (kq k) /\ snd (skey s) <> a) /\
  (forall u, In (ORet u 0) o <-> exists s, In s (kq k) /\ sthr s = u /\ snd (skey s) = a) /\
  (forall u e, In (ORet u e) o -> e = 0).
Proof.
  intros p n h t a (K1 & K2) HN HB k NA. pose proof (krun_QI p n h k0 HB (QI_0 p n)) as I. fold k in I. cbn [kstep]. rewrite NA, ksys_wake by reflexivity.
  replace (wake_priv p && negb (kern_priv p)) with false by (rewrite <- K1; destruct (wait_priv p); [rewrite K2 by reflexivity|]; reflexivity). cbn [raddr rval futex_broadcast].
  rewrite kwake_all; [|rewrite <- K1; apply I|pose proof (QI_len _ _ _ I); unfold INT_MAX; lia]. cbn [kmem know kq]. split; [reflexivity|]. split; [reflexivity|]. unfold on. split; [|split].
  - intros s. rewrite filter_In, negb_true_iff, Nat.eqb_neq. tauto.
  - intros u. rewrite in_app_iff, in_map_iff. split.
    + intros [(s & E & F)|[F|[]]]; [|discriminate]. injection E as <-. apply filter_In in F. rewrite Nat.eqb_eq in F. exists s. tauto.
    + intros (s & F & <- & G). left. exists s. rewrite filter_In, Nat.eqb_eq. auto.
  - intros u e F. apply in_app_or in F. destruct F as [F|[F|[]]]; [|discriminate]. apply in_map_iff in F. destruct F as (s & F & _). congruence.
Qed.
Print Assumptions C90_broadcast_wakes_all.

(** Signal: exactly the thread that has slept longest on the word returns; if there is none, nothing changes. *)
Theorem C90_signal_wakes_one : forall p n h t a, same_keys p -> Forall (below n) h ->
  let k := fst (krun p k0 h) in asleep (kq k) t = false ->
  let '(k', o) := kstep p k (HSignal t a) in
  kmem k' = kmem k /\ know k' = know k /\
  (((forall s, In s (kq k) -> snd (skey s) <> a) /\ kq k' = kq k /\ o = [OWoken 0]) \/
   (exists q1 s q2, kq k = q1 ++ s :: q2 /\ (forall s', In s' q1 -> snd (skey s') <> a) /\ snd (skey s) = a /\ kq k' = q1 ++ q2 /\ o = [ORet (sthr s) 0; OWoken 1])).
Proof.
  intros p n h t a (K1 & K2) HB k NA. pose proof (krun_QI p n h k0 HB (QI_0 p n)) as I. fold k in I. cbn [kstep]. rewrite NA, ksys_wake by reflexivity.
  replace (wake_priv p && negb (kern_priv p)) with false by (rewrite <- K1; destruct (wait_priv p); [rewrite K2 by reflexivity|]; reflexivity). cbn [raddr rval futex_signal].
  assert (forall q, forallb (fun s => negb (on a s)) q = true -> forall s, In s q -> snd (skey s) <> a) as FB.
  { intros q F s J. rewrite forallb_forall in F. specialize (F s J). unfold on in F. rewrite negb_true_iff, Nat.eqb_neq in F. exact F. }
  destruct (kwake_one (wake_priv p) a (kq k)) as [(A & B)|(q1 & s & q2 & A & B & C & D)]; [rewrite <- K1; apply I| |].
  - rewrite A. cbn. split; [reflexivity|]. split; [reflexivity|]. left. split; [apply FB; exact B|]. auto.
  - rewrite D. cbn. split; [reflexivity|]. split; [reflexivity|]. right. exists q1, s, q2. split; [exact A|]. split; [apply FB; exact B|]. split; [apply Nat.eqb_eq; exact C|]. auto.
Qed.
Print Assumptions C90_signal_wakes_one.

(** The arguments of the system calls, in numbers: FUTEX_WAIT is 0, FUTEX_WAKE 1, the private flag 128, INT_MAX 2147483647 (<linux/futex.h>, <climits>). *)
Theorem C90_arguments : forall p a e ns,
  (raddr (futex_wait p a e) = a /\ rop (futex_wait p a e) = (if wait_priv p then 128 else 0) /\ rtime (futex_wait p a e) = None) /\
  (raddr (futex_timedwait p a e ns) = a /\ rop (futex_timedwait p a e ns) = (if wait_priv p then 128 else 0) /\ rtime (futex_timedwait p a e ns) <> None) /\
  (raddr (futex_broadcast p a) = a /\ rop (futex_broadcast p a) = (if wake_priv p then 129 else 1) /\ rval (futex_broadcast p a) = 2147483647 /\ rtime (futex_broadcast p a) = None) /\
  (raddr (futex_signal p a) = a /\ rop (futex_signal p a) = (if wake_priv p then 129 else 1) /\ rval (futex_signal p a) = 1 /\ rtime (futex_signal p a) = None) /\
  (0 <= e < 2147483648 -> rval (futex_wait p a e) = e /\ rval (futex_timedwait p a e ns) = e).
Proof.
  intros p a e ns. unfold futex_wait, futex_timedwait, futex_broadcast, futex_signal, wait_op, wake_op, INT_MAX. cbn [raddr rop rval rtime].
  repeat split; try (destruct (wait_priv p); reflexivity); try (destruct (wake_priv p); reflexivity); try discriminate;
    apply i32_id; lia.
Qed.
Print Assumptions C90_arguments.

(** If only one of the two private operations is a macro of the headers, no wake-up call ever wakes anybody, whatever the history. *)
Theorem C90_mismatch_wakes_nobody : forall p n h t a e, wait_priv p <> wake_priv p -> Forall (below n) h -> e = HSignal t a \/ e = HBroadcast t a ->
  let k := fst (krun p k0 h) in let '(k', o) := kstep p k e in kq k' = kq k /\ forall u, ~ In (ORet u 0) o.
Proof.
  intros p n h t a e NE HB HE k. pose proof (krun_QI p n h k0 HB (QI_0 p n)) as (I & _). fold k in I.
  assert (forall r, rop r = wake_op p -> let '(k', o) := ksys p k t r in kq k' = kq k /\ forall u, ~ In (ORet u 0) o) as W.
  { intros r ER. rewrite ksys_wake by exact ER. destruct (_ && _); [split; [reflexivity|]; intros u [F|[]]; discriminate|].
    rewrite kwake_none; [cbn; split; [reflexivity|]; intros u [F|[]]; discriminate|]. replace (negb (wake_priv p)) with (wait_priv p) by (clear - NE; destruct (wait_priv p), (wake_priv p); cbn; congruence). exact I. }
  destruct HE as [-> | ->]; cbn [kstep]; (destruct (asleep (kq k) t); [split; auto|]).
  - exact (W (futex_signal p a) eq_refl).
  - exact (W (futex_broadcast p a) eq_refl).
Qed.
Print Assumptions C90_mismatch_wakes_nobody.

(** On a kernel that does not know the private operations the headers use, no thread ever goes to sleep: the waits of the events poll, and nothing is missed. *)
Theorem C90_old_kernel_never_sleeps : forall p h, wait_priv p = true -> kern_priv p = false -> kq (fst (krun p k0 h)) = [].
Proof.
  intros p h W K. assert (forall h k, kq k = [] -> kq (fst (krun p k h)) = []) as G; [|apply G; reflexivity]. clear h.
  induction h as [|e h IH]; intros k E; [exact E|]. cbn [krun]. destruct (kstep p k e) as [k1 o] eqn:S. specialize (IH k1).
  assert (kq k1 = []) as E1.
  { assert (forall t r k' o, FUTEX_PRIVATE_FLAG <= rop r -> ksys p k t r = (k', o) -> k' = k) as NS.
    { intros t r k' o' L F. unfold ksys in F. apply Z.leb_le in L. rewrite L, K in F. cbn in F. congruence. }
    assert (FUTEX_PRIVATE_FLAG <= wait_op p) as LW by (unfold wait_op; rewrite W; vm_compute; discriminate).
    assert (forall t r k' o, rop r = wake_op p -> ksys p k t r = (k', o) -> kq k' = []) as WS.
    { intros t r k' o' ER F. rewrite ksys_wake in F by exact ER. destruct (_ && _); [congruence|]. rewrite E in F. cbn in F. injection F as <- <-. reflexivity. }
    destruct e as [t a x|t a x ns|t a|t a|a v|t|d|t]; cbn [kstep] in S.
    - destruct (asleep _ _); [congruence|]. rewrite (NS t (futex_wait p a x) _ _ LW S). exact E.
    - destruct (asleep _ _); [congruence|]. rewrite (NS t (futex_timedwait p a x ns) _ _ LW S). exact E.
    - destruct (asleep _ _); [congruence|]. exact (WS t (futex_signal p a) _ _ eq_refl S).
    - destruct (asleep _ _); [congruence|]. exact (WS t (futex_broadcast p a) _ _ eq_refl S).
    - injection S as <- <-. exact E.
    - rewrite E in S. cbn in S. injection S as <- <-. exact E.
    - injection S as <- <-. exact E.
    - rewrite E in S. cbn in S. injection S as <- <-. exact E. }
  specialize (IH E1). destruct (krun p k1 h). exact IH.
Qed.
Print Assumptions C90_old_kernel_never_sleeps.

(** ** The whole behaviour *)
Lemma existsb_map' {A B} (g : A -> B) f l : existsb f (map g l) = existsb (fun x => f (g x)) l.
Proof. induction l as [|a l IH]; [reflexivity|]. cbn. rewrite IH. reflexivity. Qed.
Lemma filter_map' {A B} (g : A -> B) f l : filter f (map g l) = map g (filter (fun x => f (g x)) l).
Proof. induction l as [|a l IH]; [reflexivity|]. cbn. rewrite IH. destruct (f (g a)); reflexivity. Qed.
Lemma kwake_pick p a ws : kwake (wait_priv p, a) 1 0 (map (sl p) ws) =
  match pick a ws with (Some w, r) => ([sl p w], map (sl p) r) | (None, _) => ([], map (sl p) ws) end.
Proof.
  induction ws as [|w ws IH]; [reflexivity|]. cbn [map kwake pick]. cbn [sl skey fst snd]. rewrite Bool.eqb_reflx. cbn [andb]. destruct (Nat.eqb (wword w) a); [reflexivity|].
  cbn [sl sthr skey sdl] in IH. rewrite IH. destruct (pick a ws) as [[w'|] r]; reflexivity.
Qed.
Lemma time_exact p ns : user64 p = kern64 p -> 0 < ns < 2 ^ 63 -> (user64 p = false -> ns < 2 ^ 31 * 1000000000) ->
  let ts := kread p (to_time_t p (cdiv (u64 ns) 1000000000), crem (u64 ns) 1000000000) in ts_valid ts = true /\ fst ts * 1000000000 + snd ts = ns.
Proof.
  intros EU H HL. cbv zeta. destruct (deadline_cases p ns H) as (s & r & E3 & R & S & ->). rewrite <- EU.
  assert (i32 s = s \/ user64 p = true) as I. { destruct (user64 p); [auto|]. left. specialize (HL eq_refl). apply i32_id. lia. }
  unfold ts_valid. rewrite !andb_true_iff, !Z.leb_le, Z.ltb_lt. destruct (user64 p); cbn [fst snd]; [lia|]. destruct I as [->|]; [lia|discriminate].
Qed.

(** On a platform whose headers agree and where the process and the system call have the same time type, every history of calls returns exactly what the
    specification returns, call by call, and leaves the same threads waiting on the same words with the same deadlines. *)
Theorem C90_refines_partial : forall p n h, same_keys p -> user64 p = kern64 p -> Z.of_nat n < 2 ^ 31 -> Forall (call_ok p n) h ->
  snd (krun p k0 h) = snd (srun s0 h) /\
  map (fun s => (sthr s, snd (skey s), sdl s)) (kq (fst (krun p k0 h))) = map (fun w => (wthr w, wword w, wdl w)) (sws (fst (srun s0 h))).
Proof.
  intros p n h (K1 & K2) EU HN HB.
  assert (forall h k s, Forall (call_ok p n) h -> QI p n (kq k) -> kmem k = smem s -> know k = snow s -> kq k = map (sl p) (sws s) ->
    snd (krun p k h) = snd (srun s h) /\ kq (fst (krun p k h)) = map (sl p) (sws (fst (srun s h)))) as G.
  2: { destruct (G h k0 s0 HB (QI_0 p n) eq_refl eq_refl eq_refl) as (A & B). split; [exact A|]. rewrite B, map_map. reflexivity. }
  clear h HB. induction h as [|e h IH]; intros k s HB I EM EN EQ; [auto|]. inversion HB as [|? ? B1 B2]; subst. cbn [krun srun].
  assert (snd (kstep p k e) = snd (sstep s e) /\ kmem (fst (kstep p k e)) = smem (fst (sstep s e)) /\ know (fst (kstep p k e)) = snow (fst (sstep s e)) /\
          kq (fst (kstep p k e)) = map (sl p) (sws (fst (sstep s e)))) as (S1 & S2 & S3 & S4).
  { clear IH B2 HB. assert (forall t, asleep (kq k) t = waits s t) as AW by (intros t; rewrite EQ; unfold asleep, waits; rewrite existsb_map'; reflexivity).
    assert (wake_priv p && negb (kern_priv p) = false) as NW by (rewrite <- K1; destruct (wait_priv p); [rewrite K2 by reflexivity|]; reflexivity).
    assert (wait_priv p && negb (kern_priv p) = false) as NV by (rewrite K1; exact NW).
    destruct e as [t a x|t a x ns|t a|t a|a v|t|d|t]; cbn [kstep sstep call_ok] in *.
    - rewrite AW. destruct (waits s t); [auto|]. rewrite ksys_wait by apply B1. rewrite NV, EM. destruct (smem s a =? x); cbn; auto. rewrite EQ, map_app. auto.
    - rewrite AW. destruct (waits s t); [auto|]. destruct B1 as (B1 & Bx & Bn & Bl). rewrite ksys_timed by exact Bx. cbv zeta. pose proof (time_exact p ns EU Bn Bl) as TE. cbv zeta in TE.
      set (ts := kread p (to_time_t p (cdiv (u64 ns) 1000000000), crem (u64 ns) 1000000000)) in *. clearbody ts. destruct TE as (TV & TE). rewrite NV, TV. cbn [negb]. rewrite EM. destruct (smem s a =? x); cbn [fst snd kmem know kq smem snow sws]; auto.
      rewrite EQ, map_app. repeat split; auto. replace (know k + fst ts * 1000000000 + snd ts) with (snow s + ns) by lia. reflexivity.
    - rewrite AW. destruct (waits s t); [auto|]. rewrite ksys_wake by reflexivity. rewrite NW. cbn [raddr rval futex_signal]. rewrite <- K1, EQ, kwake_pick.
      destruct (pick a (sws s)) as [[w|] r]; cbn; auto.
    - rewrite AW. destruct (waits s t); [auto|]. rewrite ksys_wake by reflexivity. rewrite NW. cbn [raddr rval futex_broadcast].
      rewrite kwake_all; [|rewrite <- K1; apply I|pose proof (QI_len _ _ _ I); unfold INT_MAX; lia]. cbn [fst snd kmem know kq smem snow sws]. rewrite EQ, !filter_map', map_map, map_length. auto.
    - cbn. rewrite EM. auto.
    - rewrite AW. destruct (waits s t); [|auto]. cbn [fst snd kmem know kq smem snow sws]. unfold leave. rewrite EQ, filter_map'. auto.
    - cbn. rewrite EN. auto.
    - unfold due. rewrite EQ, EN, existsb_map'. cbn [sl sthr sdl]. destruct (existsb _ (sws s)); [|auto]. cbn [fst snd kmem know kq smem snow sws]. unfold leave. rewrite filter_map'. auto. }
  destruct (kstep p k e) as [k1 o] eqn:E1. destruct (sstep s e) as [s1 o'] eqn:E2. cbn [fst snd] in *. subst o'.
  assert (below n e) as BE by (destruct e; cbn in *; tauto).
  destruct (IH k1 s1 B2 (QI_step _ _ _ _ _ _ E1 BE I) S2 S3 S4) as (A & B). destruct (krun p k1 h), (srun s1 h). cbn [fst snd] in *. rewrite A. auto.
Qed.
Print Assumptions C90_refines_partial.

(** ** A time-out is never reported before its time *)
Lemma krun_app p : forall h1 h2 k, krun p k (h1 ++ h2) = (fst (krun p (fst (krun p k h1)) h2), snd (krun p k h1) ++ snd (krun p (fst (krun p k h1)) h2)).
Proof.
  induction h1 as [|e h1 IH]; intros h2 k; [cbn; destruct (krun p k h2); reflexivity|]. cbn [app krun]. destruct (kstep p k e) as [k1 o]. rewrite IH. destruct (krun p k1 h1) as [k2 os]. reflexivity.
Qed.
Lemma krun_one p k e : krun p k [e] = (fst (kstep p k e), [snd (kstep p k e)]).
Proof. cbn [krun]. destruct (kstep p k e). reflexivity. Qed.

(** On a platform with equal time types: whenever a thread is told that its wait timed out, it had called with a timeout, and since that call at least
    that much time has passed.  (Nothing is assumed about the private operations.) *)
Theorem C90_timeout_not_early_partial : forall p n h t u, user64 p = kern64 p -> Forall (call_ok p n) h ->
  In (ORet u ETIMEDOUT) (snd (kstep p (fst (krun p k0 h)) (HExpire t))) ->
  exists h1 a x ns h2, h = h1 ++ HTimed u a x ns :: h2 /\ know (fst (krun p k0 h1)) + ns <= know (fst (krun p k0 h)).
Proof.
  intros p n h t u EU HB HI.
  assert (forall s d, In s (kq (fst (krun p k0 h))) -> sdl s = Some d -> exists h1 a x ns h2, h = h1 ++ HTimed (sthr s) a x ns :: h2 /\ d = know (fst (krun p k0 h1)) + ns) as G.
  { clear HI. induction h as [|e h IH] using rev_ind; [intros s d []|]. apply Forall_app in HB. destruct HB as (HB & HE). inversion HE as [|? ? HE' _]; subst. clear HE. specialize (IH HB).
    intros s d J D. rewrite krun_app in J. cbn [fst] in J. rewrite krun_one in J. cbn [fst] in J. destruct (kstep p (fst (krun p k0 h)) e) as [k' o] eqn:E. cbn [fst] in J.
    assert (In s (kq (fst (krun p k0 h))) -> exists h1 a x ns h2, h ++ [e] = h1 ++ HTimed (sthr s) a x ns :: h2 /\ d = know (fst (krun p k0 h1)) + ns) as OLD.
    { intros J'. destruct (IH s d J' D) as (h1 & a & x & ns & h2 & E1 & E2). exists h1, a, x, ns, (h2 ++ [e]). split; [rewrite E1, <- app_assoc; reflexivity|exact E2]. }
    destruct (kstep_queue _ _ _ _ _ E) as [EQ|[(w & P)|(t1 & a & dl & N & EQ & DD)]].
    - apply OLD. rewrite <- EQ. exact J.
    - apply OLD. eapply Permutation_in; [exact P|]. apply in_or_app. right. exact J.
    - rewrite EQ in J. apply in_app_or in J. destruct J as [J|[J|[]]]; [apply OLD; exact J|]. subst s. cbn [sdl sthr] in *. subst dl.
      destruct DD as [(x & ->)|(x & ns & ->)]; cbn [kstep] in E; rewrite N in E.
      + cbn [call_ok] in HE'. rewrite ksys_wait in E by apply HE'. exfalso. destruct (_ && _); [|destruct (_ =? _)]; injection E as <- <-; cbn [kq] in EQ;
        try (apply (f_equal (@length _)) in EQ; rewrite app_length in EQ; cbn in EQ; lia). apply app_inv_head in EQ. discriminate.
      + exists h, a, x, ns, []. split; [reflexivity|]. cbn [call_ok] in HE'. destruct HE' as (B1 & Bx & Bn & Bl). rewrite ksys_timed in E by exact Bx. pose proof (time_exact p ns EU Bn Bl) as TE. cbv zeta in *.
        set (ts := kread p (to_time_t p (cdiv (u64 ns) 1000000000), crem (u64 ns) 1000000000)) in *. clearbody ts. destruct TE as (TV & TE). rewrite TV in E. cbn [negb] in E.
        destruct (_ && _); [|destruct (_ =? _)]; injection E as <- <-; cbn [kq] in EQ; try (apply (f_equal (@length _)) in EQ; rewrite app_length in EQ; cbn in EQ; lia).
        apply app_inv_head in EQ. injection EQ as EQ. lia. }
  cbn [kstep] in HI. destruct (due _ _ t) eqn:DU; cbn [snd] in HI; [|contradiction]. destruct HI as [HI|[]]. injection HI as ->. unfold due in DU. apply existsb_exists in DU. destruct DU as (s & J & DU).
  apply andb_prop in DU. destruct DU as (DU & DL). apply Nat.eqb_eq in DU. destruct (sdl s) as [d|] eqn:D; [|discriminate]. apply Z.leb_le in DL.
  destruct (G s d J D) as (h1 & a & x & ns & h2 & E1 & E2). rewrite DU in E1. exists h1, a, x, ns, h2. split; [exact E1|]. lia.
Qed.
Print Assumptions C90_timeout_not_early_partial.

(** ** Where it is false *)
(** Headers that define only FUTEX_WAIT_PRIVATE: auto_reset_event's waiter (m_state 1, auto_reset_event_futex.hpp 91-101) sleeps for ever although the event
    was posted (m_state 2^22 + 1, line 68) and the wake-up call made. *)
Theorem C90_reaches_refuted : exists p h, kern_priv p = true /\ user64 p = kern64 p /\ Forall (call_ok p 2) h /\
  snd (krun p k0 h) <> snd (srun s0 h) /\
  (exists s, kq (fst (krun p k0 h)) = [s] /\ sthr s = 0%nat /\ sdl s = None) /\ sws (fst (srun s0 h)) = [] /\ kmem (fst (krun p k0 h)) 0%nat = 2 ^ 22 + 1.
Proof.
  exists {| wait_priv := true; wake_priv := false; user64 := true; kern64 := true; kern_priv := true |}, [HStore 0 1; HWait 0 0 1; HStore 0 (2 ^ 22 + 1); HSignal 1 0].
  split; [reflexivity|]. split; [reflexivity|]. split; [repeat (apply Forall_cons || apply Forall_nil); cbn; auto; split; [auto|lia]|]. split; [vm_compute; discriminate|]. split; [eexists; vm_compute; auto|]. split; reflexivity.
Qed.
Print Assumptions C90_reaches_refuted.

(** A 32-bit process with a 64-bit time_t: a wait of half a second times out at once. *)
Theorem C90_half_second_refuted : exists p h, same_keys p /\ Forall (call_ok p 2) h /\
  h = [HTimed 0 0 0 500000000; HExpire 0] /\ snd (krun p k0 h) = [[]; [ORet 0 ETIMEDOUT]] /\ know (fst (krun p k0 h)) = 0 /\ snd (srun s0 h) = [[]; []].
Proof.
  exists {| wait_priv := true; wake_priv := true; user64 := true; kern64 := false; kern_priv := true |}, [HTimed 0 0 0 500000000; HExpire 0].
  split; [split; reflexivity|]. split; [repeat (apply Forall_cons || apply Forall_nil); cbn; auto; split; [auto|]; split; [lia|]; split; [lia|discriminate]|]. repeat split; vm_compute; reflexivity.
Qed.
Print Assumptions C90_half_second_refuted.

(** A 32-bit time_t on both sides: a wait of 2^32 seconds and a nanosecond ends after the nanosecond; one of 2^31 seconds is refused by the kernel (the
    events' loops then poll: BOOST_ASSERT at auto_reset_event_futex.hpp 198-199 and 254-255 apart, manual_reset_event_futex.hpp 128-137 ignores it). *)
Theorem C90_long_waits_refuted : exists p, same_keys p /\ user64 p = kern64 p /\
  snd (krun p k0 [HTimed 0 0 0 (2 ^ 32 * 1000000000 + 1); HTick 1; HExpire 0]) = [[]; []; [ORet 0 ETIMEDOUT]] /\
  snd (srun s0 [HTimed 0 0 0 (2 ^ 32 * 1000000000 + 1); HTick 1; HExpire 0]) = [[]; []; []] /\
  snd (krun p k0 [HTimed 0 0 0 (2 ^ 31 * 1000000000)]) = [[ORet 0 EINVAL]].
Proof.
  exists {| wait_priv := true; wake_priv := true; user64 := false; kern64 := false; kern_priv := true |}. split; [split; reflexivity|]. repeat split; vm_compute; reflexivity.
Qed.
Print Assumptions C90_long_waits_refuted.

(** The hypotheses are met by a history in which two threads sleep on one word and one on another, one of them is woken, one interrupted, one times out;
    the words have their top bit set. *)
Example C90_example : let p := {| wait_priv := true; wake_priv := true; user64 := true; kern64 := true; kern_priv := true |} in
  let h := [HStore 0 (2 ^ 31 + 5); HWait 0 0 (2 ^ 31 + 5); HTimed 1 0 (2 ^ 31 + 5) 1500000000; HTimed 2 7 0 10; HWait 3 0 4; HSignal 3 0; HTick 10; HExpire 2; HExpire 1; HBroadcast 3 0; HIntr 1] in
  same_keys p /\ Forall (call_ok p 4) h /\
  snd (krun p k0 h) = [[]; []; []; []; [ORet 3 EWOULDBLOCK]; [ORet 0 0; OWoken 1]; []; [ORet 2 ETIMEDOUT]; []; [ORet 1 0; OWoken 1]; []].
Proof.
  cbv zeta. split; [split; reflexivity|]. split; [repeat (apply Forall_cons || apply Forall_nil); cbn; auto; repeat split; auto; try lia; discriminate|]. vm_compute. reflexivity.
Qed.
