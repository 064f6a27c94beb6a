(** Proofs of progress under fair scheduling: the generic condition_variable_any.
    /repo/include/boost/sync/detail/condition_variables/condition_variable_any_generic.hpp ("G:"). *)
From Coq Require Import List Bool Arith Lia.
From Verif Require Import ListSum Exec CvAnyModel PropsCvAny Fair.
Import ListNotations.

(** A step of thread [t] inside G:78-170. *)
Definition gv_acts (a : gact) (t : nat) : Prop := match a with ARun u _ => u = t | _ => False end.
(** Thread [t] can go on in G:78-170.  A thread waiting in m_cond (G:96) needs a notification; nothing is assumed of the user's
    lock (G:55-56); a thread that needs m_mutex (G:80, G:86, G:94) can go on while it is free. *)
Definition gv_enabled (c : gst) (t : nat) : Prop :=
  nth_error (snd c) t <> Some GBlk /\ nth_error (snd c) t <> Some GUser /\ exists ch c' e, ch <> CFail /\ gv_step c (ARun t ch) = Some (c', e).

(** Where a thread stands in G:78-170. *)
Definition pcof (c : gst) (t : nat) : option gpc := nth_error (snd c) t.
(** Inside the library and neither waiting in m_cond nor re-locking the user's lock. G:80-81, G:86-87, G:94-96. *)
Definition busy (p : gpc) : bool := match p with GIdle | GBlk | GUser => false | _ => true end.
(** Steps until m_mutex is released (~lock_guard G:82, G:88; m_cond.wait G:96; ~unique_lock G:97). *)
Definition grank (p : gpc) : nat := match p with GUnl | GNSig _ => 2 | _ => 1 end.
(** The rank of thread [t]. G:80-97. *)
Definition grankt (t : nat) (c : gst) : nat := match pcof c t with Some p => grank p | None => 0 end.

(** The owner of m_mutex is a thread in its critical section. Proof or specification device; no counterpart in /repo. *)
Definition HO (c : gst) : Prop := (forall t p, pcof c t = Some p -> in_crit p = true -> fst c = Some t) /\
  (forall o, fst c = Some o -> exists p, pcof c o = Some p /\ in_crit p = true).

Lemma blk_pc ths u : In u (blocked ths) -> nth_error ths u = Some GBlk.
Proof. apply blocked_In. Qed.

Lemma wake_eq ths u : nth_error (wake_all ths) u = match nth_error ths u with Some p => Some (if is_blk p then GWok else p) | None => None end.
Proof. unfold wake_all. rewrite nth_error_map. destruct (nth_error ths u); reflexivity. Qed.

(** What a step does to the threads: the acting thread moves, blocked threads may become woken, the others stay. *)
Lemma gv_frame m ths a m' ths' e t p : gv_step (m, ths) a = Some ((m', ths'), e) -> nth_error ths t = Some p -> busy p = true \/ p = GUser -> ~ gv_acts a t -> nth_error ths' t = Some p.
Proof.
  intros H Ht Hb Hna. assert (Hnb : p <> GBlk) by (intros ->; destruct Hb; discriminate). assert (Hni : p <> GIdle) by (intros ->; destruct Hb; discriminate).
  destruct a as [u|u al|u ch]; cbn [gv_step gv_acts] in *.
  - destruct (nth_error ths u) as [[]|] eqn:Hu; inversion H; subst. rewrite nth_upd_neq; [exact Ht|]. intros ->. congruence.
  - destruct (nth_error ths u) as [[]|] eqn:Hu; inversion H; subst. rewrite nth_upd_neq; [exact Ht|]. intros ->. congruence.
  - assert (K : forall x, nth_error (upd ths u x) t = Some p) by (intros x; rewrite nth_upd_neq by congruence; exact Ht).
    destruct (nth_error ths u) as [x|] eqn:Hu; [|discriminate].
    destruct x; try (destruct ch; inversion H; subst; apply K); try (destruct ch, m; inversion H; subst; apply K); try discriminate.
    destruct all.
    + inversion H; subst. rewrite nth_upd_neq by congruence. rewrite wake_eq, Ht. destruct p; try reflexivity. congruence.
    + destruct ch as [| |y]; try (destruct (blocked ths); inversion H; subst; apply K).
      destruct (nth_error ths y) as [[]|] eqn:Hy; inversion H; subst. rewrite nth_upd_neq by congruence. rewrite nth_upd_neq; [exact Ht|]. intros ->. congruence.
Qed.

Lemma HO_init n : HO (gv_init n).
Proof. split; [|discriminate]. intros t p Hp Hc. apply nth_repeat in Hp. subst. discriminate. Qed.

Lemma HO_step c a c' e : HO c -> gv_step c a = Some (c', e) -> HO c'.
Proof.
  intros (H1 & H2) H. destruct c as [m ths], c' as [m' ths']. unfold pcof in *. cbn [fst snd] in *.
  assert (Fr : forall t p, nth_error ths t = Some p -> in_crit p = true -> ~ gv_acts a t -> nth_error ths' t = Some p).
  { intros t p Ht Hc Hna. eapply gv_frame; eauto. left. destruct p; try discriminate; reflexivity. }
  (* one thread moves *)
  assert (M : forall u x q, nth_error ths u = Some x -> ths' = upd ths u q ->
     (in_crit x = true /\ in_crit q = true /\ m' = m \/ in_crit x = true /\ in_crit q = false /\ m' = None \/
      in_crit x = false /\ in_crit q = true /\ m = None /\ m' = Some u \/ in_crit x = false /\ in_crit q = false /\ m' = m) -> HO (m', ths')).
  { intros u x q Hu -> Hc. split; unfold pcof; cbn [fst snd].
    - intros t p Ht Hp. apply nth_upd_inv in Ht. destruct Ht as [(<- & -> & _)|(Hne & Ht)].
      + destruct Hc as [(A & B & ->)|[(A & B & ->)|[(A & B & _ & ->)|(A & B & ->)]]]; try congruence. apply (H1 _ x); auto.
      + pose proof (H1 _ _ Ht Hp) as Hm. destruct Hc as [(A & B & ->)|[(A & B & ->)|[(A & B & D & ->)|(A & B & ->)]]]; auto; try congruence.
        pose proof (H1 _ _ Hu A). congruence.
    - intros o Ho. destruct Hc as [(A & B & ->)|[(A & B & ->)|[(A & B & _ & ->)|(A & B & ->)]]]; try discriminate.
      + pose proof (H1 _ _ Hu A) as Hm. assert (o = u) by congruence. subst o. exists q. split; [eapply nth_upd_eq; eauto|exact B].
      + inversion Ho; subst o. exists q. split; [eapply nth_upd_eq; eauto|exact B].
      + destruct (H2 o Ho) as (p & Hp & Hpc). exists p. split; [|exact Hpc]. rewrite nth_upd_neq; [exact Hp|]. intros ->. congruence. }
  destruct a as [u|u al|u ch]; cbn [gv_step] in H; destruct (nth_error ths u) as [x|] eqn:Hu; try discriminate.
  - destruct x; inversion H; subst. eapply M; eauto. cbn. tauto.
  - destruct x; inversion H; subst. eapply M; eauto. cbn. tauto.
  - destruct x; try discriminate.
    + destruct ch, m as [w|]; inversion H; subst; eapply M; eauto; cbn; tauto.
    + destruct ch; inversion H; subst; eapply M; eauto; cbn; tauto.
    + inversion H; subst. eapply M; eauto; cbn; tauto.
    + inversion H; subst. eapply M; eauto; cbn; tauto.
    + destruct m; inversion H; subst. eapply M; eauto; cbn; tauto.
    + inversion H; subst. eapply M; eauto; cbn; tauto.
    + inversion H; subst. eapply M; eauto; cbn; tauto.
    + destruct ch, m as [w|]; inversion H; subst; eapply M; eauto; cbn; tauto.
    + pose proof (H1 _ _ Hu eq_refl) as Hm. destruct all.
      * inversion H; subst. split; unfold pcof; cbn [fst snd].
        -- intros t p Ht Hp. apply nth_upd_inv in Ht. destruct Ht as [(<- & _)|(Hne & Ht)]; [reflexivity|]. apply wake_nth in Ht. destruct Ht as [(-> & _)|(Ht & _)]; [discriminate|]. exact (H1 _ _ Ht Hp).
        -- intros o Ho. assert (o = u) by congruence. subst o. exists (GNUnl true). split; [|reflexivity]. eapply nth_upd_eq. rewrite wake_eq, Hu. reflexivity.
      * destruct ch as [| |y]; try (destruct (blocked ths); inversion H; subst; eapply M; eauto; cbn; tauto).
        destruct (nth_error ths y) as [[]|] eqn:Hy; inversion H; subst. assert (Hyu : y <> u) by congruence. split; unfold pcof; cbn [fst snd].
        -- intros t p Ht Hp. apply nth_upd_inv in Ht. destruct Ht as [(<- & _)|(Hne & Ht)]; [reflexivity|]. apply nth_upd_inv in Ht. destruct Ht as [(<- & -> & _)|(Hne2 & Ht)]; [discriminate|]. exact (H1 _ _ Ht Hp).
        -- intros o Ho. assert (o = u) by congruence. subst o. exists (GNUnl false). split; [|reflexivity]. eapply nth_upd_eq. rewrite nth_upd_neq by congruence. exact Hu.
    + inversion H; subst. eapply M; eauto; cbn; tauto.
Qed.

(** A thread in the library that holds m_mutex, or needs it while it is free, can go on. *)
Lemma can_go c t p : HO c -> pcof c t = Some p -> busy p = true -> (in_crit p = true \/ fst c = None) -> gv_enabled c t.
Proof.
  intros (H1 & _) Ht Hb Hc. destruct c as [m ths]. unfold pcof in Ht. cbn [fst snd] in *. unfold gv_enabled. cbn [snd]. rewrite Ht.
  split; [intros E; inversion E; subst; discriminate|]. split; [intros E; inversion E; subst; discriminate|].
  destruct p; try discriminate.
  - destruct Hc as [Hc| ->]; [discriminate|]. exists CNorm. cbn [gv_step]. rewrite Ht. eexists _, _. split; [discriminate|reflexivity].
  - exists CNorm. cbn [gv_step]. rewrite Ht. eexists _, _. split; [discriminate|reflexivity].
  - exists CNorm. cbn [gv_step]. rewrite Ht. eexists _, _. split; [discriminate|reflexivity].
  - destruct Hc as [Hc| ->]; [discriminate|]. exists CNorm. cbn [gv_step]. rewrite Ht. eexists _, _. split; [discriminate|reflexivity].
  - exists CNorm. cbn [gv_step]. rewrite Ht. eexists _, _. split; [discriminate|reflexivity].
  - destruct Hc as [Hc| ->]; [discriminate|]. exists CNorm. cbn [gv_step]. rewrite Ht. eexists _, _. split; [discriminate|reflexivity].
  - destruct all; [exists CNorm; cbn [gv_step]; rewrite Ht; eexists _, _; split; [discriminate|reflexivity]|].
    destruct (blocked ths) as [|u l] eqn:Eb.
    + exists CNorm. cbn [gv_step]. rewrite Ht, Eb. eexists _, _. split; [discriminate|reflexivity].
    + exists (CPick u). cbn [gv_step]. rewrite Ht. rewrite (blk_pc ths u) by (rewrite Eb; left; reflexivity). eexists _, _. split; [discriminate|reflexivity].
  - exists CNorm. cbn [gv_step]. rewrite Ht. eexists _, _. split; [discriminate|reflexivity].
Qed.

Section Run.
  Variables (n : nat) (cf : nat -> gst) (ac : nat -> option gact).
  Hypothesis Hinf : infinite gv_step (gv_init n) cf ac.
  Hypothesis HF : strongly_fair gv_acts gv_enabled cf ac.

  Lemma run_HO i : HO (cf i).
  Proof. eapply inf_inv; eauto; [apply HO_init|]. intros; eapply HO_step; eauto. Qed.
  Lemma run_hap i : happens gv_step (cf i) (ac i) (cf (S i)).
  Proof. apply Hinf. Qed.

  (** m_mutex is free again and again. *)
  Lemma mutex_free i : exists j, i <= j /\ fst (cf j) = None.
  Proof.
    destruct (fst (cf i)) as [o|] eqn:Eo; [|exists i; auto].
    eapply (countdown gv_step gv_acts gv_enabled cf ac HO (fun c => fst c = None) (fun c => fst c = Some o) (grankt o) o 0); auto; try lia.
    - apply run_hap.
    - apply strong_weak; auto.
    - intros j _. apply run_HO.
    - intros c HI Ho. destruct (proj2 HI o Ho) as (p & Hp & Hc). eapply can_go; eauto. destruct p; try discriminate; reflexivity.
    - intros c a c' e HI HI' Ho Hst. destruct (proj2 HI o Ho) as (p & Hp & Hc). destruct c as [m ths], c' as [m' ths'].
      unfold pcof, grankt, pcof in *. cbn [fst snd] in *. subst m.
      destruct a as [u|u al|u ch]; cbn [gv_step] in Hst.
      + destruct (nth_error ths u) as [[]|] eqn:Hu; inversion Hst; subst. right. split; [reflexivity|]. rewrite nth_upd_neq by (intros ->; rewrite Hu in Hp; inversion Hp; subst; discriminate). split; [lia|intros []].
      + destruct (nth_error ths u) as [[]|] eqn:Hu; inversion Hst; subst. right. split; [reflexivity|]. rewrite nth_upd_neq by (intros ->; rewrite Hu in Hp; inversion Hp; subst; discriminate). split; [lia|intros []].
      + cbn [gv_acts]. destruct (Nat.eq_dec u o) as [->|Hne].
        * rewrite Hp in Hst |- *. destruct p; try discriminate.
          -- destruct ch; inversion Hst; subst; auto; right; (split; [reflexivity|]); rewrite (nth_upd_eq _ _ _ _ Hp); cbn; split; lia.
          -- inversion Hst; subst; auto.
          -- inversion Hst; subst; auto.
          -- destruct all.
             ++ inversion Hst; subst. right. split; [reflexivity|]. erewrite nth_upd_eq by (rewrite wake_eq, Hp; reflexivity). cbn. split; lia.
             ++ destruct ch as [| |y].
                ** destruct (blocked ths); inversion Hst; subst. right. split; [reflexivity|]. rewrite (nth_upd_eq _ _ _ _ Hp). cbn. split; lia.
                ** destruct (blocked ths); inversion Hst; subst. right. split; [reflexivity|]. rewrite (nth_upd_eq _ _ _ _ Hp). cbn. split; lia.
                ** destruct (nth_error ths y) as [[]|] eqn:Hy; inversion Hst; subst. right. split; [reflexivity|].
                   erewrite nth_upd_eq by (rewrite nth_upd_neq by congruence; exact Hp). cbn. split; lia.
          -- inversion Hst; subst; auto.
        * assert (Hk : nth_error ths' o = Some p).
          { eapply (gv_frame (Some o) ths (ARun u ch)); eauto. left. destruct p; try discriminate; reflexivity. }
          rewrite Hk, Hp. right. split; [|split; [lia|congruence]].
          assert (Hcu : forall x, nth_error ths u = Some x -> in_crit x = false).
          { intros x Hx. destruct (in_crit x) eqn:Ex; [|reflexivity]. pose proof (proj1 HI u x Hx Ex) as Q. cbn in Q. congruence. }
          destruct (nth_error ths u) as [x|] eqn:Hu; [|discriminate]. specialize (Hcu x eq_refl).
          destruct x; try discriminate; try (destruct ch; inversion Hst; subst; reflexivity).
  Qed.

  (** As long as it does not act, a thread in the library stays where it is. *)
  Lemma stays i t p : pcof (cf i) t = Some p -> busy p = true -> forall d,
    (exists j ch, i <= j < i + d /\ ac j = Some (ARun t ch) /\ pcof (cf j) t = Some p) \/ pcof (cf (i + d)) t = Some p.
  Proof.
    intros Ht Hb. induction d as [|d [(j & ch & Hj & W)|W]]; [right; rewrite Nat.add_0_r; exact Ht|left; exists j, ch; split; [lia|exact W]|].
    pose proof (run_hap (i + d)) as Hh. unfold happens in Hh. replace (i + S d) with (S (i + d)) by lia.
    destruct (ac (i + d)) as [a|] eqn:Ea; [|right; rewrite Hh; exact W]. destruct Hh as (e & He).
    assert (D : (exists ch, a = ARun t ch) \/ ~ gv_acts a t) by (destruct a as [u|u al|u ch]; cbn; auto; destruct (Nat.eq_dec u t) as [->|]; eauto).
    destruct D as [(ch & ->)|Hna]; [left; exists (i + d), ch; split; [lia|auto]|]. right.
    destruct (cf (i + d)) as [m ths], (cf (S (i + d))) as [m' ths']. eapply gv_frame; eauto.
  Qed.

  (** Every thread in the library that neither waits in m_cond nor re-locks the user's lock makes its next step. *)
  Lemma moves i t p : pcof (cf i) t = Some p -> busy p = true ->
    exists j ch, i <= j /\ ac j = Some (ARun t ch) /\ pcof (cf j) t = Some p.
  Proof.
    intros Ht Hb. destruct (HF t i) as (j & Hj & Ha).
    destruct (stays i t p Ht Hb (j - i)) as [(k & ch & Hk & W)|W]; [exists k, ch; split; [lia|exact W]|]. replace (i + (j - i)) with j in W by lia.
    destruct Ha as [(a & Ea & Hact)|Hne].
    - destruct a as [u|u al|u ch]; cbn in Hact; try contradiction. subst u. exists j, ch. auto.
    - destruct (mutex_free j) as (k & Hk & Hm). destruct (stays j t p W Hb (k - j)) as [(l & ch & Hl & W2)|W2]; [exists l, ch; split; [lia|exact W2]|].
      replace (j + (k - j)) with k in W2 by lia. exfalso. apply (Hne k Hk). eapply can_go; eauto. apply run_HO.
  Qed.

  Lemma moves_step i t p : pcof (cf i) t = Some p -> busy p = true ->
    exists j ch e, i <= j /\ ac j = Some (ARun t ch) /\ pcof (cf j) t = Some p /\ gv_step (cf j) (ARun t ch) = Some (cf (S j), e).
  Proof.
    intros Ht Hb. destruct (moves i t p Ht Hb) as (j & ch & Hj & Ea & Hp). pose proof (run_hap j) as Hh. rewrite Ea in Hh. destruct Hh as (e & He). exists j, ch, e. auto.
  Qed.

  (** A woken thread comes to re-lock the user's lock. *)
  Lemma woken_back i t : pcof (cf i) t = Some GWok -> exists j, i < j /\ pcof (cf j) t = Some GUser.
  Proof.
    intros Ht. destruct (moves_step i t GWok Ht eq_refl) as (j & ch & e & Hj & Ea & Hp & He).
    assert (Hr : pcof (cf (S j)) t = Some GRel).
    { destruct (cf j) as [m ths], (cf (S j)) as [m' ths']. unfold pcof in *. cbn [snd] in *. cbn [gv_step] in He. rewrite Hp in He. destruct m; inversion He; subst. eapply nth_upd_eq; eauto. }
    destruct (moves_step (S j) t GRel Hr eq_refl) as (k & ch' & e' & Hk & Ea' & Hp' & He'). exists (S k). split; [lia|].
    destruct (cf k) as [m ths], (cf (S k)) as [m' ths']. unfold pcof in *. cbn [snd] in *. cbn [gv_step] in He'. rewrite Hp' in He'. inversion He'; subst. eapply nth_upd_eq; eauto.
  Qed.

  (** Every call of notify_one() and notify_all() returns or throws. *)
  Lemma notify_ret i u al : pcof (cf i) u = Some (GNLock al) ->
    exists j ch ok, i <= j /\ ac j = Some (ARun u ch) /\ gv_step (cf j) (ARun u ch) = Some (cf (S j), [ENotified u ok]).
  Proof.
    intros Hu. destruct (moves_step i u _ Hu eq_refl) as (j & ch & e & Hj & Ea & Hp & He).
    assert (D : e = [ENotified u false] \/ pcof (cf (S j)) u = Some (GNSig al)).
    { destruct (cf j) as [m ths], (cf (S j)) as [m' ths']. unfold pcof in *. cbn [snd] in *. cbn [gv_step] in He. rewrite Hp in He.
      destruct ch, m; inversion He; subst; auto; right; eapply nth_upd_eq; eauto. }
    destruct D as [->|D]; [exists j, ch, false; auto|].
    destruct (moves_step (S j) u _ D eq_refl) as (k & ch' & e' & Hk & Ea' & Hp' & He').
    assert (D' : pcof (cf (S k)) u = Some (GNUnl al)).
    { destruct (cf k) as [m ths], (cf (S k)) as [m' ths']. unfold pcof in *. cbn [snd] in *. cbn [gv_step] in He'. rewrite Hp' in He'. destruct al.
      - inversion He'; subst. eapply nth_upd_eq. rewrite wake_eq, Hp'. reflexivity.
      - destruct ch' as [| |y]; try (destruct (blocked ths); inversion He'; subst; eapply nth_upd_eq; eauto).
        destruct (nth_error ths y) as [[]|] eqn:Hy; inversion He'; subst. eapply nth_upd_eq. rewrite nth_upd_neq by congruence. exact Hp'. }
    destruct (moves_step (S k) u _ D' eq_refl) as (l & ch2 & e2 & Hl & Ea2 & Hp2 & He2). exists l, ch2, true. split; [lia|]. split; [exact Ea2|].
    rewrite He2. destruct (cf l) as [m ths], (cf (S l)) as [m' ths']. unfold pcof in *. cbn [snd] in *. cbn [gv_step] in He2. rewrite Hp2 in He2. inversion He2; subst. reflexivity.
  Qed.

  (** The woken threads of a step. *)
  Lemma wake_ev c a c' e t : gv_step c a = Some (c', e) -> In (EWake t) e -> pcof c' t = Some GWok.
  Proof.
    destruct c as [m ths]. intros H Hin. unfold pcof.
    destruct a as [u|u al|u ch]; cbn [gv_step] in H; destruct (nth_error ths u) as [x|] eqn:Hu; try discriminate.
    - destruct x; inversion H; subst. destruct Hin.
    - destruct x; inversion H; subst. destruct Hin as [|[]]; discriminate.
    - destruct x; try discriminate; try (destruct ch, m; inversion H; subst; cbn in Hin; intuition discriminate); try (destruct ch; inversion H; subst; cbn in Hin; intuition discriminate).
      + inversion H; subst. cbn [snd]. destruct Hin as [Hin|[]]. inversion Hin; subst. eapply nth_upd_eq; eauto.
      + destruct all.
        * inversion H; subst. apply in_map_iff in Hin as (y & Ey & Hy). inversion Ey; subst y. apply blk_pc in Hy. cbn [snd].
          rewrite nth_upd_neq by congruence. rewrite wake_eq, Hy. reflexivity.
        * destruct ch as [| |y]; try (destruct (blocked ths); inversion H; subst; destruct Hin).
          destruct (nth_error ths y) as [[]|] eqn:Hy; inversion H; subst. destruct Hin as [Hin|[Hin|[]]]; inversion Hin; subst. cbn [snd].
          rewrite nth_upd_neq by congruence. eapply nth_upd_eq; eauto.
  Qed.

  Lemma notify_leaves i u al : pcof (cf i) u = Some (GNLock al) \/ pcof (cf i) u = Some (GNSig al) ->
    exists j, i <= j /\ pcof (cf j) u <> Some (GNLock al) /\ pcof (cf j) u <> Some (GNSig al).
  Proof.
    assert (G : forall i, pcof (cf i) u = Some (GNSig al) -> exists j, i <= j /\ pcof (cf j) u <> Some (GNLock al) /\ pcof (cf j) u <> Some (GNSig al)).
    { intros k0 D. destruct (moves_step k0 u _ D eq_refl) as (k & ch' & e' & Hk & Ea' & Hp' & He').
      assert (D' : pcof (cf (S k)) u = Some (GNUnl al)).
      { destruct (cf k) as [m ths], (cf (S k)) as [m' ths']. unfold pcof in *. cbn [snd] in *. cbn [gv_step] in He'. rewrite Hp' in He'. destruct al.
        - inversion He'; subst. eapply nth_upd_eq. rewrite wake_eq, Hp'. reflexivity.
        - destruct ch' as [| |y]; try (destruct (blocked ths); inversion He'; subst; eapply nth_upd_eq; eauto).
          destruct (nth_error ths y) as [[]|] eqn:Hy; inversion He'; subst. eapply nth_upd_eq. rewrite nth_upd_neq by congruence. exact Hp'. }
      exists (S k). split; [lia|]. rewrite D'. split; discriminate. }
    intros [Hu|Hu]; [|exact (G i Hu)]. destruct (moves_step i u _ Hu eq_refl) as (j & ch & e & Hj & Ea & Hp & He).
    assert (D : pcof (cf (S j)) u = Some GIdle \/ pcof (cf (S j)) u = Some (GNSig al)).
    { destruct (cf j) as [m ths], (cf (S j)) as [m' ths']. unfold pcof in *. cbn [snd] in *. cbn [gv_step] in He. rewrite Hp in He.
      destruct ch, m; inversion He; subst; rewrite (nth_upd_eq _ _ _ _ Hp); auto. }
    destruct D as [D|D]; [exists (S j); rewrite D; split; [lia|split; discriminate]|].
    destruct (G _ D) as (k & Hk & W). exists k. split; [lia|exact W].
  Qed.

  (** [t] has released the user's lock and [u] is about to notify: [t] (or, for notify_one(), some thread) is woken, or the call throws. *)
  Lemma notify_wakes i t u al : pending t u al (cf i) ->
    exists j a e, i <= j /\ ac j = Some a /\ gv_step (cf j) a = Some (cf (S j), e) /\ (outcome t u al e \/ In (ENotified u false) e).
  Proof.
    intros Hp. destruct (notify_leaves i u al (proj1 Hp)) as (k & Hk & N1 & N2).
    assert (W : forall d, (exists j a e, i <= j /\ ac j = Some a /\ gv_step (cf j) a = Some (cf (S j), e) /\ (outcome t u al e \/ In (ENotified u false) e)) \/ pending t u al (cf (i + d))).
    { induction d as [|d [W|W]]; [right; rewrite Nat.add_0_r; exact Hp|auto|].
      pose proof (run_hap (i + d)) as Hh. unfold happens in Hh. replace (i + S d) with (S (i + d)) by lia.
      destruct (ac (i + d)) as [a|] eqn:Ea; [|right; rewrite Hh; exact W]. destruct Hh as (e & He).
      destruct (inf_reach _ _ _ _ Hinf (i + d)) as (sched & tr & Hx). pose proof (GI_exec _ _ _ _ Hx) as HI.
      destruct (pending_step _ _ _ _ _ _ _ _ HI W He) as [K|[K|(K & _)]]; [left|left|right; exact K]; (exists (i + d), a, e; split; [lia|auto]). }
    destruct (W (k - i)) as [D|D]; [exact D|]. replace (i + (k - i)) with k in D by lia. exfalso. destruct D as ([D|D] & _); unfold pcof in *; congruence.
  Qed.
End Run.
