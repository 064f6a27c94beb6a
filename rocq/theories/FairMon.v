(** Fair infinite executions of the emulated objects (Monitor.v): who is in the code of a function gets through it, and a unit that is there is taken.
    Support for PropsFair.v. The schedulers considered are strongly fair (Fair.v): the internal mutex may be given to the competing threads in any
    order, but not for ever past a thread that finds it free again and again. *)
From Coq Require Import List Bool Arith ZArith Lia.
From Verif Require Import ListSum Exec Lin Thr Monitor MonitorProof Fair.
Import ListNotations.

Lemma nth_upd_lt {X} (l : list X) i x : (i < length l)%nat -> nth_error (upd l i x) i = Some x.
Proof. intros H. destruct (nth_error l i) as [a|] eqn:E; [eapply nth_upd_eq; exact E|]. apply nth_error_None in E. lia. Qed.

Section FairMon.
  Variable SP : spec.
  Notation D := (ost SP).
  Notation pc := (mpc SP).
  Variable body : nat -> op SP -> bool -> D -> bout D (res SP).
  Variable timed : op SP -> bool.
  Variables inner outer : bool.
  Variable thr : op SP -> option (res SP).
  Notation step := (mon_step SP body timed inner outer thr).

  (** The thread makes an access or a system call of its function, or returns from it: semaphore_emulation.hpp 44-105, auto_reset_event_emulation.hpp 44-109, manual_reset_event_emulation.hpp 44-109, timed_mutex_posix.hpp 148-263. *)
  Definition mon_acts (a : tact (op SP) mchoice) (t : nat) : Prop := match a with TRun u _ => u = t | TCall _ _ => False end.

  (** The thread can go on by itself: it is not asleep and does not find the internal mutex locked (mutex_posix.hpp 87-92); spurious wake-ups and timeouts do not count, they may fail to happen (condition_variable_posix.hpp 186-244). *)
  Definition mon_enabled (c : (bool * D) * list pc) (t : nat) : Prop :=
    exists ch c' e, (ch = MNorm \/ exists u, ch = MWake u) /\ step c (TRun t ch) = Some (c', e).

  (** In the code of a function and not asleep on the condition variable: semaphore_emulation.hpp 44-105, auto_reset_event_emulation.hpp 44-109, manual_reset_event_emulation.hpp 44-109, timed_mutex_posix.hpp 148-263. *)
  Definition busy (p : pc) : Prop := (forall m, p <> PRest m) /\ asleep p = false.

  Definition pcop (p : pc) : option (op SP) :=
    match p with
    | PRest _ => None
    | PLock _ o _ | PRead _ o _ _ | PComp _ o _ _ _ | PResleep _ o _ | PSleep _ o _ | PWoken _ o _ _ | PNotify _ o _ _ | PFail _ o _ _ | PUnlock _ o _ | PDone _ o _ => Some o
    end.

  Definition mrank (p : pc) : nat :=
    match p with
    | PWoken _ _ _ false => 11
    | PLock _ _ _ | PWoken _ _ _ true => 10
    | PRead _ _ _ false => 9
    | PComp _ _ _ false _ => 8
    | PRead _ _ _ true => 7
    | PComp _ _ _ true _ => 6
    | PNotify _ _ _ _ | PResleep _ _ _ => 4
    | PFail _ _ _ _ | PUnlock _ _ _ => 3
    | _ => 1
    end%nat.

  Definition isfail (p : pc) : bool := match p with PFail _ _ _ _ => true | _ => false end.

  Hypothesis Hbt : forall t o d, timed o = true -> body t o true d <> BWait.

  Lemma keeps c a c' e t p : step c a = Some (c', e) -> ~ mon_acts a t -> nth_error (snd c) t = Some p -> busy p -> nth_error (snd c') t = Some p.
  Proof.
    destruct c as [[held d] ths]. intros H Ha Ht (Hr & Hs). cbn [snd] in Ht.
    destruct (tstep_cases _ _ _ _ _ _ _ _ H) as [(u & o & q & q' & -> & Hq & Hc & -> & _)|[(u & ch & q & o & r & q' & -> & Hq & Hc & -> & _)|(u & ch & q & -> & Hq & Hc & Hrun & _)]].
    - cbn [snd]. rewrite nth_upd_neq; auto. intros ->. rewrite Hq in Ht. inversion Ht; subst. destruct p; cbn in Hc; try discriminate. apply (Hr m); reflexivity.
    - cbn [snd]. rewrite nth_upd_neq; [exact Ht|]. intros ->. apply Ha. reflexivity.
    - assert (Hne : u <> t) by (intros ->; apply Ha; reflexivity). cbn [snd].
      destruct q; cbn [mon_run] in Hrun; try discriminate;
        repeat match type of Hrun with
               | context [match ?x with _ => _ end] => match x with | nth_error _ _ => fail 1 | _ => destruct x end; try discriminate
               end; try (inversion Hrun; subst; clear Hrun; cbn [snd] in *; rewrite nth_upd_neq by exact Hne; exact Ht).
      + destruct (nth_error ths u0) as [[]|] eqn:E0; try discriminate. inversion Hrun; subst; clear Hrun; cbn [snd] in *.
        rewrite nth_upd_neq by exact Hne. rewrite nth_upd_neq; [exact Ht|]. intros ->. rewrite E0 in Ht. inversion Ht; subst. discriminate.
      + inversion Hrun; subst; clear Hrun; cbn [snd] in *. rewrite nth_upd_neq by exact Hne. rewrite nth_error_map, Ht. cbn. destruct p; try reflexivity. discriminate.
  Qed.

  (** What an action of a busy thread does to it. *)
  Lemma act_effect c a c' e t p : step c a = Some (c', e) -> mon_acts a t -> nth_error (snd c) t = Some p -> busy p ->
    exists p', nth_error (snd c') t = Some p' /\
      ((exists m, p' = PRest m) \/
       pcop p' = pcop p /\ (crit SP p = 1%Z -> crit SP p' = 1%Z \/ fst (fst c') = false) /\
       (asleep p' = true \/ (mrank p' < mrank p)%nat \/ outer = true /\ isfail p = true) /\
       (isfail p' = true -> exists o b d r, pcop p = Some o /\ body t o b d = BFail r)).
  Proof.
    destruct c as [[held d] ths]. intros H Ha Ht (Hr & Hs). destruct a as [|u ch]; [contradiction|]. cbn in Ha. subst u. cbn [snd] in *.
    unfold mon_step, tstep in H. rewrite Ht in H. pose proof (nth_error_Some ths t) as Hlen. rewrite Ht in Hlen. assert (Hl : (t < length ths)%nat) by (apply Hlen; discriminate). clear Hlen.
    assert (U : forall (l : list pc) q, length l = length ths -> nth_error (upd l t q) t = Some q) by (intros l q El; apply nth_upd_lt; rewrite El; exact Hl).
    destruct p; cbn [mon_ret] in H; try discriminate.
    - cbn [mon_run] in H. destruct (thr o), ch, held; inversion H; subst; clear H; eexists; (split; [apply U; reflexivity|]); right; repeat split; cbn; auto; try discriminate; right; left; lia.
    - cbn [mon_run] in H. inversion H; subst; clear H. eexists. split; [apply U; reflexivity|]. right. repeat split; auto; try discriminate. right; left. destruct b; cbn; lia.
    - cbn [mon_run] in H. destruct (body t o b d0) as [d' r nt| |r] eqn:Eb.
      + inversion H; subst; clear H. eexists. split; [apply U; reflexivity|]. right.
        destruct nt; repeat split; auto; try discriminate; right; left; destruct b; cbn; lia.
      + assert (Eb' : timed o = true -> b = false) by (intros E; destruct b; auto; exfalso; apply (Hbt _ _ _ E Eb)).
        destruct (thr o), (timed o), ch; inversion H; subst; clear H; eexists; (split; [apply U; reflexivity|]); right;
          try (rewrite (Eb' eq_refl)); repeat split; cbn; auto; try discriminate; right; left; try destruct b; lia.
      + inversion H; subst; clear H. eexists. split; [apply U; reflexivity|]. right. repeat split; auto; try discriminate.
        * right; left; destruct b; cbn; lia.
        * intros _. exists o, b, d0, r. auto.
    - cbn [mon_run] in H. destruct (thr o), ch; inversion H; subst; clear H; eexists; (split; [apply U; reflexivity|]); right; repeat split; cbn; auto; try discriminate; right; left; lia.
    - cbn [mon_run] in H. destruct held; [discriminate|].
      destruct (timed o), b, ch; try discriminate; try (destruct inner; [|discriminate]); inversion H; subst; clear H; eexists; (split; [apply U; reflexivity|]); right; repeat split; cbn; auto; try discriminate; right; left; lia.
    - cbn [mon_run] in H.
      assert (G : exists ths2, length ths2 = length ths /\ c' = ((held, d), upd ths2 t (PUnlock m o r))).
      { destruct nt; [|destruct (existsb asleep ths); [destruct ch; try discriminate; destruct (nth_error ths u) as [[]|]; try discriminate|]|];
          inversion H; subst; eexists; (split; [|reflexivity]); rewrite ?upd_length, ?map_length; reflexivity. }
      destruct G as (ths2 & El & ->). eexists. split; [apply U; exact El|]. right. repeat split; auto; try discriminate.
    - cbn [mon_run] in H. destruct outer, ch; inversion H; subst; clear H; eexists; (split; [apply U; reflexivity|]); right; repeat split; cbn; auto; try discriminate; right; left; lia.
    - cbn [mon_run] in H. inversion H; subst; clear H. eexists. split; [apply U; reflexivity|]. right. repeat split; cbn; auto; try discriminate; right; left; lia.
    - inversion H; subst; clear H. eexists. split; [apply U; reflexivity|]. left; eauto.
  Qed.

  (** Sleepers stay asleep until woken; then they hold what they waited with. *)
  Lemma sleeper c a c' e t m o ob : step c a = Some (c', e) -> nth_error (snd c) t = Some (PSleep m o ob) ->
    nth_error (snd c') t = Some (PSleep m o ob) \/ exists b, nth_error (snd c') t = Some (PWoken m o ob b).
  Proof.
    destruct c as [[held d] ths]. intros H Ht. cbn [snd] in Ht.
    pose proof (nth_error_Some ths t) as Hlen. rewrite Ht in Hlen. assert (Hl : (t < length ths)%nat) by (apply Hlen; discriminate). clear Hlen.
    destruct (tstep_cases _ _ _ _ _ _ _ _ H) as [(u & o1 & q & q' & -> & Hq & Hc & -> & _)|[(u & ch & q & o1 & r & q' & -> & Hq & Hc & -> & _)|(u & ch & q & -> & Hq & Hc & Hrun & _)]]; cbn [snd].
    - left. rewrite nth_upd_neq; auto. intros ->. rewrite Hq in Ht. inversion Ht; subst. discriminate.
    - left. rewrite nth_upd_neq; auto. intros ->. rewrite Hq in Ht. inversion Ht; subst. discriminate.
    - destruct (Nat.eq_dec u t) as [->|Hne].
      + rewrite Hq in Ht. inversion Ht; subst. cbn [mon_run] in Hrun. destruct (timed o), ch; inversion Hrun; subst; cbn [snd]; right; eexists; apply nth_upd_lt; exact Hl.
      + destruct q; cbn [mon_run] in Hrun; try discriminate;
        repeat match type of Hrun with
               | context [match ?x with _ => _ end] => match x with | nth_error _ _ => fail 1 | _ => destruct x end; try discriminate
               end; try (inversion Hrun; subst; clear Hrun; cbn [snd] in *; left; rewrite nth_upd_neq by exact Hne; exact Ht).
        * destruct (nth_error ths u0) as [[]|] eqn:E0; try discriminate. inversion Hrun; subst; clear Hrun; cbn [snd] in *.
          rewrite nth_upd_neq by exact Hne. destruct (Nat.eq_dec u0 t) as [->|Hne0].
          -- rewrite E0 in Ht. inversion Ht; subst. right. eexists. apply nth_upd_lt. exact Hl.
          -- left. rewrite nth_upd_neq; auto.
        * inversion Hrun; subst; clear Hrun; cbn [snd] in *. right. exists false. rewrite nth_upd_neq by exact Hne. rewrite nth_error_map, Ht. reflexivity.
  Qed.

  (** Program points of a function that neither waits nor times out. *)
  Definition simple (p : pc) : bool := match p with PSleep _ _ _ | PWoken _ _ _ _ | PResleep _ _ _ | PFail _ _ _ _ => false | _ => true end.

  Lemma simple_step c a c' e t p p' o : step c a = Some (c', e) -> nth_error (snd c) t = Some p -> nth_error (snd c') t = Some p' -> simple p = true -> pcop p' = Some o ->
    (forall b d, body t o b d <> BWait) -> (forall b d r, body t o b d <> BFail r) -> simple p' = true.
  Proof.
    destruct c as [[held d] ths]. intros H Ht Ht' Hsi Ho Hw Hf. cbn [snd] in Ht.
    destruct (tstep_cases _ _ _ _ _ _ _ _ H) as [(u & o1 & q & q' & -> & Hq & Hc & -> & _)|[(u & ch & q & o1 & r & q' & -> & Hq & Hc & -> & _)|(u & ch & q & -> & Hq & Hc & Hrun & _)]]; cbn [snd] in Ht'.
    - destruct (nth_upd_inv _ _ _ _ _ Ht') as [(<- & -> & _)|(Hne & Hu)]; [|congruence]. destruct q; cbn in Hc; try discriminate. destruct (pre SP m o1); inversion Hc; reflexivity.
    - destruct (nth_upd_inv _ _ _ _ _ Ht') as [(<- & -> & _)|(Hne & Hu)]; [|congruence]. destruct q; cbn in Hc; try discriminate. inversion Hc; reflexivity.
    - destruct (Nat.eq_dec u t) as [->|Hne].
      + rewrite Hq in Ht. inversion Ht; subst q; clear Ht.
        destruct p; cbn in Hsi; try discriminate; cbn [mon_run] in Hrun; try discriminate.
        * destruct (thr o0), ch, held; inversion Hrun; subst; cbn [snd] in Ht'; destruct (nth_upd_inv _ _ _ _ _ Ht') as [(_ & -> & _)|(Hne & _)]; try reflexivity; congruence.
        * inversion Hrun; subst; cbn [snd] in Ht'; destruct (nth_upd_inv _ _ _ _ _ Ht') as [(_ & -> & _)|(Hne & _)]; try reflexivity; congruence.
        * destruct (body t o0 b d0) as [d' r nt| |r] eqn:Eb.
          -- inversion Hrun; subst; cbn [snd] in Ht'; destruct (nth_upd_inv _ _ _ _ _ Ht') as [(_ & -> & _)|(Hne & _)]; [destruct nt; reflexivity|congruence].
          -- exfalso. assert (o0 = o); [|subst; apply (Hw _ _ Eb)].
             destruct (thr o0), (timed o0), ch; inversion Hrun; subst; cbn [snd] in Ht'; destruct (nth_upd_inv _ _ _ _ _ Ht') as [(_ & -> & _)|(Hne & _)]; cbn in Ho; congruence.
          -- exfalso. assert (o0 = o); [|subst; apply (Hf _ _ _ Eb)].
             inversion Hrun; subst; cbn [snd] in Ht'; destruct (nth_upd_inv _ _ _ _ _ Ht') as [(_ & -> & _)|(Hne & _)]; cbn in Ho; congruence.
        * destruct nt; [|destruct (existsb asleep ths); [destruct ch; try discriminate; destruct (nth_error ths u) as [[]|]; try discriminate|]|];
            inversion Hrun; subst; cbn [snd] in Ht'; destruct (nth_upd_inv _ _ _ _ _ Ht') as [(_ & -> & _)|(Hne & _)]; try reflexivity; congruence.
        * inversion Hrun; subst; cbn [snd] in Ht'; destruct (nth_upd_inv _ _ _ _ _ Ht') as [(_ & -> & _)|(Hne & _)]; try reflexivity; congruence.
      + destruct p; cbn in Hsi; try discriminate.
        1: { assert (E : nth_error (snd c') t = Some (PRest m)); [|rewrite E in Ht'; inversion Ht'; subst; reflexivity].
             destruct q; cbn [mon_run] in Hrun; try discriminate;
               repeat match type of Hrun with
                      | context [match ?x with _ => _ end] => match x with | nth_error _ _ => fail 1 | _ => destruct x end; try discriminate
                      end; try (inversion Hrun; subst; clear Hrun; cbn [snd] in *; rewrite nth_upd_neq by exact Hne; exact Ht).
             - destruct (nth_error ths u0) as [[]|] eqn:E0; try discriminate. inversion Hrun; subst; clear Hrun; cbn [snd] in *.
               rewrite nth_upd_neq by exact Hne. rewrite nth_upd_neq; [exact Ht|]. intros ->. rewrite E0 in Ht. inversion Ht.
             - inversion Hrun; subst; clear Hrun; cbn [snd] in *. rewrite nth_upd_neq by exact Hne. rewrite nth_error_map, Ht. reflexivity. }
        all: rewrite (keeps _ _ _ _ t _ H Hne Ht) in Ht' by (split; [intros ? ?; discriminate|reflexivity]); inversion Ht'; reflexivity.
  Qed.

  Lemma same_op c a c' e t p p' o : step c a = Some (c', e) -> nth_error (snd c) t = Some p -> nth_error (snd c') t = Some p' -> simple p = false -> pcop p' = Some o -> pcop p = Some o.
  Proof.
    intros H Ht Ht' Hsi Ho. destruct (asleep p) eqn:Es.
    - destruct p; try discriminate. destruct (sleeper _ _ _ _ _ _ _ _ H Ht) as [E|(b & E)]; rewrite E in Ht'; inversion Ht'; subst; exact Ho.
    - assert (Hb : busy p) by (split; [intros m ->; discriminate|exact Es]).
      assert (Dec : mon_acts a t \/ ~ mon_acts a t) by (destruct a as [|u ch]; cbn; [auto|destruct (Nat.eq_dec u t); auto]).
      destruct Dec as [D|D].
      + destruct (act_effect _ _ _ _ _ _ H D Ht Hb) as (p2 & Hp2 & [(m & ->)|(E & _)]); rewrite Hp2 in Ht'; inversion Ht'; subst; [discriminate|congruence].
      + rewrite (keeps _ _ _ _ _ _ H D Ht Hb) in Ht'. inversion Ht'; subst. exact Ho.
  Qed.

  Lemma step_length c a c' e : step c a = Some (c', e) -> length (snd c') = length (snd c).
  Proof.
    destruct c as [[held d] ths]. intros H.
    destruct (tstep_cases _ _ _ _ _ _ _ _ H) as [(u & o1 & q & q' & -> & Hq & Hc & -> & _)|[(u & ch & q & o1 & r & q' & -> & Hq & Hc & -> & _)|(u & ch & q & -> & Hq & Hc & Hrun & _)]]; cbn [snd]; try apply upd_length.
    destruct q; cbn [mon_run] in Hrun; try discriminate;
      repeat match type of Hrun with
             | context [match ?x with _ => _ end] => destruct x; try discriminate
             end; inversion Hrun; subst; cbn [snd]; rewrite ?upd_length, ?map_length; reflexivity.
  Qed.

  Lemma simple_inv n sched c tr t o : exec step (mon_init SP n) sched = Some (c, tr) -> (forall b d, body t o b d <> BWait) -> (forall b d r, body t o b d <> BFail r) ->
    forall p, nth_error (snd c) t = Some p -> pcop p = Some o -> simple p = true.
  Proof.
    intros H Hw Hf. revert H. apply (exec_inv_state step (fun c => forall p, nth_error (snd c) t = Some p -> pcop p = Some o -> simple p = true)).
    - intros p Hp Ho. cbn in Hp. apply nth_repeat in Hp. subst. discriminate.
    - intros c1 a c2 e IH Hst p' Hp' Ho. destruct (nth_error (snd c1) t) as [p|] eqn:Ep.
      + destruct (simple p) eqn:Es; [eapply simple_step; eauto|]. pose proof (same_op _ _ _ _ _ _ _ _ Hst Ep Hp' Es Ho) as E. rewrite (IH p eq_refl E) in Es. discriminate.
      + apply nth_error_None in Ep. rewrite <- (step_length _ _ _ _ Hst) in Ep. apply nth_error_None in Ep. congruence.
  Qed.

  (** Only the critical section of a function changes the data. *)
  Lemma changer c a c' e : step c a = Some (c', e) -> snd (fst c') <> snd (fst c) ->
    exists u m o ob b d0 d' r nt, a = TRun u (match a with TRun _ ch => ch | _ => MNorm end) /\ nth_error (snd c) u = Some (PComp m o ob b d0) /\ body u o b d0 = BDone d' r nt /\ snd (fst c') = d' /\
      nth_error (snd c') u = Some match nt with NNone => PUnlock m o r | _ => PNotify m o r nt end.
  Proof.
    destruct c as [[held d] ths]. intros H Hd. cbn [fst snd] in Hd.
    destruct (tstep_cases _ _ _ _ _ _ _ _ H) as [(u & o1 & q & q' & -> & Hq & Hc & -> & _)|[(u & ch & q & o1 & r & q' & -> & Hq & Hc & -> & _)|(u & ch & q & -> & Hq & Hc & Hrun & _)]]; cbn [fst snd] in *; try congruence.
    destruct q; cbn [mon_run] in Hrun; try discriminate.
    3: destruct (body u o b d0) as [d' r nt| |r] eqn:Eb;
         [inversion Hrun; subst; cbn [fst snd]; exists u, m, o, ob, b, d0, d', r, nt; repeat split; auto; apply (nth_upd_eq _ _ _ _ Hq)| |].
    all: exfalso; repeat match type of Hrun with
               | context [match ?x with _ => _ end] => destruct x; try discriminate
               end; inversion Hrun; subst; apply Hd; reflexivity.
  Qed.

  Lemma crit_enabled c t p : nth_error (snd c) t = Some p -> crit SP p = 1%Z -> mon_enabled c t.
  Proof.
    destruct c as [[held d] ths]. cbn [snd]. intros Ht Hc. unfold mon_enabled, mon_step, tstep. rewrite Ht.
    destruct p; cbn in Hc; try discriminate; cbn [mon_ret].
    - exists MNorm. cbn. eauto 6.
    - exists MNorm. cbn [mon_run]. destruct (body t o b d0); eauto 6. destruct (thr o), (timed o); eauto 6.
    - exists MNorm. cbn. destruct (thr o); eauto 6.
    - destruct nt.
      + exists MNorm. cbn. eauto 6.
      + cbn [mon_run]. destruct (existsb asleep ths) eqn:Ex.
        * apply existsb_exists in Ex. destruct Ex as (q & Hin & Hq). apply In_nth_error in Hin. destruct Hin as (v & Hv).
          exists (MWake v). rewrite Hv. destruct q; try discriminate. eauto 6.
        * exists MNorm. eauto 6.
      + exists MNorm. cbn. eauto 6.
    - exists MNorm. cbn. destruct outer; eauto 6.
    - exists MNorm. cbn. eauto 6.
  Qed.

  Lemma free_enabled c t p : nth_error (snd c) t = Some p -> busy p -> fst (fst c) = false -> mon_enabled c t.
  Proof.
    intros Ht Hb Hf. destruct (Z.eq_dec (crit SP p) 1) as [E|E]; [eapply crit_enabled; eauto|].
    destruct c as [[held d] ths]. cbn [fst snd] in *. subst held. destruct Hb as (Hr & Hs). unfold mon_enabled, mon_step, tstep. rewrite Ht.
    destruct p; cbn in E; try congruence; cbn [mon_ret].
    - exists MNorm. cbn. destruct (thr o); eauto 6.
    - discriminate.
    - exists MNorm. cbn. destruct (timed o), b; eauto 6.
    - exists MNorm. eauto 6.
  Qed.

  Section Run.
    Variables (cf : nat -> (bool * D) * list pc) (ac : nat -> option (tact (op SP) mchoice)).
    Hypothesis HS : forall i, happens step (cf i) (ac i) (cf (S i)).
    Hypothesis HF : strongly_fair mon_acts mon_enabled cf ac.
    Hypothesis HC : forall i, sumf (crit SP) (snd (cf i)) = b2z (fst (fst (cf i))).

    Lemma acts_dec i t : (exists a, ac i = Some a /\ mon_acts a t) \/ (forall a, ac i = Some a -> ~ mon_acts a t).
    Proof.
      destruct (ac i) as [[u o|u ch]|]; [right; intros a E; inversion E; subst; auto| |right; intros a E; discriminate].
      destruct (Nat.eq_dec u t) as [->|Hne]; [left; eexists; split; [reflexivity|reflexivity]|right; intros a E; inversion E; subst; exact Hne].
    Qed.

    Lemma keeps_at i t p : (forall a, ac i = Some a -> ~ mon_acts a t) -> nth_error (snd (cf i)) t = Some p -> busy p -> nth_error (snd (cf (S i))) t = Some p.
    Proof.
      intros Hn Ht Hb. pose proof (HS i) as Hs. unfold happens in Hs. destruct (ac i) as [a|].
      - destruct Hs as (e & He). eapply keeps; eauto.
      - rewrite Hs. exact Ht.
    Qed.

    Lemma first_act t p : busy p -> forall dd i, nth_error (snd (cf i)) t = Some p ->
      (exists k, (i <= k < i + dd)%nat /\ nth_error (snd (cf k)) t = Some p /\ exists a, ac k = Some a /\ mon_acts a t) \/ nth_error (snd (cf (i + dd))) t = Some p.
    Proof.
      intros Hb. induction dd as [|dd IH]; intros i Ht; [right; rewrite Nat.add_0_r; exact Ht|].
      destruct (acts_dec i t) as [Ha|Hn].
      - left. exists i. repeat split; auto; lia.
      - destruct (IH (S i) (keeps_at _ _ _ Hn Ht Hb)) as [(k & Hk & H1)|H1].
        + left. exists k. split; [lia|exact H1].
        + right. rewrite Nat.add_succ_r. exact H1.
    Qed.

    Definition goes (i t : nat) (p : pc) : Prop := exists k, (i <= k)%nat /\ nth_error (snd (cf k)) t = Some p /\ exists a, ac k = Some a /\ mon_acts a t.

    Lemma crit_goes i t p : nth_error (snd (cf i)) t = Some p -> busy p -> crit SP p = 1%Z -> goes i t p.
    Proof.
      intros Ht Hb Hc. destruct (HF t i) as (j & Hj & [Ha|Hn]).
      - destruct (first_act t p Hb (S j - i) i Ht) as [(k & Hk & H1)|H1]; [exists k; split; [lia|exact H1]|].
        destruct (first_act t p Hb (j - i) i Ht) as [(k & Hk & H2)|H2]; [exists k; split; [lia|exact H2]|].
        replace (i + (j - i))%nat with j in H2 by lia. exists j. repeat split; auto.
      - destruct (first_act t p Hb (j - i) i Ht) as [(k & Hk & H2)|H2]; [exists k; split; [lia|exact H2]|].
        replace (i + (j - i))%nat with j in H2 by lia. exfalso. apply (Hn j (le_n j)). eapply crit_enabled; eauto.
    Qed.

    Lemma crit_busy p : crit SP p = 1%Z -> busy p.
    Proof. intros H. split; [intros m ->; discriminate|destruct p; cbn in *; congruence]. Qed.

    Lemma crit_release : forall k i t p, (mrank p < k)%nat -> nth_error (snd (cf i)) t = Some p -> crit SP p = 1%Z -> exists j, (i <= j)%nat /\ fst (fst (cf j)) = false.
    Proof.
      induction k as [|k IH]; intros i t p Hk Ht Hc; [lia|].
      destruct (crit_goes i t p Ht (crit_busy _ Hc) Hc) as (j & Hj & Hpj & a & Ha & Hat).
      pose proof (HS j) as Hst. unfold happens in Hst. rewrite Ha in Hst. destruct Hst as (e & He).
      destruct (act_effect _ _ _ _ _ _ He Hat Hpj (crit_busy _ Hc)) as (p' & Hp' & [(m & ->)|(_ & Hcr & Hrk & _)]).
      - exfalso. destruct (cf j) as [[hd d] ths] eqn:Ecf. destruct a as [|u ch]; [contradiction|]. cbn in Hat. subst u. unfold mon_step, tstep in He. cbn [snd] in Hpj. rewrite Hpj in He.
        destruct p; cbn in Hc; try discriminate; cbn [mon_ret] in He.
        all: destruct (mon_run SP body timed inner outer thr (hd, d) ths t _ ch) as [c2|] eqn:Er in He; [|discriminate]; inversion He; subst c2; clear He.
        all: pose proof (nth_error_Some ths t) as Hlen; rewrite Hpj in Hlen; assert (Hl : (t < length ths)%nat) by (apply Hlen; discriminate); clear Hlen.
        all: assert (U : forall (l : list pc) q, length l = length ths -> nth_error (upd l t q) t = Some q) by (intros l q El; apply nth_upd_lt; rewrite El; exact Hl).
        all: cbn [mon_run] in Er; repeat match type of Er with
               | context [match ?x with _ => _ end] => destruct x; try discriminate
               end; injection Er as E2; rewrite <- E2 in Hp'; cbn [snd] in Hp'; rewrite U in Hp' by (rewrite ?upd_length, ?map_length; reflexivity); try discriminate.
      - destruct (Hcr Hc) as [Hc'|Hf]; [|exists (S j); split; [lia|exact Hf]].
        assert (Hlt : (mrank p' < mrank p)%nat \/ fst (fst (cf (S j))) = false).
        { destruct Hrk as [Hs|[Hlt|(Ho & Hfl)]]; [|left; exact Hlt|].
          - destruct p'; cbn in *; discriminate.
          - right. destruct p; try discriminate. destruct (cf j) as [[hd d] ths]. destruct a as [|u ch]; [contradiction|]. cbn in Hat. subst u. unfold mon_step, tstep in He. cbn [snd] in Hpj. rewrite Hpj in He.
            cbn [mon_ret mon_run] in He. rewrite Ho in He. destruct ch; inversion He; reflexivity. }
        destruct Hlt as [Hlt|Hf]; [|exists (S j); split; [lia|exact Hf]].
        destruct (IH (S j) t p') as (j2 & Hj2 & Hf); [lia|exact Hp'|exact Hc'|]. exists j2. split; [lia|exact Hf].
    Qed.

    (** The internal mutex is free again and again. *)
    Lemma released i : exists j, (i <= j)%nat /\ fst (fst (cf j)) = false.
    Proof.
      destruct (fst (fst (cf i))) eqn:E; [|exists i; auto].
      pose proof (HC i) as Hc. rewrite E in Hc. cbn in Hc.
      destruct (sumf_pos_ex (crit SP) (snd (cf i))) as (u & q & Hu & Hq); [lia|].
      apply (crit_release (S (mrank q)) i u q); auto. destruct q; cbn in *; lia.
    Qed.

    (** Nobody in the code of a function is stuck. *)
    Lemma busy_goes i t p : nth_error (snd (cf i)) t = Some p -> busy p -> goes i t p.
    Proof.
      intros Ht Hb. destruct (HF t i) as (j & Hj & [Ha|Hn]).
      - destruct (first_act t p Hb (j - i) i Ht) as [(k & Hk & H2)|H2]; [exists k; split; [lia|exact H2]|].
        replace (i + (j - i))%nat with j in H2 by lia. exists j. repeat split; auto.
      - destruct (released j) as (k & Hk & Hf).
        destruct (first_act t p Hb (k - i) i Ht) as [(k' & Hk' & H2)|H2]; [exists k'; split; [lia|exact H2]|].
        replace (i + (k - i))%nat with k in H2 by lia. exfalso. apply (Hn k Hk). eapply free_enabled; eauto.
    Qed.

    Definition at_rest (i t : nat) : Prop := exists m, nth_error (snd (cf i)) t = Some (PRest m).
    Definition falls_asleep (i t : nat) : Prop :=
      exists p p', nth_error (snd (cf i)) t = Some p /\ asleep p = false /\ nth_error (snd (cf (S i))) t = Some p' /\ asleep p' = true.

    Lemma gets_through : forall k i t p o, (mrank p < k)%nat -> nth_error (snd (cf i)) t = Some p -> busy p -> pcop p = Some o ->
      (outer = false \/ isfail p = false /\ forall b d r, body t o b d <> BFail r) ->
      exists j, (i <= j)%nat /\ (at_rest j t \/ falls_asleep j t).
    Proof.
      induction k as [|k IH]; intros i t p o Hk Ht Hb Ho Hout; [lia|].
      destruct (busy_goes i t p Ht Hb) as (j & Hj & Hpj & a & Ha & Hat).
      pose proof (HS j) as Hst. unfold happens in Hst. rewrite Ha in Hst. destruct Hst as (e & He).
      destruct (act_effect _ _ _ _ _ _ He Hat Hpj Hb) as (p' & Hp' & [(m & ->)|(Hop & _ & Hrk & Hfl)]).
      - exists (S j). split; [lia|]. left. exists m. exact Hp'.
      - destruct (asleep p') eqn:Es.
        + exists j. split; [exact Hj|]. right. exists p, p'. repeat split; auto. apply Hb.
        + destruct (IH (S j) t p' o) as (j2 & Hj2 & H2).
          * destruct Hrk as [Hx|[Hx|(Hx & Hy)]]; [discriminate|lia|]. destruct Hout as [Hout|(Hout & _)]; congruence.
          * exact Hp'.
          * split; [|exact Es]. intros m ->. rewrite Ho in Hop. discriminate.
          * congruence.
          * destruct Hout as [Hout|(Hout & Hno)]; [left; exact Hout|right]. split; [|exact Hno].
            destruct (isfail p') eqn:Ef; [|reflexivity]. destruct (Hfl eq_refl) as (o1 & b & d & r & E1 & E2). exfalso. apply (Hno b d r). congruence.
          * exists j2. split; [lia|exact H2].
    Qed.

    Lemma sleeper_at t m o ob : forall dd i, nth_error (snd (cf i)) t = Some (PSleep m o ob) ->
      (exists k b, (i < k <= i + dd)%nat /\ nth_error (snd (cf k)) t = Some (PWoken m o ob b)) \/ nth_error (snd (cf (i + dd))) t = Some (PSleep m o ob).
    Proof.
      induction dd as [|dd IH]; intros i Ht; [right; rewrite Nat.add_0_r; exact Ht|].
      assert (Hn : nth_error (snd (cf (S i))) t = Some (PSleep m o ob) \/ exists b, nth_error (snd (cf (S i))) t = Some (PWoken m o ob b)).
      { pose proof (HS i) as Hs. unfold happens in Hs. destruct (ac i) as [a|]; [destruct Hs as (e & He); eapply sleeper; eauto|rewrite Hs; auto]. }
      destruct Hn as [Hn|(b & Hn)].
      - destruct (IH (S i) Hn) as [(k & b & Hk & H1)|H1]; [left; exists k, b; split; [lia|exact H1]|right; rewrite Nat.add_succ_r; exact H1].
      - left. exists (S i), b. split; [lia|exact Hn].
    Qed.

    (** Functions that do not wait return. *)
    Lemma simple_returns : forall k i t p o, (mrank p < k)%nat -> nth_error (snd (cf i)) t = Some p -> simple p = true -> pcop p = Some o ->
      (forall b d, body t o b d <> BWait) -> (forall b d r, body t o b d <> BFail r) -> exists j, (i <= j)%nat /\ at_rest j t.
    Proof.
      induction k as [|k IH]; intros i t p o Hk Ht Hsi Ho Hw Hf; [lia|].
      destruct (pcop p) as [o1|] eqn:Ep; [|discriminate]. inversion Ho; subst o1; clear Ho.
      assert (Hb : busy p) by (split; [intros m ->; discriminate|destruct p; cbn in *; congruence]).
      destruct (busy_goes i t p Ht Hb) as (j & Hj & Hpj & a & Ha & Hat).
      pose proof (HS j) as Hst. unfold happens in Hst. rewrite Ha in Hst. destruct Hst as (e & He).
      destruct (act_effect _ _ _ _ _ _ He Hat Hpj Hb) as (p' & Hp' & [(m & ->)|(Hop & _ & Hrk & _)]).
      - exists (S j). split; [lia|]. exists m. exact Hp'.
      - assert (Hsi' : simple p' = true) by (eapply simple_step; eauto; congruence).
        destruct (IH (S j) t p' o) as (j2 & Hj2 & H2); auto.
        + destruct Hrk as [Hx|[Hx|(_ & Hx)]]; [destruct p'; discriminate|lia|destruct p; discriminate].
        + congruence.
        + exists j2. split; [lia|exact H2].
    Qed.

    (** ** Broadcast: the data stays ready *)
    Section Ready.
      Variable ready : D -> bool.
      Variable i0 : nat.
      Hypothesis b_wait : forall t o b d, body t o b d = BWait -> ready d = false.
      Hypothesis Hready : forall i, (i0 <= i)%nat -> ready (snd (fst (cf i))) = true.
      Hypothesis HB : forall i, BInv SP ready (cf i).
      Hypothesis HComp : forall i t m o ob b d, nth_error (snd (cf i)) t = Some (PComp m o ob b d) -> d = snd (fst (cf i)).
      Hypothesis no_outer : outer = false.

      Lemma no_falls i t : (i0 <= i)%nat -> ~ falls_asleep i t.
      Proof.
        intros Hi (p & p' & Hp & Hs & Hp' & Hs').
        pose proof (HS i) as Hst. unfold happens in Hst. destruct (acts_dec i t) as [(a & Ha & Hat)|Hn].
        - rewrite Ha in Hst. destruct Hst as (e & He). pose proof (Hready i Hi) as Hrd. pose proof (HB i) as (_ & HB2). pose proof (HComp i t) as HCp.
          destruct (cf i) as [[hd d] ths]. destruct a as [|u ch]; [contradiction|]. cbn in Hat. subst u. cbn [fst snd] in *. unfold mon_step, tstep in He. rewrite Hp in He.
          destruct p'; try discriminate.
          pose proof (nth_error_Some ths t) as Hlen; rewrite Hp in Hlen; assert (Hl : (t < length ths)%nat) by (apply Hlen; discriminate); clear Hlen.
          assert (U : forall (l : list pc) q, length l = length ths -> nth_error (upd l t q) t = Some q) by (intros l q El; apply nth_upd_lt; rewrite El; exact Hl).
          destruct p; cbn [mon_ret] in He; try discriminate.
          + cbn [mon_run] in He. destruct (thr o0), ch, hd; inversion He as [[E1 E2]]; clear He; rewrite <- E1 in Hp'; cbn [snd] in Hp'; rewrite U in Hp' by reflexivity; discriminate.
          + inversion He as [[E1 E2]]; clear He; rewrite <- E1 in Hp'; cbn [snd] in Hp'; rewrite U in Hp' by reflexivity; discriminate.
          + specialize (HCp _ _ _ _ _ Hp). subst d0. cbn [mon_run] in He. destruct (body t o0 b d) as [d' r nt| |r] eqn:Eb.
            * inversion He as [[E1 E2]]; clear He; rewrite <- E1 in Hp'; cbn [snd] in Hp'; rewrite U in Hp' by reflexivity; destruct nt; discriminate.
            * apply b_wait in Eb. congruence.
            * inversion He as [[E1 E2]]; clear He; rewrite <- E1 in Hp'; cbn [snd] in Hp'; rewrite U in Hp' by reflexivity; discriminate.
          + apply (HB2 _ _ _ _ Hp).
          + cbn [mon_run] in He. destruct hd; [discriminate|].
            destruct (timed o0), b, ch; try discriminate; try (destruct inner; [|discriminate]); inversion He as [[E1 E2]]; clear He; rewrite <- E1 in Hp'; cbn [snd] in Hp'; rewrite U in Hp' by reflexivity; discriminate.
          + cbn [mon_run] in He.
            destruct nt; [|destruct (existsb asleep ths); [destruct ch; try discriminate; destruct (nth_error ths u) as [[]|]; try discriminate|]|];
              inversion He as [[E1 E2]]; clear He; rewrite <- E1 in Hp'; cbn [snd] in Hp'; rewrite U in Hp' by (rewrite ?upd_length, ?map_length; reflexivity); discriminate.
          + cbn [mon_run] in He. destruct outer, ch; inversion He as [[E1 E2]]; clear He; rewrite <- E1 in Hp'; cbn [snd] in Hp'; rewrite U in Hp' by reflexivity; discriminate.
          + inversion He as [[E1 E2]]; clear He; rewrite <- E1 in Hp'; cbn [snd] in Hp'; rewrite U in Hp' by reflexivity; discriminate.
          + inversion He as [[E1 E2]]; clear He; rewrite <- E1 in Hp'; cbn [snd] in Hp'; rewrite U in Hp' by reflexivity; discriminate.
        - destruct (ac i) as [a|].
          + destruct Hst as (e & He). assert (Hpr : (exists m, p = PRest m) \/ busy p).
            { destruct p; try (right; split; [intros ? ?; discriminate|exact Hs]). left; eauto. }
            destruct Hpr as [(m & ->)|Hb].
            * remember (cf (S i)) as cS eqn:EcS. clear EcS. destruct (cf i) as [[hd d] ths]. cbn [snd] in *.
              destruct (tstep_cases _ _ _ _ _ _ _ _ He) as [(u & o1 & q & q' & -> & Hq & Hc & E & _)|[(u & ch & q & o1 & r & q' & -> & Hq & Hc & E & _)|(u & ch & q & -> & Hq & Hc & Hrun & _)]]; try (rewrite E in Hp'; cbn [snd] in Hp').
              -- destruct (nth_upd_inv _ _ _ _ _ Hp') as [(<- & -> & _)|(Hne & Hu)].
                 ++ rewrite Hq in Hp. inversion Hp; subst. cbn in Hc. destruct (pre SP m o1); inversion Hc; subst. discriminate.
                 ++ rewrite Hp in Hu. inversion Hu; subst. discriminate.
              -- assert (Hne : u <> t) by (intros ->; apply (Hn _ eq_refl); reflexivity). rewrite nth_upd_neq in Hp' by exact Hne. rewrite Hp in Hp'. inversion Hp'; subst. discriminate.
              -- assert (Hne : u <> t) by (intros ->; apply (Hn _ eq_refl); reflexivity).
                 destruct q; cbn [mon_run] in Hrun; try discriminate;
                   repeat match type of Hrun with
                          | context [match ?x with _ => _ end] => match x with | nth_error _ _ => fail 1 | _ => destruct x end; try discriminate
                          end; try (inversion Hrun; subst; clear Hrun; cbn [snd] in *; rewrite nth_upd_neq in Hp' by exact Hne; rewrite Hp in Hp'; inversion Hp'; subst; discriminate).
                 ++ destruct (nth_error ths u0) as [[]|] eqn:E0; try discriminate. inversion Hrun; subst; clear Hrun; cbn [snd] in *.
                    rewrite nth_upd_neq in Hp' by exact Hne. rewrite nth_upd_neq in Hp'; [rewrite Hp in Hp'; inversion Hp'; subst; discriminate|]. intros ->. rewrite E0 in Hp. discriminate.
                 ++ inversion Hrun; subst; clear Hrun; cbn [snd] in *. rewrite nth_upd_neq in Hp' by exact Hne. rewrite nth_error_map, Hp in Hp'. cbn in Hp'. inversion Hp'; subst. discriminate.
            * rewrite (keeps _ _ _ _ _ _ He (Hn _ eq_refl) Hp Hb) in Hp'. inversion Hp'; subst. congruence.
          + rewrite Hst in Hp'. rewrite Hp in Hp'. inversion Hp'; subst. congruence.
      Qed.

      Lemma awake_returns i t p : (i0 <= i)%nat -> nth_error (snd (cf i)) t = Some p -> asleep p = false -> exists j, (i <= j)%nat /\ at_rest j t.
      Proof.
        intros Hi Ht Hs. destruct (pcop p) as [o|] eqn:Eo.
        - destruct (gets_through (S (mrank p)) i t p o) as (j & Hj & [H|H]); auto.
          + split; [intros m ->; discriminate|exact Hs].
          + exists j. auto.
          + exfalso. apply (no_falls j t); [lia|exact H].
        - destruct p; try discriminate. exists i. split; [lia|]. exists m. exact Ht.
      Qed.

      Lemma ready_returns i t : (i0 <= i)%nat -> (t < length (snd (cf i)))%nat -> exists j, (i <= j)%nat /\ at_rest j t.
      Proof.
        intros Hi Hl. destruct (nth_error (snd (cf i)) t) as [p|] eqn:Ht; [|apply nth_error_None in Ht; lia].
        destruct (asleep p) eqn:Es; [|eapply awake_returns; eauto].
        destruct p; try discriminate. destruct (HB i) as (HB1 & _).
        pose proof (sumf_elem (slp SP) _ _ _ (slp_nn SP) Ht) as He. cbn in He.
        destruct (sumf_pos_ex (ball SP) (snd (cf i))) as (u & q & Hu & Hq); [apply HB1; [lia|apply Hready; exact Hi]|].
        destruct q; cbn in Hq; try lia. destruct nt; try lia.
        assert (Hbz : busy (PNotify m0 o0 r NAll)) by (split; [intros ? ?; discriminate|reflexivity]).
        destruct (busy_goes i u _ Hu Hbz) as (k & Hk & Hpk & a & Ha & Hat).
        assert (Hw : exists k b, (i <= k)%nat /\ nth_error (snd (cf k)) t = Some (PWoken m o ob b)).
        { destruct (sleeper_at t m o ob (k - i) i Ht) as [(k' & b & Hk' & H1)|H1]; [exists k', b; split; [lia|exact H1]|].
          replace (i + (k - i))%nat with k in H1 by lia. exists (S k), false. split; [lia|].
          pose proof (HS k) as Hst. unfold happens in Hst. rewrite Ha in Hst. destruct Hst as (e & Hee).
          destruct (cf k) as [[hd d] ths]. destruct a as [|u' ch]; [contradiction|]. cbn in Hat. subst u'. cbn [snd] in *. unfold mon_step, tstep in Hee. rewrite Hpk in Hee. cbn [mon_ret mon_run] in Hee.
          inversion Hee as [[E1 E2]]. cbn [snd]. rewrite nth_upd_neq; [rewrite nth_error_map, H1; reflexivity|]. intros ->. rewrite Hpk in H1. discriminate. }
        destruct Hw as (k2 & b & Hk2 & Hw). destruct (awake_returns k2 t _ ltac:(lia) Hw eq_refl) as (j & Hj & Hr). exists j. split; [lia|exact Hr].
      Qed.
    End Ready.

    (** ** Units that are consumed *)
    Section Take.
      Variable avail : D -> Z.
      Variable waitop : op SP -> bool.
      Variable mi : nat -> mode SP -> D -> Prop.
      Hypothesis no_thr : forall o, thr o = None.
      Hypothesis no_inner : inner = false.
      Hypothesis HM : forall i, MInv SP mi (cf i).
      Hypothesis HW : forall i, WInv SP avail waitop (cf i).
      Hypothesis c_wait : forall i t o b, body t o b (snd (fst (cf i))) = BWait -> (avail (snd (fst (cf i))) <= 0)%Z.
      Hypothesis c_fail : forall i t o b r, body t o b (snd (fst (cf i))) = BFail r -> (avail (snd (fst (cf i))) <= 0)%Z.
      Hypothesis c_take : forall i t o b d' r nt m, mi t m (snd (fst (cf i))) -> pre SP m o = true -> body t o b (snd (fst (cf i))) = BDone d' r nt -> waitop o = true ->
        (avail d' <= Z.max 0 (avail (snd (fst (cf i))) - 1))%Z.

      Definition units (i : nat) : Z := avail (snd (fst (cf i))).
      (** In the step a unit is taken. *)
      Definition taken (i : nat) : Prop := (units (S i) < units i)%Z.

      Lemma kept : forall dd i, (exists k, (i <= k < i + dd)%nat /\ taken k) \/ (units i <= units (i + dd))%Z.
      Proof.
        induction dd as [|dd IH]; intros i; [right; rewrite Nat.add_0_r; lia|].
        destruct (Z_lt_dec (units (S i)) (units i)) as [Hlt|Hge].
        - left. exists i. split; [lia|exact Hlt].
        - destruct (IH (S i)) as [(k & Hk & H)|H]; [left; exists k; split; [lia|exact H]|right]. rewrite Nat.add_succ_r. cbn [Nat.add] in H. lia.
      Qed.

      Definition looking (p : pc) : bool :=
        match p with PLock _ o _ | PRead _ o _ _ | PComp _ o _ _ _ | PWoken _ o _ _ => waitop o | _ => false end.

      Lemma look_take : forall k i t p, (mrank p < k)%nat -> nth_error (snd (cf i)) t = Some p -> looking p = true -> (0 < units i)%Z -> exists j, (i <= j)%nat /\ taken j.
      Proof.
        induction k as [|k IH]; intros i t p Hk Ht Hlook Hu; [lia|].
        assert (Hb : busy p) by (split; [intros m ->; discriminate|destruct p; cbn in *; congruence]).
        destruct (busy_goes i t p Ht Hb) as (j & Hj & Hpj & a & Ha & Hat).
        destruct (kept (j - i) i) as [(k' & Hk' & H1)|H1]; [exists k'; split; [lia|exact H1]|].
        replace (i + (j - i))%nat with j in H1 by lia.
        destruct (Z_lt_dec (units (S j)) (units j)) as [Hlt|Hge]; [exists j; split; [exact Hj|exact Hlt]|].
        assert (G : exists p', nth_error (snd (cf (S j))) t = Some p' /\ looking p' = true /\ (mrank p' < mrank p)%nat).
        { pose proof (HS j) as Hst. unfold happens in Hst. rewrite Ha in Hst. destruct Hst as (e & He).
          pose proof (HM j) as (_ & HL). pose proof (c_wait j) as Hcw. pose proof (c_fail j) as Hcf. pose proof (c_take j) as Hct.
          unfold units in Hge, H1, Hu.
          destruct (cf j) as [[hd d] ths] eqn:Ecf. destruct a as [|u ch]; [contradiction|]. cbn in Hat. subst u. cbn [fst snd] in *. unfold mon_step, tstep in He. rewrite Hpj in He.
          specialize (HL _ _ Hpj).
          pose proof (nth_error_Some ths t) as Hlen; rewrite Hpj in Hlen; assert (Hl : (t < length ths)%nat) by (apply Hlen; discriminate); clear Hlen.
          assert (U : forall (q : pc), nth_error (upd ths t q) t = Some q) by (intros q; apply nth_upd_lt; exact Hl).
          destruct p; cbn in Hlook; try discriminate; cbn [mon_ret mon_run] in He.
          - rewrite no_thr in He. destruct hd; [discriminate|]. inversion He as [[E1 E2]]. cbn [snd]. eexists. split; [apply U|]. split; [exact Hlook|cbn; lia].
          - inversion He as [[E1 E2]]. cbn [snd]. eexists. split; [apply U|]. split; [exact Hlook|destruct b; cbn; lia].
          - cbn in HL. destruct HL as (Hm & Hpre & ->). destruct (body t o b d) as [d' r nt| |r] eqn:Eb.
            + specialize (Hct _ _ _ _ _ _ _ Hm Hpre Eb Hlook). inversion He as [[E1 E2]]. rewrite <- E1 in Hge. cbn [fst snd] in Hge. exfalso. lia.
            + exfalso. apply Hcw in Eb. lia.
            + exfalso. apply Hcf in Eb. lia.
          - destruct hd; [discriminate|]. rewrite no_inner in He.
            destruct (timed o), b, ch; try discriminate; inversion He as [[E1 E2]]; cbn [snd]; eexists; (split; [apply U|]); (split; [exact Hlook|cbn; lia]). }
        destruct G as (p' & Hp' & Hl' & Hr').
        destruct (IH (S j) t p') as (j2 & Hj2 & Hd); [lia|exact Hp'|exact Hl'|lia|]. exists j2. split; [lia|exact Hd].
      Qed.

      Lemma unit_taken i t p : nth_error (snd (cf i)) t = Some p -> looking p = true \/ asleep p = true -> (0 < units i)%Z -> exists j, (i <= j)%nat /\ taken j.
      Proof.
        intros Ht [Hl|Hs] Hu; [apply (look_take (S (mrank p)) i t p); auto|].
        destruct p; try discriminate. destruct (HW i) as (HW1 & HW2).
        pose proof (HW2 _ _ Ht) as Hwo. cbn in Hwo.
        pose proof (sumf_elem (slp SP) _ _ _ (slp_nn SP) Ht) as He. cbn in He.
        destruct (sumf_pos_ex (aw SP waitop) (snd (cf i))) as (u & q & Hq & Haw).
        { unfold units in Hu. specialize (HW1 ltac:(lia)). lia. }
        destruct (looking q) eqn:Elq; [apply (look_take (S (mrank q)) i u q); auto|].
        assert (Eq : exists m0 o0 r, q = PNotify m0 o0 r NOne).
        { destruct q; cbn in Haw, Elq; try lia; try (rewrite Elq in Haw; cbn in Haw; lia). destruct nt; try lia. eauto. }
        destruct Eq as (m0 & o0 & r & ->).
        assert (Hbz : busy (PNotify m0 o0 r NOne)) by (split; [intros ? ?; discriminate|reflexivity]).
        destruct (busy_goes i u _ Hq Hbz) as (k & Hk & Hpk & a & Ha & Hat).
        destruct (sleeper_at t m o ob (k - i) i Ht) as [(k' & b & Hk' & Hw)|Hw].
        - destruct (kept (k' - i) i) as [(k2 & Hk2 & H1)|H1]; [exists k2; split; [lia|exact H1]|].
          replace (i + (k' - i))%nat with k' in H1 by lia.
          destruct (look_take (S (mrank (PWoken m o ob b))) k' t (PWoken m o ob b)) as (j & Hj & Hd); auto; [lia|]. exists j. split; [lia|exact Hd].
        - replace (i + (k - i))%nat with k in Hw by lia.
          destruct (kept (S k - i) i) as [(k2 & Hk2 & H1)|H1]; [exists k2; split; [lia|exact H1]|].
          replace (i + (S k - i))%nat with (S k) in H1 by lia.
          assert (G : exists v m' o' ob', nth_error (snd (cf (S k))) v = Some (PWoken m' o' ob' false)).
          { pose proof (HS k) as Hst. unfold happens in Hst. rewrite Ha in Hst. destruct Hst as (e & Hee).
            destruct (cf k) as [[hd d] ths]. destruct a as [|u' ch]; [contradiction|]. cbn in Hat. subst u'. cbn [snd] in *. unfold mon_step, tstep in Hee. rewrite Hpk in Hee. cbn [mon_ret mon_run] in Hee.
            destruct (existsb asleep ths) eqn:Ex.
            - destruct ch as [| | | |v|]; try discriminate. destruct (nth_error ths v) as [pv|] eqn:Ev; [|discriminate]. destruct pv as [| | | | |m' o' ob'| | | | |]; try discriminate.
              inversion Hee as [[E1 E2]]. cbn [snd]. exists v, m', o', ob'. rewrite nth_upd_neq; [apply nth_upd_lt; apply nth_error_Some; congruence|]. intros ->. rewrite Hpk in Ev. discriminate.
            - exfalso. rewrite <- not_true_iff_false in Ex. apply Ex. apply existsb_exists. exists (PSleep m o ob). split; [eapply nth_error_In; exact Hw|reflexivity]. }
          destruct G as (v & m' & o' & ob' & Hv). destruct (HW (S k)) as (_ & HW3). pose proof (HW3 _ _ Hv) as Hwv. cbn in Hwv.
          destruct (look_take (S (mrank (PWoken m' o' ob' false))) (S k) v (PWoken m' o' ob' false)) as (j & Hj & Hd); auto; [lia|]. exists j. split; [lia|exact Hd].
      Qed.
    End Take.
  End Run.
End FairMon.
