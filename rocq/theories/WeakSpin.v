(** spin_mutex (/repo/include/boost/sync/detail/mutexes/spin_mutex.hpp) on weak memory.  Program points as in SpinModel.v; the state word is location 0,
    with the values 1 (unlocked) and 0 (locked).  The choice of each step is the position of the message read or written. *)
From Coq Require Import List Bool Arith ZArith Lia.
From Verif Require Import ListSum Exec Events Lin MutexSpec SpinModel SpinProof Hb Weak.
Import ListNotations.

(** spin_mutex.hpp 43; the set flag of atomic_flag, 89. *)
Definition vlocked : Z := 0.
(** spin_mutex.hpp 44; the clear flag of atomic_flag, 89. *)
Definition vunlocked : Z := 1.

(** [ttas]: the test-and-test-and-set implementation, lines 57-78; otherwise the atomic_flag one, lines 100-118. *)
Definition wspin_run (ttas : bool) (t : nat) (w : wmem) (ths : list spc) (p : spc) (i : nat) : option (wmem * list spc) :=
  match p with
  | SRest _ | SDone _ _ _ => None
  | SLoad =>      (* 61: load(relaxed) *)
      if ttas then match wload t 0 false i w with
                   | Some (v, w') => Some (w', upd ths t (if (v =? vunlocked)%Z then SXchg else SLoad))
                   | None => None
                   end
      else None
  | SXchg =>      (* 71: exchange(locked, acquire); 112: test_and_set(acquire) *)
      match wrmw t 0 true false (fun _ => vlocked) i w with
      | Some (v, w') => Some (w', upd ths t (if (v =? vunlocked)%Z then SDone false MLock ROk else if ttas then SLoad else SXchg))
      | None => None
      end
  | STry m =>     (* 71, 112 *)
      match wrmw t 0 true false (fun _ => vlocked) i w with
      | Some (v, w') => Some (w', upd ths t (SDone m MTryLock (if (v =? vunlocked)%Z then RTrue else RFalse)))
      | None => None
      end
  | SStore =>     (* 77: store(unlocked, release); 117: clear(release) *)
      match wstore t 0 true vunlocked i w with
      | Some w' => Some (w', upd ths t (SDone true MUnlock ROk))
      | None => None
      end
  end.
(** Entry points, spin_mutex.hpp 57-78, 100-118. *)
Definition wspin_call (ttas : bool) (p : spc) (o : mop) : option spc :=
  match p with
  | SRest m => if mpre m o then (if ttas then ttas_entry m o else tas_entry m o) else None
  | _ => None
  end.
(** Return to the caller, spin_mutex.hpp 57-78, 100-118. *)
Definition wspin_ret (p : spc) : option (mop * mres * spc) :=
  match p with SDone m o r => Some (o, r, SRest (mnext m o r)) | _ => None end.
(** Interleaving of any number of threads on weak memory.  spin_mutex.hpp 57-78, 100-118. *)
Definition wspin_step (ttas : bool) := wstep (wspin_call ttas) wspin_ret (wspin_run ttas) 1.
(** spin_mutex.hpp 48-50, 92-95. *)
Definition wspin_init (n : nat) : wmem * list spc := (wm0 (fun _ => vunlocked), repeat (SRest false) n).

Lemma wspin_mono ttas t w ths p i w' ths' : wspin_run ttas t w ths p i = Some (w', ths') -> kmono w w'.
Proof.
  destruct p; cbn [wspin_run]; try discriminate.
  - destruct ttas; [|discriminate]. destruct (wload _ _ _ _ _) as [[v w1]|] eqn:E; [|discriminate]. intros H; injection H as <- <-. eapply wload_mono; eauto.
  - destruct (wrmw _ _ _ _ _ _ _) as [[v w1]|] eqn:E; [|discriminate]. intros H; injection H as <- <-. eapply wrmw_mono; eauto.
  - destruct (wrmw _ _ _ _ _ _ _) as [[v w1]|] eqn:E; [|discriminate]. intros H; injection H as <- <-. eapply wrmw_mono; eauto.
  - destruct (wstore _ _ _ _ _ _) as [w1|] eqn:E; [|discriminate]. intros H; injection H as <- <-. eapply wstore_mono; eauto.
Qed.

(** The unlock() calls so far, with what the callers knew. Proof or specification device; no counterpart in /repo. *)
Definition wunl (tr : list (hev (event mop mres))) (K : list nat) : Prop := exists u, In (HEv (Call u MUnlock) K) tr.
Lemma wunl_app tr e K : wunl (tr ++ e) K -> wunl tr K \/ exists u, In (HEv (Call u MUnlock) K) e.
Proof. intros (u & H). apply in_app_or in H. destruct H; [left; exists u; auto|right; eauto]. Qed.

(** Directly after an unlocking message there is only the exchange that took the mutex. Proof or specification device; no counterpart in /repo. *)
Definition taken_by_rmw (h : list msg) : Prop := forall h1 m x h2, h = h1 ++ m :: x :: h2 -> mval m = vunlocked -> mrmw x = true.

(** Proof or specification device; no counterpart in /repo. *)
Definition wfree (w : wmem) (ths : list spc) (tr : list (hev (event mop mres))) : Prop :=
  (forall t p, nth_error ths t = Some p -> sholds p = false) /\
  exists h1 m, hist w 0 = h1 ++ [m] /\ mval m = vunlocked /\ forall K, wunl tr K -> incl K (mrel m).
(** Proof or specification device; no counterpart in /repo. *)
Definition wheld (w : wmem) (ths : list spc) (tr : list (hev (event mop mres))) (t : nat) : Prop :=
  (forall u p, nth_error ths u = Some p -> sholds p = true -> u = t) /\
  (exists h1 m h2, hist w 0 = h1 ++ m :: h2 /\ In (mid m) (wkn w t) /\ Forall (fun x => mval x = vlocked) (m :: h2) /\ Forall (fun x => mrmw x = true) h2) /\
  (exists p, nth_error ths t = Some p /\ sholds p = true) /\ forall K, wunl tr K -> incl K (wkn w t).
(** Proof or specification device; no counterpart in /repo. *)
Definition WI (c : wmem * list spc) (tr : list (hev (event mop mres))) : Prop :=
  taken_by_rmw (hist (fst c) 0) /\ (wfree (fst c) (snd c) tr \/ exists t, wheld (fst c) (snd c) tr t).

Lemma room_last h i m : taken_by_rmw h -> nth_error h i = Some m -> mval m = vunlocked -> room h i = true -> exists h1, h = h1 ++ [m] /\ S i = length h.
Proof.
  intros G Hn Hv Rm. destruct (nth_error_split _ _ Hn) as (h1 & h2 & E & Hl). destruct h2 as [|x h2].
  - exists h1. rewrite E, app_length. cbn. split; [reflexivity|lia].
  - exfalso. pose proof (G _ _ _ _ E Hv) as Hx. unfold room in Rm. rewrite E in Rm.
    replace (nth_error (h1 ++ m :: x :: h2) (S i)) with (Some x) in Rm; [rewrite Hx in Rm; discriminate|].
    rewrite nth_error_app2 by lia. replace (S i - length h1) with 1 by lia. reflexivity.
Qed.

Lemma taken_insert h i m x : taken_by_rmw h -> nth_error h i = Some m -> mval m <> vunlocked -> mval x <> vunlocked -> taken_by_rmw (insert h i x).
Proof.
  intros G Hn Hm Hx. destruct (insert_split h i m x Hn) as (h1 & h2 & E & Ei & Hl). rewrite Ei. intros a y z b Eq Hy.
  apply app_cut in Eq. destruct Eq as [(b' & E1 & E2)|(a' & -> & E1)].
  - destruct b' as [|z' b']; cbn in E2.
    + injection E2 as -> _. apply (G a y m h2); auto. rewrite E, E1, <- app_assoc. reflexivity.
    + injection E2 as -> E2. apply (G a y z' (b' ++ m :: h2)); auto. rewrite E, E1, <- app_assoc. reflexivity.
  - destruct a' as [|q a']; cbn in E1; injection E1 as F E1.
    + subst. contradiction.
    + destruct a' as [|q2 a']; cbn in E1; injection E1 as F2 E1; [subst; contradiction|].
      apply (G (h1 ++ m :: a') y z b); auto. rewrite E, E1, <- app_assoc. reflexivity.
Qed.
Lemma taken_append h x : taken_by_rmw h -> (forall h1 m, h = h1 ++ [m] -> mval m = vunlocked -> mrmw x = true) -> taken_by_rmw (h ++ [x]).
Proof.
  intros G Hl a y z b Eq Hy. destruct b as [|b0 b] using rev_ind.
  - change (a ++ [y; z]) with (a ++ [y] ++ [z]) in Eq. rewrite app_assoc in Eq. apply app_inj_tail in Eq. destruct Eq as (-> & <-). eapply Hl; eauto.
  - clear IHb. replace (a ++ y :: z :: b ++ [b0]) with ((a ++ y :: z :: b) ++ [b0]) in Eq by (rewrite <- app_assoc; reflexivity).
    apply app_inj_tail in Eq. destruct Eq as (-> & _). eapply G; eauto.
Qed.

(** Inserting a locking message after position [i] keeps a held word held and, if the message read was locked, a free word free. *)
Lemma held_insert h h1 m h2 i y x : h = h1 ++ m :: h2 -> nth_error h i = Some y -> mval x = vlocked -> mrmw x = true ->
  Forall (fun x => mval x = vlocked) (m :: h2) -> Forall (fun x => mrmw x = true) h2 ->
  exists h1' h2', insert h i x = h1' ++ m :: h2' /\ Forall (fun x => mval x = vlocked) (m :: h2') /\ Forall (fun x => mrmw x = true) h2'.
Proof.
  intros E Hn Hx Hr F1 F2. destruct (insert_split h i y x Hn) as (a & b & Ea & Ei & Hl). rewrite Ei. rewrite E in Ea.
  apply app_cut in Ea. destruct Ea as [(b' & E1 & E2)|(a' & E1 & E2)].
  - exists (a ++ y :: x :: b'), h2. rewrite E2, <- app_assoc. cbn. auto.
  - destruct a' as [|q a']; cbn in E2; injection E2 as F E2.
    + rewrite app_nil_r in E1. subst a y b. exists h1, (x :: h2). split; [reflexivity|]. inversion F1; subst. split; repeat constructor; auto.
    + subst q. exists h1, (a' ++ y :: x :: b). subst a. split; [rewrite <- app_assoc; reflexivity|].
      pose proof (Forall_inv F1) as Fm. pose proof (Forall_inv_tail F1) as F3. rewrite E2 in F3, F2. apply Forall_app in F3, F2. destruct F3 as (F31 & F32), F2 as (F21 & F22). inversion F32; inversion F22; subst.
      split; [constructor; [auto|]|]; apply Forall_app; split; auto.
Qed.

Section Inv.
  Variable ttas : bool.

  (** The exchange. *)
  Lemma wxchg_ok w ths tr t p i v w' : WI (w, ths) tr -> nth_error ths t = Some p ->
    wrmw t 0 true false (fun _ => vlocked) i w = Some (v, w') ->
    (v = vunlocked -> sholds p = false /\ forall p', sholds p' = true -> WI (w', upd ths t p') tr) /\
    (v <> vunlocked -> forall p', sholds p' = sholds p -> WI (w', upd ths t p') tr).
  Proof.
    intros (G & HC) Ht Hm. cbn [fst snd] in *. pose proof (wrmw_mono _ _ _ _ _ _ _ _ _ Hm) as Hmono.
    destruct (wrmw_inv _ _ _ _ _ _ _ _ _ Hm) as (m & Hi & R & Rm & -> & Hh & Hk & Hnid & Hfen & Hu & Hkt). cbn zeta in *.
    set (x := Msg _ _ _ true) in Hh. split.
    - intros Hv. destruct (room_last _ _ _ G Hi Hv Rm) as (h1 & E & Hl). rewrite (insert_end _ _ _ Hl) in Hh.
      destruct HC as [(Hno & h1' & m' & E' & Hv' & HK)|(u & _ & (h1' & m' & h2 & E' & _ & F & _) & _)].
      + rewrite E in E'. apply app_inj_tail in E'. destruct E' as (_ & <-). split; [apply (Hno _ _ Ht)|]. intros p' Hp'. split; cbn [fst snd].
        * rewrite Hh. apply taken_append; [exact G|]. intros; reflexivity.
        * right. exists t. split; [|split; [|split]].
          -- intros u q Hq Hq1. destruct (nth_upd_inv _ _ _ _ _ Hq) as [(-> & _ & _)|(_ & Hq2)]; [reflexivity|]. rewrite (Hno _ _ Hq2) in Hq1. discriminate.
          -- exists (hist w 0), x, []. rewrite Hh, Hkt. split; [reflexivity|]. split; [left; reflexivity|]. split; repeat constructor.
          -- exists p'. split; [|exact Hp']. eapply nth_upd_eq; eauto.
          -- intros K HK1. rewrite Hkt. apply incl_tl, incl_appl. apply HK. exact HK1.
      + exfalso. assert (Hin : In m (m' :: h2)).
        { rewrite E in E'. destruct h2 as [|z h2] using rev_ind; [apply app_inj_tail in E'; destruct E' as (_ & ->); left; reflexivity|].
          clear IHh2. replace (h1' ++ m' :: h2 ++ [z]) with ((h1' ++ m' :: h2) ++ [z]) in E' by (rewrite <- app_assoc; reflexivity). apply app_inj_tail in E'. destruct E' as (_ & ->).
          right. apply in_or_app. right. left. reflexivity. }
        rewrite Forall_forall in F. specialize (F _ Hin). unfold vlocked, vunlocked in *. lia.
    - intros Hv p' Hp'. split; cbn [fst snd].
      { rewrite Hh. apply (taken_insert _ _ m _ G Hi Hv). cbn. discriminate. }
      destruct HC as [(Hno & h1' & m' & E' & Hv' & HK)|(u & Hun & (h1' & m' & h2 & E' & Hid & F1 & F2) & (q & Hq & Hq1) & HK)].
      + left. split.
        * intros u q Hq. destruct (nth_upd_inv _ _ _ _ _ Hq) as [(-> & -> & _)|(_ & Hq2)]; [rewrite Hp'; eauto|eauto].
        * destruct (insert_split _ _ _ x Hi) as (h1 & h2 & E & Ei & Hle). destruct h2 as [|z h2] using rev_ind.
          -- exfalso. rewrite E in E'. apply app_inj_tail in E'. destruct E' as (_ & ->). contradiction.
          -- clear IHh2. exists (h1 ++ m :: x :: h2), z. rewrite Hh, Ei, <- app_assoc. cbn [app]. split; [reflexivity|].
             replace (h1 ++ m :: h2 ++ [z]) with ((h1 ++ m :: h2) ++ [z]) in E by (rewrite <- app_assoc; reflexivity). rewrite E in E'. apply app_inj_tail in E'. destruct E' as (_ & ->). auto.
      + right. exists u. split; [|split; [|split]].
        * intros u' q' Hq' Hq1'. destruct (nth_upd_inv _ _ _ _ _ Hq') as [(-> & -> & _)|(_ & Hq2)]; [rewrite Hp' in Hq1'; eauto|eauto].
        * destruct (held_insert _ _ _ _ _ _ x E' Hi eq_refl eq_refl F1 F2) as (a & b & Ei & F1' & F2'). exists a, m', b. rewrite Hh. split; [exact Ei|]. split; [apply Hmono; exact Hid|auto].
        * destruct (Nat.eq_dec t u) as [->|Hn].
          -- exists p'. split; [eapply nth_upd_eq; eauto|]. rewrite Hp'. congruence.
          -- exists q. rewrite nth_upd_neq by auto. auto.
        * intros K HK1. eapply incl_tran; [apply HK; exact HK1|apply Hmono].
  Qed.

  (** Steps that do not change location 0. *)
  Lemma WI_same w w' ths ths' tr tr' : WI (w, ths) tr -> hist w' 0 = hist w 0 -> kmono w w' ->
    (forall u q', nth_error ths' u = Some q' -> exists q, nth_error ths u = Some q /\ sholds q' = sholds q) ->
    (forall u q, nth_error ths u = Some q -> exists q', nth_error ths' u = Some q' /\ sholds q' = sholds q) ->
    (forall K, wunl tr' K -> wunl tr K \/ (exists u q, nth_error ths u = Some q /\ sholds q = true /\ K = wkn w u)) -> WI (w', ths') tr'.
  Proof.
    intros (G & HC) Hh Hm H1 H2 H3. cbn [fst snd] in *. split; cbn [fst snd]; [rewrite Hh; exact G|].
    destruct HC as [(Hno & h1' & m' & E' & Hv' & HK)|(u & Hun & (h1' & m' & h2 & E' & Hid & F1 & F2) & (q & Hq & Hq1) & HK)].
    - left. split.
      + intros u q' Hq. destruct (H1 _ _ Hq) as (q & Hq0 & ->). eauto.
      + exists h1', m'. rewrite Hh. split; [exact E'|]. split; [exact Hv'|]. intros K HK1. destruct (H3 _ HK1) as [HK2|(u & q & Hq & Hs & _)]; [auto|]. rewrite (Hno _ _ Hq) in Hs. discriminate.
    - right. exists u. split; [|split; [|split]].
      + intros u' q' Hq' Hs. destruct (H1 _ _ Hq') as (q0 & Hq0 & Es). rewrite Es in Hs. eauto.
      + exists h1', m', h2. rewrite Hh. split; [exact E'|]. split; [apply Hm; exact Hid|auto].
      + destruct (H2 _ _ Hq) as (q' & Hq' & Es). exists q'. split; [exact Hq'|congruence].
      + intros K HK1. eapply incl_tran; [|apply Hm]. destruct (H3 _ HK1) as [HK2|(u' & q' & Hq' & Hs & ->)]; [auto|]. rewrite (Hun _ _ Hq' Hs). apply incl_refl.
  Qed.
  Lemma same_upd (ths : list spc) t p p' : nth_error ths t = Some p -> sholds p' = sholds p ->
    (forall u q', nth_error (upd ths t p') u = Some q' -> exists q, nth_error ths u = Some q /\ sholds q' = sholds q) /\
    (forall u q, nth_error ths u = Some q -> exists q', nth_error (upd ths t p') u = Some q' /\ sholds q' = sholds q).
  Proof.
    intros Ht Hs. split.
    - intros u q' Hq. destruct (nth_upd_inv _ _ _ _ _ Hq) as [(-> & -> & _)|(_ & Hq2)]; eauto.
    - intros u q Hq. destruct (Nat.eq_dec t u) as [->|Hn]; [exists p'; split; [eapply nth_upd_eq; eauto|congruence]|exists q; rewrite nth_upd_neq by auto; auto].
  Qed.

  Lemma WI_step c tr a c' e : WI c tr -> wspin_step ttas c a = Some (c', e) -> WI c' (tr ++ e).
  Proof.
    destruct c as [w ths]. intros HI Hs. apply wstep_cases in Hs.
    destruct Hs as [(t & o & p & p' & -> & Ht & Hc & -> & ->)|[(t & ch & p & o & r & p' & -> & Ht & Hr & -> & ->)|[(t & ch & p & -> & Ht & Hr & Hrun & ->)|[(t & -> & -> & ->)|(t & l & o & i & v & w' & -> & Hl & Hc & -> & ->)]]]].
    - destruct p; cbn in Hc; try discriminate. destruct (mpre m o) eqn:Hp; [|discriminate].
      assert (Hho : sholds p' = m).
      { destruct ttas, o; cbn in Hc; try discriminate; injection Hc as <-; cbn in *; destruct m; auto; discriminate. }
      destruct (same_upd ths t (SRest m) p' Ht Hho) as (S1 & S2).
      eapply WI_same; eauto; [apply kmono_refl|]. intros K HK. apply wunl_app in HK. destruct HK as [|(u & [F|[]])]; [auto|]. injection F as -> -> <-. right.
      exists u, (SRest m). split; [exact Ht|]. split; [|reflexivity]. cbn in *. exact Hp.
    - destruct p; cbn in Hr; try discriminate. injection Hr as -> -> <-.
      destruct (same_upd ths t (SDone m o r) (SRest (mnext m o r)) Ht eq_refl) as (S1 & S2).
      eapply WI_same; eauto; [apply kmono_refl|]. intros K HK. apply wunl_app in HK. destruct HK as [|(u & [F|[]])]; [auto|discriminate].
    - rewrite app_nil_r. destruct p; cbn [wspin_run] in Hrun; try discriminate.
      + destruct ttas; [|discriminate]. destruct (wload _ _ _ _ _) as [[v w1]|] eqn:E; [|discriminate]. injection Hrun as <-.
        destruct (wload_inv _ _ _ _ _ _ _ E) as (m & _ & _ & _ & Hh & _).
        destruct (same_upd ths t SLoad (if (v =? vunlocked)%Z then SXchg else SLoad) Ht ltac:(destruct (v =? vunlocked)%Z; reflexivity)) as (S1 & S2).
        eapply WI_same; eauto; [rewrite Hh; reflexivity|eapply wload_mono; eauto].
      + destruct (wrmw _ _ _ _ _ _ _) as [[v w1]|] eqn:E; [|discriminate]. injection Hrun as <-. destruct (wxchg_ok _ _ _ _ _ _ _ _ HI Ht E) as (X1 & X2).
        destruct (Z.eqb_spec v vunlocked) as [Hv|Hv]; [apply (proj2 (X1 Hv)); reflexivity|apply (X2 Hv); destruct ttas; reflexivity].
      + destruct (wrmw _ _ _ _ _ _ _) as [[v w1]|] eqn:E; [|discriminate]. injection Hrun as <-. destruct (wxchg_ok _ _ _ _ _ _ _ _ HI Ht E) as (X1 & X2).
        destruct (Z.eqb_spec v vunlocked) as [Hv|Hv]; [apply (proj2 (X1 Hv)); reflexivity|apply (X2 Hv); reflexivity].
      + destruct (wstore _ _ _ _ _ _) as [w1|] eqn:E; [|discriminate]. injection Hrun as <-. destruct HI as (G & HC). cbn [fst snd] in *.
        destruct HC as [(Hno & _)|(u & Hun & (h1 & m & h2 & E' & Hid & F1 & F2) & (q & Hq & Hq1) & HK)]; [specialize (Hno _ _ Ht); discriminate|].
        assert (t = u) as <- by (apply (Hun _ _ Ht eq_refl)).
        destruct (wstore_inv _ _ _ _ _ _ _ E) as (y & Hi & R & Rm & Hh & Hk & Hnid & Hfen & Hu & Hkt).
        assert (Hend : S ch = length (hist w 0)).
        { rewrite E' in *. eapply room_end; eauto. apply nth_error_Some. congruence. }
        rewrite (insert_end _ _ _ Hend) in Hh. split; cbn [fst snd].
        * rewrite Hh. apply taken_append; [exact G|]. intros a b Eab Hb. exfalso. rewrite Eab in E'.
          assert (Hin : In b (m :: h2)).
          { destruct h2 as [|z h2] using rev_ind; [apply app_inj_tail in E'; destruct E' as (_ & ->); left; reflexivity|].
            clear IHh2. replace (h1 ++ m :: h2 ++ [z]) with ((h1 ++ m :: h2) ++ [z]) in E' by (rewrite <- app_assoc; reflexivity). apply app_inj_tail in E'. destruct E' as (_ & ->).
            right. apply in_or_app. right. left. reflexivity. }
          rewrite Forall_forall in F1. specialize (F1 _ Hin). unfold vlocked, vunlocked in *. lia.
        * left. split.
          -- intros u q0 Hq0. destruct (nth_upd_inv _ _ _ _ _ Hq0) as [(-> & -> & _)|(Hn & Hq2)]; [reflexivity|]. destruct (sholds q0) eqn:Es; [|reflexivity]. exfalso. apply Hn. symmetry. eapply Hun; eauto.
          -- exists (hist w 0). eexists. split; [exact Hh|]. split; [reflexivity|]. cbn [mrel]. exact HK.
    - eapply WI_same with (ths := ths); eauto; [apply wwork_mono|]. intros K HK. apply wunl_app in HK. destruct HK as [|(u & [F|[]])]; [auto|discriminate].
    - rewrite app_nil_r. destruct (wclient_inv _ _ _ _ _ _ _ Hc) as (Hm & Hk & _). eapply WI_same with (ths := ths); eauto. apply Hk. lia.
  Qed.

  Lemma WI_init n : WI (wspin_init n) [].
  Proof.
    split; cbn [wspin_init fst snd wm0 hist].
    - intros h1 m x h2 E. destruct h1 as [|? [|]]; discriminate.
    - left. split.
      + intros t p H. apply nth_repeat in H. subst. reflexivity.
      + exists [], (Msg 0 vunlocked [] false). repeat split. intros K (u & []).
  Qed.

  Lemma WI_exec n sched c tr : exec (wspin_step ttas) (wspin_init n) sched = Some (c, tr) -> WI c tr.
  Proof. apply exec_inv; [apply WI_init|]. intros c1 t1 a c2 e. apply WI_step. Qed.

  Lemma wspin_pub n sched c tr a u K b t o r K' d :
    exec (wspin_step ttas) (wspin_init n) sched = Some (c, tr) ->
    tr = a ++ HEv (Call u MUnlock) K :: b ++ HEv (Ret t o r) K' :: d -> mnext false o r = true -> incl K K'.
  Proof.
    intros H E0 Hgot.
    apply (exec_events _ WI (fun a x => match x with HEv (Ret t o r) K' => mnext false o r = true -> forall K, wunl a K -> incl K K' | _ => True end) (wspin_init n))
      with (a := a ++ HEv (Call u MUnlock) K :: b) (x := HEv (Ret t o r) K') (b := d) in H.
    - apply H; [exact Hgot|]. exists u. apply in_or_app. right. left. reflexivity.
    - apply WI_init.
    - intros c1 t1 a1 c2 e1. apply WI_step.
    - intros [w ths] t1 a1 c2 es d1 x b1 (G & HC) Hs He1. cbn [fst snd] in *. destruct x as [|[|t0 o0 r0] K0]; [exact I|exact I|]. intros Hg K1 HK1. apply wstep_cases in Hs.
      assert (Hone : forall y, es = [y] -> d1 = [] /\ y = HEv (Ret t0 o0 r0) K0).
      { intros y ->. destruct d1 as [|? [|]]; inversion He1; auto. }
      destruct Hs as [(? & ? & ? & ? & _ & _ & _ & _ & E)|[(t2 & ch & p & o2 & r2 & p' & _ & Ht & Hr & _ & E)|[(? & ? & ? & _ & _ & _ & _ & E)|[(t3 & _ & _ & E)|(? & ? & ? & ? & ? & ? & _ & _ & _ & _ & E)]]]].
      + destruct (Hone _ E) as (_ & F). discriminate.
      + destruct (Hone _ E) as (-> & F). injection F as -> -> -> <-. rewrite app_nil_r in HK1. destruct p; cbn in Hr; try discriminate. injection Hr as -> -> <-.
        assert (Hh : sholds (SDone m o0 r0) = true) by (destruct o0, r0; cbn in *; try discriminate; auto).
        destruct HC as [(Hno & _)|(v & Hun & _ & _ & HK)]; [rewrite (Hno _ _ Ht) in Hh; discriminate|]. rewrite (Hun _ _ Ht Hh). auto.
      + rewrite E in He1. destruct d1; discriminate.
      + destruct (Hone _ E) as (_ & F). discriminate.
      + rewrite E in He1. destruct d1; discriminate.
    - rewrite E0, <- app_assoc. reflexivity.
  Qed.
End Inv.
