(** Happens-before layer over the interleaving models.

    Every thread carries the set of pieces of work (tokens) that happen before its present point ([kn]); every atomic object carries the set that
    a read-acquire of its present value synchronises with ([mem], the release sequence headed by the last release); [fen] is what a thread
    published with its last release fence.  Rules of the C++ memory model for one release sequence:
      - an acquire operation adds [mem] of the object to the thread;
      - a release store replaces [mem] by what the thread knows, a relaxed store by what its last release fence covered;
      - a read-modify-write continues the release sequence: it only adds to [mem];
      - a release fence records what the thread knows.
    Simplification: all atomic operations of a run are in one interleaving order and a load returns the latest value (always so for
    read-modify-writes; a plain load could also return an older value, and would then synchronise with less).  Acquire fences and consume do not occur in
    the code.  Support library; nothing here models code of /repo. *)
From Coq Require Import List Bool Arith Lia.
From Verif Require Import Exec Events.
Import ListNotations.

(** C++ language rule (memory model); no counterpart in /repo. *)
Inductive mact :=
| MLoad (acq : bool) (l : nat)            (* load; also a compare-exchange that fails, with its failure order *)
| MStore (rel : bool) (l : nat)
| MRmw (acq rel : bool) (l : nat)         (* exchange, fetch_xxx, a compare-exchange that succeeds *)
| MFence.                                 (* atomic_thread_fence(memory_order_release) *)

(** C++ language rule (memory model); no counterpart in /repo. *)
Record hst := Hst { kn : nat -> list nat; mem : nat -> list nat; fen : nat -> list nat }.
(** C++ language rule (memory model); no counterpart in /repo. *)
Definition hst0 : hst := Hst (fun _ => []) (fun _ => []) (fun _ => []).

(** C++ language rule (memory model); no counterpart in /repo. *)
Definition fset {A} (f : nat -> A) (i : nat) (v : A) : nat -> A := fun j => if Nat.eqb i j then v else f j.

(** C++ language rule (memory model); no counterpart in /repo. *)
Definition perform (t : nat) (h : hst) (m : mact) : hst :=
  match m with
  | MLoad acq l => if acq then Hst (fset (kn h) t (mem h l ++ kn h t)) (mem h) (fen h) else h
  | MStore rel l => Hst (kn h) (fset (mem h) l (if rel then kn h t else fen h t)) (fen h)
  | MRmw acq rel l =>
      let k := if acq then mem h l ++ kn h t else kn h t in
      Hst (fset (kn h) t k) (fset (mem h) l ((if rel then k else fen h t) ++ mem h l)) (fen h)
  | MFence => Hst (kn h) (mem h) (fset (fen h) t (kn h t))
  end.
(** C++ language rule (memory model); no counterpart in /repo. *)
Definition performs (t : nat) (l : list mact) (h : hst) : hst := fold_left (perform t) l h.

(** Thread [t] does a piece of work [k] of its own. C++ language rule (memory model); no counterpart in /repo. *)
Definition work (t k : nat) (h : hst) : hst := Hst (fset (kn h) t (k :: kn h t)) (mem h) (fen h).

(** C++ language rule (memory model); no counterpart in /repo. *)
Inductive hact (A : Type) := HDo (t k : nat) | HBase (a : A).
Arguments HDo {A} t k.
Arguments HBase {A} a.

(** Events of a run: pieces of work; the events of the underlying model, each with what the thread that causes it knows at that point. C++ language rule (memory model); no counterpart in /repo. *)
Inductive hev (E : Type) := HWork (t k : nat) | HEv (e : E) (K : list nat).
Arguments HWork {E} t k.
Arguments HEv {E} e K.

Lemma fset_eq {A} (f : nat -> A) i v : fset f i v i = v. Proof. unfold fset. rewrite Nat.eqb_refl. reflexivity. Qed.
Lemma fset_neq {A} (f : nat -> A) i j v : i <> j -> fset f i v j = f j.
Proof. unfold fset. destruct (Nat.eqb_spec i j); congruence. Qed.

Lemma perform_other t u h m : u <> t -> kn (perform t h m) u = kn h u.
Proof. intros H. destruct m as [[] l|r l|q r l|]; cbn; rewrite ?fset_neq by auto; reflexivity. Qed.
Lemma perform_mono t u h m : incl (kn h u) (kn (perform t h m) u).
Proof.
  destruct (Nat.eq_dec u t) as [->|Hn]; [|rewrite perform_other by auto; apply incl_refl].
  destruct m as [[] l|r l|[] r l|]; cbn; rewrite ?fset_eq; try apply incl_refl; apply incl_appr, incl_refl.
Qed.
Lemma performs_other t u l h : u <> t -> kn (performs t l h) u = kn h u.
Proof. intros H. revert h. induction l as [|m l IH]; intros h; cbn; [reflexivity|]. unfold performs in IH. rewrite IH. apply perform_other; auto. Qed.
Lemma performs_mono t u l h : incl (kn h u) (kn (performs t l h) u).
Proof. revert h. induction l as [|m l IH]; intros h; cbn; [apply incl_refl|]. eapply incl_tran; [apply perform_mono|apply IH]. Qed.

(** Operations other than stores only add to [mem]. C++ language rule (memory model); no counterpart in /repo. *)
Definition nostore (m : mact) : bool := match m with MStore _ _ => false | _ => true end.
Lemma perform_mem t h m l : nostore m = true -> incl (mem h l) (mem (perform t h m) l).
Proof.
  destruct m as [[] k|r k|q r k|]; cbn; try discriminate; intros _; try apply incl_refl.
  unfold fset. destruct (Nat.eqb_spec k l) as [->|]; [apply incl_appr, incl_refl|apply incl_refl].
Qed.
Lemma performs_mem t h ms l : forallb nostore ms = true -> incl (mem h l) (mem (performs t ms h) l).
Proof.
  revert h. induction ms as [|m ms IH]; intros h; cbn; [intros; apply incl_refl|]. intros H. apply andb_prop in H. destruct H as (H1 & H2).
  eapply incl_tran; [apply perform_mem; exact H1|apply IH; exact H2].
Qed.

Section Hb.
  Context {C A E : Type}.
  Variable step : C -> A -> option (C * list E).
  Variable who : A -> nat.                    (* the thread that acts *)
  Variable acts : C -> A -> list mact.        (* the atomic operations of the step *)

  Definition hstep (c : C * hst) (a : hact A) : option ((C * hst) * list (hev E)) :=
    match a with
    | HDo t k => Some ((fst c, work t k (snd c)), [HWork t k])
    | HBase a =>
        match step (fst c) a with
        | Some (c', es) =>
            let h' := performs (who a) (acts (fst c) a) (snd c) in
            Some ((c', h'), map (fun e => HEv e (kn h' (who a))) es)
        | None => None
        end
    end.

  Definition base_ev (x : hev E) : list E := match x with HWork _ _ => [] | HEv e _ => [e] end.
  Definition base_act (x : hact A) : list A := match x with HDo _ _ => [] | HBase a => [a] end.

  Lemma base_ev_map (f : E -> list nat) es : flat_map base_ev (map (fun e => HEv e (f e)) es) = es.
  Proof. induction es as [|e es IH]; cbn; congruence. Qed.

  (** A run with knowledge is a run of the underlying model. *)
  Lemma hb_proj c0 h0 sched c h tr : exec hstep (c0, h0) sched = Some ((c, h), tr) ->
    exec step c0 (flat_map base_act sched) = Some (c, flat_map base_ev tr).
  Proof.
    revert c0 h0 tr. induction sched as [|a sched IH]; intros c0 h0 tr H; cbn [exec] in H.
    - inversion H; subst. reflexivity.
    - destruct (hstep (c0, h0) a) as [[[c1 h1] e1]|] eqn:E1; [|discriminate].
      destruct (exec hstep (c1, h1) sched) as [[[c2 h2] e2]|] eqn:E2; [|discriminate]. inversion H; subst; clear H.
      apply IH in E2. rewrite flat_map_app. destruct a as [t k|a]; cbn [hstep fst snd] in E1.
      + inversion E1; subst. cbn. exact E2.
      + destruct (step c0 a) as [[c3 es]|] eqn:Es; [|discriminate]. inversion E1; subst. cbn [flat_map base_act app exec].
        rewrite Es, E2. rewrite (base_ev_map (fun _ => kn (performs (who a) (acts c0 a) h0) (who a))). reflexivity.
  Qed.

  Lemma hstep_mono c h a c' h' e u : hstep (c, h) a = Some ((c', h'), e) -> incl (kn h u) (kn h' u).
  Proof.
    destruct a as [t k|a]; cbn [hstep fst snd].
    - intros H; inversion H; subst. cbn. destruct (Nat.eq_dec t u) as [->|Hn]; [rewrite fset_eq; apply incl_tl, incl_refl|rewrite fset_neq by auto; apply incl_refl].
    - destruct (step c a) as [[c1 es]|]; [|discriminate]. intros H; inversion H; subst. apply performs_mono.
  Qed.

  (** The events of a step belong to the thread that acts. *)
  Variable thr : E -> nat.
  Hypothesis thr_ok : forall c a c' es e, step c a = Some (c', es) -> In e es -> thr e = who a.

  Definition own (c : C * hst) (tr : list (hev E)) : Prop := forall t k, In (HWork t k) tr -> In k (kn (snd c) t).
  Lemma own_step c tr a c' e : own c tr -> hstep c a = Some (c', e) -> own c' (tr ++ e).
  Proof.
    destruct c as [c1 h1], c' as [c2 h2]. intros IH Hs t2 k2 Hin. cbn [snd] in *. apply in_app_or in Hin. destruct Hin as [Hin|Hin].
    - eapply hstep_mono; eauto.
    - destruct a as [t3 k3|a3]; cbn [hstep fst snd] in Hs.
      + inversion Hs; subst. destruct Hin as [Hin|[]]. inversion Hin; subst. cbn. rewrite fset_eq. left; reflexivity.
      + destruct (step c1 a3) as [[c3 es]|]; [|discriminate]. inversion Hs; subst. apply in_map_iff in Hin. destruct Hin as (e & F & _). discriminate.
  Qed.

  (** Program order: what a thread has done itself it knows from then on. *)
  Lemma hb_own c0 sched c tr e K k a b : exec hstep (c0, hst0) sched = Some (c, tr) -> tr = a ++ HEv e K :: b ->
    In (HWork (thr e) k) a -> In k K.
  Proof.
    intros H E0.
    apply (exec_events hstep own (fun a x => match x with HEv e K => forall k, In (HWork (thr e) k) a -> In k K | _ => True end) (c0, hst0)) with (a := a) (x := HEv e K) (b := b) in H; auto.
    - intros t2 k2 [].
    - apply own_step.
    - intros [c1 h1] t1 a1 [c2 h2] es d x b1 Ho Hs He. destruct x as [|e1 K1]; [exact I|]. intros k1 Hin.
      destruct a1 as [t3 k3|a3]; cbn [hstep fst snd] in Hs.
      + inversion Hs; subst. destruct d as [|? [|]]; discriminate.
      + destruct (step c1 a3) as [[c3 es1]|] eqn:Es; [|discriminate]. injection Hs as Hc Hh He1. subst c2.
        assert (Hev : forall y, In y es -> exists e2, y = HEv e2 (kn h2 (who a3)) /\ In e2 es1).
        { intros y Hy. rewrite <- He1 in Hy. apply in_map_iff in Hy. destruct Hy as (e2 & <- & Hy). rewrite <- Hh. eauto. }
        assert (Hin1 : In (HEv e1 K1) es) by (rewrite He; apply in_or_app; right; left; reflexivity).
        destruct (Hev _ Hin1) as (e2 & F & Hin2). inversion F; subst e2 K1.
        apply in_app_or in Hin. destruct Hin as [Hin|Hin].
        * rewrite (thr_ok _ _ _ _ _ Es Hin2) in Hin. rewrite <- Hh. apply performs_mono. apply (Ho _ _ Hin).
        * exfalso. assert (Hd : In (HWork (thr e1) k1) es) by (rewrite He; apply in_or_app; left; exact Hin). destruct (Hev _ Hd) as (e3 & G & _). discriminate.
  Qed.

  (** Invariants, with the reachability of the underlying configuration at hand. *)
  Definition hreach (c0 c : C) : Prop := exists sched tr, exec step c0 sched = Some (c, tr).
  Lemma hreach_step c0 c h a c' h' e : hreach c0 c -> hstep (c, h) a = Some ((c', h'), e) -> hreach c0 c'.
  Proof.
    intros (sched & tr & H) Hs. destruct a as [t k|a]; cbn [hstep fst snd] in Hs.
    - inversion Hs; subst. exists sched, tr. exact H.
    - destruct (step c a) as [[c1 es]|] eqn:E1; [|discriminate]. inversion Hs; subst. exists (sched ++ [a]), (tr ++ es).
      rewrite exec_app, H. cbn [exec]. rewrite E1, app_nil_r. reflexivity.
  Qed.

  Lemma hb_events (P : C * hst -> list (hev E) -> Prop) (Q : list (hev E) -> E -> list nat -> Prop) c0 :
    P (c0, hst0) [] ->
    (forall c h tr t k, hreach c0 c -> P (c, h) tr -> P (c, work t k h) (tr ++ [HWork t k])) ->
    (forall c h tr a c' es, hreach c0 c -> P (c, h) tr -> step c a = Some (c', es) ->
       let h' := performs (who a) (acts c a) h in P (c', h') (tr ++ map (fun e => HEv e (kn h' (who a))) es)) ->
    (forall c h tr a c' es d e b, hreach c0 c -> P (c, h) tr -> step c a = Some (c', es) -> es = d ++ e :: b ->
       let h' := performs (who a) (acts c a) h in Q (tr ++ map (fun e => HEv e (kn h' (who a))) d) e (kn h' (who a))) ->
    forall sched c tr, exec hstep (c0, hst0) sched = Some (c, tr) -> P c tr /\ forall a e K b, tr = a ++ HEv e K :: b -> Q a e K.
  Proof.
    intros P0 Pw Ps Pq sched c tr H.
    assert (G : (hreach c0 (fst c) /\ P c tr) /\ forall a x b, tr = a ++ x :: b -> match x with HEv e K => Q a e K | _ => True end); [|split; [tauto|intros a e K b E0; exact (proj2 G a (HEv e K) b E0)]].
    revert H. apply (exec_inv hstep (fun c tr => (hreach c0 (fst c) /\ P c tr) /\ forall a x b, tr = a ++ x :: b -> match x with HEv e K => Q a e K | _ => True end)).
    - split; [split; [exists [], []; reflexivity|exact P0]|]. intros a x b E0. destruct a; discriminate.
    - intros [c1 h1] t1 a1 [c2 h2] e1 ((HR & HP) & HQ) Hs. cbn [fst] in *. split; [split|].
      + eapply hreach_step; eauto.
      + destruct a1 as [t k|a]; cbn [hstep fst snd] in Hs; [inversion Hs; subst; apply Pw; auto|].
        destruct (step c1 a) as [[c3 es]|] eqn:E1; [|discriminate]. inversion Hs; subst. apply Ps; auto.
      + intros a x b E0. apply app_cut in E0. destruct E0 as [(b' & E0 & _)|(a' & -> & E0)]; [exact (HQ _ _ _ E0)|]. destruct x as [|e K]; [exact I|].
        destruct a1 as [t k|a2]; cbn [hstep fst snd] in Hs; [injection Hs as _ _ Hs; rewrite E0 in Hs; destruct a' as [|? [|]]; discriminate|].
        destruct (step c1 a2) as [[c3 es]|] eqn:E1; [|discriminate]. injection Hs as Hc Hh He. subst c2.
        rewrite E0 in He. apply map_eq_app in He. destruct He as (d1 & d2 & -> & <- & He). destruct d2 as [|e2 d2]; [discriminate|]. cbn in He. injection He as -> <- _.
        eapply Pq; eauto.
  Qed.

  (** Publication through one object [l] that is never overwritten by a plain store: if [K] is published in [l] at some moment, then every thread that
      later comes to be about to return successfully ([succ]), having acquired [l] on the way, knows [K]. *)
  Definition acquires (l : nat) (m : mact) : bool :=
    match m with MLoad true j | MRmw true _ j => Nat.eqb l j | _ => false end.
  Lemma performs_acq t l ms h : forallb nostore ms = true -> existsb (acquires l) ms = true -> incl (mem h l) (kn (performs t ms h) t).
  Proof.
    revert h. induction ms as [|m ms IH]; intros h; cbn [forallb existsb]; [discriminate|]. intros H1 H2. apply andb_prop in H1. destruct H1 as (H1 & H1').
    cbn [performs fold_left]. fold (performs t ms (perform t h m)). destruct (acquires l m) eqn:Ea.
    - eapply incl_tran; [|apply performs_mono]. destruct m as [[] j|? j|[] ? j|]; cbn in Ea; try discriminate; apply Nat.eqb_eq in Ea; subst j; cbn; rewrite fset_eq; apply incl_appl, incl_refl.
    - cbn in H2. eapply incl_tran; [apply perform_mem; exact H1|apply IH; auto].
  Qed.

  Variable l : nat.
  Variable succ : C -> nat -> bool.
  Variable good : E -> bool.
  Hypothesis all_nostore : forall c a, forallb nostore (acts c a) = true.
  Hypothesis succ_acq : forall c a c' es t, step c a = Some (c', es) -> succ c' t = true -> succ c t = true \/ (t = who a /\ existsb (acquires l) (acts c a) = true).
  Hypothesis good_succ : forall c a c' es e, step c a = Some (c', es) -> In e es -> good e = true -> succ c (thr e) = true.
  Hypothesis ev_nosucc : forall c a c' es e, step c a = Some (c', es) -> In e es -> succ c' (thr e) = false.

  Hypothesis one_ev : forall c a c' es, step c a = Some (c', es) -> length es <= 1.

  Lemma hb_pub K c1 h1 sched c tr : incl K (mem h1 l) -> exec hstep (c1, h1) sched = Some (c, tr) ->
    forall a e K' b, tr = a ++ HEv e K' :: b -> good e = true -> (succ c1 (thr e) = false \/ exists e0 K0, In (HEv e0 K0) a /\ thr e0 = thr e) -> incl K K'.
  Proof.
    intros HK H.
    assert (G : (incl K (mem (snd c) l) /\ forall t, succ (fst c) t = true -> incl K (kn (snd c) t) \/ (succ c1 t = true /\ forall e0 K0, In (HEv e0 K0) tr -> thr e0 <> t)) /\
                forall a x b, tr = a ++ x :: b -> match x with HWork _ _ => True | HEv e K' => good e = true -> (succ c1 (thr e) = false \/ exists e0 K0, In (HEv e0 K0) a /\ thr e0 = thr e) -> incl K K' end);
      [|intros a e K' b E0; exact (proj2 G a (HEv e K') b E0)].
    revert H. apply (exec_inv hstep (fun c tr => (incl K (mem (snd c) l) /\ forall t, succ (fst c) t = true -> incl K (kn (snd c) t) \/ (succ c1 t = true /\ forall e0 K0, In (HEv e0 K0) tr -> thr e0 <> t)) /\
                forall a x b, tr = a ++ x :: b -> match x with HWork _ _ => True | HEv e K' => good e = true -> (succ c1 (thr e) = false \/ exists e0 K0, In (HEv e0 K0) a /\ thr e0 = thr e) -> incl K K' end)).
    - split; [split; [exact HK|]|].
      + intros t Ht. right. split; [exact Ht|]. intros e0 K0 [].
      + intros a x b E0. destruct a; discriminate.
    - intros [c2 h2] t2 a2 [c3 h3] es ((HM & HS) & HQ) Hs. cbn [fst snd] in *. destruct a2 as [t k|a2]; cbn [hstep fst snd] in Hs.
      + injection Hs as <- <- <-. split; [split|].
        * exact HM.
        * intros t0 Ht0. destruct (HS t0 Ht0) as [G|(G1 & G2)].
          -- left. eapply incl_tran; [exact G|]. cbn. destruct (Nat.eq_dec t t0) as [->|Hn]; [rewrite fset_eq; apply incl_tl, incl_refl|rewrite fset_neq by auto; apply incl_refl].
          -- right. split; [exact G1|]. intros e0 K0 Hin. apply in_app_or in Hin. destruct Hin as [Hin|[F|[]]]; [eapply G2; eauto|discriminate].
        * intros a x b E0. apply app_cut in E0. destruct E0 as [(b' & E0 & _)|(a' & -> & E0)]; [exact (HQ _ _ _ E0)|]. destruct x; [exact I|]. destruct a' as [|? [|]]; discriminate.
      + destruct (step c2 a2) as [[c4 es1]|] eqn:E1; [|discriminate]. injection Hs as <- Hh He. subst es. split; [split|].
        * eapply incl_tran; [exact HM|]. rewrite <- Hh. apply performs_mem. apply all_nostore.
        * intros t0 Ht0. destruct (succ_acq _ _ _ _ _ E1 Ht0) as [Hp|(-> & Ha)].
          -- destruct (HS t0 Hp) as [G|(G1 & G2)].
             ++ left. eapply incl_tran; [exact G|]. rewrite <- Hh. apply performs_mono.
             ++ right. split; [exact G1|]. intros e0 K0 Hin. apply in_app_or in Hin. destruct Hin as [Hin|Hin]; [eapply G2; eauto|].
                apply in_map_iff in Hin. destruct Hin as (e1 & F & Hin). inversion F; subst e1. intros <-. rewrite (ev_nosucc _ _ _ _ _ E1 Hin) in Ht0. discriminate.
          -- left. eapply incl_tran; [exact HM|]. rewrite <- Hh. apply performs_acq; [apply all_nostore|exact Ha].
        * intros a x b E0. apply app_cut in E0. destruct E0 as [(b' & E0 & _)|(a' & -> & E0)]; [exact (HQ _ _ _ E0)|]. destruct x as [|e K']; [exact I|]. intros Hg Hor.
          assert (Hin : In (HEv e K') (map (fun e0 => HEv e0 (kn (performs (who a2) (acts c2 a2) h2) (who a2))) es1)) by (rewrite E0; apply in_or_app; right; left; reflexivity).
          apply in_map_iff in Hin. destruct Hin as (e1 & F & Hin). inversion F; subst e1 K'.
          pose proof (good_succ _ _ _ _ _ E1 Hin Hg) as Hsu. pose proof (thr_ok _ _ _ _ _ E1 Hin) as Hth.
          destruct (HS _ Hsu) as [G|(G1 & G2)]; [rewrite <- Hth; eapply incl_tran; [exact G|apply performs_mono]|].
          destruct Hor as [F1|(e0 & K0 & Hin0 & Ht0)]; [congruence|]. apply in_app_or in Hin0. destruct Hin0 as [Hin0|Hin0]; [exfalso; eapply G2; eauto|].
          exfalso. pose proof (one_ev _ _ _ _ E1) as H1. apply (f_equal (@length _)) in E0. rewrite map_length, app_length in E0. cbn in E0. destruct a' as [|? a']; [destruct Hin0|cbn in E0; lia].
  Qed.
End Hb.
