(** One-time initialisation on weak memory: init_tss_once of /repo/src/tss_windows.cpp ("W:") for old Windows versions, and waitable_timer_state::init and get_waitable_timer of
    /repo/include/boost/sync/detail/waitable_timer.hpp ("T:").  Both have the same shape: a flag tested without an interlocked operation (W:87, T:305), interlocked operations if the
    test fails (W:91 W:99, T:127 T:180 T:194 T:206 T:226 T:236 T:241), ordinary memory written by the initialising thread (tss_mgr W:58, tls_key T:193 T:204 T:225 T:240) and
    read by every caller (W:162-233, T:309).

    Location 0 is the flag (0, 1 in progress, 2 done), location 1 the ordinary memory: 0 is its initial value, k + 1 stands for the result k (a manager, or a TLS key).
    Simplifications: ordinary accesses are relaxed atomic ones (as C++ they would be data races); interlocked operations have acquire and release order; tss_key (W:66) is written and
    read like tss_mgr and left out; the system calls in between are those of OnceModel.v and left out.  An attempt may fail, as T:180 T:236; the one of W:98 cannot (it aborts). *)
From Coq Require Import List Bool Arith ZArith Lia.
From Verif Require Import ListSum Exec Events Lin Hb Weak WeakAuto.
Import ListNotations.
Local Open Scope Z_scope.

(** [UInit]: the functions that initialise if necessary and then read: get_waitable_timer T:301-309, on_thread_exit W:156-162, W:169-200.
    [UUse]: the ones that only read: W:203-207, W:223-229. *)
Inductive uop := UInit | UUse.
(** What was read, or an exception (T:181 T:237). *)
Inductive ures := URead (v : Z) | UThrow.
(** Program points. [b] remembers whether the thread has synchronised with the end of the initialisation (no counterpart in the code). *)
Inductive upc :=
| URest
| UChk                              (* W:87, T:305 *)
| UCas                              (* W:91-96, T:127-140 *)
| UWrite                            (* W:58, T:142-240 *)
| UPub                              (* W:99, T:194 T:206 T:226 T:241 *)
| UUndo                             (* T:180 T:236 *)
| UGet (o : uop) (b : bool)         (* tss_mgr W:162 W:176 W:190 W:200 W:207 W:229; state.tls_key T:309 *)
| UDone (o : uop) (b : bool) (r : ures).
(** The steps.  [acq]: the unprotected test has acquire order (a volatile read with Microsoft's /volatile:ms); otherwise it is an ordinary read.
    The choice: the result of the initialisation, the position of the message read or written. W:85-104, T:123-242, T:301-309. *)
Definition uonce_run (acq : bool) (t : nat) (w : wmem) (ths : list upc) (p : upc) (c : option nat * nat) : option (wmem * list upc) :=
  let (o, i) := c in
  match p with
  | URest | UDone _ _ _ => None
  | UChk => match wload t 0 acq i w with
            | Some (v, w') => Some (w', upd ths t (if v =? 2 then UGet UInit acq else UCas))
            | None => None
            end
  | UCas => match wcas t 0 false true true true 0 1 false i w with
            | Some (true, _, w') => Some (w', upd ths t UWrite)
            | Some (false, v, w') => Some (w', upd ths t (if v =? 2 then UGet UInit true else UCas))
            | None => None
            end
  | UWrite => match o with
              | Some k => match wstore t 1 false (Z.of_nat k + 1) i w with Some w' => Some (w', upd ths t UPub) | None => None end
              | None => Some (w, upd ths t UUndo)
              end
  | UPub => match wrmw t 0 true true (fun _ => 2) i w with Some (_, w') => Some (w', upd ths t (UGet UInit true)) | None => None end
  | UUndo => match wrmw t 0 true true (fun _ => 0) i w with Some (_, w') => Some (w', upd ths t (UDone UInit true UThrow)) | None => None end
  | UGet o b => match wload t 1 false i w with Some (v, w') => Some (w', upd ths t (UDone o b (URead v))) | None => None end
  end.
(** Entry: W:156 W:169 W:183 W:197, T:301; W:203 W:223. *)
Definition uonce_call (p : upc) (o : uop) : option upc := match p with URest => Some (match o with UInit => UChk | UUse => UGet UUse false end) | _ => None end.
(** The value read is used by the caller, W:162-233, T:309. *)
Definition uonce_ret (p : upc) : option (uop * ures * upc) := match p with UDone o _ r => Some (o, r, URest) | _ => None end.
(** Any number of threads, W:85-233, T:123-318. *)
Definition uonce_step (acq : bool) := wstep uonce_call uonce_ret (uonce_run acq) 2.
(** Static initialisation to zero, W:41-43, T:303. *)
Definition uonce_init (n : nat) : wmem * list upc := (wm0 (fun _ => 0), repeat URest n).

Lemma uonce_mono acq t w ths p ch w' ths' : uonce_run acq t w ths p ch = Some (w', ths') -> kmono w w'.
Proof.
  destruct ch as [o i]. destruct p; cbn [uonce_run]; try discriminate.
  - destruct (wload _ _ _ _ _) as [[v w1]|] eqn:E; [|discriminate]. intros H; injection H as <- <-. eapply wload_mono; eauto.
  - destruct (wcas _ _ _ _ _ _ _ _ _ _ _) as [[[[] v] w1]|] eqn:E; try discriminate; intros H; injection H as <- <-; eapply wcas_mono; eauto.
  - destruct o; [|intros H; injection H as <- <-; apply kmono_refl]. destruct (wstore _ _ _ _ _ _) as [w1|] eqn:E; [|discriminate]. intros H; injection H as <- <-. eapply wstore_mono; eauto.
  - destruct (wrmw _ _ _ _ _ _ _) as [[v w1]|] eqn:E; [|discriminate]. intros H; injection H as <- <-. eapply wrmw_mono; eauto.
  - destruct (wrmw _ _ _ _ _ _ _) as [[v w1]|] eqn:E; [|discriminate]. intros H; injection H as <- <-. eapply wrmw_mono; eauto.
  - destruct (wload _ _ _ _ _) as [[v w1]|] eqn:E; [|discriminate]. intros H; injection H as <- <-. eapply wload_mono; eauto.
Qed.

(** * The invariant *)

(** Inside an attempt. Proof or specification device; no counterpart in /repo. *)
Definition uin (p : upc) : bool := match p with UWrite | UPub | UUndo => true | _ => false end.
(** The thread has synchronised with the end of the initialisation; what it read, if it has read. Proof or specification device; no counterpart in /repo. *)
Definition usync (p : upc) : bool := match p with UGet _ b => b | UDone _ b (URead _) => b | _ => false end.
(** Proof or specification device; no counterpart in /repo. *)
Definition alone (ths : list upc) (t : nat) : Prop := forall u p, nth_error ths u = Some p -> uin p = true -> u = t.
(** Proof or specification device; no counterpart in /repo. *)
Definition nobody (ths : list upc) : Prop := forall u p, nth_error ths u = Some p -> uin p = false.

(** Before anything was written. Proof or specification device; no counterpart in /repo. *)
Definition ubefore (w : wmem) (ths : list upc) (d0 : msg) (h : list msg) (f : msg) : Prop :=
  hist w 1%nat = [d0] /\ (forall m, In m (h ++ [f]) -> mval m <> 2) /\
  (mval f = 0 /\ nobody ths \/ mval f = 1 /\ exists t p, nth_error ths t = Some p /\ (p = UWrite \/ p = UUndo) /\ alone ths t) /\
  (forall t p, nth_error ths t = Some p -> usync p = false) /\ (forall t o b v, nth_error ths t = Some (UDone o b (URead v)) -> v = 0).
(** Afterwards. Proof or specification device; no counterpart in /repo. *)
Definition uafter (w : wmem) (ths : list upc) (d0 x : msg) (h : list msg) (f : msg) : Prop :=
  hist w 1%nat = [d0; x] /\ mval x <> 0 /\ (forall m, In m (h ++ [f]) -> mval m = 2 -> In (mid x) (mrel m)) /\
  (mval f = 1 /\ (exists t, nth_error ths t = Some UPub /\ alone ths t /\ In (mid x) (wkn w t)) \/ mval f = 2 /\ nobody ths) /\
  (forall t p, nth_error ths t = Some p -> usync p = true -> In (mid x) (wkn w t)) /\
  (forall t o b v, nth_error ths t = Some (UDone o b (URead v)) -> v = mval x /\ In (mid x) (wkn w t) \/ v = 0 /\ b = false).
(** Proof or specification device; no counterpart in /repo. *)
Definition UI (c : wmem * list upc) : Prop :=
  exists d0 h f, hist (fst c) 0%nat = h ++ [f] /\ (exists m0 l, h ++ [f] = m0 :: l /\ Forall (fun m => mrmw m = true) l) /\ mval d0 = 0 /\
    (ubefore (fst c) (snd c) d0 h f \/ exists x, uafter (fst c) (snd c) d0 x h f).

Lemma urmw_end w t acq rel f i v w' h m0 : (exists a l, h ++ [m0] = a :: l /\ Forall (fun m => mrmw m = true) l) -> hist w 0%nat = h ++ [m0] -> wrmw t 0 acq rel f i w = Some (v, w') ->
  v = mval m0 /\ exists x, hist w' 0%nat = (h ++ [m0]) ++ [x] /\ (forall k, k <> 0%nat -> hist w' k = hist w k) /\ mrmw x = true /\ mval x = f (mval m0) /\
    (exists a l, (h ++ [m0]) ++ [x] = a :: l /\ Forall (fun m => mrmw m = true) l) /\ (rel = true -> incl (wkn w t) (mrel x)) /\ incl (mrel m0) (mrel x) /\
    (acq = true -> incl (mrel m0) (wkn w' t)) /\ (forall u, u <> t -> wkn w' u = wkn w u).
Proof.
  intros (a & l & E & F) Eh H. destruct (wrmw_inv _ _ _ _ _ _ _ _ _ H) as (m & Hi & _ & Rm & -> & Hh & Hk & _ & _ & Hu & Ht). cbn zeta in *.
  rewrite Eh, E in Hi, Rm. assert (L : i = length l).
  { destruct (Nat.eq_dec i (length l)) as [|Hn]; [assumption|exfalso]. unfold room in Rm. cbn [nth_error] in Rm.
    assert (Hlt : (i < S (length l))%nat) by (change (S (length l)) with (length (a :: l)); apply nth_error_Some; congruence).
    destruct (nth_error l i) as [y|] eqn:Ey; [|apply nth_error_None in Ey; lia]. apply nth_error_In in Ey. rewrite Forall_forall in F. rewrite (F _ Ey) in Rm. discriminate. }
  rewrite <- E in Hi. assert (Em : m = m0).
  { assert (L2 : (length h + 1)%nat = S (length l)) by (change (S (length l)) with (length (a :: l)); rewrite <- E, app_length; reflexivity). replace i with (length h) in Hi by lia. rewrite nth_error_app2, Nat.sub_diag in Hi by lia. injection Hi as ->. reflexivity. }
  subst m. split; [reflexivity|]. rewrite Eh, E, insert_end in Hh by (cbn; lia). eexists. split; [rewrite E; exact Hh|]. split; [exact Hk|]. cbn [mrmw mval mrel]. split; [reflexivity|]. split; [reflexivity|]. split; [|split; [|split; [|split]]].
  - exists a. eexists. rewrite E. split; [reflexivity|]. apply Forall_app. split; [exact F|]. repeat constructor.
  - intros ->. apply incl_appl, incl_appr, incl_tl, incl_refl.
  - apply incl_appr, incl_refl.
  - intros ->. rewrite Ht. apply incl_tl, incl_appl, incl_refl.
  - exact Hu.
Qed.

Lemma UI_mem w w' ths : UI (w, ths) -> hist w' 0%nat = hist w 0%nat -> hist w' 1%nat = hist w 1%nat -> kmono w w' -> UI (w', ths).
Proof.
  intros (d0 & h & f & E & C & Hd & HC) E0 E1 M. exists d0, h, f. cbn [fst snd] in *. rewrite E0. split; [exact E|]. split; [exact C|]. split; [exact Hd|]. unfold ubefore, uafter in *. rewrite E1.
  destruct HC as [HC|(x & A1 & A2 & A3 & A4 & A5 & A6)]; [left; exact HC|right]. exists x. split; [exact A1|]. split; [exact A2|]. split; [exact A3|]. split; [|split].
  - destruct A4 as [(F & t & T1 & T2 & T3)|A4]; [left|right; exact A4]. split; [exact F|]. exists t. split; [exact T1|]. split; [exact T2|]. apply M. exact T3.
  - intros t p Hp Hs. apply M. eapply A5; eauto.
  - intros t o b v Hp. destruct (A6 _ _ _ _ Hp) as [(B1 & B2)|B]; [left|right; exact B]. split; [exact B1|]. apply M. exact B2.
Qed.
Lemma alone_upd ths t p' u : alone ths u -> uin p' = false -> alone (upd ths t p') u.
Proof. intros A Hp v q Hq Hu. destruct (nth_upd_inv _ _ _ _ _ Hq) as [(-> & -> & _)|(_ & Hq')]; [congruence|]. eapply A; eauto. Qed.
Lemma nobody_upd ths t p' : nobody ths -> uin p' = false -> nobody (upd ths t p').
Proof. intros A Hp v q Hq. destruct (nth_upd_inv _ _ _ _ _ Hq) as [(-> & -> & _)|(_ & Hq')]; [exact Hp|]. eapply A; eauto. Qed.

(** A step outside an attempt that writes nothing. *)
Lemma UI_read w w' ths t p p' : UI (w, ths) -> nth_error ths t = Some p -> uin p = false -> uin p' = false -> hist w' 0%nat = hist w 0%nat -> hist w' 1%nat = hist w 1%nat -> kmono w w' ->
  (forall d0 h f, hist w 0%nat = h ++ [f] -> mval d0 = 0 -> ubefore w ths d0 h f -> usync p' = false /\ forall o b v, p' = UDone o b (URead v) -> v = 0) ->
  (forall d0 x h f, hist w 0%nat = h ++ [f] -> mval d0 = 0 -> uafter w ths d0 x h f -> (usync p' = true -> In (mid x) (wkn w' t)) /\ forall o b v, p' = UDone o b (URead v) -> v = mval x /\ In (mid x) (wkn w' t) \/ v = 0 /\ b = false) ->
  UI (w', upd ths t p').
Proof.
  intros HU Ht Hp Hp' E0 E1 M HB HA. destruct (UI_mem _ w' _ HU E0 E1 M) as (d0' & h' & f' & E' & C' & Hd' & _).
  destruct HU as (d0 & h & f & E & C & Hd & HC). cbn [fst snd] in *.
  exists d0, h, f. cbn [fst snd]. rewrite E0. split; [exact E|]. split; [exact C|]. split; [exact Hd|].
  destruct HC as [HC|(x & HC)]; [left|right].
  - destruct (HB _ _ _ E Hd HC) as (B1 & B2). destruct HC as (A1 & A2 & A3 & A4 & A5). split; [rewrite E1; exact A1|]. split; [exact A2|]. split; [|split].
    + destruct A3 as [(F & N)|(F & u & q & Hu & Hq & Al)]; [left; split; [exact F|]; apply nobody_upd; assumption|right]. split; [exact F|]. exists u, q. split; [|split; [exact Hq|apply alone_upd; assumption]].
      rewrite nth_upd_neq; [exact Hu|]. intros <-. rewrite Hu in Ht. injection Ht as ->. destruct Hq; subst; discriminate.
    + intros u q Hq. destruct (nth_upd_inv _ _ _ _ _ Hq) as [(-> & -> & _)|(_ & Hq')]; [exact B1|eauto].
    + intros u o b v Hq. destruct (nth_upd_inv _ _ _ _ _ Hq) as [(-> & Hq' & _)|(_ & Hq')]; [eapply B2; eauto|eauto].
  - exists x. destruct (HA _ _ _ _ E Hd HC) as (B1 & B2). destruct HC as (A1 & A2 & A3 & A4 & A5 & A6). split; [rewrite E1; exact A1|]. split; [exact A2|]. split; [exact A3|]. split; [|split].
    + destruct A4 as [(F & u & Hu & Al & Hk)|(F & N)]; [left|right; split; [exact F|apply nobody_upd; assumption]]. split; [exact F|]. exists u. split; [|split; [apply alone_upd; assumption|apply M; exact Hk]].
      rewrite nth_upd_neq; [exact Hu|]. intros <-. rewrite Hu in Ht. injection Ht as <-. discriminate.
    + intros u q Hq Hs. destruct (nth_upd_inv _ _ _ _ _ Hq) as [(-> & -> & _)|(_ & Hq')]; [auto|apply M; eauto].
    + intros u o b v Hq. destruct (nth_upd_inv _ _ _ _ _ Hq) as [(-> & Hq' & _)|(_ & Hq')]; [eapply B2; eauto|]. destruct (A6 _ _ _ _ Hq') as [(D1 & D2)|D]; [left; split; [exact D1|apply M; exact D2]|right; exact D].
Qed.

(** A read of the ordinary memory gives the value written, if the thread knows that it was written. *)
Lemma uget w t i v w' d0 x : hist w 1%nat = [d0; x] -> mval d0 = 0 -> wload t 1 false i w = Some (v, w') ->
  (v = mval x /\ In (mid x) (wkn w' t)) \/ (v = 0 /\ ~ In (mid x) (wkn w t)).
Proof.
  intros E Hd H. destruct (wload_inv _ _ _ _ _ _ _ H) as (m & Hi & R & -> & _ & _ & _ & _ & Ht). rewrite E in Hi, R. destruct i as [|[|i]]; cbn in Hi; [injection Hi as <-|injection Hi as <-|destruct i; discriminate].
  - right. split; [exact Hd|]. intros Hin. apply (readable_after _ [d0] x [] 0 Hin) in R. cbn in R. lia.
  - left. split; [reflexivity|]. rewrite Ht. apply in_or_app. right. left. reflexivity.
Qed.
(** Reading "done" with acquire order. *)
Lemma usynced w t i v w' h f x : hist w 0%nat = h ++ [f] -> (forall m, In m (h ++ [f]) -> mval m = 2 -> In (mid x) (mrel m)) -> wload t 0 true i w = Some (v, w') -> v = 2 -> In (mid x) (wkn w' t).
Proof.
  intros E A H Hv. destruct (wload_inv _ _ _ _ _ _ _ H) as (m & Hi & R & -> & _ & _ & _ & _ & Ht). rewrite Ht. apply in_or_app. left. apply A; [|exact Hv]. rewrite E in Hi. eapply nth_error_In; eauto.
Qed.
Lemma uload_hist t l a i w v w' : wload t l a i w = Some (v, w') -> hist w' 0%nat = hist w 0%nat /\ hist w' 1%nat = hist w 1%nat /\ kmono w w' /\ forall h, hist w l = h -> exists m, In m h /\ v = mval m.
Proof.
  intros H. pose proof (wload_mono _ _ _ _ _ _ _ H) as M. destruct (wload_inv _ _ _ _ _ _ _ H) as (m & Hi & _ & -> & -> & _). repeat split; auto. intros h <-. exists m. split; [eapply nth_error_In; eauto|reflexivity].
Qed.

Lemma UI_run acq w ths t p ch w' ths' : UI (w, ths) -> nth_error ths t = Some p -> uonce_run acq t w ths p ch = Some (w', ths') -> UI (w', ths').
Proof.
  intros HU Ht H. destruct ch as [o i]. destruct p; cbn [uonce_run] in H; try discriminate.
  - (* the test *)
    destruct (wload _ _ _ _ _) as [[v w1]|] eqn:E; [|discriminate]. injection H as <- <-. destruct (uload_hist _ _ _ _ _ _ _ E) as (E0 & E1 & M & V).
    eapply UI_read; eauto; [destruct (v =? 2); reflexivity| |].
    + intros d0 h f Eh Hd (A1 & A2 & _). destruct (V _ Eh) as (m & Hm & ->). destruct (Z.eqb_spec (mval m) 2) as [F|F]; [exfalso; exact (A2 _ Hm F)|]. split; [reflexivity|discriminate].
    + intros d0 x h f Eh Hd (A1 & A2 & A3 & _). destruct (Z.eqb_spec v 2) as [F|F]; [|split; discriminate]. split; [|discriminate]. cbn [usync]. intros ->. eapply usynced; eauto.
  - (* the exchange *)
    destruct (wcas _ _ _ _ _ _ _ _ _ _ _) as [[[b v] w1]|] eqn:E; [|discriminate]. destruct (wcas_inv _ _ _ _ _ _ _ _ _ _ _ _ _ _ E) as [(-> & -> & Hr)|(-> & Hv & Hl)].
    + injection H as <- <-. destruct HU as (d0 & h & f & Eh & C & Hd & HC). cbn [fst snd] in *. destruct (urmw_end _ _ _ _ _ _ _ _ _ _ C Eh Hr) as (Ev & x & X1 & X2 & X3 & X4 & X5 & X6 & X7 & X8 & X9).
      pose proof (wrmw_mono _ _ _ _ _ _ _ _ _ Hr) as M.
      exists d0, (h ++ [f]), x. cbn [fst snd]. split; [exact X1|]. split; [exact X5|]. split; [exact Hd|]. left.
      destruct HC as [(A1 & A2 & A3 & A4 & A5)|(y & A1 & A2 & A3 & A4 & _)]; [|exfalso; destruct A4 as [(F & _)|(F & _)]; rewrite F in Ev; discriminate].
      destruct A3 as [(F & N)|(F & _)]; [|rewrite F in Ev; discriminate].
      split; [rewrite X2 by discriminate; exact A1|]. split; [|split; [|split]].
      * intros m Hm. apply in_app_or in Hm. destruct Hm as [Hm|[<-|[]]]; [apply A2; exact Hm|]. rewrite X4. discriminate.
      * right. split; [exact X4|]. exists t, UWrite. split; [eapply nth_upd_eq; exact Ht|]. split; [left; reflexivity|]. intros u q Hq Hu. destruct (nth_upd_inv _ _ _ _ _ Hq) as [(-> & _ & _)|(_ & Hq')]; [reflexivity|]. rewrite (N _ _ Hq') in Hu. discriminate.
      * intros u q Hq. destruct (nth_upd_inv _ _ _ _ _ Hq) as [(-> & -> & _)|(_ & Hq')]; [reflexivity|eauto].
      * intros u o' b v Hq. destruct (nth_upd_inv _ _ _ _ _ Hq) as [(_ & F1 & _)|(_ & Hq')]; [discriminate F1|eauto].
    + injection H as <- <-. destruct (uload_hist _ _ _ _ _ _ _ Hl) as (E0 & E1 & M & V). eapply UI_read; eauto; [destruct (v =? 2); reflexivity| |].
      * intros d0 h f Eh Hd (A1 & A2 & _). destruct (V _ Eh) as (m & Hm & ->). destruct (Z.eqb_spec (mval m) 2) as [F|F]; [exfalso; exact (A2 _ Hm F)|]. split; [reflexivity|discriminate].
      * intros d0 x h f Eh Hd (A1 & A2 & A3 & _). destruct (Z.eqb_spec v 2) as [F|F]; [|split; discriminate]. split; [|discriminate]. intros _. eapply usynced; eauto.
  - (* the write *)
    destruct HU as (d0 & h & f & Eh & C & Hd & HC). cbn [fst snd] in *.
    assert (HB : ubefore w ths d0 h f /\ mval f = 1 /\ alone ths t).
    { destruct HC as [HC|(x & _ & _ & _ & A4 & _)].
      - split; [exact HC|]. destruct HC as (_ & _ & [(_ & N)|(F & u & q & Hu & _ & Al)] & _); [specialize (N _ _ Ht); discriminate|]. split; [exact F|]. assert (u = t) as -> by (symmetry; eapply Al; eauto; reflexivity). exact Al.
      - exfalso. destruct A4 as [(_ & u & Hu & Al & _)|(_ & N)]; [|specialize (N _ _ Ht); discriminate]. assert (t = u) as <- by (eapply Al; eauto; reflexivity). congruence. }
    destruct HB as ((A1 & A2 & _ & A4 & A5) & F & Al).
    assert (Al' : forall p', alone (upd ths t p') t) by (intros p' u q Hq Hu; destruct (nth_upd_inv _ _ _ _ _ Hq) as [(-> & _ & _)|(_ & Hq')]; [reflexivity|eapply Al; eauto]).
    destruct o as [k|].
    + destruct (wstore _ _ _ _ _ _) as [w1|] eqn:E; [|discriminate]. injection H as <- <-. pose proof (wstore_mono _ _ _ _ _ _ _ E) as M. destruct (wstore_inv _ _ _ _ _ _ _ E) as (m & Hi & _ & _ & Hh & Hk & _ & _ & _ & Hkt).
      rewrite A1 in Hi, Hh. destruct i as [|i]; [|destruct i; discriminate]. cbn in Hh.
      exists d0, h, f. cbn [fst snd]. rewrite Hk by discriminate. split; [exact Eh|]. split; [exact C|]. split; [exact Hd|]. right. eexists. split; [exact Hh|]. cbn [mval mid]. split; [lia|]. split; [|split; [|split]].
      * intros m1 Hm Hv. exfalso. exact (A2 _ Hm Hv).
      * left. split; [exact F|]. exists t. split; [eapply nth_upd_eq; exact Ht|]. split; [apply Al'|]. rewrite Hkt. left. reflexivity.
      * intros u q Hq Hs. exfalso. destruct (nth_upd_inv _ _ _ _ _ Hq) as [(_ & -> & _)|(_ & Hq')]; [discriminate|]. rewrite (A4 _ _ Hq') in Hs. discriminate.
      * intros u o' b v Hq. destruct (nth_upd_inv _ _ _ _ _ Hq) as [(_ & F1 & _)|(_ & Hq')]; [discriminate F1|]. right. split; [eauto|]. pose proof (A4 _ _ Hq') as G. exact G.
    + injection H as <- <-. exists d0, h, f. cbn [fst snd]. split; [exact Eh|]. split; [exact C|]. split; [exact Hd|]. left. split; [exact A1|]. split; [exact A2|]. split; [|split].
      * right. split; [exact F|]. exists t, UUndo. split; [eapply nth_upd_eq; exact Ht|]. split; [right; reflexivity|apply Al'].
      * intros u q Hq. destruct (nth_upd_inv _ _ _ _ _ Hq) as [(-> & -> & _)|(_ & Hq')]; [reflexivity|eauto].
      * intros u o' b v Hq. destruct (nth_upd_inv _ _ _ _ _ Hq) as [(_ & F1 & _)|(_ & Hq')]; [discriminate F1|eauto].
  - (* publish *)
    destruct (wrmw _ _ _ _ _ _ _) as [[v w1]|] eqn:Hr; [|discriminate]. injection H as <- <-. destruct HU as (d0 & h & f & Eh & C & Hd & HC). cbn [fst snd] in *.
    destruct (urmw_end _ _ _ _ _ _ _ _ _ _ C Eh Hr) as (Ev & x & X1 & X2 & X3 & X4 & X5 & X6 & X7 & X8 & X9). pose proof (wrmw_mono _ _ _ _ _ _ _ _ _ Hr) as M.
    exists d0, (h ++ [f]), x. cbn [fst snd]. split; [exact X1|]. split; [exact X5|]. split; [exact Hd|]. right.
    destruct HC as [(_ & _ & A3 & _)|(y & A1 & A2 & A3 & A4 & A5 & A6)].
    { exfalso. destruct A3 as [(_ & N)|(_ & u & q & Hu & Hq & Al)]; [specialize (N _ _ Ht); discriminate|]. assert (t = u) as <- by (eapply Al; eauto; reflexivity). destruct Hq; congruence. }
    assert (G : In (mid y) (wkn w t) /\ alone ths t).
    { destruct A4 as [(_ & u & Hu & Al & Hk)|(_ & N)]; [|specialize (N _ _ Ht); discriminate]. assert (t = u) as <- by (eapply Al; eauto; reflexivity). auto. }
    destruct G as (Gk & Al). exists y. split; [rewrite X2 by discriminate; exact A1|]. split; [exact A2|]. split; [|split; [|split]].
    + intros m Hm Hv. apply in_app_or in Hm. destruct Hm as [Hm|[<-|[]]]; [eapply A3; eauto|]. apply (X6 eq_refl). exact Gk.
    + right. split; [exact X4|]. intros u q Hq. destruct (nth_upd_inv _ _ _ _ _ Hq) as [(-> & -> & _)|(Hn & Hq')]; [reflexivity|]. destruct (uin q) eqn:Eq; [|reflexivity]. exfalso. apply Hn. symmetry. eapply Al; eauto.
    + intros u q Hq Hs. destruct (nth_upd_inv _ _ _ _ _ Hq) as [(-> & -> & _)|(_ & Hq')]; apply M; eauto.
    + intros u o' b v' Hq. destruct (nth_upd_inv _ _ _ _ _ Hq) as [(_ & F1 & _)|(_ & Hq')]; [discriminate F1|]. destruct (A6 _ _ _ _ Hq') as [(B1 & B2)|B]; [left; split; [exact B1|apply M; exact B2]|right; exact B].
  - (* undo *)
    destruct (wrmw _ _ _ _ _ _ _) as [[v w1]|] eqn:Hr; [|discriminate]. injection H as <- <-. destruct HU as (d0 & h & f & Eh & C & Hd & HC). cbn [fst snd] in *.
    destruct (urmw_end _ _ _ _ _ _ _ _ _ _ C Eh Hr) as (Ev & x & X1 & X2 & X3 & X4 & X5 & X6 & X7 & X8 & X9).
    exists d0, (h ++ [f]), x. cbn [fst snd]. split; [exact X1|]. split; [exact X5|]. split; [exact Hd|]. left.
    destruct HC as [(A1 & A2 & A3 & A4 & A5)|(y & A1 & A2 & A3 & A4 & A5 & A6)].
    + split; [rewrite X2 by discriminate; exact A1|]. split; [|split; [|split]].
      * intros m Hm. apply in_app_or in Hm. destruct Hm as [Hm|[<-|[]]]; [apply A2; exact Hm|]. rewrite X4. discriminate.
      * left. split; [exact X4|]. destruct A3 as [(_ & N)|(_ & u & q & Hu & Hq & Al)]; [specialize (N _ _ Ht); discriminate|]. assert (t = u) as <- by (eapply Al; eauto; reflexivity).
        intros v' q' Hq'. destruct (nth_upd_inv _ _ _ _ _ Hq') as [(-> & -> & _)|(Hn & Hq'')]; [reflexivity|]. destruct (uin q') eqn:Eq; [|reflexivity]. exfalso. apply Hn. symmetry. eapply Al; eauto.
      * intros u q Hq. destruct (nth_upd_inv _ _ _ _ _ Hq) as [(-> & -> & _)|(_ & Hq')]; [reflexivity|eauto].
      * intros u o' b v' Hq. destruct (nth_upd_inv _ _ _ _ _ Hq) as [(_ & F1 & _)|(_ & Hq')]; [discriminate F1|eauto].
    + exfalso. destruct A4 as [(_ & u & Hu & Al & _)|(_ & N)]; [|specialize (N _ _ Ht); discriminate]. assert (t = u) as <- by (eapply Al; eauto; reflexivity). congruence.
  - (* the read *)
    destruct (wload _ _ _ _ _) as [[v w1]|] eqn:E; [|discriminate]. injection H as <- <-. destruct (uload_hist _ _ _ _ _ _ _ E) as (E0 & E1 & M & V).
    eapply UI_read; eauto.
    + intros d0 h f Eh Hd (A1 & A2 & A3 & A4 & A5). split; [apply (A4 _ _ Ht)|]. intros o' b' v' F. injection F as <- <- <-. destruct (V _ A1) as (m & [<-|[]] & ->). exact Hd.
    + intros d0 x h f Eh Hd (A1 & A2 & A3 & A4 & A5 & A6). split.
      * intros Hs. apply M. eapply A5; eauto.
      * intros o' b' v' F. injection F as <- <- <-. destruct (uget _ _ _ _ _ _ _ A1 Hd E) as [G|(G1 & G2)]; [left; exact G|right]. split; [exact G1|]. destruct b; [|reflexivity]. exfalso. apply G2. eapply A5; eauto.
Qed.

Lemma UI_init n : UI (uonce_init n).
Proof.
  exists (Msg 0 0 [] false), [], (Msg 0 0 [] false). cbn [uonce_init fst snd wm0 hist app]. split; [reflexivity|]. split; [exists (Msg 0 0 [] false), []; auto|]. split; [reflexivity|]. left.
  assert (G : forall u p, nth_error (repeat URest n) u = Some p -> p = URest) by (intros u p Hp; apply nth_error_In in Hp; eapply repeat_spec; eauto).
  split; [reflexivity|]. split; [intros m [<-|[]]; discriminate|]. split; [left; split; [reflexivity|]; intros u p Hp; rewrite (G _ _ Hp); reflexivity|]. split.
  - intros u p Hp. rewrite (G _ _ Hp). reflexivity.
  - intros u o b v Hp. apply G in Hp. discriminate.
Qed.
Lemma UI_step acq c a c' e : UI c -> uonce_step acq c a = Some (c', e) -> UI c'.
Proof.
  intros HU Hs. destruct c as [w ths]. apply wstep_cases in Hs.
  destruct Hs as [(t & o & p & p' & -> & Ht & Hc & -> & _)|[(t & ch & p & o & r & p' & -> & Ht & Hr & -> & _)|[(t & ch & p & -> & Ht & Hr & E & _)|[(t & -> & -> & _)|(t & l & o & i & v & w1 & -> & Hl & Hc & -> & _)]]]].
  - assert (uin p = false /\ uin p' = false /\ usync p' = false /\ forall o b v, p' <> UDone o b (URead v)) as (P1 & P2 & P3 & P4).
    { destruct p; try discriminate. destruct o; injection Hc as <-; repeat split; discriminate. }
    eapply UI_read; eauto using kmono_refl.
    + intros. split; [exact P3|]. intros o' b v F. destruct (P4 _ _ _ F).
    + intros. split; [congruence|]. intros o' b v F. destruct (P4 _ _ _ F).
  - assert (uin p = false /\ p' = URest) as (P1 & ->) by (destruct p; try discriminate; injection Hr as _ _ <-; auto).
    eapply UI_read; eauto using kmono_refl; intros; split; try reflexivity; try discriminate.
  - destruct c' as [w' ths']. eapply UI_run; eauto.
  - eapply UI_mem; eauto; try reflexivity. apply wwork_mono.
  - destruct (wclient_inv _ _ _ _ _ _ _ Hc) as (M & Hk & _). eapply UI_mem; eauto; apply Hk; lia.
Qed.
Lemma UI_exec acq n sched c tr : exec (uonce_step acq) (uonce_init n) sched = Some (c, tr) -> UI c.
Proof. apply (exec_inv_state (uonce_step acq) UI); [apply UI_init|]. intros; eapply UI_step; eauto. Qed.

(** * History *)

Lemma u_ret acq w ths a c' es d t o r K b : uonce_step acq (w, ths) a = Some (c', es) -> es = d ++ HEv (Ret t o r) K :: b ->
  exists s, nth_error ths t = Some (UDone o s r) /\ c' = (w, upd ths t URest) /\ K = wkn w t /\ d = [] /\ b = [].
Proof.
  intros Hs Ees. apply wstep_cases in Hs.
  destruct Hs as [(t1 & o1 & p & p' & _ & _ & _ & _ & ->)|[(t1 & ch & p & o1 & r1 & p' & -> & Ht & Hr & -> & ->)|[(t1 & ch & p & _ & _ & _ & _ & ->)|[(t1 & _ & _ & ->)|(t1 & l & o1 & i & v & w1 & _ & _ & _ & _ & ->)]]]]; try (destruct d as [|? [|]]; discriminate).
  destruct d as [|? [|]]; inversion Ees; subst. destruct p; try discriminate. injection Hr as <- <- <-. eauto 10.
Qed.

(** Everybody who got something else than the initial value got the value that was written, and knows the write. Proof or specification device; no counterpart in /repo. *)
Definition UH (c : wmem * list upc) (tr : list (hev (event uop ures))) : Prop :=
  UI c /\ forall t o v K, In (HEv (Ret t o (URead v)) K) tr -> v <> 0 -> exists d0 x, hist (fst c) 1%nat = [d0; x] /\ mval d0 = 0 /\ v = mval x /\ In (mid x) K.
Lemma UI_data c d0 x : UI c -> hist (fst c) 1%nat = [d0; x] -> mval d0 = 0 /\ mval x <> 0.
Proof. intros (d & h & f & _ & _ & Hd & [(A & _)|(y & A & Hy & _)]) E; rewrite E in A; [discriminate|]. injection A as -> ->. auto. Qed.
Lemma udata_step acq c a c' e d0 x : UI c -> hist (fst c) 1%nat = [d0; x] -> uonce_step acq c a = Some (c', e) -> hist (fst c') 1%nat = [d0; x].
Proof.
  intros HU E Hs. pose proof (UI_step _ _ _ _ _ HU Hs) as HU'. destruct c as [w ths]. cbn [fst] in *. apply wstep_cases in Hs.
  destruct Hs as [(t & o & p & p' & -> & Ht & Hc & -> & _)|[(t & ch & p & o & r & p' & -> & Ht & Hr & -> & _)|[(t & ch & p & -> & Ht & Hr & Hrun & _)|[(t & -> & -> & _)|(t & l & o & i & v & w1 & -> & Hl & Hc & -> & _)]]]]; try exact E.
  - destruct ch as [o i]. destruct p; cbn [uonce_run] in Hrun; try discriminate.
    + destruct (wload _ _ _ _ _) as [[v w1]|] eqn:El; [|discriminate]. injection Hrun as <-. cbn [fst]. rewrite (proj1 (proj2 (uload_hist _ _ _ _ _ _ _ El))). exact E.
    + destruct (wcas _ _ _ _ _ _ _ _ _ _ _) as [[[b v] w1]|] eqn:Ec; [|discriminate]. destruct (wcas_inv _ _ _ _ _ _ _ _ _ _ _ _ _ _ Ec) as [(-> & _ & Hw)|(-> & _ & Hw)]; injection Hrun as <-; cbn [fst].
      * destruct (wrmw_inv _ _ _ _ _ _ _ _ _ Hw) as (m & _ & _ & _ & _ & _ & Hk & _). rewrite Hk by discriminate. exact E.
      * rewrite (proj1 (proj2 (uload_hist _ _ _ _ _ _ _ Hw))). exact E.
    + exfalso. destruct HU as (d & h & f & _ & _ & _ & [(A & _)|(y & A & _ & _ & A4 & _)]); cbn [fst snd] in *; rewrite E in A; [discriminate|].
      destruct A4 as [(_ & u & Hu & Al & _)|(_ & N)]; [|specialize (N _ _ Ht); discriminate]. assert (t = u) as <- by (eapply Al; eauto; reflexivity). congruence.
    + destruct (wrmw _ _ _ _ _ _ _) as [[v w1]|] eqn:Hw; [|discriminate]. injection Hrun as <-. cbn [fst]. destruct (wrmw_inv _ _ _ _ _ _ _ _ _ Hw) as (m & _ & _ & _ & _ & _ & Hk & _). rewrite Hk by discriminate. exact E.
    + destruct (wrmw _ _ _ _ _ _ _) as [[v w1]|] eqn:Hw; [|discriminate]. injection Hrun as <-. cbn [fst]. destruct (wrmw_inv _ _ _ _ _ _ _ _ _ Hw) as (m & _ & _ & _ & _ & _ & Hk & _). rewrite Hk by discriminate. exact E.
    + destruct (wload _ _ _ _ _) as [[v w1]|] eqn:El; [|discriminate]. injection Hrun as <-. cbn [fst]. rewrite (proj1 (proj2 (uload_hist _ _ _ _ _ _ _ El))). exact E.
  - cbn [fst]. destruct (wclient_inv _ _ _ _ _ _ _ Hc) as (_ & Hk & _). rewrite Hk by lia. exact E.
Qed.
Lemma u_done w ths t o s v : UI (w, ths) -> nth_error ths t = Some (UDone o s (URead v)) -> v <> 0 -> exists d0 x, hist w 1%nat = [d0; x] /\ mval d0 = 0 /\ v = mval x /\ In (mid x) (wkn w t).
Proof.
  intros (d0 & h & f & Eh & C & Hd & HC) Ht Hv. cbn [fst snd] in *. destruct HC as [(_ & _ & _ & _ & A5)|(x & A1 & _ & _ & _ & _ & A6)]; [destruct Hv; eapply A5; eauto|].
  destruct (A6 _ _ _ _ Ht) as [(B1 & B2)|(B1 & _)]; [|contradiction]. eauto 10.
Qed.
Lemma u_done_sync w ths t o v : UI (w, ths) -> nth_error ths t = Some (UDone o true (URead v)) -> v <> 0.
Proof.
  intros (d0 & h & f & Eh & C & Hd & HC) Ht. cbn [fst snd] in *. destruct HC as [(_ & _ & _ & A4 & _)|(x & A1 & A2 & _ & _ & _ & A6)]; [specialize (A4 _ _ Ht); discriminate|].
  destruct (A6 _ _ _ _ Ht) as [(-> & _)|(_ & F)]; [exact A2|discriminate].
Qed.
Lemma UH_exec acq n sched c tr : exec (uonce_step acq) (uonce_init n) sched = Some (c, tr) -> UH c tr.
Proof.
  apply exec_inv; [split; [apply UI_init|intros ? ? ? ? []]|]. intros c1 tr1 a c2 e (HU & HH) Hs. split; [eapply UI_step; eauto|]. intros t o v K Hin Hv. apply in_app_or in Hin. destruct Hin as [Hin|Hin].
  - destruct (HH _ _ _ _ Hin Hv) as (d0 & x & E & G). exists d0, x. split; [eapply udata_step; eauto|exact G].
  - apply in_split in Hin. destruct Hin as (d & b & Ees). destruct c1 as [w ths]. destruct (u_ret _ _ _ _ _ _ _ _ _ _ _ _ Hs Ees) as (s & Ht & -> & -> & _). cbn [fst]. eapply u_done; eauto.
Qed.

(** Once a thread knows the write, it gets its value in every later call. Proof or specification device; no counterpart in /repo. *)
Definition uknows (t : nat) (x : msg) (c : wmem * list upc) : Prop :=
  UI c /\ (exists d0, hist (fst c) 1%nat = [d0; x]) /\ In (mid x) (wkn (fst c) t) /\ forall o s v, nth_error (snd c) t = Some (UDone o s (URead v)) -> v = mval x.
Lemma uknows_step acq t x c a c' e : uknows t x c -> uonce_step acq c a = Some (c', e) -> uknows t x c'.
Proof.
  intros (HU & (d0 & E) & Hk & Hd) Hs. split; [eapply UI_step; eauto|]. split; [exists d0; eapply udata_step; eauto|]. destruct c as [w ths], c' as [w' ths']. cbn [fst snd] in *.
  split; [eapply (wstep_mono _ _ _ _ (uonce_mono acq)); eauto|]. intros o s v Hn. destruct (UI_data _ _ _ HU E) as (D0 & Dx).
  apply wstep_cases in Hs.
  destruct Hs as [(u & o1 & p & p' & -> & Ht & Hc & F & _)|[(u & ch & p & o1 & r & p' & -> & Ht & Hr & F & _)|[(u & ch & p & -> & Ht & Hr & Hrun & _)|[(u & -> & F & _)|(u & l & o1 & i & v1 & w1 & -> & Hl & Hc & F & _)]]]]; try (injection F as -> ->).
  - destruct (nth_upd_inv _ _ _ _ _ Hn) as [(-> & <- & _)|(_ & Hn')]; [|eauto]. destruct p; try discriminate. destruct o1; discriminate.
  - destruct (nth_upd_inv _ _ _ _ _ Hn) as [(-> & <- & _)|(_ & Hn')]; [|eauto]. destruct p; discriminate.
  - assert (G : exists p', ths' = upd ths u p' /\ (u <> t \/ forall o s v, p' = UDone o s (URead v) -> v = mval x)).
    { destruct ch as [o1 i]. destruct p; cbn [uonce_run] in Hrun; try discriminate.
      - destruct (wload _ _ _ _ _) as [[v1 w1]|]; [|discriminate]. injection Hrun as _ <-. eexists. split; [reflexivity|]. right. destruct (v1 =? 2); discriminate.
      - destruct (wcas _ _ _ _ _ _ _ _ _ _ _) as [[[[] v1] w1]|]; try discriminate; injection Hrun as _ <-; eexists; (split; [reflexivity|]); right; [|destruct (v1 =? 2)]; discriminate.
      - destruct o1; [destruct (wstore _ _ _ _ _ _) as [w1|]; [|discriminate]|]; injection Hrun as _ <-; eexists; (split; [reflexivity|]); right; discriminate.
      - destruct (wrmw _ _ _ _ _ _ _) as [[v1 w1]|]; [|discriminate]. injection Hrun as _ <-. eexists. split; [reflexivity|]. right. discriminate.
      - destruct (wrmw _ _ _ _ _ _ _) as [[v1 w1]|]; [|discriminate]. injection Hrun as _ <-. eexists. split; [reflexivity|]. right. discriminate.
      - destruct (wload _ _ _ _ _) as [[v1 w1]|] eqn:El; [|discriminate]. injection Hrun as _ <-. eexists. split; [reflexivity|]. destruct (Nat.eq_dec u t) as [->|]; [right|left; assumption]. intros o2 s2 v2 F. injection F as <- <- <-.
        destruct (uget _ _ _ _ _ _ _ E D0 El) as [(G & _)|(_ & G)]; [exact G|contradiction]. }
    destruct G as (p' & -> & G). destruct (nth_upd_inv _ _ _ _ _ Hn) as [(-> & <- & _)|(_ & Hn')]; [|eauto]. destruct G as [G|G]; [congruence|]. eapply G. reflexivity.
  - eauto.
  - eauto.
Qed.
