(** The Windows condition variable (/repo/include/boost/sync/detail/condition_variables/basic_condition_variable_windows.hpp "W:") on weak memory, with the Windows mutex
    of WeakWin.v as the user's lock.

    The locations: 0 and 1 are those of the user's mutex (WeakWin.v), 2 is m_total_waiter_count (W:142), 3 stands for m_internal_mutex (W:136), the program's own locations
    are 4 and above.  notify_one and notify_all first read m_total_waiter_count without any lock (W:172 W:184); this load may return an old value.  A section protected by
    m_internal_mutex is one step, as in WinCvModel.v; it acquires what all earlier sections released and releases what it knows.
    Simplifications: m_internal_mutex is taken to publish, which the mutex of this library does not always do (C69): this is in the code's favour.  What the waiter learns
    through its semaphore it also learns in the section that follows (W:346 W:369 W:439).  If the lock() of ~relocker (W:118-122) throws, it is called again. *)
From Coq Require Import List Bool Arith ZArith Lia.
From Verif Require Import ListSum Exec Events Lin Thr Word MutexSpec MutexSpecFacts WinMutexModel WinMutexProof WinCvModel WinCvRing WinCvProof Hb HbSpin HbWinMutex Weak WeakAuto WeakSem WeakWin WeakWinHb.
Import ListNotations.
Local Open Scope Z_scope.

(** A call or return of the user's mutex, or an event of the condition variable, W:170-469. *)
Inductive xev := XMut (e : event mop mres) | XCv (e : cev).
(** A step of the mutex or of the program; a step of the condition variable (with the position of the message read at W:172 W:184). *)
Inductive xact := XM (a : @wact mop (wchoice * nat)) | XC (a : cact) (i : nat).
(** Who moves. W:170-253. *)
Definition mth (a : @wact mop (wchoice * nat)) : nat := match a with WCall t _ | WRun t _ | WWork t | WClient t _ _ _ => t end.
(** The same for the condition variable, W:170-253. *)
Definition cth (a : cact) : nat := match a with AWait t _ | ANotify t _ | ARun t _ => t end.

(** When a thread may use the user's mutex: outside the condition variable; unlock() at W:202 W:214 W:234; lock() in ~relocker, W:118-122. *)
Definition mut_ok (p : cpc) (a : @wact mop (wchoice * nat)) : bool :=
  match a with
  | WCall _ o => match p, o with CIdle, _ => true | CUnlockU _ _, MUnlock => true | CRelock _ _, MLock => true | _, _ => false end
  | WRun _ _ => match p with CIdle | CUnlockU _ _ | CRelock _ _ => true | _ => false end
  | WWork _ => true
  | WClient _ l _ _ => (4 <=? l)%nat
  end.
(** When a thread may move in the condition variable: wait requires the lock to be held (W:196-254); after W:202 W:214 W:234 it is not, after W:118-122 it is. *)
Definition cv_ok (p : cpc) (m : wpc) (a : cact) : bool :=
  match a, m with
  | AWait _ _, WRest true => true
  | ANotify _ _, WRest _ => true
  | ARun _ _, _ => match p, m with CUnlockU _ _, WRest false => true | CUnlockU _ _, _ => false | CRelock _ _, WRest true => true | CRelock _ _, _ => false | _, _ => true end
  | _, _ => false
  end.

(** The steps that are sections of m_internal_mutex: W:174-178 W:186-191 W:286-325 W:336-342 W:346-353 W:369-377 W:388-394 W:400-409 W:425-431 W:439-447 W:452-462. *)
Definition is_sec (p : cpc) (ch : cchoice) : bool :=
  match p, ch with
  | CInit _, CNorm | CInit _, CTime => true
  | CTok _ _, CMutex | CErr _ _, CMutex | CTmo _ _, CMutex | CNSec _, CMutex => false
  | CTok _ _, _ | CErr _ _, _ | CTmo _ _, _ | CNSec _, _ => true
  | _, _ => false
  end.
(** What the section does to m_total_waiter_count, if anything: store(1, relaxed) for the first waiter (W:294), opaque_add / opaque_sub (relaxed) otherwise
    (W:264 W:305 W:323 W:342 W:394 W:408 W:431 W:461). *)
Definition sec_op (s s' : csh) : option cop :=
  if total s' =? total s then None
  else Some (match wstate s with None => CStore false (total s') | Some _ => CRmw false false (total s') end).
(** The newest message of a location, for the accesses W:264-461 made under m_internal_mutex (language rule: what a thread that knows all of them reads). *)
Definition newest (w : wmem) (l : nat) : nat := pred (length (hist w l)).
(** A section: take m_internal_mutex, change m_total_waiter_count, release m_internal_mutex.  A thread that knows all earlier sections can only write after their writes. W:286-325. *)
Definition wsec (t : nat) (o : option cop) (w : wmem) : option wmem :=
  match wclient t 3 (CRmw true false 0) (newest w 3) w with
  | Some (_, w1) =>
      match match o with Some o => wclient t 2 o (newest w1 2) w1 | None => Some (0, w1) end with
      | Some (_, w2) => match wclient t 3 (CRmw false true 0) (newest w2 3) w2 with Some (_, w3) => Some w3 | None => None end
      | None => None
      end
  | None => None
  end.

(** The mutex and the threads in it; the condition variable and the threads in it. W:136-142. *)
Definition x_st : Type := ((wmem * kst) * list wpc) * cv_st.
(** Events with what the thread knows; the calls are those of W:118-122 W:202 W:214 W:234 and of the program. *)
Definition xmap (e : hev (event mop mres)) : hev xev := match e with HWork t j => HWork t j | HEv e K => HEv (XMut e) K end.
(** One step, W:170-469 and WeakWin.v. *)
Definition x_step (q : bool) (c : x_st) (a : xact) : option (x_st * list (hev xev)) :=
  let '(((w, k), mths), (s, cths)) := c in
  if kdead k || cdead s then None else
  match a with
  | XM a =>
      if mut_ok (nth (mth a) cths CIdle) a
      then match wwm_step q ((w, k), mths) a with Some (c', e) => Some ((c', (s, cths)), map xmap e) | None => None end
      else None
  | XC a i =>
      let t := cth a in
      match nth_error cths t, nth_error mths t with
      | Some p, Some m =>
          if cv_ok p m a
          then match p, a with
               | CNLoad al, ARun _ _ =>                            (* W:172 W:184: load(acquire) *)
                   match wclient t 2 (CLoad true) i w with
                   | Some (v, w') =>
                       if 0 <? v then Some ((((w', k), mths), (s, upd cths t (CNSec al))), [])
                       else Some ((((w', k), mths), (s, upd cths t CIdle)), [HEv (XCv (ENotify t al 0)) (wkn w' t); HEv (XCv (ENotifyRet t)) (wkn w' t)])
                   | None => None
                   end
               | _, _ =>
                   match cv_step (s, cths) a with
                   | Some ((s', cths'), e) =>
                       match match a with ARun _ ch => if is_sec p ch then wsec t (sec_op s s') w else Some w | _ => Some w end with
                       | Some w' => Some ((((w', k), mths), (s', cths')), map (fun e => HEv (XCv e) (wkn w' t)) e)
                       | None => None
                       end
                   | None => None
                   end
               end
          else None
      | _, _ => None
      end
  end.
(** W:145-148 and wwm_init. *)
Definition x_init (n : nat) : x_st := (wwm_init n, cv_init n).

(** * Projections of a history *)

(** The events of the user's mutex (W:118-122 W:202 W:214 W:234), as WeakWin.v emits them; the events of the condition variable, W:170-469. *)
Definition xm (e : hev xev) : list (hev (event mop mres)) := match e with HWork t j => [HWork t j] | HEv (XMut e) K => [HEv e K] | HEv (XCv _) _ => [] end.
(** Proof or specification device; no counterpart in /repo. *)
Definition xc (e : hev xev) : list cev := match e with HEv (XCv e) _ => [e] | _ => [] end.
(** Proof or specification device; no counterpart in /repo. *)
Definition muts (tr : list (hev xev)) : list (hev (event mop mres)) := flat_map xm tr.
(** Proof or specification device; no counterpart in /repo. *)
Definition cvs (tr : list (hev xev)) : list cev := flat_map xc tr.
(** Whose event, W:170-469. *)
Definition cev_th (e : cev) : nat := match e with EJoin t | EEnd t _ _ | ENotify t _ _ | EWaitCall t | EWaitRet t _ | ENotifyCall t _ | ENotifyRet t => t end.
(** Proof or specification device; no counterpart in /repo. *)
Definition xth (e : xev) : nat := match e with XMut (Call t _) => t | XMut (Ret t _ _) => t | XCv e => cev_th e end.

Lemma muts_app a b : muts (a ++ b) = muts a ++ muts b. Proof. apply flat_map_app. Qed.
Lemma cvs_app a b : cvs (a ++ b) = cvs a ++ cvs b. Proof. apply flat_map_app. Qed.
Lemma muts_xmap e : muts (map xmap e) = e.
Proof. induction e as [|[t j|e0 K] e IH]; [reflexivity| |]; cbn; f_equal; exact IH. Qed.
Lemma cvs_xmap e : cvs (map xmap e) = [].
Proof. induction e as [|[t j|e0 K] e IH]; [reflexivity| |]; cbn; exact IH. Qed.
Lemma muts_cv K e : muts (map (fun e => HEv (XCv e) K) e) = [].
Proof. induction e as [|x e IH]; [reflexivity|]. exact IH. Qed.
Lemma cvs_cv K e : cvs (map (fun e => HEv (XCv e) K) e) = e.
Proof. induction e as [|x e IH]; [reflexivity|]. cbn. f_equal. exact IH. Qed.

(** * Operations at the newest message *)

Lemma newest_nth w l m : nth_error (hist w l) (newest w l) = Some m -> exists h, hist w l = h ++ [m].
Proof.
  unfold newest. intros H. destruct (nth_error_split _ _ H) as (h1 & h2 & E & Hl). destruct h2 as [|x h2]; [exists h1; exact E|].
  rewrite E, app_length in Hl. cbn in Hl. lia.
Qed.
Lemma newest_ins w l h m x : hist w l = h ++ [m] -> insert (hist w l) (newest w l) x = (h ++ [m]) ++ [x].
Proof. intros E. rewrite insert_end; [rewrite E; reflexivity|]. unfold newest. rewrite E, app_length. cbn. lia. Qed.

Lemma rmw_new t l acq rel v w v0 w' : wclient t l (CRmw acq rel v) (newest w l) w = Some (v0, w') ->
  exists x, hist w' l = hist w l ++ [x] /\ (forall k, k <> l -> hist w' k = hist w k) /\ mval x = v /\ In (mid x) (wkn w' t) /\ kmono w w' /\
    incl (trel w l) (mrel x) /\ (acq = true -> incl (trel w l) (wkn w' t)) /\ (rel = true -> incl (wkn w t) (mrel x)).
Proof.
  cbn [wclient]. intros H. pose proof (wrmw_mono _ _ _ _ _ _ _ _ _ H) as M. destruct (wrmw_inv _ _ _ _ _ _ _ _ _ H) as (m & En & _ & _ & _ & Eh & Ek & _ & _ & _ & Et).
  destruct (newest_nth _ _ _ En) as (h & E). rewrite (newest_ins _ _ _ _ _ E), <- E in Eh. rewrite (trel_end _ _ _ _ E).
  eexists. split; [exact Eh|]. split; [exact Ek|]. cbn [mval mid mrel]. split; [reflexivity|]. split; [rewrite Et; left; reflexivity|]. split; [exact M|]. split; [apply incl_appr, incl_refl|].
  split; [intros ->; rewrite Et; apply incl_tl, incl_appl, incl_refl|]. intros ->. apply incl_appl, incl_appr, incl_tl, incl_refl.
Qed.
Lemma store_new t l rel v w v0 w' : wclient t l (CStore rel v) (newest w l) w = Some (v0, w') ->
  exists x, hist w' l = hist w l ++ [x] /\ (forall k, k <> l -> hist w' k = hist w k) /\ mval x = v /\ In (mid x) (wkn w' t) /\ kmono w w'.
Proof.
  cbn [wclient]. destruct (wstore _ _ _ _ _ _) as [w1|] eqn:H; [|discriminate]. intros F. injection F as _ <-. pose proof (wstore_mono _ _ _ _ _ _ _ H) as M.
  destruct (wstore_inv _ _ _ _ _ _ _ H) as (m & En & _ & _ & Eh & Ek & _ & _ & _ & Et).
  destruct (newest_nth _ _ _ En) as (h & E). rewrite (newest_ins _ _ _ _ _ E), <- E in Eh. eexists. split; [exact Eh|]. split; [exact Ek|]. split; [reflexivity|].
  split; [rewrite Et; left; reflexivity|exact M].
Qed.

(** What a step of the condition variable does to memory. Proof or specification device; no counterpart in /repo. *)
Definition csec (t : nat) (w w' : wmem) : Prop := incl (trel w 3) (wkn w' t) /\ incl (wkn w t) (trel w' 3).
Lemma wsec_inv t s s' w w' : wsec t (sec_op s s') w = Some w' ->
  kmono w w' /\ incl (trel w 3) (trel w' 3) /\ csec t w w' /\
  (if total s' =? total s then hist w' 2%nat = hist w 2%nat else exists x, hist w' 2%nat = hist w 2%nat ++ [x] /\ mval x = total s' /\ In (mid x) (wkn w' t)).
Proof.
  unfold wsec, sec_op. destruct (wclient t 3 _ _ w) as [[v1 w1]|] eqn:E1; [|discriminate].
  destruct (rmw_new _ _ _ _ _ _ _ _ E1) as (x1 & A1 & A2 & _ & _ & A3 & A4 & A5 & _). specialize (A5 eq_refl).
  assert (T1 : incl (trel w 3) (trel w1 3)) by (rewrite (trel_end _ _ _ _ A1); exact A4).
  destruct (Z.eqb_spec (total s') (total s)) as [Ez|Nz].
  - destruct (wclient t 3 _ _ w1) as [[v3 w3]|] eqn:E3; [|discriminate]. intros H. injection H as <-.
    destruct (rmw_new _ _ _ _ _ _ _ _ E3) as (x3 & B1 & B2 & _ & _ & B3 & B4 & _ & B5). specialize (B5 eq_refl).
    assert (T3 : trel w3 3 = mrel x3) by (apply (trel_end _ _ _ _ B1)).
    split; [eapply kmono_trans; eauto|]. split; [rewrite T3; eapply incl_tran; eauto|]. split; [split; [eapply incl_tran; [exact A5|apply B3]|rewrite T3; eapply incl_tran; [apply A3|exact B5]]|].
    rewrite B2, A2 by discriminate. reflexivity.
  - assert (G : forall v2 w2, wclient t 2 (match wstate s with None => CStore false (total s') | Some _ => CRmw false false (total s') end) (newest w1 2) w1 = Some (v2, w2) ->
      exists x, hist w2 2%nat = hist w1 2%nat ++ [x] /\ (forall k, k <> 2%nat -> hist w2 k = hist w1 k) /\ mval x = total s' /\ In (mid x) (wkn w2 t) /\ kmono w1 w2).
    { intros v2 w2 E2. destruct (wstate s); [destruct (rmw_new _ _ _ _ _ _ _ _ E2) as (x & ? & ? & ? & ? & ? & _)|destruct (store_new _ _ _ _ _ _ _ E2) as (x & ? & ? & ? & ? & ?)]; exists x; auto. }
    destruct (wclient t 2 _ _ w1) as [[v2 w2]|]; [|discriminate]. specialize (G _ _ eq_refl). destruct G as (x & G1 & G2 & G3 & G4 & G5).
    destruct (wclient t 3 _ _ w2) as [[v3 w3]|] eqn:E3; [|discriminate]. intros H. injection H as <-.
    destruct (rmw_new _ _ _ _ _ _ _ _ E3) as (x3 & B1 & B2 & _ & _ & B3 & B4 & _ & B5). specialize (B5 eq_refl).
    assert (T3 : trel w3 3 = mrel x3) by (apply (trel_end _ _ _ _ B1)). rewrite (trel_same w1 w2 3) in B4 by (apply G2; discriminate).
    split; [eapply kmono_trans; [exact A3|eapply kmono_trans; eauto]|]. split; [rewrite T3; eapply incl_tran; eauto|].
    split; [split; [eapply incl_tran; [exact A5|eapply incl_tran; [apply G5|apply B3]]|rewrite T3; eapply incl_tran; [apply A3|eapply incl_tran; [apply G5|exact B5]]]|].
    exists x. rewrite B2, G1, A2 by discriminate. split; [reflexivity|]. split; [exact G3|]. apply B3. exact G4.
Qed.

(** ... and it is a sequence of the program's own operations, as far as the mutex is concerned. *)
Lemma client_exec q w k ths t l o i v w' : (2 <= l)%nat -> wclient t l o i w = Some (v, w') -> wwm_step q ((w, k), ths) (WClient t l o i) = Some (((w', k), ths), []).
Proof. intros Hl H. cbn [wwm_step]. rewrite (proj2 (Nat.leb_le 2 l) Hl), H. reflexivity. Qed.
Lemma wsec_exec q k ths t o w w' : wsec t o w = Some w' -> exists l, exec (wwm_step q) ((w, k), ths) l = Some (((w', k), ths), []).
Proof.
  unfold wsec. destruct (wclient t 3 _ _ w) as [[v1 w1]|] eqn:E1; [|discriminate]. apply (client_exec q w k ths) in E1; [|lia].
  destruct o as [o|].
  - destruct (wclient t 2 _ _ w1) as [[v2 w2]|] eqn:E2; [|discriminate]. apply (client_exec q w1 k ths) in E2; [|lia].
    destruct (wclient t 3 _ _ w2) as [[v3 w3]|] eqn:E3; [|discriminate]. apply (client_exec q w2 k ths) in E3; [|lia]. intros H. injection H as <-.
    exists [WClient t 3 (CRmw true false 0) (newest w 3); WClient t 2 o (newest w1 2); WClient t 3 (CRmw false true 0) (newest w2 3)]%nat.
    cbn [exec]. rewrite E1, E2, E3. reflexivity.
  - destruct (wclient t 3 _ _ w1) as [[v3 w3]|] eqn:E3; [|discriminate]. apply (client_exec q w1 k ths) in E3; [|lia]. intros H. injection H as <-.
    exists [WClient t 3 (CRmw true false 0) (newest w 3); WClient t 3 (CRmw false true 0) (newest w1 3)]%nat. cbn [exec]. rewrite E1, E3. reflexivity.
Qed.

(** * What a step can be *)

Lemma sec_total s t p ch s' p' e : cv_run s t p ch = Some (s', p', e) -> is_sec p ch = false -> total s' = total s.
Proof.
  intros H Hs. destruct p; cbn [cv_run] in H; try discriminate.
  - destruct ch; injection H as <- _ _; reflexivity.
  - destruct ch; try discriminate Hs; injection H as <- _ _; reflexivity.
  - injection H as <- _ _. reflexivity.
  - destruct ch, k; try discriminate; try (injection H as <- _ _; reflexivity);
      destruct (nth_error (sts s) s0) as [w|]; try (injection H as <- _ _; reflexivity); destruct (0 <? tokens w); try discriminate; injection H as <- _ _; reflexivity.
  - destruct ch; try discriminate Hs; injection H as <- _ _; reflexivity.
  - destruct ch; try discriminate Hs; injection H as <- _ _; reflexivity.
  - destruct ch; try discriminate Hs; injection H as <- _ _; reflexivity.
  - destruct k, r; injection H as <- _ _; reflexivity.
  - destruct (0 <? total s); injection H as <- _ _; reflexivity.
  - destruct ch; try discriminate Hs; injection H as <- _ _; reflexivity.
Qed.

(** The events of one step: at most one besides the return of notify_*. *)
Lemma cv_shape c a c' e : cv_step c a = Some (c', e) ->
  (e = [] \/ exists x, cev_th x = cth a /\ (e = [x] \/ e = [x; ENotifyRet (cth a)])) /\ forall x, In x e -> cev_th x = cth a.
Proof.
  assert (G : forall t e, (e = [] \/ exists x, cev_th x = t /\ (e = [x] \/ e = [x; ENotifyRet t])) -> (e = [] \/ exists x, cev_th x = t /\ (e = [x] \/ e = [x; ENotifyRet t])) /\ forall x, In x e -> cev_th x = t).
  { clear. intros t e H. split; [exact H|]. intros y Hy. destruct H as [->|(x & Hx & [-> | ->])]; [destruct Hy|destruct Hy as [<-|[]]; exact Hx|destruct Hy as [<-|[<-|[]]]; [exact Hx|reflexivity]]. }
  intros H. apply G. clear G. destruct c as [s ths]. destruct a as [t k|t al|t ch]; cbn [cv_step cth] in *.
  - destruct (nth_error ths t) as [[]|]; inversion H; subst. right. exists (EWaitCall t). auto.
  - destruct (nth_error ths t) as [[]|]; inversion H; subst. right. exists (ENotifyCall t al). auto.
  - destruct (cdead s); [discriminate|]. destruct (nth_error ths t) as [p|]; [|discriminate]. destruct (cv_run s t p ch) as [[[s' q] e']|] eqn:Hr; [|discriminate]. injection H as _ <-.
    assert (G1 : forall x, cev_th x = t -> ([x] = [] \/ exists y, cev_th y = t /\ ([x] = [y] \/ [x] = [y; ENotifyRet t]))) by (intros x Hx; right; exists x; auto).
    assert (G2 : forall x, cev_th x = t -> ([x; ENotifyRet t] = [] \/ exists y, cev_th y = t /\ ([x; ENotifyRet t] = [y] \/ [x; ENotifyRet t] = [y; ENotifyRet t]))) by (intros x Hx; right; exists x; auto).
    destruct p; cbn [cv_run] in Hr; try discriminate.
    + destruct ch; injection Hr as _ _ <-; auto.
    + destruct (initiate s) as [[s1 i]|]; destruct ch; injection Hr as _ _ <-; auto.
    + injection Hr as _ _ <-. auto.
    + destruct (nth_error (sts s) s0) as [w|]; destruct ch, k; try discriminate; try (injection Hr as _ _ <-; auto; fail); destruct (0 <? tokens w); try discriminate; injection Hr as _ _ <-; auto.
    + destruct (nth_error (sts s) s0) as [w|]; [destruct (sec_token w)|]; destruct ch; injection Hr as _ _ <-; auto.
    + destruct (nth_error (sts s) s0) as [w|]; [destruct (leave s s0 w)|]; destruct ch; injection Hr as _ _ <-; auto.
    + destruct (nth_error (sts s) s0) as [w|]; [destruct (leave s s0 w)|]; destruct ch; injection Hr as _ _ <-; auto.
    + destruct k, r; injection Hr as _ _ <-; auto.
    + destruct (0 <? total s); injection Hr as _ _ <-; auto.
    + destruct (total s =? 0); [destruct ch; injection Hr as _ _ <-; auto|]. destruct (nstate s) as [i|]; [|destruct ch; injection Hr as _ _ <-; auto].
      destruct (wake _ _ _ _) as [[l j]|]; destruct ch; injection Hr as _ _ <-; auto.
Qed.

(** Proof or specification device; no counterpart in /repo. *)
Inductive xcase (q : bool) (w : wmem) (k : kst) (mths : list wpc) (s : csh) (cths : list cpc) : xact -> x_st -> list (hev xev) -> Prop :=
| xk_mut a w' k' mths' e : mut_ok (nth (mth a) cths CIdle) a = true -> wwm_step q ((w, k), mths) a = Some (((w', k'), mths'), e) ->
    xcase q w k mths s cths (XM a) (((w', k'), mths'), (s, cths)) (map xmap e)
| xk_load t ch i al v w' : nth_error cths t = Some (CNLoad al) -> wclient t 2 (CLoad true) i w = Some (v, w') -> 0 < v ->
    xcase q w k mths s cths (XC (ARun t ch) i) (((w', k), mths), (s, upd cths t (CNSec al))) []
| xk_none t ch i al v w' : nth_error cths t = Some (CNLoad al) -> wclient t 2 (CLoad true) i w = Some (v, w') -> v <= 0 ->
    xcase q w k mths s cths (XC (ARun t ch) i) (((w', k), mths), (s, upd cths t CIdle)) [HEv (XCv (ENotify t al 0)) (wkn w' t); HEv (XCv (ENotifyRet t)) (wkn w' t)]
| xk_cv a i p m s' cths' e w' : nth_error cths (cth a) = Some p -> nth_error mths (cth a) = Some m -> cv_ok p m a = true ->
    (forall t ch al, a = ARun t ch -> p <> CNLoad al) ->
    cv_step (s, cths) a = Some ((s', cths'), e) ->
    kmono w w' -> incl (trel w 3) (trel w' 3) ->
    (if total s' =? total s then hist w' 2%nat = hist w 2%nat else exists x, hist w' 2%nat = hist w 2%nat ++ [x] /\ mval x = total s' /\ In (mid x) (wkn w' (cth a))) ->
    (forall t ch, a = ARun t ch -> is_sec p ch = true -> csec t w w') ->
    (exists l, exec (wwm_step q) ((w, k), mths) l = Some (((w', k), mths), [])) ->
    xcase q w k mths s cths (XC a i) (((w', k), mths), (s', cths')) (map (fun e => HEv (XCv e) (wkn w' (cth a))) e).

Lemma x_case q w k mths s cths a c' e : x_step q (((w, k), mths), (s, cths)) a = Some (c', e) -> xcase q w k mths s cths a c' e.
Proof.
  unfold x_step. destruct (kdead k || cdead s); [discriminate|]. destruct a as [a|a i].
  - destruct (mut_ok _ _) eqn:Em; [|discriminate]. destruct (wwm_step _ _ _) as [[[[w' k'] mths'] e']|] eqn:Es; [|discriminate]. intros H. injection H as <- <-. constructor; assumption.
  - destruct (nth_error cths (cth a)) as [p|] eqn:Ep; [|discriminate]. destruct (nth_error mths (cth a)) as [m|] eqn:Em; [|discriminate]. destruct (cv_ok p m a) eqn:Eo; [|discriminate].
    intros H.
    assert (D : (exists t ch al, a = ARun t ch /\ p = CNLoad al) \/ (forall t ch al, a = ARun t ch -> p <> CNLoad al)).
    { destruct a; try (right; discriminate). destruct p; try (right; discriminate). left. eauto. }
    destruct D as [(t & ch & al & -> & ->)|D].
    + cbn [cth] in *. destruct (wclient _ _ _ _ _) as [[v w']|] eqn:Ec; [|discriminate]. destruct (Z.ltb_spec 0 v); injection H as <- <-.
      * eapply xk_load; eauto.
      * eapply xk_none; eauto.
    + assert (H' : match cv_step (s, cths) a with
                   | Some ((s', cths'), e) =>
                       match match a with ARun _ ch => if is_sec p ch then wsec (cth a) (sec_op s s') w else Some w | _ => Some w end with
                       | Some w' => Some ((((w', k), mths), (s', cths')), map (fun e => HEv (XCv e) (wkn w' (cth a))) e)
                       | None => None
                       end
                   | None => None
                   end = Some (c', e)).
      { destruct p; try exact H. destruct a; try exact H. exfalso. eapply D; reflexivity. }
      clear H. rename H' into H. destruct (cv_step (s, cths) a) as [[[s' cths'] e0]|] eqn:Es; [|discriminate].
      assert (Same : forall w1, Some w = Some w1 -> total s' = total s -> w1 = w /\ kmono w w1 /\ incl (trel w 3) (trel w1 3) /\
        (if total s' =? total s then hist w1 2%nat = hist w 2%nat else exists x, hist w1 2%nat = hist w 2%nat ++ [x] /\ mval x = total s' /\ In (mid x) (wkn w1 (cth a))) /\
        exists l, exec (wwm_step q) ((w, k), mths) l = Some (((w1, k), mths), [])).
      { intros w1 E Et. injection E as <-. rewrite Et, Z.eqb_refl. split; [reflexivity|]. split; [apply kmono_refl|]. split; [apply incl_refl|]. split; [reflexivity|]. exists []. reflexivity. }
      destruct a as [t kd|t al|t ch].
      * assert (Et : total s' = total s) by (cbn [cv_step] in Es; destruct (nth_error cths t) as [[]|]; inversion Es; reflexivity).
        injection H as <- <-. destruct (Same w eq_refl Et) as (_ & S1 & S2 & S3 & S4). eapply xk_cv; eauto. discriminate.
      * assert (Et : total s' = total s) by (cbn [cv_step] in Es; destruct (nth_error cths t) as [[]|]; inversion Es; reflexivity).
        injection H as <- <-. destruct (Same w eq_refl Et) as (_ & S1 & S2 & S3 & S4). eapply xk_cv; eauto. discriminate.
      * destruct (is_sec p ch) eqn:Esec.
        -- destruct (wsec _ _ _) as [w1|] eqn:Ew; [|discriminate]. injection H as <- <-. destruct (wsec_inv _ _ _ _ _ Ew) as (S1 & S2 & S3 & S4). eapply xk_cv; eauto.
           ++ intros t1 ch1 Ea _. injection Ea as <- <-. exact S3.
           ++ eapply wsec_exec; eauto.
        -- assert (Et : total s' = total s).
           { cbn [cv_step cth] in *. destruct (cdead s); [discriminate|]. rewrite Ep in Es. destruct (cv_run s t p ch) as [[[s1 q1] e1]|] eqn:Er; [|discriminate]. injection Es as -> _ _. eapply sec_total; eauto. }
           injection H as <- <-. destruct (Same w eq_refl Et) as (_ & S1 & S2 & S3 & S4). eapply xk_cv; eauto.
           intros t1 ch1 Ea. injection Ea as <- <-. congruence.
Qed.

(** The user's mutex is the one of WeakWin.v: the program around it happens to include a condition variable. *)
Lemma x_proj q n sched c tr : exec (x_step q) (x_init n) sched = Some (c, tr) -> exists s0, exec (wwm_step q) (wwm_init n) s0 = Some (fst c, muts tr).
Proof.
  apply (exec_inv (x_step q) (fun c tr => exists s0, exec (wwm_step q) (wwm_init n) s0 = Some (fst c, muts tr))).
  - exists []. reflexivity.
  - intros [[[w k] mths] [s cths]] tr1 a c' e (s0 & H) Hs. cbn [fst] in H. apply x_case in Hs. destruct Hs as [a w' k' mths' e _ Hs|t ch i al v w' _ Hc _|t ch i al v w' _ Hc _|a i p m s' cths' e w' _ _ _ _ _ _ _ _ _ (l & Hl)]; cbn [fst]; rewrite muts_app.
    + exists (s0 ++ [a]). rewrite exec_app, H. cbn [exec]. rewrite Hs, app_nil_r, muts_xmap. reflexivity.
    + exists (s0 ++ [WClient t 2 (CLoad true) i]). rewrite exec_app, H. cbn [exec]. rewrite (client_exec q w k mths _ _ _ _ _ _ (le_n 2) Hc). reflexivity.
    + exists (s0 ++ [WClient t 2 (CLoad true) i]). rewrite exec_app, H. cbn [exec]. rewrite (client_exec q w k mths _ _ _ _ _ _ (le_n 2) Hc). reflexivity.
    + exists (s0 ++ l). rewrite exec_app, H, Hl, muts_cv. reflexivity.
Qed.
