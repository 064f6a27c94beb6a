(** The Windows mutex and timed_mutex (/repo/include/boost/sync/detail/mutexes/basic_mutex_windows.hpp "B:", timed_mutex_windows.hpp "T:") on weak memory.
    Program points and choices as in WinMutexModel.v.  m_active_count is location 0; m_event is location 1, with the value 0 for a null handle and h + 1 for
    handle h.  A step's choice is the environment's choice of WinMutexModel.v and the position of the message read or written.
    The kernel events are objects of the operating system, which orders its operations totally: each has its state and what the SetEvent calls so far have
    released; a satisfied wait acquires it.  Creating and closing handles orders nothing.
    [q]: do the two compare-exchanges that may take the lock (B:134, B:150) have acquire order?  In the code: no ([false]). *)
From Coq Require Import List Bool Arith ZArith Lia.
From Verif Require Import ListSum Exec Events Lin Thr Word MutexSpec MutexSpecFacts WinMutexModel WinMutexProof Hb HbSpin HbWinMutex Weak WeakAuto WeakSem.
Import ListNotations.
Local Open Scope Z_scope.

(** The kernel's part: the events created so far by B:106 (signalled or not, what was released), the handles closed so far (B:114), terminated (B:82). *)
Record kst := KS { kev : list (bool * list nat); kclosed : list nat; kdead : bool }.
(** A satisfied wait (B:169 T:132 T:178): thread [t] learns what was released. *)
Definition klearn (t : nat) (R : list nat) (w : wmem) : wmem := WM (nid w) (hist w) (fset (wkn w) t (R ++ wkn w t)) (wfen w).
(** B:125, B:115: the handle stored in m_event. *)
Definition handle (v : Z) : nat := Z.to_nat (v - 1).

(** One access or API call of one thread: B:76-184, T:80-224. *)
Definition wwm_run (q : bool) (t : nat) (w : wmem) (k : kst) (p : wpc) (c : wchoice * nat) : option (wmem * kst * wpc) :=
  let (ch, i) := c in
  if kdead k then None else
  match p with
  | WRest _ | WDone _ _ _ => None
  | WTry m =>                        (* B:97: bit_test_and_set(acquire) *)
      match wrmw t 0 true false (fun v => Z.setbit v lock_bit) i w with
      | Some (v, w') => Some (w', k, WDone m MTryLock (if locked v then RFalse else RTrue))
      | None => None
      end
  | WFirst k0 =>                     (* B:78 T:83 T:92 T:101 *)
      let kd := match k0, ch with KRel, CKind KAbs => KAbs | KRel, CKind KChrono => KChrono | _, _ => k0 end in
      match wrmw t 0 true false (fun v => Z.setbit v lock_bit) i w with
      | Some (v, w') => Some (w', k, if locked v then match kd with KChrono => WClock kd | _ => WLoad kd end else WDone false (kop kd) (kgot kd))
      | None => None
      end
  | WClock kd => match ch with CTimeout => Some (w, k, WDone false (kop kd) RFalse) | _ => Some (w, k, WLoad kd) end     (* T:216 T:221 *)
  | WLoad kd =>                      (* B:161 T:113 T:165: load(acquire) *)
      match wload t 0 true i w with Some (v, w') => Some (w', k, WMark kd v) | None => None end
  | WMark kd old =>                  (* B:134: weak, relaxed / relaxed *)
      match wcas t 0 true q false false old (mark_new old) (spurious ch) i w with
      | Some (true, _, w') => Some (w', k, if locked old then WEvLoad (CLock kd (mark_new old)) else WDone false (kop kd) (kgot kd))
      | Some (false, v, w') => Some (w', k, WMark kd v)
      | None => None
      end
  | WEvLoad c =>                     (* B:102: load(acquire) *)
      match wload t 1 true i w with
      | Some (v, w') => Some (w', k, if v =? 0 then WEvCreate c else got_event c (handle v))
      | None => None
      end
  | WEvCreate c =>                   (* B:106 *)
      match ch with
      | CFail => match c with
                 | CLock kd _ => Some (w, k, WSub kd RThrow)
                 | CUnlock => Some (w, KS (kev k) (kclosed k) true, WEvCreate c)      (* std::terminate *)
                 end
      | _ => Some (w, KS (kev k ++ [(false, [])]) (kclosed k) (kdead k), WEvCas c (length (kev k)))
      end
  | WEvCas c h =>                    (* B:111: strong, acquire / relaxed *)
      match wcas t 1 false true false false 0 (Z.of_nat h + 1) false i w with
      | Some (true, _, w') => Some (w', k, got_event c h)
      | Some (false, v, w') => Some (w', k, WEvClose c h (handle v))
      | None => None
      end
  | WEvClose c h h' => Some (w, KS (kev k) (h :: kclosed k) (kdead k), got_event c h')      (* B:114 *)
  | WTimer old h => match ch with CFail => Some (w, k, WSub KAbs RThrow) | _ => Some (w, k, WWait KAbs old h) end      (* T:122-128 *)
  | WWait kd old h =>                (* B:169 T:132 T:178 *)
      match ch with
      | CFail => Some (w, k, WSub kd RThrow)
      | CTimeout => match kd with KLock => None | _ => Some (w, k, WSub kd RFalse) end
      | CSlice => match kd with KRel | KChrono => Some (w, k, WWait kd old h) | _ => None end
      | _ => match nth_error (kev k) h with
             | Some (true, R) => Some (klearn t R w, KS (upd (kev k) h (false, R)) (kclosed k) (kdead k), WClear kd (clear_first old) h)
             | _ => None                                    (* blocked *)
             end
      end
  | WClear kd old h =>               (* B:150: weak, relaxed / relaxed *)
      match wcas t 0 true q false false old (clear_new old) (spurious ch) i w with
      | Some (true, _, w') => Some (w', k, if locked old then WWait kd old h else WDone false (kop kd) (kgot kd))
      | Some (false, v, w') => Some (w', k, WClear kd v h)
      | None => None
      end
  | WSub kd r =>                     (* B:181 T:148 T:158 T:199 T:205: opaque_sub(relaxed) *)
      match wrmw t 0 false false (fun v => u32 (v - 1)) i w with
      | Some (_, w') => Some (w', k, match kd, r with KChrono, RFalse => WClock KChrono | _, _ => WDone false (kop kd) r end)
      | None => None
      end
  | WUnl =>                          (* B:85: fetch_add(release) *)
      match wrmw t 0 false true (fun v => u32 (v + lock_val)) i w with
      | Some (v, w') => Some (w', k, if negb (evset v) && (lock_val <? v) then WBts else WDone true MUnlock ROk)
      | None => None
      end
  | WBts =>                          (* B:88: bit_test_and_set(relaxed) *)
      match wrmw t 0 false false (fun v => Z.setbit v event_bit) i w with
      | Some (v, w') => Some (w', k, if evset v then WDone true MUnlock ROk else WEvLoad CUnlock)
      | None => None
      end
  | WSet h =>                        (* B:90: SetEvent *)
      match nth_error (kev k) h with
      | Some (_, R) => Some (w, KS (upd (kev k) h (true, wkn w t ++ R)) (kclosed k) (kdead k), WDone true MUnlock ROk)
      | None => Some (w, k, WDone true MUnlock ROk)
      end
  end.

(** Any number of threads calling B:76-98 and T:65-105, with work and other atomic operations of the program (Weak.v). *)
Definition wwm_step (q : bool) (c : (wmem * kst) * list wpc) (a : @wact mop (wchoice * nat)) : option (((wmem * kst) * list wpc) * list (hev (event mop mres))) :=
  let '((w, k), ths) := c in
  match a with
  | WCall t o => match nth_error ths t with
                 | Some p => match wm_call p o with Some p' => Some (((w, k), upd ths t p'), [HEv (Call t o) (wkn w t)]) | None => None end
                 | None => None
                 end
  | WRun t ch => match nth_error ths t with
                 | Some p => match wm_ret p with
                             | Some (o, r, p') => Some (((w, k), upd ths t p'), [HEv (Ret t o r) (wkn w t)])
                             | None => match wwm_run q t w k p ch with Some (w', k', p') => Some (((w', k'), upd ths t p'), []) | None => None end
                             end
                 | None => None
                 end
  | WWork t => Some (((wwork t w, k), ths), [HWork t (nid w)])
  | WClient t l o i => if (2 <=? l)%nat then match wclient t l o i w with Some (_, w') => Some (((w', k), ths), []) | None => None end else None
  end.
(** B:65-67. *)
Definition wwm_init (n : nat) : (wmem * kst) * list wpc := ((wm0 (fun _ => 0), KS [] [] false), repeat (WRest false) n).

(** * The machine of WinMutexModel.v in which a thread may also read old values *)

(** A step of WinMutexModel.v, or a load that gives any value: it only decides which value a compare-exchange expects, or that an event is created in vain.
    The same lines. Proof or specification device; no counterpart in /repo. *)
Inductive vchoice := VStd (ch : wchoice) | VOld (v : Z).
(** One step: one of WinMutexModel.v, or a load of m_active_count (B:161, failing B:134 B:150) or of the event (B:102) that gives [v]. *)
Definition vm_run1 (s : wsh) (p : wpc) (c : vchoice) : option (wsh * wpc) :=
  match c with
  | VStd ch => wm_run1 s p ch
  | VOld v => if dead s then None else
              match p with
              | WLoad k => Some (s, WMark k v)
              | WMark k _ => Some (s, WMark k v)
              | WClear k _ h => Some (s, WClear k v h)
              | WEvLoad c => Some (s, WEvCreate c)
              | _ => None
              end
  end.
(** The same within the list of all threads; nothing in B touches another thread's locals. No counterpart in /repo. *)
Definition vm_run (s : wsh) (ths : list wpc) (t : nat) (p : wpc) (c : vchoice) : option (wsh * list wpc) :=
  match vm_run1 s p c with Some (s', p') => Some (s', upd ths t p') | None => None end.
(** All interleavings, B:65-184 and T:56-235. *)
Definition vm_step := tstep wm_call wm_ret vm_run.

Lemma vm_old s ths t p v s' q : vm_run1 s p (VOld v) = Some (s', q) -> WI (s, ths) -> nth_error ths t = Some p ->
  s' = s /\ WI (s, upd ths t q) /\ hold q = hold p /\ wabs q = wabs p.
Proof.
  intros H HI Ht. cbn [vm_run1] in H. destruct (dead s); [discriminate|].
  destruct p; try discriminate; injection H as <- <-; (split; [reflexivity|]); (split; [|split; reflexivity]); eapply WI_quiet; eauto; cbn; auto; discriminate.
Qed.

Lemma vm_len n sched c tr : exec vm_step (wm_init n) sched = Some (c, tr) -> length (snd c) = n.
Proof.
  apply (exec_inv_state vm_step (fun c => length (snd c) = n)).
  - cbn. apply repeat_length.
  - intros c1 a c2 e <- Hs. revert Hs. apply tstep_length. intros s ths t p ch c' Hr. unfold vm_run in Hr. destruct (vm_run1 s p ch) as [[s' q]|]; inversion Hr; subst. apply upd_length.
Qed.

Theorem vm_lin n sched c tr : Z.of_nat n < 2 ^ 30 -> exec vm_step (wm_init n) sched = Some (c, tr) -> linearizable WSP n tr /\ WI c.
Proof.
  intros Hn H.
  assert (Hlen : forall s ths t p ch c', vm_run s ths t p ch = Some c' -> length (snd c') = length ths).
  { intros s ths t p ch c' Hr. unfold vm_run in Hr. destruct (vm_run1 s p ch) as [[s' q]|]; inversion Hr; subst. apply upd_length. }
  apply (tsim WSP wm_call wm_ret vm_run wabs wg WI wcap (wm_init n) n) with (sched := sched); auto.
  - unfold tabs, xinit, wm_init, wg. cbn [fst snd]. f_equal; [|clear; induction n as [|n IH]; cbn; [reflexivity|]; f_equal; exact IH].
    apply owner_none. rewrite sumf_repeat. cbn. lia.
  - apply WI_init.
  - intros s ths t p o p' HI Hc Ht Hcall. destruct p; try discriminate. cbn in Hcall. destruct (mpre m o) eqn:Hm; [|discriminate].
    assert (Hh : hold p' = m /\ (m = false -> True) /\ wabs p' = XPend (S:=WSP) m o [] /\ reg p' = 0 /\ tok p' = 0 /\ pend p' = 0 /\ (forall id, inhand id p' = 0) /\ has p' = None /\ wloc p').
    { destruct o; inversion Hcall; subst; destruct m; try discriminate; cbn; repeat split; auto. }
    destruct Hh as (Hh & _ & Ha & R1 & R2 & R3 & R4 & R5 & R6). split; [|split].
    + apply (WI_quiet s ths t (WRest m) p'); auto; [rewrite R5; discriminate|unfold hz; rewrite Hh; reflexivity].
    + apply (owner_same _ _ _ _ Ht). exact Hh.
    + exists m. auto.
  - intros s ths t p o r p' HI Hc Ht Hret. destruct p; try discriminate. cbn in Hret. inversion Hret; subst. split; [|split].
    + eapply WI_quiet; eauto; try discriminate; try reflexivity.
    + apply (owner_same _ _ _ _ Ht). reflexivity.
    + exists m. auto.
  - intros s ths t p ch s' ths' HI Hc _ Ht _ Hrun. unfold vm_run in Hrun. destruct (vm_run1 s p ch) as [[s1 q]|] eqn:E; [|discriminate].
    inversion Hrun; subst. destruct ch as [ch|v]; [split; [eapply WI_run; eauto|eapply wm_run_sim; eauto]|].
    destruct (vm_old _ _ _ _ _ _ _ E HI Ht) as (-> & HI' & Hh & Ha). split; [exact HI'|]. unfold wg. rewrite (owner_same _ _ _ _ Ht Hh). apply (sim_sil WSP wabs _ _ _ _ _ Ht Ha).
  - intros s1 s2 c1 t1 _ He. unfold wcap. rewrite (tlength wm_call wm_ret vm_run (wm_init n) Hlen _ _ _ He). cbn [wm_init snd]. rewrite repeat_length. assumption.
Qed.

(** * The weak machine is simulated by it *)

(** What the newest values and the kernel say. Proof or specification device; no counterpart in /repo. *)
Definition wsh_of (w : wmem) (k : kst) : wsh :=
  Sh (top w 0) (if top w 1 =? 0 then None else Some (handle (top w 1))) (map fst (kev k)) (kclosed k) (kdead k).
(** Both locations are changed by read-modify-writes only; m_event is set at most once. Proof or specification device; no counterpart in /repo. *)
Definition HW (w : wmem) : Prop :=
  (exists m0 h, hist w 0%nat = m0 :: h /\ Forall (fun m => mrmw m = true) h) /\
  (exists m0, mval m0 = 0 /\ (hist w 1%nat = [m0] \/ exists x, hist w 1%nat = [m0; x] /\ mrmw x = true /\ 1 <= mval x)).

Lemma rmw0 w t acq rel f i v w' : HW w -> wrmw t 0 acq rel f i w = Some (v, w') ->
  exists x, hist w' 0%nat = hist w 0%nat ++ [x] /\ hist w' 1%nat = hist w 1%nat /\ v = top w 0 /\ top w' 0 = f (top w 0) /\ HW w' /\
    incl (trel w 0) (trel w' 0) /\ (rel = true -> incl (wkn w t) (trel w' 0)) /\ (acq = true -> incl (trel w 0) (wkn w' t)).
Proof.
  intros ((m0 & h & E0 & Hr) & H1) H.
  destruct (wrmw_inv _ _ _ _ _ _ _ _ _ H) as (m & En & _ & Rm & -> & Eh & Ek & _ & _ & _ & Et). rewrite E0 in *.
  set (x := Msg (nid w) (f (mval m)) ((if rel then (if acq then mrel m else []) ++ mid m :: wkn w t else wfen w t) ++ mrel m) true) in *.
  destruct (room_rmw _ _ _ _ x Hr En Rm) as (h' & E1 & E2). rewrite E2 in Eh.
  assert (N1 : top w 0 = mval m) by (apply (top_end w 0 h'); congruence).
  assert (N2 : trel w 0 = mrel m) by (apply (trel_end w 0 h'); congruence).
  assert (N3 : hist w' 0%nat = (h' ++ [m]) ++ [x]) by (rewrite Eh, <- app_assoc; reflexivity).
  exists x. rewrite N1, N2, (top_end _ _ _ _ N3), (trel_end _ _ _ _ N3).
  split; [rewrite N3, <- E1; reflexivity|]. split; [apply Ek; discriminate|]. split; [reflexivity|]. split; [reflexivity|]. split; [|split; [|split]].
  - split; [|rewrite (Ek 1%nat) by discriminate; exact H1]. rewrite N3, <- E1. exists m0, (h ++ [x]). split; [reflexivity|]. apply Forall_app. split; [exact Hr|]. repeat constructor.
  - apply incl_appr, incl_refl.
  - intros ->. cbn. apply incl_appl, incl_appr, incl_tl, incl_refl.
  - intros ->. rewrite Et. apply incl_tl, incl_appl, incl_refl.
Qed.
Lemma load_same w t l acq i v w' : wload t l acq i w = Some (v, w') -> hist w' = hist w /\ exists m, nth_error (hist w l) i = Some m /\ v = mval m.
Proof. intros H. destruct (wload_inv _ _ _ _ _ _ _ H) as (m & E & _ & -> & Eh & _). split; [exact Eh|]. eauto. Qed.
Lemma HW_same w w' : hist w' = hist w -> HW w -> HW w'. Proof. intros E. unfold HW. rewrite E. auto. Qed.
Lemma sh_same w w' k : hist w' = hist w -> wsh_of w' k = wsh_of w k. Proof. intros E. unfold wsh_of, top. rewrite E. reflexivity. Qed.
Lemma of_sh s w : word s = w -> s = set_word s w. Proof. intros <-. destruct s; reflexivity. Qed.
Lemma sh_word w w' k : hist w' 1%nat = hist w 1%nat -> wsh_of w' k = set_word (wsh_of w k) (top w' 0).
Proof. intros E. unfold wsh_of, set_word. cbn. rewrite (top_same _ _ _ E). reflexivity. Qed.
Lemma top1 w i m : HW w -> nth_error (hist w 1%nat) i = Some m -> mval m = 0 \/ (mval m = top w 1 /\ 1 <= mval m).
Proof.
  intros (_ & m0 & H0 & [E|(x & E & _ & Hx)]) H; rewrite E in H.
  - destruct i as [|[|]]; cbn in H; try discriminate. injection H as <-. auto.
  - destruct i as [|[|[|]]]; cbn in H; try discriminate; injection H as <-; [auto|]. right. split; [|exact Hx]. rewrite (top_end w 1 [m0] x E). reflexivity.
Qed.
Lemma handle_of h : handle (Z.of_nat h + 1) = h. Proof. unfold handle. replace (Z.of_nat h + 1 - 1) with (Z.of_nat h) by lia. apply Nat2Z.id. Qed.

Lemma wwm_sim q t w k p c w' k' p' : HW w -> wwm_run q t w k p c = Some (w', k', p') ->
  HW w' /\ ((exists ch, vm_run1 (wsh_of w k) p (VStd ch) = Some (wsh_of w' k', p')) \/ (hist w' = hist w /\ k' = k /\ exists v, vm_run1 (wsh_of w k) p (VOld v) = Some (wsh_of w k, p'))).
Proof.
  intros HH H. destruct c as [ch i]. unfold wwm_run in H. destruct (kdead k) eqn:Hd; [discriminate|].
  assert (Hd' : dead (wsh_of w k) = false) by exact Hd.
  assert (Rmw : forall acq rel f v w1, wrmw t 0 acq rel f i w = Some (v, w1) -> v = word (wsh_of w k) /\ HW w1 /\ wsh_of w1 k = set_word (wsh_of w k) (f (word (wsh_of w k)))).
  { intros acq rel f v w1 H1. destruct (rmw0 _ _ _ _ _ _ _ _ HH H1) as (x & _ & E1 & -> & E2 & HH' & _). split; [reflexivity|]. split; [exact HH'|]. rewrite (sh_word _ _ _ E1), E2. reflexivity. }
  destruct p as [m|m|k0|kd|kd|kd old|c|c|c h|c h h'|old h|kd old h|kd old h|kd r| | |h|m o r]; try discriminate.
  - destruct (wrmw _ _ _ _ _ _ _) as [[v w1]|] eqn:E; [|discriminate]. injection H as <- <- <-. destruct (Rmw _ _ _ _ _ E) as (-> & HH' & ->).
    split; [exact HH'|]. left. exists CNorm. unfold vm_run1, wm_run1. rewrite Hd'. reflexivity.
  - destruct (wrmw _ _ _ _ _ _ _) as [[v w1]|] eqn:E; [|discriminate]. injection H as <- <- <-. destruct (Rmw _ _ _ _ _ E) as (-> & HH' & ->).
    split; [exact HH'|]. left. exists ch. unfold vm_run1, wm_run1. rewrite Hd'. reflexivity.
  - assert (E : w' = w /\ k' = k /\ vm_run1 (wsh_of w k) (WClock kd) (VStd ch) = Some (wsh_of w k, p')).
    { unfold vm_run1, wm_run1. rewrite Hd'. destruct ch; injection H as <- <- <-; auto. }
    destruct E as (-> & -> & E). split; [exact HH|]. left. eauto.
  - destruct (wload _ _ _ _ _) as [[v w1]|] eqn:E; [|discriminate]. injection H as <- <- <-. destruct (load_same _ _ _ _ _ _ _ E) as (Eh & _).
    split; [exact (HW_same _ _ Eh HH)|]. right. split; [exact Eh|]. split; [reflexivity|]. exists v. unfold vm_run1. rewrite Hd'. reflexivity.
  - destruct (wcas _ _ _ _ _ _ _ _ _ _ _) as [[[[|] v] w1]|] eqn:E; [| |discriminate].
    + injection H as <- <- <-. destruct (wcas_inv _ _ _ _ _ _ _ _ _ _ _ _ _ _ E) as [(_ & -> & E1)|(F & _)]; [|discriminate]. destruct (Rmw _ _ _ _ _ E1) as (Ev & HH' & ->).
      split; [exact HH'|]. left. exists CNorm. unfold vm_run1, wm_run1. rewrite Hd', <- Ev, Z.eqb_refl. reflexivity.
    + injection H as <- <- <-. destruct (wcas_inv _ _ _ _ _ _ _ _ _ _ _ _ _ _ E) as [(F & _)|(_ & _ & E1)]; [discriminate|]. destruct (load_same _ _ _ _ _ _ _ E1) as (Eh & _).
      split; [exact (HW_same _ _ Eh HH)|]. right. split; [exact Eh|]. split; [reflexivity|]. exists v. unfold vm_run1. rewrite Hd'. reflexivity.
  - destruct (wload _ _ _ _ _) as [[v w1]|] eqn:E; [|discriminate]. injection H as <- <- <-. destruct (load_same _ _ _ _ _ _ _ E) as (Eh & m & Em & ->).
    split; [exact (HW_same _ _ Eh HH)|]. destruct (top1 _ _ _ HH Em) as [E0|(E0 & Hp)].
    + right. split; [exact Eh|]. split; [reflexivity|]. exists 0. rewrite E0. unfold vm_run1. rewrite Hd'. reflexivity.
    + left. exists CNorm. rewrite (sh_same _ _ _ Eh). unfold vm_run1, wm_run1. rewrite Hd'. cbn [wsh_of m_event]. rewrite <- E0. destruct (Z.eqb_spec (mval m) 0); [lia|]. reflexivity.
  - assert (E : w' = w /\ vm_run1 (wsh_of w k) (WEvCreate c) (VStd ch) = Some (wsh_of w k', p')).
    { unfold vm_run1, wm_run1. rewrite Hd'. destruct ch; try (injection H as <- <- <-; split; [reflexivity|]; unfold wsh_of; cbn; rewrite map_app, map_length; reflexivity).
      destruct c; injection H as <- <- <-; auto. }
    destruct E as (-> & E). split; [exact HH|]. left. eauto.
  - destruct (wcas _ _ _ _ _ _ _ _ _ _ _) as [[[[|] v] w1]|] eqn:E; [| |discriminate].
    + injection H as <- <- <-. destruct (wcas_inv _ _ _ _ _ _ _ _ _ _ _ _ _ _ E) as [(_ & -> & E1)|(F & _)]; [|discriminate].
      destruct (wrmw_inv _ _ _ _ _ _ _ _ _ E1) as (m & En & _ & Rm & Ev & Eh & Ek & _).
      destruct HH as (H0 & m0 & Hm0 & [E2|(x & E2 & Hx & Hx1)]).
      * rewrite E2 in *. destruct i as [|[|]]; cbn in En; try discriminate. injection En as <-. cbn in Eh.
        assert (T1 : top w 1 = 0) by (rewrite (top_end w 1 [] m0 E2); exact Hm0).
        set (x := Msg (nid w) (Z.of_nat h + 1) (wfen w t ++ mrel m0) true) in *.
        assert (T2 : top w1 1 = Z.of_nat h + 1) by (rewrite (top_end w1 1 [m0] x Eh); reflexivity).
        assert (T3 : top w1 0 = top w 0) by (apply top_same, Ek; discriminate).
        split.
        -- split; [rewrite Ek by discriminate; exact H0|]. exists m0. split; [exact Hm0|]. right. exists x. split; [exact Eh|]. split; [reflexivity|cbn; lia].
        -- left. exists CNorm. unfold vm_run1, wm_run1. rewrite Hd'. unfold wsh_of. cbn [m_event word events closed dead]. rewrite T1, T2, T3. cbn [Z.eqb].
           destruct (Z.eqb_spec (Z.of_nat h + 1) 0); [lia|]. rewrite handle_of, ?Hd. reflexivity.
      * exfalso. rewrite E2 in *. destruct i as [|[|[|]]]; cbn in En; try discriminate; injection En as <-.
        -- cbn in Rm. rewrite Hx in Rm. discriminate.
        -- lia.
    + injection H as <- <- <-. destruct (wcas_inv _ _ _ _ _ _ _ _ _ _ _ _ _ _ E) as [(F & _)|(_ & Hv & E1)]; [discriminate|]. destruct Hv as [Hv|Hv]; [|discriminate].
      destruct (load_same _ _ _ _ _ _ _ E1) as (Eh & m & Em & ->). split; [exact (HW_same _ _ Eh HH)|]. left. exists CNorm. rewrite (sh_same _ _ _ Eh).
      destruct (top1 _ _ _ HH Em) as [E0|(E0 & Hp)]; [congruence|]. unfold vm_run1, wm_run1. rewrite Hd'. cbn [wsh_of m_event]. rewrite <- E0. destruct (Z.eqb_spec (mval m) 0); [lia|]. reflexivity.
  - injection H as <- <- <-. split; [exact HH|]. left. exists CNorm. unfold vm_run1, wm_run1. rewrite Hd'. reflexivity.
  - assert (E : w' = w /\ k' = k /\ vm_run1 (wsh_of w k) (WTimer old h) (VStd ch) = Some (wsh_of w k, p')).
    { unfold vm_run1, wm_run1. rewrite Hd'. destruct ch; injection H as <- <- <-; auto. }
    destruct E as (-> & -> & E). split; [exact HH|]. left. eauto.
  - assert (E : hist w' = hist w /\ vm_run1 (wsh_of w k) (WWait kd old h) (VStd ch) = Some (wsh_of w' k', p')).
    { unfold vm_run1, wm_run1. rewrite Hd'. cbn [wsh_of events]. rewrite nth_error_map.
      destruct ch; try (destruct (nth_error (kev k) h) as [[[|] R]|] eqn:Ee; try discriminate H; injection H as <- <- <-; split; [reflexivity|]; cbn [option_map fst]; unfold wsh_of; cbn; rewrite map_upd; reflexivity).
      - injection H as <- <- <-. auto.
      - destruct kd; try discriminate; injection H as <- <- <-; auto.
      - destruct kd; try discriminate; injection H as <- <- <-; auto. }
    destruct E as (Eh & E). split; [exact (HW_same _ _ Eh HH)|]. left. eauto.
  - destruct (wcas _ _ _ _ _ _ _ _ _ _ _) as [[[[|] v] w1]|] eqn:E; [| |discriminate].
    + injection H as <- <- <-. destruct (wcas_inv _ _ _ _ _ _ _ _ _ _ _ _ _ _ E) as [(_ & -> & E1)|(F & _)]; [|discriminate]. destruct (Rmw _ _ _ _ _ E1) as (Ev & HH' & ->).
      split; [exact HH'|]. left. exists CNorm. unfold vm_run1, wm_run1. rewrite Hd', <- Ev, Z.eqb_refl. reflexivity.
    + injection H as <- <- <-. destruct (wcas_inv _ _ _ _ _ _ _ _ _ _ _ _ _ _ E) as [(F & _)|(_ & _ & E1)]; [discriminate|]. destruct (load_same _ _ _ _ _ _ _ E1) as (Eh & _).
      split; [exact (HW_same _ _ Eh HH)|]. right. split; [exact Eh|]. split; [reflexivity|]. exists v. unfold vm_run1. rewrite Hd'. reflexivity.
  - destruct (wrmw _ _ _ _ _ _ _) as [[v w1]|] eqn:E; [|discriminate]. injection H as <- <- <-. destruct (Rmw _ _ _ _ _ E) as (-> & HH' & ->).
    split; [exact HH'|]. left. exists CNorm. unfold vm_run1, wm_run1. rewrite Hd'. reflexivity.
  - destruct (wrmw _ _ _ _ _ _ _) as [[v w1]|] eqn:E; [|discriminate]. injection H as <- <- <-. destruct (Rmw _ _ _ _ _ E) as (-> & HH' & ->).
    split; [exact HH'|]. left. exists CNorm. unfold vm_run1, wm_run1. rewrite Hd'. reflexivity.
  - destruct (wrmw _ _ _ _ _ _ _) as [[v w1]|] eqn:E; [|discriminate]. injection H as <- <- <-. destruct (Rmw _ _ _ _ _ E) as (-> & HH' & ->).
    split; [exact HH'|]. left. exists CNorm. unfold vm_run1, wm_run1. rewrite Hd'. reflexivity.
  - assert (E : w' = w /\ p' = WDone true MUnlock ROk /\ wsh_of w k' = Sh (top w 0) (m_event (wsh_of w k)) (upd (events (wsh_of w k)) h true) (kclosed k) (kdead k)).
    { destruct (nth_error (kev k) h) as [[b R]|] eqn:Ee; injection H as <- <- <-; (split; [reflexivity|]); (split; [reflexivity|]); unfold wsh_of; cbn.
      - rewrite map_upd, ?Hd. reflexivity.
      - rewrite ?Hd. f_equal. symmetry. clear - Ee. apply nth_error_None in Ee. revert h Ee. induction (kev k) as [|a l IH]; intros [|h] Hl; cbn in *; try reflexivity; try lia. rewrite IH by lia. reflexivity. }
    destruct E as (-> & -> & E). split; [exact HH|]. left. exists CNorm. unfold vm_run1, wm_run1. rewrite Hd', E, ?Hd. reflexivity.
Qed.

Lemma wwork_hist t w : hist (wwork t w) = hist w. Proof. reflexivity. Qed.
Lemma HW_client w t l o i v w' : HW w -> (2 <= l)%nat -> wclient t l o i w = Some (v, w') -> HW w' /\ forall k, wsh_of w' k = wsh_of w k.
Proof.
  intros HH Hl H. destruct (wclient_inv _ _ _ _ _ _ _ H) as (_ & Hk & _). assert (E0 : hist w' 0%nat = hist w 0%nat) by (apply Hk; lia). assert (E1 : hist w' 1%nat = hist w 1%nat) by (apply Hk; lia).
  split; [unfold HW; rewrite E0, E1; exact HH|]. intros k. unfold wsh_of. rewrite (top_same _ _ _ E0), (top_same _ _ _ E1). reflexivity.
Qed.

(** What a step of the weak machine can be. Proof or specification device; no counterpart in /repo. *)
Inductive wwcase (q : bool) (w : wmem) (k : kst) (ths : list wpc) : wmem -> kst -> list wpc -> list (hev (event mop mres)) -> Prop :=
| ww_call t o p p' : nth_error ths t = Some p -> wm_call p o = Some p' -> wwcase q w k ths w k (upd ths t p') [HEv (Call t o) (wkn w t)]
| ww_ret t o r p p' : nth_error ths t = Some p -> wm_ret p = Some (o, r, p') -> wwcase q w k ths w k (upd ths t p') [HEv (Ret t o r) (wkn w t)]
| ww_run t c p w' k' p' : nth_error ths t = Some p -> wm_ret p = None -> wwm_run q t w k p c = Some (w', k', p') -> wwcase q w k ths w' k' (upd ths t p') []
| ww_work t : wwcase q w k ths (wwork t w) k ths [HWork t (nid w)]
| ww_client t l o i v w' : (2 <= l)%nat -> wclient t l o i w = Some (v, w') -> wwcase q w k ths w' k ths [].

Lemma wwm_case q w k ths a w' k' ths' e : wwm_step q ((w, k), ths) a = Some (((w', k'), ths'), e) -> wwcase q w k ths w' k' ths' e.
Proof.
  destruct a as [t o|t ch|t|t l o i]; cbn [wwm_step].
  - destruct (nth_error ths t) as [p|] eqn:Et; [|discriminate]. destruct (wm_call p o) as [p'|] eqn:Ec; [|discriminate]. intros H; inversion H; subst. econstructor; eauto.
  - destruct (nth_error ths t) as [p|] eqn:Et; [|discriminate]. destruct (wm_ret p) as [[[o r] p']|] eqn:Er.
    + intros H; inversion H; subst. eapply ww_ret; eauto.
    + destruct (wwm_run q t w k p ch) as [[[w1 k1] p1]|] eqn:En; [|discriminate]. intros H; inversion H; subst. eapply ww_run; eauto.
  - intros H; inversion H; subst. constructor.
  - destruct (Nat.leb_spec 2 l); [|discriminate]. destruct (wclient t l o i w) as [[v w1]|] eqn:Ec; [|discriminate]. intros H1; inversion H1; subst. econstructor; eauto.
Qed.

Lemma wwm_sim_step q w k ths a w' k' ths' e : HW w -> wwm_step q ((w, k), ths) a = Some (((w', k'), ths'), e) ->
  HW w' /\ exists l, exec vm_step (wsh_of w k, ths) l = Some ((wsh_of w' k', ths'), flat_map base_ev e).
Proof.
  intros HH H. apply wwm_case in H. destruct H as [t o p p' Ht Hc|t o r p p' Ht Hr|t c p w1 k1 p' Ht Hr Hn|t|t l o i v w1 Hl Hc].
  - split; [exact HH|]. exists [TCall t o]. cbn [exec vm_step tstep]. rewrite Ht, Hc. reflexivity.
  - split; [exact HH|]. exists [TRun t (VStd CNorm)]. cbn [exec vm_step tstep]. rewrite Ht, Hr. reflexivity.
  - destruct (wwm_sim _ _ _ _ _ _ _ _ _ HH Hn) as (HH' & [(ch & E)|(Eh & -> & v & E)]); (split; [exact HH'|]).
    + exists [TRun t (VStd ch)]. cbn [exec vm_step tstep]. unfold vm_run. rewrite Ht, Hr, E. reflexivity.
    + exists [TRun t (VOld v)]. cbn [exec vm_step tstep]. unfold vm_run. rewrite Ht, Hr, E, (sh_same _ _ _ Eh). reflexivity.
  - split; [exact (HW_same _ _ (wwork_hist t w) HH)|]. exists []. cbn. rewrite (sh_same _ _ _ (wwork_hist t w)). reflexivity.
  - destruct (HW_client _ _ _ _ _ _ _ HH Hl Hc) as (HH' & E). split; [exact HH'|]. exists []. cbn. rewrite E. reflexivity.
Qed.

Lemma HW_init n : HW (fst (fst (wwm_init n))).
Proof. split; [exists (Msg 0 0 [] false), []; split; [reflexivity|constructor]|exists (Msg 0 0 [] false); split; [reflexivity|left; reflexivity]]. Qed.

Lemma wwm_sim_exec q n sched w k ths tr : exec (wwm_step q) (wwm_init n) sched = Some (((w, k), ths), tr) ->
  HW w /\ exists l, exec vm_step (wm_init n) l = Some ((wsh_of w k, ths), flat_map base_ev tr).
Proof.
  intros H.
  refine (exec_inv (wwm_step q) (fun c tr => HW (fst (fst c)) /\ exists l, exec vm_step (wm_init n) l = Some ((wsh_of (fst (fst c)) (snd (fst c)), snd c), flat_map base_ev tr)) (wwm_init n) sched ((w, k), ths) tr _ _ H).
  - split; [apply HW_init|]. exists []. reflexivity.
  - intros [[w1 k1] ths1] t1 a [[w2 k2] ths2] e (HH & l & Hl) Hs. cbn [fst snd] in *. destruct (wwm_sim_step _ _ _ _ _ _ _ _ _ HH Hs) as (HH' & l' & Hl'). split; [exact HH'|].
    exists (l ++ l'). rewrite exec_app, Hl, Hl', flat_map_app. reflexivity.
Qed.

Lemma wwm_lin q n sched w k ths tr : Z.of_nat n < 2 ^ 30 -> exec (wwm_step q) (wwm_init n) sched = Some (((w, k), ths), tr) ->
  linearizable WSP n (flat_map base_ev tr) /\ WI (wsh_of w k, ths) /\ wcap (wsh_of w k, ths) /\ HW w.
Proof.
  intros Hn H. destruct (wwm_sim_exec _ _ _ _ _ _ _ H) as (HH & l & Hl). destruct (vm_lin _ _ _ _ Hn Hl) as (H1 & H2). split; [exact H1|]. split; [exact H2|].
  split; [|exact HH]. unfold wcap. rewrite (vm_len _ _ _ _ Hl). exact Hn.
Qed.
