(** Model of the Windows mutex and timed_mutex.
    /repo/include/boost/sync/detail/mutexes/basic_mutex_windows.hpp ("B:"), timed_mutex_windows.hpp ("T:"), mutex_windows.hpp
    (forwards to B).

    One step is one access to m_active_count or m_event, or one Windows API call.  m_active_count is an integer with
    32-bit wrap-around.  Kernel events are auto-reset: a wait succeeds only when the event is signalled and resets it; SetEvent
    on a signalled event does nothing.  Handles are never reused.  Waits can fail, creating an event can fail, the timer set-up can fail; those
    throw.  An exception leaving unlock() (noexcept) terminates the program: no thread moves inside the library afterwards ([dead];
    calls may still be made and completed calls may still return, a harmless superset).
    Simplification: one clock check T:216/T:221 is one step; the length of each wait slice is arbitrary. *)
From Coq Require Import List Bool Arith ZArith.
From Verif Require Import ListSum Exec Lin Thr Word MutexSpec.
Import ListNotations.
Local Open Scope Z_scope.

(** lock_flag_bit, B:53. *)
Definition lock_bit : Z := 31.
(** event_set_flag_bit, B:54. *)
Definition event_bit : Z := 30.
(** lock_flag_value, B:55. *)
Definition lock_val : Z := 2 ^ 31.
(** event_set_flag_value, B:56. *)
Definition event_val : Z := 2 ^ 30.

(** Which locking function: lock(), or a timed one with a duration, a system time point, a time point of another clock. B:76; T:163, T:111, T:210. *)
Inductive lkind := KLock | KRel | KAbs | KChrono.
(** B:76 / T:80-105. *)
Definition kop (k : lkind) : mop := match k with KLock => MLock | _ => MTimed end.
(** What success returns: nothing (B:80), true (T:84 T:116 T:144 T:168 T:184 T:220). *)
Definition kgot (k : lkind) : mres := match k with KLock => ROk | _ => RTrue end.

(** Who called get_event(): a locking function (with its old_count) or unlock(). B:166 T:121 T:172 / B:90. *)
Inductive ctx := CLock (k : lkind) (old : Z) | CUnlock.

(** Program points of B:76-184, T:80-224. *)
Inductive wpc :=
| WRest (m : bool)
| WTry (m : bool)                       (* try_lock, B:97 *)
| WFirst (k : lkind)                    (* lock B:78 / T:83 T:92 T:101: the initial try_lock *)
| WClock (k : lkind)                    (* T:216 T:221: clock::now() < t ? (only KChrono) *)
| WLoad (k : lkind)                     (* B:161 T:113 T:165 *)
| WMark (k : lkind) (old : Z)           (* B:134: compare_exchange_weak of mark_waiting_and_try_lock *)
| WEvLoad (c : ctx)                     (* B:102 *)
| WEvCreate (c : ctx)                   (* B:106 *)
| WEvCas (c : ctx) (h : nat)            (* B:111 *)
| WEvClose (c : ctx) (h h' : nat)       (* B:114: CloseHandle(own), return the other *)
| WTimer (old : Z) (h : nat)            (* T:122-128 (only KAbs) *)
| WWait (k : lkind) (old : Z) (h : nat) (* B:169 T:132 T:178 *)
| WClear (k : lkind) (old : Z) (h : nat)(* B:150: compare_exchange_weak of clear_waiting_and_try_lock *)
| WSub (k : lkind) (r : mres)           (* B:181 T:148 T:158 T:199 T:205: opaque_sub(1) *)
| WUnl                                  (* unlock, B:85 *)
| WBts                                  (* unlock, B:88 *)
| WSet (h : nat)                        (* unlock, B:90: SetEvent *)
| WDone (m : bool) (o : mop) (r : mres).

(** Shared state: m_active_count; m_event; the kernel events created so far (signalled or not), by handle; handles closed so far. B:60-62; create_anonymous_event B:106, CloseHandle B:114. *)
Record wsh := Sh { word : Z; m_event : option nat; events : list bool; closed : list nat; dead : bool }.

(** Choices: the normal outcome; a spurious failure of a weak compare-exchange; the call fails; the wait times out (for good / only
    this slice of a long wait, T:187-189 with time_left remaining); which timed function is called. The environment's part in B:106, B:134, B:150, B:169, T:124, T:132, T:178, T:217. *)
Inductive wchoice := CNorm | CSpur | CFail | CTimeout | CSlice | CKind (k : lkind).

(** old_count & lock_flag_value, e.g. B:132. *)
Definition locked (w : Z) : bool := Z.testbit w lock_bit.
(** old_count & event_set_flag_value, B:86. *)
Definition evset (w : Z) : bool := Z.testbit w event_bit.

(** bit_test_and_set. Of boost::atomic; used at B:88 and B:97. *)
Definition bts (w b : Z) : bool * Z := (Z.testbit w b, Z.setbit w b).

(** The value mark_waiting_and_try_lock stores, B:132-133. *)
Definition mark_new (old : Z) : Z := if locked old then u32 (old + 1) else Z.lor old lock_val.
(** B:145-146: the first expected value of clear_waiting_and_try_lock, and the value it stores, B:149. *)
Definition clear_first (old : Z) : Z := Z.lor (Z.clearbit old lock_bit) event_val.
(** B:149. *)
Definition clear_new (old : Z) : Z := Z.clearbit (if locked old then old else Z.lor (u32 (old - 1)) lock_val) event_bit.

(** Entry points.  The timed functions start like lock(): the kind is chosen by the environment at the first step. B:76, B:95, B:82, T:81 T:90 T:99. *)
Definition wm_call (p : wpc) (o : mop) : option wpc :=
  match p with
  | WRest m =>
      if mpre m o then
        Some match o with
             | MLock => WFirst KLock
             | MTryLock => WTry m
             | MTimed => WFirst KRel
             | MUnlock => WUnl
             end
      else None
  | _ => None
  end.
(** Return to the caller: B:80 B:93 B:97 T:84-224. *)
Definition wm_ret (p : wpc) : option (mop * mres * wpc) :=
  match p with WDone m o r => Some (o, r, WRest (mnext m o r)) | _ => None end.

(** Assignment to m_active_count, B:60. *)
Definition set_word (s : wsh) (w : Z) : wsh := Sh w (m_event s) (events s) (closed s) (dead s).

(** get_event() returned [h]. B:125 / B:115 back to B:169, T:122 / T:178, B:90. *)
Definition got_event (c : ctx) (h : nat) : wpc :=
  match c with
  | CLock KAbs old => WTimer old h
  | CLock k old => WWait k old h
  | CUnlock => WSet h
  end.
(** A compare_exchange_weak (B:134 B:150) may fail although the value is the expected one. *)
Definition spurious (ch : wchoice) : bool := match ch with CSpur => true | _ => false end.

(** One access or API call of one thread: B:76-184, T:80-224. *)
Definition wm_run1 (s : wsh) (p : wpc) (ch : wchoice) : option (wsh * wpc) :=
  if dead s then None else
  match p with
  | WRest _ | WDone _ _ _ => None
  | WTry m =>
      let (b, w) := bts (word s) lock_bit in
      Some (set_word s w, WDone m MTryLock (if b then RFalse else RTrue))
  | WFirst k0 =>
      let k := match k0, ch with KRel, CKind KAbs => KAbs | KRel, CKind KChrono => KChrono | _, _ => k0 end in
      let (b, w) := bts (word s) lock_bit in
      Some (set_word s w, if b then match k with KChrono => WClock k | _ => WLoad k end else WDone false (kop k) (kgot k))
  | WClock k =>
      match ch with
      | CTimeout => Some (s, WDone false (kop k) RFalse)      (* T:223 *)
      | _ => Some (s, WLoad k)
      end
  | WLoad k => Some (s, WMark k (word s))
  | WMark k old =>
      if (word s =? old) && negb (spurious ch)
      then Some (set_word s (mark_new old), if locked old then WEvLoad (CLock k (mark_new old)) else WDone false (kop k) (kgot k))
      else Some (s, WMark k (word s))
  | WEvLoad c =>
      match m_event s with
      | Some h => Some (s, got_event c h)
      | None => Some (s, WEvCreate c)
      end
  | WEvCreate c =>
      match ch with
      | CFail => match c with
                 | CLock k _ => Some (s, WSub k RThrow)
                 | CUnlock => Some (Sh (word s) (m_event s) (events s) (closed s) true, WEvCreate c)   (* std::terminate *)
                 end
      | _ => Some (Sh (word s) (m_event s) (events s ++ [false]) (closed s) (dead s), WEvCas c (length (events s)))
      end
  | WEvCas c h =>
      match m_event s with
      | None => Some (Sh (word s) (Some h) (events s) (closed s) (dead s), got_event c h)
      | Some h' => Some (s, WEvClose c h h')
      end
  | WEvClose c h h' => Some (Sh (word s) (m_event s) (events s) (h :: closed s) (dead s), got_event c h')
  | WTimer old h =>
      match ch with
      | CFail => Some (s, WSub KAbs RThrow)
      | _ => Some (s, WWait KAbs old h)
      end
  | WWait k old h =>
      match ch with
      | CFail => Some (s, WSub k RThrow)
      | CTimeout => match k with KLock => None | _ => Some (s, WSub k RFalse) end
      | CSlice => match k with KRel | KChrono => Some (s, WWait k old h) | _ => None end
      | _ => match nth_error (events s) h with
             | Some true => Some (Sh (word s) (m_event s) (upd (events s) h false) (closed s) (dead s), WClear k (clear_first old) h)
             | _ => None                                    (* blocked *)
             end
      end
  | WClear k old h =>
      if (word s =? old) && negb (spurious ch)
      then Some (set_word s (clear_new old), if locked old then WWait k old h else WDone false (kop k) (kgot k))
      else Some (s, WClear k (word s) h)
  | WSub k r =>
      Some (set_word s (u32 (word s - 1)),
            match k, r with
            | KChrono, RFalse => WClock KChrono                (* T:219-221: the loop goes on *)
            | _, _ => WDone false (kop k) r
            end)
  | WUnl =>
      let old := word s in
      Some (set_word s (u32 (old + lock_val)), if negb (evset old) && (lock_val <? old) then WBts else WDone true MUnlock ROk)
  | WBts =>
      let (b, w) := bts (word s) event_bit in
      Some (set_word s w, if b then WDone true MUnlock ROk else WEvLoad CUnlock)
  | WSet h => Some (Sh (word s) (m_event s) (upd (events s) h true) (closed s) (dead s), WDone true MUnlock ROk)
  end.

(** The same within the list of all threads; no operation of B:76-184, T:80-224 touches another thread's locals. *)
Definition wm_run (s : wsh) (ths : list wpc) (t : nat) (p : wpc) (ch : wchoice) : option (wsh * list wpc) :=
  match wm_run1 s p ch with
  | Some (s', p') => Some (s', upd ths t p')
  | None => None
  end.
(** Interleaving of any number of threads calling B:76-98 and T:65-105. *)
Definition wm_step := tstep wm_call wm_ret wm_run.

(** B:65-67 *)
Definition wm_init (n : nat) : wsh * list wpc := (Sh 0 None [] [] false, repeat (WRest false) n).

(** ~basic_mutex, B:69-74: closes the stored handle, if any. *)
Definition wm_dtor (s : wsh) : list nat := match m_event s with Some h => h :: closed s | None => closed s end.
