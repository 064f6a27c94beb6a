(** Models of one-time initialisation.
    /repo/include/boost/sync/detail/waitable_timer.hpp ("T:") and /repo/src/tss_windows.cpp ("W:").

    Part 1 is the process-wide state of waitable timers: any number of modules (each with its own copy of weak_linkage::value, T:303), any number
    of threads, every outcome of every system call.  Part 2 is init_tss_once for old Windows versions.
    A step is one access to shared memory or one system call.  The interlocked operations are sequentially consistent; the plain read T:305 is
    modelled as an atomic read.  Not modelled here but in ModModel: waitable_timer_state::destroy when a module goes (T:289-297), the check of the Boost version (T:314). *)
From Coq Require Import List Bool Arith.
From Verif Require Import ListSum Exec.
Import ListNotations.

(** ** Waitable timers *)
(** T:78-80: [initialized] (0 st_uninitialized, 1 st_in_progress, 2 st_initialized), [tls_key], whether tls_key_holder is not null. *)
Record modst := MS { ini : nat; tkey : nat; holder : bool }.
(** T:82-105 thread_local_context: which of its three handles are open; [cown] is the thread it was made for (not stored by the code), [calive]: not deleted. *)
Record tlc := TC { cown : nat; cthr : bool; cwait : bool; ctimer : bool; calive : bool }.
(** The process: the named semaphore (its count is the key) and the number of open handles to it, the allocated TLS slots, the contexts made so far, the TLS values. T:303 (one per module), T:151-211 (the semaphore), T:176 / T:232 (TLS slots), T:82-105 (contexts), T:275 (values). *)
Record proc := PR { mods : list modst; sem : option nat; semh : nat; tslots : list nat; tlcs : list tlc; tlsv : list (nat * nat * nat) }.

(** Program points of T:127-141, T:143-242, T:245-286, T:301-318. *)
Inductive opc :=
| OIdle | OGone
| OChk (m : nat)                        (* T:305 *)
| OCas (m : nat)                        (* T:127-141 *)
| OOpen (m : nat)                       (* T:166-171 *)
| OAlloc (m : nat)                      (* T:176 *)
| OCreate (m k : nat)                   (* T:184-189 *)
| ODrop (m k : nat)                     (* T:200 *)
| OQuery (m : nat)                      (* T:214-223 *)
| OAlloc2 (m : nat)                     (* T:232 *)
| OUndo (m : nat)                       (* T:180, T:236 *)
| OPut (m k : nat)                      (* T:193, T:204, T:225, T:240 *)
| OPub (m : nat)                        (* T:194, T:206, T:226, T:241 *)
| OLook (m : nat)                       (* T:308-311 *)
| ODup (m c : nat)                      (* T:249-258 *)
| OReg (m c : nat)                      (* T:261-269 *)
| OTim (m c : nat)                      (* T:272 *)
| OVal (m c : nat)                      (* T:275 *)
| ODel (c : nat).                       (* T:283 *)

(** T:85-87: the three handles of thread_local_context. *)
Inductive hkind := HThread | HWait | HTimer.
(** Observable steps of T:107-318. *)
Inductive oev :=
| EBegin (t m : nat)                    (* began the initialisation of module [m] *)
| EFail (t m : nat)                     (* the attempt failed; resource_error is thrown *)
| EDone (t m k : nat)                   (* the initialisation is complete and published *)
| EUse (t m k : nat)                    (* reads the TLS slot *)
| ERet (t m c : nat)                    (* get_waitable_timer returns the timer of context [c] *)
| EThrow (t : nat)                      (* get_waitable_timer throws because the context could not be made *)
| EOpen (c : nat) (h : hkind) | EClose (c : nat) (h : hkind).

(** [OCall t m]: thread [t] calls get_waitable_timer in module [m]; [OStep t o]: next step, [o] the outcome of the system call ([None]: it fails;
    [Some k]: it succeeds, with result [k] where there is one); [OExit t]: the thread ends; [OCallback c]: the wait registered for context [c] is satisfied (T:107-110). *)
Inductive oact := OCall (t m : nat) | OStep (t : nat) (o : option nat) | OExit (t : nat) | OCallback (c : nat).

(** Model machinery: assignment to a member of waitable_timer_state (T:78-80). *)
Definition set_mod (p : proc) (m : nat) (x : modst) : proc := PR (upd (mods p) m x) (sem p) (semh p) (tslots p) (tlcs p) (tlsv p).
(** Model machinery: the named semaphore of T:166-189 and its handles. *)
Definition set_sem (p : proc) (s : option nat) (h : nat) : proc := PR (mods p) s h (tslots p) (tlcs p) (tlsv p).
(** Model machinery: TlsAlloc T:176 T:232, TlsFree T:200. *)
Definition set_slots (p : proc) (l : list nat) : proc := PR (mods p) (sem p) (semh p) l (tlcs p) (tlsv p).
(** Model machinery: contexts (T:247, T:107-110) and TlsSetValue (T:275). *)
Definition set_tlcs (p : proc) (l : list tlc) (v : list (nat * nat * nat)) : proc := PR (mods p) (sem p) (semh p) (tslots p) l v.

(** TlsGetValue: the last value thread [t] stored in slot [k]. T:308. *)
Fixpoint tls_get (l : list (nat * nat * nat)) (t k : nat) : option nat :=
  match l with [] => None | (u, j, c) :: r => if (u =? t) && (j =? k) then Some c else tls_get r t k end.

(** T:97-105 ~thread_local_context. *)
Definition closes (c : nat) (x : tlc) : list oev :=
  (if cwait x then [EClose c HWait] else []) ++ (if cthr x then [EClose c HThread] else []) ++ (if ctimer x then [EClose c HTimer] else []).
(** The context has been deleted, T:109, T:283. *)
Definition dead (x : tlc) : tlc := TC (cown x) false false false false.

(** One access or system call of a thread in T:125-318. *)
Definition once_step1 (p : proc) (t : nat) (pc : opc) (o : option nat) : option (proc * opc * list oev) :=
  match pc with
  | OIdle | OGone => None
  | OChk m => match nth_error (mods p) m with
              | Some x => Some (p, if ini x =? 2 then OLook m else OCas m, [])
              | None => None
              end
  | OCas m => match nth_error (mods p) m with
              | Some x => match ini x with
                          | 0 => Some (set_mod p m (MS 1 (tkey x) (holder x)), OOpen m, [EBegin t m])
                          | 1 => Some (p, OCas m, [])
                          | _ => Some (p, OLook m, [])
                          end
              | None => None
              end
  | OOpen m => match nth_error (mods p) m with
               | Some x => match o, sem p with
                           | Some _, Some k => Some (set_mod (set_sem p (sem p) (S (semh p))) m (MS (ini x) (tkey x) true), OQuery m, [])
                           | _, _ => Some (set_mod p m (MS (ini x) (tkey x) false), OAlloc m, [])
                           end
               | None => None
               end
  | OAlloc m => match o with
                | Some k => if existsb (Nat.eqb k) (tslots p) then None else Some (set_slots p (k :: tslots p), OCreate m k, [])
                | None => Some (p, OUndo m, [])
                end
  | OCreate m k => match nth_error (mods p) m with
                   | Some x => match o with
                               | None => Some (set_mod p m (MS (ini x) (tkey x) false), OPut m k, [])
                               | Some _ => match sem p with
                                           | Some _ => Some (set_mod (set_sem p (sem p) (S (semh p))) m (MS (ini x) (tkey x) true), ODrop m k, [])
                                           | None => Some (set_mod (set_sem p (Some k) 1) m (MS (ini x) (tkey x) true), OPut m k, [])
                                           end
                               end
                   | None => None
                   end
  | ODrop m k => Some (set_slots p (filter (fun j => negb (j =? k)) (tslots p)), OQuery m, [])
  | OQuery m => match o, sem p with
                | Some _, Some k => Some (p, OPut m k, [])
                | _, _ => Some (p, OAlloc2 m, [])
                end
  | OAlloc2 m => match o with
                 | Some k => if existsb (Nat.eqb k) (tslots p) then None else Some (set_slots p (k :: tslots p), OPut m k, [])
                 | None => Some (p, OUndo m, [])
                 end
  | OUndo m => match nth_error (mods p) m with
               | Some x => Some (set_mod p m (MS 0 (tkey x) (holder x)), OIdle, [EFail t m])
               | None => None
               end
  | OPut m k => match nth_error (mods p) m with
                | Some x => Some (set_mod p m (MS (ini x) k (holder x)), OPub m, [])
                | None => None
                end
  | OPub m => match nth_error (mods p) m with
              | Some x => Some (set_mod p m (MS 2 (tkey x) (holder x)), OLook m, [EDone t m (tkey x)])
              | None => None
              end
  | OLook m => match nth_error (mods p) m with
               | Some x => match tls_get (tlsv p) t (tkey x) with
                           | Some c => Some (p, OIdle, [EUse t m (tkey x); ERet t m c])
                           | None => match o with
                                     | Some _ => Some (set_tlcs p (tlcs p ++ [TC t false false false true]) (tlsv p), ODup m (length (tlcs p)), [EUse t m (tkey x)])
                                     | None => Some (p, OIdle, [EUse t m (tkey x); EThrow t])      (* bad_alloc *)
                                     end
                           end
               | None => None
               end
  | ODup m c => match o, nth_error (tlcs p) c with
                | Some _, Some x => Some (set_tlcs p (upd (tlcs p) c (TC (cown x) true (cwait x) (ctimer x) (calive x))) (tlsv p), OReg m c, [EOpen c HThread])
                | None, Some _ => Some (p, ODel c, [])
                | _, None => None
                end
  | OReg m c => match o, nth_error (tlcs p) c with
                | Some _, Some x => Some (set_tlcs p (upd (tlcs p) c (TC (cown x) (cthr x) true (ctimer x) (calive x))) (tlsv p), OTim m c, [EOpen c HWait])
                | None, Some _ => Some (p, ODel c, [])
                | _, None => None
                end
  | OTim m c => match o, nth_error (tlcs p) c with
                | Some _, Some x => Some (set_tlcs p (upd (tlcs p) c (TC (cown x) (cthr x) (cwait x) true (calive x))) (tlsv p), OVal m c, [EOpen c HTimer])
                | None, Some _ => Some (p, ODel c, [])
                | _, None => None
                end
  | OVal m c => match nth_error (mods p) m, o with
                | Some x, Some _ => Some (set_tlcs p (tlcs p) ((t, tkey x, c) :: tlsv p), OIdle, [ERet t m c])
                | Some _, None => Some (p, ODel c, [])
                | None, _ => None
                end
  | ODel c => match nth_error (tlcs p) c with
              | Some x => Some (set_tlcs p (upd (tlcs p) c (dead x)) (tlsv p), OIdle, closes c x ++ [EThrow t])
              | None => None
              end
  end.

(** The process and the program point of every thread; no counterpart in /repo. *)
Definition once_st : Type := proc * list opc.
(** Calls of get_waitable_timer (T:301-318), thread exit, and the callback T:107-110. *)
Definition once_step (s : once_st) (a : oact) : option (once_st * list oev) :=
  let (p, ths) := s in
  match a with
  | OCall t m => match nth_error ths t, nth_error (mods p) m with
                 | Some OIdle, Some _ => Some ((p, upd ths t (OChk m)), [])
                 | _, _ => None
                 end
  | OStep t o => match nth_error ths t with
                 | Some pc => match once_step1 p t pc o with
                              | Some (p', pc', e) => Some ((p', upd ths t pc'), e)
                              | None => None
                              end
                 | None => None
                 end
  | OExit t => match nth_error ths t with Some OIdle => Some ((p, upd ths t OGone), []) | _ => None end
  | OCallback c => match nth_error (tlcs p) c with
                   | Some x => match nth_error ths (cown x) with
                               | Some OGone => if cwait x then Some ((set_tlcs p (upd (tlcs p) c (dead x)) (tlsv p), ths), closes c x) else None
                               | _ => None
                               end
                   | None => None
                   end
  end.
(** T:303: zero-initialised. *)
Definition once_init (nm n : nat) : once_st := (PR (repeat (MS 0 0 false) nm) None 0 [] [] [], repeat OIdle n).

(** ** init_tss_once, W:85-104 *)
Inductive wpc := WIdle | WChk | WCas | WNew | WKey | WPub | WUse.
(** W:44-49 and the flag of W:85. *)
Record wsh := WS { wflag : nat; wmgr : option nat; wkey : bool }.
(** Observable steps of W:85-104. *)
Inductive wev := WBegin (t : nat) | WEnd (t : nat) | WProceed (t : nat) (mgr : option nat) (key : bool).
(** Calls of init_tss_once (W:85), and steps. *)
Inductive wact := WCall (t : nat) | WStep (t : nat).
Definition w_step1 (s : wsh) (t : nat) (pc : wpc) : option (wsh * wpc * list wev) :=
  match pc with
  | WIdle => None
  | WChk => Some (s, if wflag s =? 2 then WUse else WCas, [])                                        (* W:87 *)
  | WCas => match wflag s with                                                                      (* W:91-96 *)
            | 0 => Some (WS 1 (wmgr s) (wkey s), WNew, [WBegin t])
            | 1 => Some (s, WCas, [])
            | _ => Some (s, WUse, [])
            end
  | WNew => Some (WS (wflag s) (Some t) (wkey s), WKey, [])                                          (* W:58; failure aborts the process *)
  | WKey => Some (WS (wflag s) (wmgr s) true, WPub, [])                                              (* W:66-68 *)
  | WPub => Some (WS 2 (wmgr s) (wkey s), WUse, [WEnd t])                                            (* W:99 *)
  | WUse => Some (s, WIdle, [WProceed t (wmgr s) (wkey s)])                                          (* the caller goes on *)
  end.
(** W:85-104. *)
Definition w_step (c : wsh * list wpc) (a : wact) : option ((wsh * list wpc) * list wev) :=
  let (s, ths) := c in
  match a with
  | WCall t => match nth_error ths t with Some WIdle => Some ((s, upd ths t WChk), []) | _ => None end
  | WStep t => match nth_error ths t with
               | Some pc => match w_step1 s t pc with Some (s', pc', e) => Some ((s', upd ths t pc'), e) | None => None end
               | None => None
               end
  end.
(** W:44-49: zero-initialised. *)
Definition w_init (n : nat) : wsh * list wpc := (WS 0 None false, repeat WIdle n).
