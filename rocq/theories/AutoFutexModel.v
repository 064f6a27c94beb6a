(** Model of auto_reset_event on Linux
    (/repo/include/boost/sync/detail/events/auto_reset_event_futex.hpp, cited as "L:"), with the
    futex system calls of /repo/include/boost/sync/detail/futex.hpp.

    One step is one atomic access or one system call.  [detail::pause()] and the release fence of
    L:75 have no effect on the interleaving model (memory orders are treated in Hb*.v).  The
    kernel's futex queue is represented by the program counter [WSleep]: FUTEX_WAIT compares the word
    and blocks atomically; FUTEX_WAKE(1) wakes one of the sleeping threads, chosen by the scheduler, and
    none only if none sleeps.  A sleeping thread may return at any time (signal, spurious); a timed one
    may time out at any time.  The BOOST_ASSERT(false) for unexpected errno values is not reachable
    because the model's kernel returns only the documented errors.  The weak compare-exchange may fail spuriously. *)
From Coq Require Import List Bool Arith ZArith.
From Verif Require Import ListSum Exec Lin Word EventSpec.
Import ListNotations.
Local Open Scope Z_scope.

(** L:45-51 *)
Definition wait_count_bits : Z := 22.
(** L:48 (post_count_one). *)
Definition post_one : Z := 2 ^ wait_count_bits.
(** L:50; post_count_mask of L:49 is used nowhere in the file. *)
Definition wait_count_mask : Z := post_one - 1.

Definition waiters_of (s : Z) : Z := Z.land s wait_count_mask.      (* L:64 *)
Definition posts_of (s : Z) : Z := Z.shiftr s wait_count_bits.      (* L:65 *)

(** Which public function called: try_wait(), wait(), or a timed wait (priv_timed_wait, three overloads). L:131 / 84 / 165, 220, 277. *)
Inductive wkind := KTry | KWait | KTimed.

(** Program points of the functions of L:58-315, one per atomic access (the old_state local is carried where it is live). *)
Inductive apc :=
| ARest                          (* outside the library *)
| PLoad                          (* post, L:60 *)
| PCas (old : Z)                 (* post, L:68 *)
| PSignal                        (* post, L:81 *)
| TLoad (k : wkind)              (* try_wait, L:133 *)
| TCas (k : wkind) (old : Z)     (* try_wait, L:137 *)
| WAdd (k : wkind)               (* L:91 / 172 / 231: fetch_add(1) *)
| WFutex (k : wkind) (e : Z)     (* L:101 / 185 / 241: about to call futex wait expecting [e] *)
| WSleep (k : wkind)             (* blocked in the kernel *)
| WLoad (k : wkind)              (* L:116 / 203 / 259 *)
| WCas (k : wkind) (old : Z)     (* L:124 / 211 / 267 *)
| OLoad                          (* on_wait_timed_out, L:296 *)
| OCas (old : Z)                 (* on_wait_timed_out, L:303 / 309 *)
| ADone (o : eop) (r : eres).    (* about to return *)

(** Scheduler's choice for a step. *)
Inductive achoice :=
| CNorm                          (* the ordinary outcome *)
| CSpur                          (* weak CAS fails spuriously / sleeping thread returns without a wake-up (EINTR) *)
| CTime                          (* timeout *)
| CAgain                         (* chrono overload: the clock has not reached the deadline, wait again (L:277-292) *)
| CWake (u : nat).               (* FUTEX_WAKE wakes thread u *)

(** A client calls a public function of L:58-162, or a thread performs its next access; the interleaving itself has no counterpart in the file. *)
Inductive aact := ACall (t : nat) (o : eop) | ARun (t : nat) (ch : achoice).

(** m_state (L:319) and the program point of every thread. *)
Definition acfg : Type := (Z * list apc)%type.

(** L:54 *)
Definition auto_init (n : nat) : acfg := (0, repeat ARest n).

(** The first access of post (L:60), wait (L:87 -> 133), try_wait (L:133), timed waits (L:168 / 223 -> 133). *)
Definition auto_entry (o : eop) : apc :=
  match o with
  | EPost => PLoad
  | EWait => TLoad KWait          (* L:87: try_wait() first *)
  | ETry => TLoad KTry
  | ETimed => TLoad KTimed        (* L:168, 223 *)
  end.

(** The public function a program point of try_wait (L:131-144) or of the waiting loops (L:84-129, 165-274) belongs to. *)
Definition kop (k : wkind) : eop := match k with KTry => ETry | KWait => EWait | KTimed => ETimed end.
(** What it returns on success: nothing for wait (L:84-129), true otherwise (L:138, 217, 273, 310). *)
Definition kres (k : wkind) : eres := match k with KWait => EOk | _ => ETrue end.

(** Blocked in the system call of futex.hpp 56-87. *)
Definition is_sleep (p : apc) : bool := match p with WSleep _ => true | _ => false end.

(** post loop body, L:62-77, on the value [old] just read. *)
Definition post_try (old : Z) : apc :=
  if posts_of old <=? waiters_of old then PCas old     (* L:66 *)
  else ADone EPost EOk.                                 (* L:76-79: already signalled *)

(** try_wait loop test, L:135, on the value [old] just read. *)
Definition try_test (k : wkind) (ch : achoice) (old : Z) : option apc :=
  if 0 <? posts_of old then Some (TCas k old)
  else match k, ch with
       | KTry, _ => Some (ADone ETry EFalse)            (* L:143 *)
       | KWait, _ => Some (WAdd KWait)                  (* L:91 *)
       | KTimed, CTime => Some (ADone ETimed EFalse)    (* L:226-228: non-positive duration *)
       | KTimed, CAgain => Some (TLoad KTimed)          (* the same inside the chrono loop *)
       | KTimed, _ => Some (WAdd KTimed)
       end.

(** wait loop, L:94-99, on the value [old] just read by fetch_add or by a failed CAS. *)
Definition wait_test (k : wkind) (old : Z) : apc :=
  if posts_of old =? 0 then WFutex k (u32 (old + 1)) else WCas k old.

(** Result of a step that only affects the running thread and the word. *)
Definition auto_run (s : Z) (p : apc) (ch : achoice) : option (Z * apc) :=
  match p with
  | ARest | PSignal | ADone _ _ => None
  | PLoad => Some (s, post_try s)
  | PCas old =>
      match ch with
      | CSpur => Some (s, post_try s)
      | _ => if s =? old
             then Some (u32 (old + post_one),
                        if 0 <? waiters_of old then PSignal else ADone EPost EOk)   (* L:80 *)
             else Some (s, post_try s)
      end
  | TLoad k => match try_test k ch s with Some p' => Some (s, p') | None => None end
  | TCas k old =>
      match ch with
      | CSpur => match try_test k ch s with Some p' => Some (s, p') | None => None end
      | _ => if s =? old then Some (u32 (old - post_one), ADone (kop k) (kres k))   (* L:138 *)
             else match try_test k ch s with Some p' => Some (s, p') | None => None end
      end
  | WAdd k => Some (u32 (s + 1), wait_test k s)
  | WFutex k e =>
      match k, ch with
      | KTimed, CTime => Some (s, OLoad)                 (* L:183-185: deadline passed *)
      | _, CSpur => Some (s, WLoad k)                    (* EINTR before blocking *)
      | _, _ => if s =? e then Some (s, WSleep k)        (* blocks *)
                else Some (s, WLoad k)                   (* EWOULDBLOCK *)
      end
  | WSleep k =>
      match k, ch with
      | KTimed, CTime => Some (s, OLoad)                 (* ETIMEDOUT, L:192 / 249 *)
      | _, CSpur => Some (s, WLoad k)                    (* EINTR / spurious *)
      | _, _ => None                                     (* blocked *)
      end
  | WLoad k =>                                           (* L:116-119: inner loop, no increment *)
      if 0 <? posts_of s then Some (s, WCas k s) else Some (s, WFutex k s)
  | WCas k old =>
      match ch with
      | CSpur => Some (s, wait_test k s)
      | _ => if s =? old then Some (u32 (old - (post_one + 1)), ADone (kop k) (kres k))
             else Some (s, wait_test k s)
      end
  | OLoad => Some (s, OCas s)
  | OCas old =>
      match ch with
      | CSpur => Some (s, OCas s)
      | _ => if s =? old then
               if posts_of old =? 0 then
                 Some (u32 (old - 1),
                       match ch with CAgain => TLoad KTimed | _ => ADone ETimed EFalse end)   (* L:303-304 *)
               else Some (u32 (old - (post_one + 1)), ADone ETimed ETrue)                     (* L:309-310 *)
             else Some (s, OCas s)
      end
  end.

(** One call of a public function, or one access or system call of one thread (L:58-315; FUTEX_WAKE: L:81, futex.hpp 105-117). *)
Definition auto_step (c : acfg) (a : aact) : option (acfg * list (event eop eres)) :=
  let '(s, ths) := c in
  match a with
  | ACall t o =>
      match nth_error ths t with
      | Some ARest => Some ((s, upd ths t (auto_entry o)), [Call t o])
      | _ => None
      end
  | ARun t ch =>
      match nth_error ths t with
      | Some (ADone o r) => Some ((s, upd ths t ARest), [Ret t o r])
      | Some PSignal =>                                   (* futex_signal, futex.hpp 105-117 *)
          match ch with
          | CWake u =>
              match nth_error ths u with
              | Some (WSleep k) => Some ((s, upd (upd ths u (WLoad k)) t (ADone EPost EOk)), [])
              | _ => None
              end
          | _ => if existsb is_sleep ths then None else Some ((s, upd ths t (ADone EPost EOk)), [])
          end
      | Some p =>
          match auto_run s p ch with
          | Some (s', p') => Some ((s', upd ths t p'), [])
          | None => None
          end
      | None => None
      end
  end.

(** Specification vocabulary over configurations: thread is inside wait() or a timed wait. L:84-129, 165-315. *)
Definition in_wait (p : apc) : Z :=
  match p with
  | TLoad KTry | TCas KTry _ => 0
  | TLoad _ | TCas _ _ | WAdd _ | WFutex _ _ | WSleep _ | WLoad _ | WCas _ _ | OLoad | OCas _ => 1
  | _ => 0
  end.
(** At most [k] threads are inside wait()/timed waits. The client-side bound under which the 22-bit counter of L:47-50 cannot overflow. *)
Definition at_most_waiting (k : Z) (c : acfg) : Prop := sumf in_wait (snd c) <= k.
