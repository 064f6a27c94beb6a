(** Model of manual_reset_event on Linux
    (/repo/include/boost/sync/detail/events/manual_reset_event_futex.hpp, "L:"), with the futex system
    calls of /repo/include/boost/sync/detail/futex.hpp.  One step is one atomic access or one system call.
    FUTEX_WAIT compares and blocks atomically; FUTEX_WAKE(INT_MAX) wakes all sleepers; a sleeper may return
    at any time (EINTR, spurious), a timed one may time out at any time.
    Simplification: the bound INT_MAX on the number of woken threads is not represented (the model is used for
    fewer than 2^31 threads). *)
From Coq Require Import List Bool Arith ZArith.
From Verif Require Import ListSum Exec Lin Word FlagSpec.
Import ListNotations.
Local Open Scope Z_scope.

(** L:44-49 *)
Definition mpost_bit : Z := 1.
(** L:47. *)
Definition mwait_one : Z := 2.
(** L:48: ~1u. *)
Definition mwait_mask : Z := two32 - 2.

(** Which of try_wait (L:84), wait (L:68), a timed wait (L:108, 146, 188) is running. *)
Inductive fkind := FKTry | FKWait | FKTimed.

(** Program points of L:56-203, one per access to m_state or system call. *)
Inductive fpc :=
| FRest
| FOr                            (* set, L:58: fetch_or(post_bit) *)
| FBcast                         (* set, L:60 *)
| FAnd                           (* reset, L:65: opaque_and(mask) *)
| FLoad (k : fkind) (again : bool) (* try_wait, L:86; [again]: repeated by the chrono loop L:188-203 *)
| FAdd (k : fkind)               (* L:74 / 114 / 152: add(2), returns the new value *)
| FFutex (k : fkind) (e : Z)     (* L:77 / 127 / 166 *)
| FSleep (k : fkind)
| FReload (k : fkind)            (* L:78 / 138 / 177 *)
| FSub (k : fkind)               (* L:81 / 141 / 182: opaque_sub(2, acquire), success *)
| FSubT                          (* L:120 / 133 / 158 / 172: opaque_sub(2), timed out *)
| FDone (o : fop) (r : fres).

(** Choices left to the environment: a futex wait returns early with EINTR (L:77 / 127 / 166), the deadline passes (L:118, 131, 156, 170), the clock of L:198-200 has not reached the deadline. *)
Inductive fchoice := FNorm | FSpur | FTimeout | FAgain.
(** A client calls a public function of L:56-105, or a thread performs its next access. *)
Inductive fact := FCall (t : nat) (o : fop) | FRun (t : nat) (ch : fchoice).
(** m_state (L:206) and the program point of every thread. *)
Definition fcfg : Type := (Z * list fpc)%type.

(** L:52 *)
Definition man_init (n : nat) : fcfg := (0, repeat FRest n).

(** First access of set (L:58), reset (L:65), wait (L:71 -> 86), try_wait (L:86), timed waits (L:111 / 149 -> 86). *)
Definition man_entry (o : fop) : fpc :=
  match o with
  | FSet => FOr | FReset => FAnd
  | FWait => FLoad FKWait false | FTry => FLoad FKTry false | FTimed => FLoad FKTimed false
  end.

(** L:68 / 84 / 90-105. *)
Definition fkop (k : fkind) : fop := match k with FKTry => FTry | FKWait => FWait | FKTimed => FTimed end.
(** What the function returns on success: nothing (L:82), true (L:86, 143, 184). *)
Definition fkres (k : fkind) : fres := match k with FKWait => FOk | _ => FTrue end.

(** loop test, L:75 / 115 / 153 / 179 *)
Definition man_test (k : fkind) (old : Z) : fpc :=
  if Z.land old mpost_bit =? 0 then FFutex k old else FSub k.

(** One access of one thread, L:58-182. *)
Definition man_run (s : Z) (p : fpc) (ch : fchoice) : option (Z * fpc) :=
  match p with
  | FRest | FBcast | FDone _ _ => None
  | FOr =>      (* L:58-60 *)
      Some (Z.lor s mpost_bit,
            if (Z.land s mpost_bit =? 0) && negb (Z.land s mwait_mask =? 0) then FBcast else FDone FSet FOk)
  | FAnd => Some (Z.land s mwait_mask, FDone FReset FOk)
  | FLoad k again =>
      if Z.land s mpost_bit =? 0
      then match k with
           | FKTry => Some (s, FDone FTry FFalse)
           | _ => Some (s, FAdd k)
           end
      else Some (s, FDone (fkop k) (fkres k))
  | FAdd k => let s' := u32 (s + mwait_one) in Some (s', man_test k s')
  | FFutex k e =>
      match k, ch with
      | FKTimed, FTimeout => Some (s, FSubT)             (* L:118-122 / 156-160: no time left *)
      | _, FSpur => Some (s, FReload k)
      | _, _ => if s =? e then Some (s, FSleep k) else Some (s, FReload k)
      end
  | FSleep k =>
      match k, ch with
      | FKTimed, FTimeout => Some (s, FSubT)             (* ETIMEDOUT *)
      | _, FSpur => Some (s, FReload k)
      | _, _ => None
      end
  | FReload k => Some (s, man_test k s)
  | FSub k => Some (u32 (s - mwait_one), FDone (fkop k) (fkres k))
  | FSubT => Some (u32 (s - mwait_one),
                   match ch with FAgain => FLoad FKTimed true | _ => FDone FTimed FFalse end)
  end.

(** futex_broadcast: every sleeping thread becomes runnable. L:60, futex.hpp 90-102. *)
Definition wake_all (p : fpc) : fpc := match p with FSleep k => FReload k | _ => p end.

(** One call of a public function, or one access or system call of one thread (L:56-203). *)
Definition man_step (c : fcfg) (a : fact) : option (fcfg * list (event fop fres)) :=
  let '(s, ths) := c in
  match a with
  | FCall t o =>
      match nth_error ths t with
      | Some FRest => Some ((s, upd ths t (man_entry o)), [Call t o])
      | _ => None
      end
  | FRun t ch =>
      match nth_error ths t with
      | Some (FDone o r) => Some ((s, upd ths t FRest), [Ret t o r])
      | Some FBcast => Some ((s, upd (map wake_all ths) t (FDone FSet FOk)), [])
      | Some p =>
          match man_run s p ch with
          | Some (s', p') => Some ((s', upd ths t p'), [])
          | None => None
          end
      | None => None
      end
  end.
