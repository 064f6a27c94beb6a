(** Model of auto_reset_event built on a semaphore
    (/repo/include/boost/sync/detail/events/auto_reset_event_semaphore.hpp, "L:").
    One step is one access to m_state or one semaphore operation.  m_state is an int32_t with two's complement
    wrap-around.  The semaphore is an atomic counter (the kernel semaphores of semaphore_posix/windows/mach.hpp; for the
    emulated one this is theorem C17_atomic): wait blocks while it is 0, try_wait and a timed wait that times out report
    failure at an instant when it is 0, or at any instant because sem_trywait was interrupted or sem_timedwait failed
    (semaphore_posix.hpp 109 and 160-164: the function returns false).
    Not modelled: semaphore operations that throw.  This file is only compiled with POSIX or libdispatch semaphores
    (C76_auto_semaphore_not_emulated), whose wait functions do not throw; post() throws when the counter is at its maximum,
    which C14_bounded_partial excludes. *)
From Coq Require Import List Bool Arith ZArith.
From Verif Require Import ListSum Exec Lin Thr Word EventSpec.
Import ListNotations.
Local Open Scope Z_scope.

(** Which of try_wait (L:72), wait (L:66), timed_wait (L:85) is running. *)
Inductive skind := SKTry | SKWait | SKTimed.

(** Program points of L:43-95, one per access to m_state or operation of m_sem. *)
Inductive spc :=
| SRest
| SLoad                     (* post, L:45 *)
| SCas (old : Z)            (* post, L:50 *)
| SSemPost                  (* post, L:52: m_sem.post() *)
| SAdd (k : skind)          (* L:68 / 74 / 87: m_state.fetch_add(1) *)
| SSemWait (k : skind)      (* L:69 / 76 / 89: m_sem.wait() / try_wait() / timed_wait() *)
| SSub (k : skind)          (* L:80 / 93: m_state.fetch_add(-1) *)
| SDone (o : eop) (r : eres).

(** L:66 / 72 / 85. *)
Definition skop (k : skind) : eop := match k with SKTry => ETry | SKWait => EWait | SKTimed => ETimed end.
(** What the function returns after a successful semaphore wait: nothing (L:69-70), true (L:78 / 91). *)
Definition skres (k : skind) : eres := match k with SKWait => EOk | _ => ETrue end.

(** Shared state: m_state and the semaphore's value. L:110-111. *)
Definition ssh : Type := (Z * Z)%type.

(** Choices left to the environment: the weak exchange of L:50 fails spuriously; the timed wait of L:89 times out;
    the semaphore reports failure although it may have a unit (L:76, L:89; semaphore_posix.hpp 109, 160-164). *)
Inductive schoice := SNorm | SSpur | STimeout | SFail.

(** The semaphore reports failure whatever its value: sem_trywait interrupted, sem_timedwait failing (L:76, L:89; semaphore_posix.hpp 109, 160-164); sem_wait is called again (89-90). *)
Definition s_fail (k : skind) (ch : schoice) : bool := match k, ch with SKTry, SFail | SKTimed, SFail => true | _, _ => false end.

(** First program point of post (L:45), wait (L:68), try_wait (L:74), timed_wait (L:87); wait_for and wait_until (L:98, 104) only call timed_wait. *)
Definition as_call (p : spc) (o : eop) : option spc :=
  match p with
  | SRest => Some match o with
                  | EPost => SLoad | EWait => SAdd SKWait | ETry => SAdd SKTry | ETimed => SAdd SKTimed
                  end
  | _ => None
  end.

(** Return to the caller (L:53 / 64, 70, 78 / 81, 91 / 94). *)
Definition as_ret (p : spc) : option (eop * eres * spc) :=
  match p with SDone o r => Some (o, r, SRest) | _ => None end.

(** One access of one thread: L:45-63 (post), 68-69, 74-81, 87-94. *)
Definition as_run1 (s : ssh) (p : spc) (ch : schoice) : option (ssh * spc) :=
  let '(st, v) := s in
  match p with
  | SRest | SDone _ _ => None
  | SLoad => Some (s, if 0 <=? st then SCas st else SDone EPost EOk)        (* L:45-46, 63 *)
  | SCas old =>
      (* L:50-61: weak CAS; on failure the current value is reloaded, negative: leave the loop *)
      if (st =? old) && negb (match ch with SSpur => true | _ => false end)
      then Some ((i32 (old - 1), v), SSemPost)
      else Some (s, if st <? 0 then SDone EPost EOk else SCas st)
  | SSemPost => Some ((st, v + 1), SDone EPost EOk)
  | SAdd k => Some ((i32 (st + 1), v), SSemWait k)
  | SSemWait k =>
      if (0 <? v) && negb (s_fail k ch) then Some ((st, v - 1), SDone (skop k) (skres k))
      else match k, ch with
           | SKTry, _ => Some (s, SSub k)
           | SKTimed, STimeout | SKTimed, SFail => Some (s, SSub k)
           | _, _ => None                                   (* blocked *)
           end
  | SSub k => Some ((i32 (st - 1), v), SDone (skop k) EFalse)
  end.

(** The same within the list of all threads; no operation of L:43-95 touches another thread. *)
Definition as_run (s : ssh) (ths : list spc) (t : nat) (p : spc) (ch : schoice) : option (ssh * list spc) :=
  match as_run1 s p ch with
  | Some (s', p') => Some (s', upd ths t p')
  | None => None
  end.

(** Interleaving of any number of threads calling L:43-107. *)
Definition as_step := tstep as_call as_ret as_run.

(** L:39; the semaphore starts at 0. *)
Definition as_init (n : nat) : ssh * list spc := ((0, 0), repeat SRest n).
