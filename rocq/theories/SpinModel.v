(** Model of spin_mutex, both implementations
    (/repo/include/boost/sync/detail/mutexes/spin_mutex.hpp).  One step is one
    atomic access.  [detail::pause()] is a no-op. *)
From Coq Require Import List Bool Arith.
From Verif Require Import ListSum Exec Lin MutexSpec.
Import ListNotations.

(** Program counter of a thread.  [SRest m]: outside the library, [m] = "this
    thread holds the mutex" (client bookkeeping used only to restrict which
    calls are made). spin_mutex.hpp 57-78 and 100-118. *)
Inductive spc :=
| SRest (m : bool)
| SLoad                    (* lock(), line 61: about to load *)
| SXchg                    (* lock(), line 64 -> try_lock 71: about to exchange / 104 -> 112 *)
| STry (m : bool)          (* try_lock(), line 71 / 112: about to exchange *)
| SStore                   (* unlock(), line 77 / 117: about to store *)
| SDone (m : bool) (o : mop) (r : mres). (* about to return *)

(** Scheduler actions: an idle thread calls an operation, or a thread runs one step. The calls are lock / try_lock / unlock, spin_mutex.hpp 57, 69, 74 (100, 110, 115); the interleaving has no counterpart in the file. *)
Inductive sact := SCall (t : nat) (o : mop) | SRun (t : nat).

(** Shared word and threads. spin_mutex.hpp 45 / 89. *)
Definition scfg : Type := (bool * list spc)%type.

(** lines 43-44: locked_state = 0, unlocked_state = 1 (atomic<bool>). spin_mutex.hpp 43. *)
Definition locked_state : bool := false.
(** spin_mutex.hpp 44. *)
Definition unlocked_state : bool := true.

(** line 48-50: constructor. *)
Definition spin_init (n : nat) : scfg := (unlocked_state, repeat (SRest false) n).

(** test-test-and-set implementation, lines 57-78. *)
Definition ttas_run (s : bool) (p : spc) : option (bool * spc) :=
  match p with
  | SRest _ => None
  | SLoad =>      (* 61: while (state.load(relaxed) != unlocked) pause; *)
      if Bool.eqb s unlocked_state then Some (s, SXchg) else Some (s, SLoad)
  | SXchg =>      (* 64/71: if (state.exchange(locked, acquire) == unlocked) break; *)
      if Bool.eqb s unlocked_state then Some (locked_state, SDone false MLock ROk)
      else Some (locked_state, SLoad)
  | STry m =>     (* 71 *)
      if Bool.eqb s unlocked_state then Some (locked_state, SDone m MTryLock RTrue)
      else Some (locked_state, SDone m MTryLock RFalse)
  | SStore =>     (* 77: state.store(unlocked, release) *)
      Some (unlocked_state, SDone true MUnlock ROk)
  | SDone _ _ _ => None
  end.

(** Entry points: first program point of each operation.  MTimed does not exist on spin_mutex. spin_mutex.hpp 57, 69, 74. *)
Definition ttas_entry (m : bool) (o : mop) : option spc :=
  match o with
  | MLock => Some SLoad
  | MTryLock => Some (STry m)
  | MUnlock => Some SStore
  | MTimed => None
  end.

(** atomic_flag implementation, lines 100-118; [s = true] models a clear flag (same encoding as above). *)
Definition tas_run (s : bool) (p : spc) : option (bool * spc) :=
  match p with
  | SRest _ | SLoad => None
  | SXchg =>      (* 104/112: if (state.test_and_set(acquire) == false) break; pause *)
      if Bool.eqb s unlocked_state then Some (locked_state, SDone false MLock ROk)
      else Some (locked_state, SXchg)
  | STry m =>     (* 112 *)
      if Bool.eqb s unlocked_state then Some (locked_state, SDone m MTryLock RTrue)
      else Some (locked_state, SDone m MTryLock RFalse)
  | SStore =>     (* 117: state.clear(release) *)
      Some (unlocked_state, SDone true MUnlock ROk)
  | SDone _ _ _ => None
  end.

(** The same for the atomic_flag implementation, spin_mutex.hpp 100, 110, 115. *)
Definition tas_entry (m : bool) (o : mop) : option spc :=
  match o with
  | MLock => Some SXchg
  | MTryLock => Some (STry m)
  | MUnlock => Some SStore
  | MTimed => None
  end.

(** Interleaving of threads: call, internal step, return. Functions of spin_mutex.hpp 57-78 / 100-118; the assertion of line 76 is not modelled. *)
Definition spin_step (entry : bool -> mop -> option spc) (run : bool -> spc -> option (bool * spc))
    (c : scfg) (a : sact) : option (scfg * list (event mop mres)) :=
  let '(s, ths) := c in
  match a with
  | SCall t o =>
      match nth_error ths t with
      | Some (SRest m) =>
          if mpre m o then
            match entry m o with
            | Some p => Some ((s, upd ths t p), [Call t o])
            | None => None
            end
          else None
      | _ => None
      end
  | SRun t =>
      match nth_error ths t with
      | Some (SDone m o r) => Some ((s, upd ths t (SRest (mnext m o r))), [Ret t o r])
      | Some p =>
          match run s p with
          | Some (s', p') => Some ((s', upd ths t p'), [])
          | None => None
          end
      | None => None
      end
  end.

(** spin_mutex.hpp 41-82. *)
Definition ttas_step := spin_step ttas_entry ttas_run.
(** spin_mutex.hpp 87-122. *)
Definition tas_step := spin_step tas_entry tas_run.
