(** Model of shared_spin_mutex
    (/repo/include/boost/sync/detail/mutexes/shared_spin_mutex.hpp).  One step is
    one atomic access; [detail::pause()] is a no-op; the compare_exchange_weak
    calls may fail spuriously (chosen by the scheduler). *)
From Coq Require Import List Bool Arith ZArith.
From Verif Require Import ListSum Exec Lin Word RwSpec.
Import ListNotations.
Local Open Scope Z_scope.

(** lines 38-42. shared_spin_mutex.hpp 39. *)
Definition rw_unlocked : Z := 0.
(** shared_spin_mutex.hpp 40. *)
Definition reader_mask : Z := 2 ^ 31 - 1.        (* 0x7fffffff. shared_spin_mutex.hpp 41. *)
Definition rw_locked : Z := 2 ^ 31.              (* 0x80000000 *)

(** Program points of shared_spin_mutex.hpp 57-121; RRest carries what the client holds. *)
Inductive rpc :=
| RRest (m : rmode)
| XLoad                     (* lock(), 60: about to load *)
| XCas                      (* lock(), 64: compare_exchange_weak(0 -> locked) *)
| XTryCas                   (* try_lock(), 74: compare_exchange_strong(0 -> locked) *)
| XStore                    (* unlock(), 84 *)
| SLoad1                    (* lock_shared(), 90 *)
| SLoad2                    (* lock_shared(), 95 *)
| SCas (cur : Z)            (* lock_shared(), 98: compare_exchange_weak(cur -> cur+1) *)
| STryLoad                  (* try_lock_shared(), 108 *)
| STryCas (cur : Z)         (* try_lock_shared(), 111: compare_exchange_strong *)
| SSub                      (* unlock_shared(), 120: fetch_sub(1) *)
| RDone (m : rmode) (o : rop) (r : rres).

(** Calls of shared_spin_mutex.hpp 57-118; the interleaving has no counterpart in the file. *)
Inductive ract :=
| RCall (t : nat) (o : rop)
| RRun (t : nat) (spurious : bool).   (* [spurious]: a weak CAS fails spuriously *)

(** shared_spin_mutex.hpp 124 and the program point of every thread. *)
Definition rcfg : Type := (Z * list rpc)%type.

(** 48-50 *)
Definition rw_init (n : nat) : rcfg := (rw_unlocked, repeat (RRest HNone) n).

(** First access of each function: shared_spin_mutex.hpp 60, 74, 84, 90, 108, 120. *)
Definition rw_entry (o : rop) : rpc :=
  match o with
  | XLock => XLoad | XTry => XTryCas | XUnlock => XStore
  | SLock => SLoad1 | STry => STryLoad | SUnlock => SSub
  end.

(** One access of one thread, shared_spin_mutex.hpp 57-121. *)
Definition rw_run (s : Z) (p : rpc) (spurious : bool) : option (Z * rpc) :=
  match p with
  | RRest _ | RDone _ _ _ => None
  | XLoad =>      (* 60: while (state.load(relaxed) != unlocked) pause *)
      if s =? rw_unlocked then Some (s, XCas) else Some (s, XLoad)
  | XCas =>       (* 63-67 *)
      if (s =? rw_unlocked) && negb spurious then Some (rw_locked, RDone HNone XLock QOk)
      else Some (s, XLoad)
  | XTryCas =>    (* 73-78 *)
      if s =? rw_unlocked then Some (rw_locked, RDone HNone XTry QTrue)
      else Some (s, RDone HNone XTry QFalse)
  | XStore =>     (* 84: store(unlocked, release) *)
      Some (rw_unlocked, RDone HExcl XUnlock QOk)
  | SLoad1 =>     (* 90: while (state.load(relaxed) == locked) pause *)
      if s =? rw_locked then Some (s, SLoad1) else Some (s, SLoad2)
  | SLoad2 =>     (* 95: current = state.load(acquire) & reader_mask *)
      Some (s, SCas (Z.land s reader_mask))
  | SCas cur =>   (* 96-102: next = current + 1; CAS weak *)
      if (s =? cur) && negb spurious then Some (u32 (cur + 1), RDone HNone SLock QOk)
      else Some (s, SLoad1)
  | STryLoad =>   (* 108 *)
      Some (s, STryCas (Z.land s reader_mask))
  | STryCas cur => (* 109-115: CAS strong *)
      if s =? cur then Some (u32 (cur + 1), RDone HNone STry QTrue)
      else Some (s, RDone HNone STry QFalse)
  | SSub =>       (* 120: fetch_sub(1, release) *)
      Some (u32 (s - 1), RDone HShared SUnlock QOk)
  end.

(** One call, or one access of one thread, of shared_spin_mutex.hpp 57-121; the assertion of line 83 is not modelled. *)
Definition rw_step (c : rcfg) (a : ract) : option (rcfg * list (event rop rres)) :=
  let '(s, ths) := c in
  match a with
  | RCall t o =>
      match nth_error ths t with
      | Some (RRest m) =>
          if rpre m o then Some ((s, upd ths t (rw_entry o)), [Call t o]) else None
      | _ => None
      end
  | RRun t spurious =>
      match nth_error ths t with
      | Some (RDone m o r) => Some ((s, upd ths t (RRest (rnext m o r))), [Ret t o r])
      | Some p =>
          match rw_run s p spurious with
          | Some (s', p') => Some ((s', upd ths t p'), [])
          | None => None
          end
      | None => None
      end
  end.
