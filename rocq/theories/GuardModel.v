(** Model of the scope guards lock_guard, shared_lock_guard and unlock_guard
    (/repo/include/boost/sync/locks/lock_guard.hpp 37-63, shared_lock_guard.hpp 36-62, unlock_guard.hpp 34-57).

    A client program is a tree of nested scopes; at the leaves the client may do anything, throw, or call mutex functions itself.
    Mutex calls are answered by an arbitrary environment as in LockModel and recorded together with their call site.
    unlock_guard is modelled both over a mutex and over a unique_lock object (its Lockable may be either).
    C++11 rules: an exception leaving a destructor that is not noexcept(false), leaving a noexcept function, or thrown by a
    destructor during stack unwinding terminates the program. *)
From Coq Require Import List Bool ZArith.
From Verif Require Import ListSum LockModel.
Import ListNotations.

(** Call sites: the client itself; constructor/destructor of lock_guard and shared_lock_guard (locking / unlocking); of unlock_guard
    (unlocking / locking); entry to an adopting guard. lock_guard.hpp 47-59, shared_lock_guard.hpp 46-58, unlock_guard.hpp 45-53. *)
Inductive site := SiUser | SiLockCtor | SiLockDtor | SiUnlockCtor | SiUnlockDtor | SiAdopt.
(** The mutex calls made, in order; no counterpart in /repo. *)
Definition gtrace := list (site * mev).
(** The mutex: any answer to any call; no counterpart in /repo. *)
Definition genv := gtrace -> nat -> mop -> outcome.

(** Uses of lock_guard.hpp 37-63, shared_lock_guard.hpp 36-62, unlock_guard.hpp 34-57. *)
Inductive scope :=
| SSkip                                     (* any client code that does not throw *)
| SThrow                                    (* client code that throws *)
| SSeq (a b : scope)
| SCatch (a h : scope)                      (* try { a } catch (...) { h } *)
| SRaw (m : nat) (o : mop)                  (* the client calls a mutex function itself *)
| SGuard (k : kind) (m : nat) (b : scope)   (* { lock_guard (KU) or shared_lock_guard (KS) g(m); b } *)
| SAdoptG (k : kind) (m : nat) (b : scope)  (* { lock_guard or shared_lock_guard g(m, adopt_lock); b } *)
| SUnlockG (m : nat) (b : scope)            (* { unlock_guard< Mutex > g(m); b } *)
| SUnlockL (i : nat) (b : scope).           (* { unlock_guard< unique_lock< Mutex > > g(lock_i); b } *)

(** How a statement ends: normally, by an exception, by std::terminate. No counterpart in /repo. *)
Inductive gres := GOk | GExn | GTerm.

Section Guards.
Variable E : genv.

(** m_mutex.lock() / unlock() / lock_shared() / unlock_shared(): lock_guard.hpp 49, 58, shared_lock_guard.hpp 48, 57, unlock_guard.hpp 47, 52. *)
Definition gcall (s : site) (tr : gtrace) (m : nat) (o : mop) : outcome * gtrace :=
  let out := E tr m o in (out, tr ++ [(s, EvCall m o out)]).

(** A unique_lock operation performed by an unlock_guard. unlock_guard.hpp 47 and 52 with Lockable = unique_lock (unique_lock.hpp 186-196, 253-263). *)
Definition on_lock (s : site) (f : env -> lobj -> trace -> lobj * trace * xres) (l : lobj) (tr : gtrace) : lobj * gtrace * xres :=
  match f (fun _ m o => E tr m o) l [] with (l', evs, x) => (l', tr ++ map (pair s) evs, x) end.

(** [os]: the client's unique_lock objects. *)
Fixpoint grun (s : scope) (os : list lobj) (tr : gtrace) : list lobj * gtrace * gres :=
  match s with
  | SSkip => (os, tr, GOk)
  | SThrow => (os, tr, GExn)
  | SSeq a b => match grun a os tr with
                | (os1, tr1, GOk) => grun b os1 tr1
                | r => r
                end
  | SCatch a h => match grun a os tr with
                  | (os1, tr1, GExn) => grun h os1 tr1
                  | r => r
                  end
  | SRaw m o => match gcall SiUser tr m o with
                | (OThrow, tr1) => (os, tr1, GExn)
                | (_, tr1) => (os, tr1, GOk)
                end
  | SGuard k m b =>                                 (* lock_guard.hpp 47-50, 56-59; shared_lock_guard.hpp 46-49, 55-58 *)
      match gcall SiLockCtor tr m (MLock k) with
      | (OThrow, tr1) => (os, tr1, GExn)
      | (_, tr1) =>
          match grun b os tr1 with
          | (os2, tr2, GTerm) => (os2, tr2, GTerm)
          | (os2, tr2, r) => match gcall SiLockDtor tr2 m (MUnlock k) with
                             | (OThrow, tr3) => (os2, tr3, GTerm)
                             | (_, tr3) => (os2, tr3, r)
                             end
          end
      end
  | SAdoptG k m b =>                                (* lock_guard.hpp 52-54, 56-59; shared_lock_guard.hpp 51-53, 55-58 *)
      match grun b os (tr ++ [(SiAdopt, EvAdopt m k)]) with
      | (os2, tr2, GTerm) => (os2, tr2, GTerm)
      | (os2, tr2, r) => match gcall SiLockDtor tr2 m (MUnlock k) with
                         | (OThrow, tr3) => (os2, tr3, GTerm)
                         | (_, tr3) => (os2, tr3, r)
                         end
      end
  | SUnlockG m b =>                                 (* unlock_guard.hpp 45-53 *)
      match gcall SiUnlockCtor tr m (MUnlock KU) with
      | (OThrow, tr1) => (os, tr1, GTerm)
      | (_, tr1) =>
          match grun b os tr1 with
          | (os2, tr2, GTerm) => (os2, tr2, GTerm)
          | (os2, tr2, r) => match gcall SiUnlockDtor tr2 m (MLock KU), r with
                             | (OThrow, tr3), GOk => (os2, tr3, GExn)
                             | (OThrow, tr3), _ => (os2, tr3, GTerm)
                             | (_, tr3), _ => (os2, tr3, r)
                             end
          end
      end
  | SUnlockL i b =>                                 (* unlock_guard.hpp 45-53 with unique_lock.hpp 253-263, 186-196 *)
      match nth_error os i with
      | None => (os, tr, GTerm)
      | Some l =>
          match on_lock SiUnlockCtor (fun e => do_unlock e KU) l tr with
          | (l1, tr1, XOk _) =>
              match grun b (upd os i l1) tr1 with
              | (os2, tr2, GTerm) => (os2, tr2, GTerm)
              | (os2, tr2, r) =>
                  match nth_error os2 i with
                  | None => (os2, tr2, GTerm)
                  | Some l2 =>
                      match on_lock SiUnlockDtor (fun e => do_lock e KU) l2 tr2, r with
                      | (l3, tr3, XOk _), _ => (upd os2 i l3, tr3, r)
                      | (l3, tr3, _), GOk => (upd os2 i l3, tr3, GExn)
                      | (l3, tr3, _), _ => (upd os2 i l3, tr3, GTerm)
                      end
                  end
              end
          | (l1, tr1, _) => (upd os i l1, tr1, GTerm)
          end
      end
  end.
End Guards.
