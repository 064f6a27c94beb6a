(** Specification of a (non-recursive) mutex, independent of any implementation. *)
From Coq Require Import List Bool Arith Lia.
From Verif Require Import ListSum Exec Lin.
Import ListNotations.

(** API operations.  [MTimed] stands for every timed form (timed_lock,
    try_lock_for, try_lock_until). *)
Inductive mop := MLock | MTryLock | MTimed | MUnlock.
(** Results: returned normally / returned true / returned false / threw an exception. *)
Inductive mres := ROk | RTrue | RFalse | RThrow.

(** [m = true] means "the calling thread holds the mutex".  lock() and the timed
    forms may only be called by a thread that does not hold it, unlock() only by one that does. *)
Definition mpre (m : bool) (o : mop) : bool :=
  match o with
  | MLock | MTimed => negb m
  | MTryLock => true
  | MUnlock => m
  end.

Definition mnext (m : bool) (o : mop) (r : mres) : bool :=
  match o, r with
  | MLock, ROk => true
  | MTryLock, RTrue | MTimed, RTrue => true
  | MUnlock, _ => false
  | _, _ => m
  end.

(** Abstract state: who holds the mutex.
    - lock: waits until free, then takes it;
    - try_lock: true exactly if it takes a free mutex, false exactly if it is held;
    - timed lock: true if it takes a free mutex; false only at an instant where it is held;
    - throwing (only where [thr] allows it) changes nothing. *)
Inductive mtrans (thr : bool) (t : nat) : mop -> option nat -> mres -> option nat -> Prop :=
| mt_lock : mtrans thr t MLock None ROk (Some t)
| mt_lock_thr s : thr = true -> mtrans thr t MLock s RThrow s
| mt_try_t : mtrans thr t MTryLock None RTrue (Some t)
| mt_try_f u : mtrans thr t MTryLock (Some u) RFalse (Some u)
| mt_timed_t : mtrans thr t MTimed None RTrue (Some t)
| mt_timed_f u : mtrans thr t MTimed (Some u) RFalse (Some u)
| mt_timed_thr s : thr = true -> mtrans thr t MTimed s RThrow s
| mt_unlock : mtrans thr t MUnlock (Some t) ROk None.

Definition mutex_spec (thr : bool) : spec := {|
  op := mop; res := mres; ost := option nat; mode := bool;
  oinit := None; minit := false; pre := mpre; next := mnext;
  otrans := fun t o s r s' => mtrans thr t o s r s' |}.

(** Mutual exclusion as a statement about histories alone: the threads whose
    last successful lock has returned and whose unlock has not been called yet. *)
Fixpoint remove_all (t : nat) (l : list nat) : list nat :=
  match l with
  | [] => []
  | u :: l' => if Nat.eqb t u then remove_all t l' else u :: remove_all t l'
  end.

Definition holders_step (h : list nat) (e : event mop mres) : list nat :=
  match e with
  | Ret t MLock ROk => t :: h
  | Ret t MTryLock RTrue | Ret t MTimed RTrue => t :: h
  | Call t MUnlock => remove_all t h
  | _ => h
  end.

Definition holders (tr : list (event mop mres)) : list nat := fold_left holders_step tr [].
