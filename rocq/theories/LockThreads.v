(** Many threads that use lock objects on shared mutexes: the composition of [LockModel] (one thread's objects: unique_lock.hpp 53-305,
    shared_lock.hpp 54-268, upgrade_lock.hpp 54-288) with mutexes that grant a lock only if it is compatible with the locks already granted
    (what C01, C04, C18, C19, C74 prove of the library's mutexes).

    A history is the sequence of what the mutexes see, in the order in which they take effect; each entry has the thread and whether the call was made by a
    lock object or directly by the user.  A lock object stays with one thread. *)
From Coq Require Import List Bool ZArith.
From Verif Require Import ListSum LockModel.
Import ListNotations.
Local Open Scope Z_scope.

(** [direct]: the user's own call on the mutex; otherwise an event of the thread's lock objects ([LockModel.mev]: calls at u75-251, s75-213, g75-233
    and in the conversions; adopt_lock u77-80 s77-80 g77-80; release() u282-288 s244-250 g264-270). *)
Record tev := TE { who : nat; direct : bool; what : mev }.
(** No counterpart in /repo. *)
Definition history := list tev.

(** What thread [t]'s lock objects did; no counterpart in /repo. *)
Definition objs_of (t : nat) (h : history) : trace := map what (filter (fun x => Nat.eqb (who x) t && negb (direct x)) h).

(** One lock of mode [k] of mutex [m]; specification vocabulary, no counterpart in /repo. *)
Definition one (m : nat) (k : kind) (m' : nat) (k' : kind) : Z := if Nat.eqb m m' && kind_eqb k k' then 1 else 0.
(** What a call that has returned means for the mutex (the names of the functions, u75-251, s75-213, g75-233, u108-165, s108-120, g108-147):
    the mode acquired, and the mode given up for it. *)
Definition grants (o : mop) (out : outcome) : option (kind * option kind) :=
  match out, o with
  | OThrow, _ => None
  | _, MLock k => Some (k, None)
  | OYes, MTry k | OYes, MTimed k => Some (k, None)
  | _, MConv to from => Some (to, Some from)
  | OYes, MTryConv to from | OYes, MTimedConv to from => Some (to, Some from)
  | _, _ => None
  end.
(** The unlock functions, u261 s223 g243 and the destructors u167-171 s122-126 g149-153. *)
Definition drops (o : mop) (out : outcome) : option kind :=
  match out, o with OThrow, _ => None | _, MUnlock k => Some k | _, _ => None end.
(** Change in the number of mode-[k] locks of [m] that are out; specification vocabulary, no counterpart in /repo. *)
Definition change (e : mev) (m : nat) (k : kind) : Z :=
  match e with
  | EvCall m' o out =>
      (match grants o out with Some (k1, None) => one m' k1 m k | Some (k1, Some k0) => one m' k1 m k - one m' k0 m k | None => 0 end)
      - match drops o out with Some k0 => one m' k0 m k | None => 0 end
  | _ => 0
  end.
(** Mode-[k] locks of [m] that are out after [h]; no counterpart in /repo. *)
Definition out_now (h : history) (m : nat) (k : kind) : Z := sumf (fun x => change (what x) m k) h.

(** The locks thread [t] holds outside its lock objects: obtained by direct calls or from release(), given to adopt_lock constructors.  No counterpart in
    /repo. *)
Definition pocket1 (t : nat) (x : tev) (m : nat) (k : kind) : Z :=
  if Nat.eqb (who x) t then
    if direct x then change (what x) m k
    else match what x with EvAdopt m' k' => - one m' k' m k | EvRelease m' k' => one m' k' m k | _ => 0 end
  else 0.
(** See [pocket1]; no counterpart in /repo. *)
Definition pocket (t : nat) (h : history) (m : nat) (k : kind) : Z := sumf (fun x => pocket1 t x m k) h.

(** A mutex with these locks out may grant mode [k]; the meaning of exclusive, shared and upgrade ownership (upgrade: at most one, together with
    shared ones).  No counterpart in /repo for upgrade; exclusive and shared: shared_spin_mutex.hpp. *)
Definition admits (c : kind -> Z) (k : kind) : Prop :=
  match k with KU => c KU = 0 /\ c KS = 0 /\ c KG = 0 | KS => c KU = 0 | KG => c KU = 0 /\ c KG = 0 end.
(** Every lock granted in [h] was admissible at that moment; for a change of mode, without the lock given up.  No counterpart in /repo. *)
Definition mutexes_ok (h : history) : Prop :=
  forall h1 t d m o out h2 k from, h = h1 ++ TE t d (EvCall m o out) :: h2 -> grants o out = Some (k, from) ->
    admits (fun k' => out_now h1 m k' - match from with Some k0 => one m k0 m k' | None => 0 end) k.
(** The user's own part: direct events are calls, and the user unlocks directly, changes the mode of, or hands to adopt_lock only what the thread has
    outside its lock objects.  No counterpart in /repo. *)
Definition users_ok (h : history) : Prop :=
  forall h1 t d e h2, h = h1 ++ TE t d e :: h2 ->
    (d = true -> exists m o out, e = EvCall m o out /\
       (forall k k0, (o = MUnlock k0 \/ o = MConv k k0 \/ o = MTryConv k k0 \/ o = MTimedConv k k0) -> 1 <= pocket t h1 m k0)) /\
    (d = false -> forall m k, e = EvAdopt m k -> 1 <= pocket t h1 m k).
