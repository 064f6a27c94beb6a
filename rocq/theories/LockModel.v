(** Model of the lock objects unique_lock, shared_lock and upgrade_lock
    (/repo/include/boost/sync/locks/unique_lock.hpp 53-299, shared_lock.hpp 54-261, upgrade_lock.hpp 54-281).

    The three classes have the same two members and, function by function, the same text apart from the names of the mutex
    functions they call; they are modelled together, indexed by [kind].  Line references are to unique_lock.hpp (u), shared_lock.hpp (s)
    and upgrade_lock.hpp (g).

    A program is a list of operations on lock objects by one thread; the mutexes are arbitrary: an environment [env] decides, from
    everything that happened so far, whether each mutex call returns, returns true/false or throws (a call that throws is assumed to
    leave the mutex as it was).  Every mutex call is recorded.  A call that never returns simply ends the program.

    The converting constructors read the private members of another class template without being its friend, so they do not compile
    when instantiated as the headers stand; they are modelled as written.  C++11 rules for destructors: an exception leaving one
    terminates the program. *)
From Coq Require Import List Bool ZArith Lia.
From Verif Require Import ListSum.
Import ListNotations.
Local Open Scope Z_scope.

(** unique_lock, shared_lock, upgrade_lock; also the mode in which the mutex is locked. unique_lock.hpp 54, shared_lock.hpp 54, upgrade_lock.hpp 54. *)
Inductive kind := KU | KS | KG.
(** Model machinery (comparison of class names); no counterpart in /repo. *)
Definition kind_eqb (a b : kind) : bool := match a, b with KU, KU | KS, KS | KG, KG => true | _, _ => false end.

(** Members m_mutex and m_is_locked: u60-61 s60-61 g60-61. *)
Record lobj := LO { lm : option nat; ll : bool }.

(** Calls on a mutex: lock / lock_shared / lock_upgrade (one per mode), try and timed forms, unlock forms, and the
    mode-changing functions unlock_X_and_lock_Y, try_unlock_X_and_lock_Y and timed_unlock_X_and_lock_Y ([MConv Y X]...). The calls on m_mutex at u75-251, s75-213, g75-233, u108-165, s108-120, g108-147. *)
Inductive mop :=
| MLock (k : kind) | MTry (k : kind) | MTimed (k : kind) | MUnlock (k : kind)
| MConv (to from : kind) | MTryConv (to from : kind) | MTimedConv (to from : kind).
(** How a mutex call ends ([OYes]/[ONo] are the result of a bool function; for a void function both mean "returned"). The mutex is any type of the user's; no counterpart in /repo. *)
Inductive outcome := OYes | ONo | OThrow.
(** Recorded events: mutex calls; a lock handed to a lock object (adopt_lock); a lock handed back to the user (release()). u75-288 and the same in s, g. *)
Inductive mev := EvCall (m : nat) (o : mop) (out : outcome) | EvAdopt (m : nat) (k : kind) | EvRelease (m : nat) (k : kind).
(** Everything the mutexes have seen, in order; no counterpart in /repo. *)
Definition trace := list mev.
(** The mutexes: any answer to any call; no counterpart in /repo. *)
Definition env := trace -> nat -> mop -> outcome.

(** BOOST_SYNC_DETAIL_THROW(lock_error): u189 u192 u201 u204 u256 u259 and the same in s, g; [EMutex]: whatever the mutex threw. *)
Inductive exn := ENotPermitted | EDeadlock | EMutex.
(** Results of u198-288: nothing, bool, mutex pointer. *)
Inductive val := VUnit | VBool (b : bool) | VPtr (p : option nat).
(** Result of an operation; [XTerm]: std::terminate; [XUndef]: a null m_mutex was dereferenced. Outcome of a C++ function; no counterpart in /repo. *)
Inductive xres := XOk (v : val) | XThrow (e : exn) | XTerm | XUndef.

Section Ops.
Variable E : env.

(** A call on *m_mutex, e.g. u194 u207 u261. *)
Definition call (tr : trace) (m : nat) (o : mop) : outcome * trace :=
  let out := E tr m o in (out, tr ++ [EvCall m o out]).

(** lock(): u186-196 s148-158 g168-178. *)
Definition do_lock (k : kind) (l : lobj) (tr : trace) : lobj * trace * xres :=
  match lm l with
  | None => (l, tr, XThrow ENotPermitted)
  | Some m =>
      if ll l then (l, tr, XThrow EDeadlock)
      else match call tr m (MLock k) with
           | (OThrow, tr') => (l, tr', XThrow EMutex)
           | (_, tr') => (LO (lm l) true, tr', XOk VUnit)
           end
  end.

(** try_lock() u198-209 s160-171 g180-191; timed_lock, try_lock_for, try_lock_until u211-251 s173-213 g193-233 (three textually
    identical functions around the three mutex functions; one [MTimed] stands for them). *)
Definition do_trylock (o : mop) (l : lobj) (tr : trace) : lobj * trace * xres :=
  match lm l with
  | None => (l, tr, XThrow ENotPermitted)
  | Some m =>
      if ll l then (l, tr, XThrow EDeadlock)
      else match call tr m o with
           | (OThrow, tr') => (l, tr', XThrow EMutex)
           | (OYes, tr') => (LO (lm l) true, tr', XOk (VBool true))
           | (ONo, tr') => (LO (lm l) false, tr', XOk (VBool false))
           end
  end.

(** unlock(): u253-263 s215-225 g235-245. *)
Definition do_unlock (k : kind) (l : lobj) (tr : trace) : lobj * trace * xres :=
  match lm l with
  | None => (l, tr, XThrow ENotPermitted)
  | Some m =>
      if ll l then match call tr m (MUnlock k) with
                   | (OThrow, tr') => (l, tr', XThrow EMutex)
                   | (_, tr') => (LO (lm l) false, tr', XOk VUnit)
                   end
      else (l, tr, XThrow ENotPermitted)
  end.

(** Destructor: u167-171 s122-126 g149-153. *)
Definition do_dtor (k : kind) (l : lobj) (tr : trace) : trace * xres :=
  if ll l then match lm l with
               | None => (tr, XUndef)
               | Some m => match call tr m (MUnlock k) with
                           | (OThrow, tr') => (tr', XTerm)
                           | (_, tr') => (tr', XOk VUnit)
                           end
               end
  else (tr, XOk VUnit).

(** release(): u282-288 s244-250 g264-270: the new state and the returned pointer. *)
Definition do_release (l : lobj) : lobj * option nat := (LO None false, lm l).

(** swap(): u290-298 s252-260 g272-280. *)
Definition do_swap (a b : lobj) : lobj * lobj := (LO (lm b) (ll b), LO (lm a) (ll a)).

(** Converting constructors: u105-111 (unique from upgrade), s105-120 (shared from unique, upgrade), g105-111 (upgrade from unique):
    new object (none if the constructor throws), source object afterwards. *)
Definition do_conv (to from : kind) (src : lobj) (tr : trace) : option lobj * lobj * trace * xres :=
  if ll src then
    match lm src with
    | None => (None, src, tr, XUndef)
    | Some m => match call tr m (MConv to from) with
                | (OThrow, tr') => (None, src, tr', XThrow EMutex)
                | (_, tr') => (Some (LO (lm src) (ll src)), fst (do_release src), tr', XOk VUnit)
                end
    end
  else (Some (LO (lm src) (ll src)), fst (do_release src), tr, XOk VUnit).

(** Trying converting constructors: u113-165 (unique from upgrade or shared), g113-147 (upgrade from shared). *)
Definition do_tryconv (o : mop) (src : lobj) (tr : trace) : option lobj * lobj * trace * xres :=
  if ll src then
    match lm src with
    | None => (None, src, tr, XUndef)
    | Some m => match call tr m o with
                | (OThrow, tr') => (None, src, tr', XThrow EMutex)
                | (OYes, tr') => (Some (LO (snd (do_release src)) true), fst (do_release src), tr', XOk VUnit)
                | (ONo, tr') => (Some (LO None false), src, tr', XOk VUnit)
                end
    end
  else (Some (LO (snd (do_release src)) false), fst (do_release src), tr, XOk VUnit).

(** Which converting constructors exist. u105, s106, s114, g105. *)
Definition conv_ok (to from : kind) : bool := match to, from with KU, KG | KS, KU | KS, KG | KG, KU => true | _, _ => false end.
(** u114, u132, g114. *)
Definition tryconv_ok (to from : kind) : bool := match to, from with KU, KG | KU, KS | KG, KS => true | _, _ => false end.
(** u150-165, g132-147. *)
Definition timedconv_ok (to from : kind) : bool := match to, from with KU, KS | KG, KS => true | _, _ => false end.

(** ** Programs: operations on a growing list of objects ([None]: destroyed). The client's lock objects; no counterpart in /repo. *)
Definition store := list (option (kind * lobj)).

(** Constructors, destructor, assignment and members of u67-305, s67-268, g67-288. *)
Inductive lop :=
| PDefault (k : kind) | PCtor (k : kind) (m : nat) | PAdopt (k : kind) (m : nat) | PDefer (k : kind) (m : nat)
| PCtorTry (k : kind) (m : nat) | PCtorTimed (k : kind) (m : nat)
| PMove (s : nat) | PConv (to : kind) (s : nat) | PTryConv (to : kind) (s : nat) | PTimedConv (to : kind) (s : nat)
| PDtor (d : nat) | PAssign (d s : nat) | PConvAssign (d s : nat)
| PLock (d : nat) | PTry (d : nat) | PTimed (d : nat) | PUnlock (d : nat) | PRelease (d : nat) | PSwap (d s : nat)
| POwns (d : nat) | PMutex (d : nat).

(** Model machinery: the [i]-th object; no counterpart in /repo. *)
Definition get (os : store) (i : nat) : option (kind * lobj) := match nth_error os i with Some x => x | None => None end.

(** A constructor that locks: the object exists afterwards only if it did not throw (u72-76, u85-96 and the same in s, g). *)
Definition ctor_with (os : store) (k : kind) (r : lobj * trace * xres) : store * trace * xres :=
  match r with
  | (l, tr, XOk _) => (os ++ [Some (k, l)], tr, XOk VUnit)
  | (_, tr, x) => (os, tr, x)
  end.
(** A constructor that throws leaves no object (C++ rule): u105-165, s105-120, g105-147. *)
Definition add_obj (os : store) (k : kind) (nl : option lobj) : store :=
  match nl with Some l => os ++ [Some (k, l)] | None => os end.

(** One operation; [None]: the program is ill-formed (dead object, wrong types). *)
Definition lstep (os : store) (tr : trace) (p : lop) : option (store * trace * xres) :=
  match p with
  | PDefault k => Some (os ++ [Some (k, LO None false)], tr, XOk VUnit)                          (* u67-70 s67-70 g67-70 *)
  | PCtor k m => Some (ctor_with os k (do_lock k (LO (Some m) false) tr))                         (* u72-76 s72-76 g72-76 *)
  | PAdopt k m => Some (os ++ [Some (k, LO (Some m) true)], tr ++ [EvAdopt m k], XOk VUnit)        (* u77-80 s77-80 g77-80 *)
  | PDefer k m => Some (os ++ [Some (k, LO (Some m) false)], tr, XOk VUnit)                       (* u81-84 s81-84 g81-84 *)
  | PCtorTry k m => Some (ctor_with os k (do_trylock (MTry k) (LO (Some m) false) tr))            (* u85-89 s85-89 g85-89 *)
  | PCtorTimed k m => Some (ctor_with os k (do_trylock (MTimed k) (LO (Some m) false) tr))        (* u91-96 s91-96 g91-96 *)
  | PMove s =>                                                                                    (* u98-103 s98-103 g98-103 *)
      match get os s with
      | Some (k, l) => Some (upd os s (Some (k, LO None false)) ++ [Some (k, LO (lm l) (ll l))], tr, XOk VUnit)
      | None => None
      end
  | PConv to s =>
      match get os s with
      | Some (k, l) =>
          if conv_ok to k then
            match do_conv to k l tr with
            | (nl, l', tr', x) => Some (add_obj (upd os s (Some (k, l'))) to nl, tr', x)
            end
          else None
      | None => None
      end
  | PTryConv to s =>
      match get os s with
      | Some (k, l) =>
          if tryconv_ok to k then
            match do_tryconv (MTryConv to k) l tr with
            | (nl, l', tr', x) => Some (add_obj (upd os s (Some (k, l'))) to nl, tr', x)
            end
          else None
      | None => None
      end
  | PTimedConv to s =>
      match get os s with
      | Some (k, l) =>
          if timedconv_ok to k then
            match do_tryconv (MTimedConv to k) l tr with
            | (nl, l', tr', x) => Some (add_obj (upd os s (Some (k, l'))) to nl, tr', x)
            end
          else None
      | None => None
      end
  | PDtor d =>
      match get os d with
      | Some (k, l) =>
          match do_dtor k l tr with
          | (tr', XOk v) => Some (upd os d None, tr', XOk v)
          | (tr', x) => Some (os, tr', x)
          end
      | None => None
      end
  | PAssign d s =>                                                           (* u173-177 s128-132 g155-159: swap; d = s allowed *)
      match get os d, get os s with
      | Some (k, a), Some (k', b) =>
          if kind_eqb k k' then
            let (a', b') := do_swap a b in Some (upd (upd os d (Some (k, a'))) s (Some (k', b')), tr, XOk VUnit)
          else None
      | _, _ => None
      end
  | PConvAssign d s =>                                       (* u179-184 s134-146 g161-166: temp(move(that)); swap(temp); ~temp *)
      match get os d, get os s with
      | Some (k, a), Some (k', b) =>
          if conv_ok k k' then
            match do_conv k k' b tr with
            | (Some t, b', tr', _) =>
                let (a', t') := do_swap a t in
                let os' := upd (upd os d (Some (k, a'))) s (Some (k', b')) in
                match do_dtor k t' tr' with
                | (tr2, XOk v) => Some (os', tr2, XOk v)
                | (tr2, x) => Some (os' ++ [Some (k, t')], tr2, x)
                end
            | (None, b', tr', x) => Some (upd os s (Some (k', b')), tr', x)
            end
          else None
      | _, _ => None
      end
  | PLock d =>
      match get os d with
      | Some (k, l) => match do_lock k l tr with (l', tr', x) => Some (upd os d (Some (k, l')), tr', x) end
      | None => None
      end
  | PTry d =>
      match get os d with
      | Some (k, l) => match do_trylock (MTry k) l tr with (l', tr', x) => Some (upd os d (Some (k, l')), tr', x) end
      | None => None
      end
  | PTimed d =>
      match get os d with
      | Some (k, l) => match do_trylock (MTimed k) l tr with (l', tr', x) => Some (upd os d (Some (k, l')), tr', x) end
      | None => None
      end
  | PUnlock d =>
      match get os d with
      | Some (k, l) => match do_unlock k l tr with (l', tr', x) => Some (upd os d (Some (k, l')), tr', x) end
      | None => None
      end
  | PRelease d =>
      match get os d with
      | Some (k, l) =>
          let (l', p) := do_release l in
          let tr' := match lm l with Some m => if ll l then tr ++ [EvRelease m k] else tr | None => tr end in
          Some (upd os d (Some (k, l')), tr', XOk (VPtr p))
      | None => None
      end
  | PSwap d s =>                                                                                  (* u290-305; d = s allowed *)
      match get os d, get os s with
      | Some (k, a), Some (k', b) =>
          if kind_eqb k k' then
            let (a', b') := do_swap a b in Some (upd (upd os d (Some (k, a'))) s (Some (k', b')), tr, XOk VUnit)
          else None
      | _, _ => None
      end
  | POwns d =>                                                        (* u265-275 s227-237 g247-257: owns_lock, operator bool, ! *)
      match get os d with Some (k, l) => Some (os, tr, XOk (VBool (ll l))) | None => None end
  | PMutex d =>                                                                                   (* u277-280 s239-242 g259-262 *)
      match get os d with Some (k, l) => Some (os, tr, XOk (VPtr (lm l))) | None => None end
  end.

(** A program goes on after an exception (the user caught it) and stops for good at std::terminate. A client program; no counterpart in /repo. *)
Fixpoint lrun (os : store) (tr : trace) (ps : list lop) : option (store * trace * list xres) :=
  match ps with
  | [] => Some (os, tr, [])
  | p :: ps' =>
      match lstep os tr p with
      | None => None
      | Some (os', tr', x) =>
          match x with
          | XTerm | XUndef => Some (os', tr', [x])
          | _ => match lrun os' tr' ps' with
                 | Some (os2, tr2, xs) => Some (os2, tr2, x :: xs)
                 | None => None
                 end
          end
      end
  end.
End Ops.
