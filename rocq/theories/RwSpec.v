(** Specification of a readers-writer mutex, independent of any implementation. *)
From Coq Require Import List Bool Arith ZArith.
From Verif Require Import ListSum Exec Lin.
Import ListNotations.
Local Open Scope Z_scope.

(** lock / try_lock / unlock, lock_shared / try_lock_shared / unlock_shared *)
Inductive rop := XLock | XTry | XUnlock | SLock | STry | SUnlock.
Inductive rres := QOk | QTrue | QFalse.

(** What the client thread holds. *)
Inductive rmode := HNone | HExcl | HShared.

Definition rpre (m : rmode) (o : rop) : bool :=
  match o, m with
  | XUnlock, HExcl | SUnlock, HShared => true
  | XLock, HNone | XTry, HNone | SLock, HNone | STry, HNone => true
  | _, _ => false
  end.

Definition rnext (m : rmode) (o : rop) (r : rres) : rmode :=
  match o, r with
  | XLock, _ | XTry, QTrue => HExcl
  | SLock, _ | STry, QTrue => HShared
  | XUnlock, _ | SUnlock, _ => HNone
  | _, _ => m
  end.

(** Abstract state: exclusive owner and number of shared owners. *)
Definition rwst : Type := (option nat * Z)%type.

(** [sp]: is try_lock_shared allowed to fail although no thread owns the mutex exclusively? *)
Inductive rtrans (sp : bool) (t : nat) : rop -> rwst -> rres -> rwst -> Prop :=
| rt_xlock : rtrans sp t XLock (None, 0) QOk (Some t, 0)
| rt_xtry_t : rtrans sp t XTry (None, 0) QTrue (Some t, 0)
| rt_xtry_f w r : (w <> None \/ 0 < r) -> rtrans sp t XTry (w, r) QFalse (w, r)
| rt_xunlock : rtrans sp t XUnlock (Some t, 0) QOk (None, 0)
| rt_slock r : 0 <= r -> rtrans sp t SLock (None, r) QOk (None, r + 1)
| rt_stry_t r : 0 <= r -> rtrans sp t STry (None, r) QTrue (None, r + 1)
| rt_stry_f w r : (w <> None \/ sp = true) -> rtrans sp t STry (w, r) QFalse (w, r)
| rt_sunlock r : 0 < r -> rtrans sp t SUnlock (None, r) QOk (None, r - 1).

Definition rw_spec (sp : bool) : spec := {|
  op := rop; res := rres; ost := rwst; mode := rmode;
  oinit := (None, 0); minit := HNone; pre := rpre; next := rnext;
  otrans := fun t o s r s' => rtrans sp t o s r s' |}.

(** Who holds what, read off a history alone: from the return of a successful
    lock to the call of the matching unlock. *)
Definition rw_hold (t : nat) (tr : list (event rop rres)) : rmode :=
  fold_left (fun m e =>
    match e with
    | Ret u o r => if Nat.eqb t u then rnext m o r else m
    | Call u XUnlock | Call u SUnlock => if Nat.eqb t u then HNone else m
    | Call _ _ => m
    end) tr HNone.
