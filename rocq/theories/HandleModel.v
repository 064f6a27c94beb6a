(** detail::windows::auto_handle, the scope guard for Windows handles (detail/auto_handle.hpp; cited as ah).  No other header of
    the library uses it at this commit.  A program owns any number of auto_handle objects and calls their members in any
    order; the trace records what happens to the handles. *)
From Coq Require Import List Bool ZArith.
Import ListNotations.
Local Open Scope Z_scope.

(** NULL and invalid_handle_value, ah 61. *)
Definition NULL : Z := 0.
(** ah 61. *)
Definition INVALID : Z := -1.
(** The test of ah 61: a handle that has to be closed. *)
Definition real (h : Z) : bool := negb (h =? NULL) && negb (h =? INVALID).

(** What happens to a handle: an object takes it over (ah 50, 65), it is closed (ah 63), it is handed out for good (ah 86-87), or the
    system makes it as a copy (ah 94). *)
Inductive hev := Adopt (h : Z) | Close (h : Z) | Give (h : Z) | Made (h : Z).

(** The members; [answer] of Duplicate: the handle DuplicateHandle makes, None if it fails. *)
Inductive hop :=
| New (h : Z)                       (* auto_handle(h = NULL), ah 50-52 *)
| Destroy (o : nat)                 (* ~auto_handle(), ah 54-57 *)
| Reset (o : nat) (h : Z)           (* reset(h = NULL), ah 59-66 *)
| Get (o : nat)                     (* get(), operator HANDLE_, ah 68-76 *)
| Not (o : nat)                     (* operator!, ah 78-81 *)
| Release (o : nat)                 (* release(), ah 83-88 *)
| Duplicate (o : nat) (answer : option Z)  (* duplicate(), ah 90-100 *)
| Swap (a b : nat).                 (* swap(), ah 102-107 *)

(** What the member returns or throws (resource_error, ah 97). *)
Inductive hret := RVoid | RHandle (h : Z) | RBool (b : bool) | RThrow.

(** The objects; None: not alive (destroyed).  Copying is deleted, ah 109-110. *)
Definition hstate := list (option Z).

(** Assign to one object. No counterpart in /repo. *)
Fixpoint put (l : hstate) (i : nat) (x : option Z) : hstate :=
  match l, i with [], _ => [] | _ :: l', O => x :: l' | y :: l', S i' => y :: put l' i' x end.

(** ah 59-66: close the old handle if it is one, then store the new one. *)
Definition reset (m h : Z) : Z * list hev := (h, (if real m then [Close m] else []) ++ [Adopt h]).

(** One call; None: the program uses an object that is not alive. ah 50-107. *)
Definition hstep (s : hstate) (op : hop) : option (hstate * list hev * hret) :=
  match op with
  | New h => Some (s ++ [Some h], [Adopt h], RVoid)
  | Destroy o =>
      match nth_error s o with
      | Some (Some m) => let '(_, ev) := reset m NULL in Some (put s o None, ev, RVoid)
      | _ => None
      end
  | Reset o h =>
      match nth_error s o with
      | Some (Some m) => let '(m', ev) := reset m h in Some (put s o (Some m'), ev, RVoid)
      | _ => None
      end
  | Get o => match nth_error s o with Some (Some m) => Some (s, [], RHandle m) | _ => None end
  | Not o => match nth_error s o with Some (Some m) => Some (s, [], RBool (m =? NULL)) | _ => None end
  | Release o =>
      match nth_error s o with
      | Some (Some m) => Some (put s o (Some NULL), [Give m], RHandle m)
      | _ => None
      end
  | Duplicate o a =>
      match nth_error s o, a with
      | Some (Some _), Some n => Some (s, [Made n], RHandle n)
      | Some (Some _), None => Some (s, [], RThrow)
      | _, _ => None
      end
  | Swap a b =>
      match nth_error s a with
      | Some (Some x) =>
          match nth_error s b with
          | Some (Some y) => Some (put (put s a (Some y)) b (Some x), [], RVoid)
          | _ => None
          end
      | _ => None
      end
  end.

(** A program: a list of calls. No counterpart in /repo. *)
Fixpoint hrun (s : hstate) (ops : list hop) : option (hstate * list hev * list hret) :=
  match ops with
  | [] => Some (s, [], [])
  | op :: ops' =>
      match hstep s op with
      | Some (s1, ev, r) =>
          match hrun s1 ops' with Some (s2, evs, rs) => Some (s2, ev ++ evs, r :: rs) | None => None end
      | None => None
      end
  end.
