(** Specification of auto-reset events and semaphores, independent of any implementation. *)
From Coq Require Import List Bool Arith ZArith.
From Verif Require Import ListSum Exec Lin.
Import ListNotations.
Local Open Scope Z_scope.

(** post / wait / try_wait / any timed wait. *)
Inductive eop := EPost | EWait | ETry | ETimed.
Inductive eres := EOk | ETrue | EFalse.

(** The abstract state is the number of undelivered posts.  What a post does to it: *)
Definition post_binary (c c' : Z) : Prop := c' = 1.                          (* event: signalled, once *)
Definition post_count (c c' : Z) : Prop := c' = c + 1.                       (* semaphore *)
Definition post_absorb (c c' : Z) : Prop := c' = c + 1 \/ (1 <= c /\ c' = c). (* event that may remember several posts *)

Inductive etrans (post : Z -> Z -> Prop) : eop -> Z -> eres -> Z -> Prop :=
| et_post c c' : post c c' -> etrans post EPost c EOk c'
| et_wait c : 0 < c -> etrans post EWait c EOk (c - 1)
| et_try_t c : 0 < c -> etrans post ETry c ETrue (c - 1)
| et_try_f : etrans post ETry 0 EFalse 0
| et_timed_t c : 0 < c -> etrans post ETimed c ETrue (c - 1)
| et_timed_f : etrans post ETimed 0 EFalse 0.

Definition ev_spec (i : Z) (post : Z -> Z -> Prop) : spec := {|
  op := eop; res := eres; ost := Z; mode := unit;
  oinit := i; minit := tt; pre := fun _ _ => true; next := fun _ _ _ => tt;
  otrans := fun _ o s r s' => etrans post o s r s' |}.

(** The specification with an arbitrary transition relation. *)
Definition ev_gen (i : Z) (trans : eop -> Z -> eres -> Z -> Prop) : spec := {|
  op := eop; res := eres; ost := Z; mode := unit;
  oinit := i; minit := tt; pre := fun _ _ => true; next := fun _ _ _ => tt;
  otrans := fun _ o s r s' => trans o s r s' |}.

(** Variant in which a try or timed wait may also fail although the count is positive (spurious failure). *)
Definition etrans_sp (post : Z -> Z -> Prop) (o : eop) (c : Z) (r : eres) (c' : Z) : Prop :=
  etrans post o c r c' \/ ((o = ETry \/ o = ETimed) /\ r = EFalse /\ c' = c).
Definition ev_spec_sp (i : Z) (post : Z -> Z -> Prop) : spec := ev_gen i (etrans_sp post).

(** Functions of a history alone. *)
Definition posts_called (tr : list (event eop eres)) : Z :=
  sumf (fun e => match e with Call _ EPost => 1 | _ => 0 end) tr.
Definition posts_returned (tr : list (event eop eres)) : Z :=
  sumf (fun e => match e with Ret _ EPost _ => 1 | _ => 0 end) tr.
(** Completed waits: wait returned, try_wait / timed wait returned true. *)
Definition took (o : eop) (r : eres) : Z :=
  match o, r with EWait, _ => 1 | ETry, ETrue | ETimed, ETrue => 1 | _, _ => 0 end.
Definition takes (tr : list (event eop eres)) : Z :=
  sumf (fun e => match e with Ret _ o r => took o r | _ => 0 end) tr.
