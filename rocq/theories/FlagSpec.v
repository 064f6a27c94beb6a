(** Specification of manual-reset events: an atomic boolean.  Independent of any implementation. *)
From Coq Require Import List Bool Arith ZArith.
From Verif Require Import ListSum Exec Lin.
Import ListNotations.

Inductive fop := FSet | FReset | FWait | FTry | FTimed.
Inductive fres := FOk | FTrue | FFalse.

Inductive ftrans : fop -> bool -> fres -> bool -> Prop :=
| ft_set b : ftrans FSet b FOk true
| ft_reset b : ftrans FReset b FOk false
| ft_wait : ftrans FWait true FOk true
| ft_try_t : ftrans FTry true FTrue true
| ft_try_f : ftrans FTry false FFalse false
| ft_timed_t : ftrans FTimed true FTrue true
| ft_timed_f : ftrans FTimed false FFalse false.

Definition flag_spec (i : bool) : spec := {|
  op := fop; res := fres; ost := bool; mode := unit;
  oinit := i; minit := tt; pre := fun _ _ => true; next := fun _ _ _ => tt;
  otrans := fun _ o s r s' => ftrans o s r s' |}.
