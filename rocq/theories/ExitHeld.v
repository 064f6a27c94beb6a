(** Process exit on Windows while m_mutex is held by a thread that was stopped: ProcExit.v without its assumption.
    /repo/src/tss_windows.cpp ("W:"), /repo/src/tss_manager.hpp ("M:").

    When a process ends, Windows stops all threads but one wherever they are, also inside the sections of the manager protected by m_mutex (M:144-145, M:189-192, M:198-219, M:224-247).
    m_mutex is then never unlocked.  on_process_exit (W:140-150) deletes the manager, whose destructor (M:134-138) calls destroy_thread_context, which locks m_mutex (M:190).
    The state a stopped thread leaves behind is that before its section: what the section had written until then is left out. *)
From Coq Require Import List Bool Arith ZArith Lia.
From Verif Require Import ListSum Exec TssModel ProcExit TssFail.
Import ListNotations.

(** The step of TssModel.v contains a section protected by m_mutex: new_key M:198-219, delete_key M:224-247, create_thread_context M:144-145 and the end of destroy_thread_context M:189-192. *)
Definition section (s : tsh) (th : thr) (a : tact2) : bool :=
  match a with
  | ANew _ _ _ | ADel _ _ => true
  | AStep _ => match stk th, est th with [], ExNot _ _ [] => true | _, _ => false end
  | _ => creates s a && match fail_of a with FCtx => false | _ => true end
  end.

(** Thread [u], not the one that ends the process, was stopped inside such a section: it has begun the step [a], which it can do (M:144, M:190, M:198, M:224). *)
Definition stopped_inside (c : tss_st) (t0 u : nat) (a : tact2) : Prop :=
  u <> t0 /\ thread_of a = u /\ (exists th, nth_error (snd c) u = Some th /\ section (fst c) th a = true) /\ exists c' e, tss_step Win c a = Some (c', e).

(** The next step of the destructor locks m_mutex: M:190. *)
Definition locks (q : pst) (a : pact) : bool := match a, pstk q, pph q with PStep, [], PNot _ [] => true | _, _, _ => false end.

(** ProcExit.v's step; with [held], lock() at M:190 does not return.  W:140-150, M:134-194. *)
Definition h_step (held ctls : bool) (t0 : nat) (q : pst) (a : pact) : option (pst * list tev) :=
  if held && locks q a then None else pe_step ctls t0 q a.
