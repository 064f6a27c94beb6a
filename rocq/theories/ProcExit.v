(** Process exit on Windows.
    /repo/src/tss_windows.cpp ("W:"), /repo/src/tss_manager.hpp ("M:"), /repo/src/tss_windows_dll.cpp, /repo/src/tss_windows_pe.cpp, /repo/src/tss_windows_hooks.hpp.

    [pexec] starts where an execution of TssModel's machine has stopped: one thread, [t0], calls on_process_exit (W:140-150), all other threads have been stopped by the operating system
    wherever they were (not inside a section protected by m_mutex: those are single steps of TssModel).  tss_mgr is a null pointer from W:143 on, so every library function that
    needs the manager fails: it dereferences the null pointer ([crashed]).  The user functions called by the manager's destructor (M:134-138) may call any library function.
    [ctls]: BOOST_SYNC_DETAIL_TLS is defined (the context pointer is a thread-local variable, W:45); otherwise it is kept under a TLS index (W:47), which W:147-148 release. *)
From Coq Require Import List Bool Arith ZArith Lia.
From Verif Require Import ListSum Exec TssModel.
Import ListNotations.

Inductive pphase :=
| PWalk                                         (* M:136-137 *)
| PAt (x : nat) (fs : list nat)                 (* M:153-162 *)
| PTls (x k : nat) (st : list nat)              (* M:165-179 *)
| PNot (x : nat) (ms : list nat)                (* M:182-193 *)
| PEnd.                                         (* on_process_exit has returned *)

(** M:134-194, W:140-150. *)
Record pst := PS { psh : tsh; pstk : list frame; pph : pphase; crashed : bool }.

Inductive pact :=
| PStep | PRet
| PNew (cb : option nat) (fl : bool) | PDel (p : nat)
| PGet (p : nat) | PRelease (p : nat) | PReset (p v : nat)
| PAtExit | PNotExit (m : nat)
| PThreadExit                                   (* on_thread_exit, W:156-165 *)
| PAgain.                                       (* on_process_exit once more *)

(** What get_thread_context() (W:110-113 W:121-124) gives thread [t0]: no context, a live one, or a pointer to one that was deleted. *)
Inductive access := ANone | ALive (x : nat) (c : ctx) | ADangling.
(** W:110-113, W:121-124. *)
Definition access_of (s : tsh) (t0 : nat) : access :=
  match slot s t0 with
  | None => ANone
  | Some x => match ctx_of s x with Some c => ALive x c | None => ADangling end
  end.

(** M:137 m_thread_contexts.front(): contexts are appended when created (M:145), so the front is the oldest one. *)
Fixpoint front_from (x : nat) (l : list (option ctx)) : option nat :=
  match l with [] => None | Some _ :: _ => Some x | None :: l' => front_from (S x) l' end.
(** M:137. *)
Definition front (s : tsh) : option nat := front_from 0 (ctxs s).

(** W:147-148. *)
Definition free_index (ctls : bool) (s : tsh) : tsh :=
  if ctls then s else TS (keys s) (freed s) (ctxs s) (tptrs s) (map (fun _ => None) (slots s)) (nreg s).

(** The destructor of the manager, M:134-138, with destroy_thread_context, M:150-194, called for every context on thread [t0]. *)
Definition pe_run (ctls : bool) (t0 : nat) (q : pst) : option (pst * list tev) :=
  let s := psh q in
  match pstk q with
  | FUser :: _ => None
  | FRun cb (v :: vs) :: r => Some (PS s (FUser :: FRun cb vs :: r) (pph q) false, [ECall t0 cb v])
  | FRun cb [] :: r => Some (PS s r (pph q) false, [])
  | [] =>
      match pph q with
      | PWalk => match front s with
                 | Some x => Some (PS s [] (PAt x []) false, [])
                 | None => Some (PS (free_index ctls s) [] PEnd false, [])
                 end
      | PAt x (f :: fs) => Some (PS s [FUser] (PAt x fs) false, [ERun t0 f])
      | PAt x [] =>
          match ctx_of s x with
          | None => None
          | Some c => match atexit c with
                      | [] => Some (PS s [] (PTls x 0 []) false, [])
                      | l => Some (PS (set_ctx s x (Some (X (xown c) (storage c) [] (notif c)))) [] (PAt x (rev l)) false, [])
                      end
          end
      | PTls x k st =>
          match nth_error st k with
          | Some O => Some (PS s [] (PTls x (S k) st) false, [])
          | Some v => match nth_error (keys s) k with
                      | Some (Some cb, _) => Some (PS s [FUser] (PTls x (S k) st) false, [ECall t0 cb v])
                      | _ => Some (PS s [] (PTls x (S k) st) false, [])
                      end
          | None =>
              match ctx_of s x with
              | None => None
              | Some c => match storage c with
                          | [] => Some (PS s [] (PNot x (notif c)) false, [])
                          | l => Some (PS (set_ctx s x (Some (X (xown c) [] (atexit c) (notif c)))) [] (PTls x 0 l) false, [])
                          end
              end
          end
      | PNot x (m :: ms) => Some (PS s [] (PNot x ms) false, [ENotified t0 m])
      | PNot x [] => Some (PS (set_ctx s x None) [] PWalk false, [])
      | PEnd => None
      end
  end.

(** A null tss_mgr (W:143) or a deleted context is dereferenced. *)
Definition crash (q : pst) : option (pst * list tev) := Some (PS (psh q) (pstk q) (pph q) true, []).

(** The library called by user code of thread [t0] while tss_mgr is null. *)
Definition pe_user (t0 : nat) (q : pst) (a : pact) : option (pst * list tev) :=
  let s := psh q in
  match a with
  | PNew _ _ => crash q                                                                        (* W:197-201 *)
  | PDel p => match nth_error (tptrs s) p with Some o => if palive o then crash q else None | None => None end      (* W:203-213 *)
  | PGet p =>                                                                                  (* W:215-221 *)
      match nth_error (tptrs s) p with
      | Some o => if palive o then
                    match access_of s t0 with
                    | ANone => Some (q, [EGet t0 p 0])
                    | ALive x c => Some (q, [EGet t0 p (getv (storage c) (pkey o))])
                    | ADangling => crash q
                    end
                  else None
      | None => None
      end
  | PRelease p =>                                                                              (* P:86-92 *)
      match nth_error (tptrs s) p with
      | Some o => if palive o then
                    match access_of s t0 with
                    | ANone => Some (q, [])
                    | ALive x c => let v := getv (storage c) (pkey o) in
                                   if v =? 0 then Some (q, []) else Some (PS (set_value s t0 (pkey o) 0) (pstk q) (pph q) false, [ERel t0 p (pcb o) v])
                    | ADangling => crash q
                    end
                  else None
      | None => None
      end
  | PReset p v =>                                                                              (* P:94-103, W:223-234 *)
      match nth_error (tptrs s) p with
      | Some o => if palive o then
                    match access_of s t0 with
                    | ANone => if v =? 0 then Some (q, []) else crash q
                    | ALive x c => let old := getv (storage c) (pkey o) in
                                   if old =? v then Some (q, []) else
                                   Some (PS (set_value s t0 (pkey o) v) ((match pcb o with Some cb => if old =? 0 then [] else [FRun cb [old]] | None => [] end) ++ pstk q) (pph q) false,
                                         [ESet t0 p (pcb o) v])
                    | ADangling => crash q
                    end
                  else None
      | None => None
      end
  | PAtExit =>                                                                                 (* W:183-195 *)
      match access_of s t0 with
      | ALive x c => Some (PS (TS (keys s) (freed s) (upd (ctxs s) x (Some (X (xown c) (storage c) (atexit c ++ [nreg s]) (notif c)))) (tptrs s) (slots s) (S (nreg s))) (pstk q) (pph q) false,
                           [EReg t0 (nreg s)])
      | _ => crash q
      end
  | PNotExit m =>                                                                              (* W:169-181 *)
      match access_of s t0 with
      | ALive x c => Some (PS (set_ctx s x (Some (X (xown c) (storage c) (atexit c) (notif c ++ [m])))) (pstk q) (pph q) false, [ENot t0 m])
      | _ => crash q
      end
  | PRet => match pstk q with FUser :: r => Some (PS s r (pph q) false, []) | _ => None end
  | PThreadExit => match pstk q, pph q with                                                    (* W:156-165; init_tss_once does nothing a second time *)
                   | [], PEnd => match access_of s t0 with ANone => Some (q, []) | _ => crash q end
                   | _, _ => None
                   end
  | PAgain => match pstk q, pph q with [], PEnd => Some (PS (free_index true s) [] PEnd false, []) | _, _ => None end      (* W:140-150: delete of a null pointer; TlsFree of an invalid index fails *)
  | PStep => None
  end.

(** Is user code running?  Inside a called function, or after on_process_exit has returned. User code may run while no library frame of M:134-194 is on top. *)
Definition puser (q : pst) : bool := match pstk q with FUser :: _ => true | FRun _ _ :: _ => false | [] => match pph q with PEnd => true | _ => false end end.

(** W:140-150, with calls of W:156-234 from user functions. *)
Definition pe_step (ctls : bool) (t0 : nat) (q : pst) (a : pact) : option (pst * list tev) :=
  if crashed q then None else
  match a with PStep => pe_run ctls t0 q | _ => if puser q then pe_user t0 q a else None end.

(** W:142-144: tss_mgr is null from here on. *)
Definition pe_start (s : tsh) : pst := PS s [] PWalk false.
