(** How the Windows loader and the C runtime reach on_thread_exit and on_process_exit.
    /repo/src/tss_windows_dll.cpp ("D:"), /repo/src/tss_windows_pe.cpp ("E:"), /repo/src/tss_windows_hooks.hpp ("H:"), /repo/src/tss_windows.cpp ("W:").

    The machine [hk_step] contains TssModel's (platform Win) and ProcExit's.  A thread does not call on_thread_exit by itself, as TssModel's action AExit allows: the loader notifies
    the module, and the module's code for the build ([hooks]) decides which of the four functions of H:33-59 run.
    Trusted facts about the loader and the C runtime, not visible in /repo: a thread that ends is notified with DLL_THREAD_DETACH on that thread; when the process ends in an orderly way,
    the ending thread runs exit(): functions registered with atexit in reverse order, the terminators in .CRT$XT*, .dtors, and DLL_PROCESS_DETACH; a DLL is notified after the other threads
    have been stopped, code that exit() runs in the executable itself is not; for a DLL that contains the static library, the runtime runs the DLL's own atexit functions and
    terminators on DLL_PROCESS_DETACH, then _pRawDllMain; TLS callbacks are called by the loader for each reason.
    Between on_thread_exit and on_process_exit the main thread of an executable runs the destructors of global objects (E:247-254); after on_thread_exit a thread has no context and is as good as
    a new one, so that code is the code of another thread of the machine. *)
From Coq Require Import List Bool Arith ZArith Lia.
From Verif Require Import ListSum Exec TssModel TssExit ProcExit.
Import ListNotations.

(** The functions of H:33-59. *)
Inductive hook := HProcIn | HProcOut | HThrIn | HThrOut.
(** The reasons D:25-49, E:43-50, E:273-278, E:287-295. *)
Inductive note := NProcIn | NThrIn | NThrOut | NProcOut.
(** D: the shared library. E:88-303, MSVC: the static library in an executable, and in a DLL. E:14-62, MinGW with TLS callbacks in .CRT$XLB. E:60-84, older MinGW. *)
Inductive build := BDll | BMsvcExe | BMsvcDll | BMingw | BMingwOld.

(** What is called on which notification, in this order. *)
Definition hooks (b : build) (n : note) : list hook :=
  match b, n with
  | BDll, NProcIn => [HProcIn; HThrIn]                        (* D:25-30 *)
  | BDll, NThrIn => [HThrIn]                                  (* D:32-36 *)
  | BDll, NThrOut => [HThrOut]                                (* D:38-42 *)
  | BDll, NProcOut => [HThrOut; HProcOut]                     (* D:44-49 *)
  | BMsvcExe, NProcIn => [HProcIn]                            (* E:245-263 *)
  | BMsvcExe, NThrIn => []
  | BMsvcExe, NThrOut => [HThrOut]                            (* E:275-277 *)
  | BMsvcExe, NProcOut => [HThrOut; HProcOut]                 (* E:256 atexit, then E:265-269 through E:163 E:192 *)
  | BMsvcDll, NProcIn => [HProcIn]                            (* E:245-263 *)
  | BMsvcDll, NThrIn => []
  | BMsvcDll, NThrOut => [HThrOut; HThrOut]                   (* E:275-277 and E:289-291 *)
  | BMsvcDll, NProcOut => [HThrOut; HProcOut; HProcOut]       (* E:256, E:265-269, E:292-294 *)
  | BMingw, NThrOut => [HThrOut]                              (* E:45-48, E:59 *)
  | BMingw, _ => []
  | BMingwOld, NProcIn => [HProcIn]                           (* E:64 *)
  | BMingwOld, NProcOut => [HThrOut; HProcOut]                (* E:65-66 *)
  | BMingwOld, _ => []                                        (* on_tls_callback is not referenced by E:63-84 *)
  end.

(** Do other threads run on while the hooks of NProcOut are called?  Those called by exit() in the executable: yes. E:256, E:163, E:65-66. *)
Definition runs_on (b : build) : bool := match b with BMsvcExe | BMingwOld => true | _ => false end.

(** [hq]: per thread, the hooks still to be called once it has been told to end, W:140-165; [hend]: the thread that ends the process; [hfin]: on_process_exit has begun. *)
Record hst := HS { hlib : tss_st; hq : list (option (list hook)); hend : option nat; hfin : option (nat * pst) }.

(** What happens: a notification, a call of one of the functions of H:33-59, an event of the library (TssModel.v, W:136-234). *)
Inductive hevt := VNote (t : nat) (n : note) | VHook (t : nat) (h : hook) | VLib (e : tev).
(** Who acts: D:22-53, E:41-50, E:245-303 and the program. *)
Inductive hact :=
| KLib (a : tact2)                      (* the program, or the library inside on_thread_exit *)
| KNote (t : nat) (n : note)            (* the loader notifies thread [t] that it (NThrOut) or the process (NProcOut) ends *)
| KHook (t : nat)                       (* the next hook is called *)
| KFin (a : pact)                       (* on_process_exit, ProcExit.v *)
| KLate (t : nat) (a : pact).           (* another thread while or after on_process_exit runs: a library call, or on_thread_exit *)

(** May thread [t] still run?  The ending thread is the one of D:44-49, E:256, E:292-294. *)
Definition may_run (b : build) (c : hst) (t : nat) : bool := match hend c with None => true | Some t0 => (t =? t0)%nat || runs_on b end.
(** The thread is in its own code, not in the library (W:156-234): it can be told to end. *)
Definition at_rest (th : thr) : bool := match stk th, est th with [], Running => true | _, _ => false end.
(** The library's events, W:136-234. *)
Definition lib_evs (e : list tev) : list hevt := map VLib e.

(** D:22-53, E:41-50, E:245-303, W:136-165. *)
Definition hk_step (b : build) (ctls : bool) (c : hst) (a : hact) : option (hst * list hevt) :=
  match a with
  | KLib a' =>
      let t := thread_of a' in
      match hfin c, nth_error (snd (hlib c)) t, nth_error (hq c) t with
      | None, Some th, Some q =>
          match a' with
          | AExit _ => None
          | _ => if may_run b c t && negb (at_rest th && match q with Some _ => true | None => false end) then
                   match tss_step Win (hlib c) a' with Some (l, e) => Some (HS l (hq c) (hend c) None, lib_evs e) | None => None end
                 else None
          end
      | _, _, _ => None
      end
  | KNote t n =>
      match nth_error (snd (hlib c)) t, nth_error (hq c) t with
      | Some th, Some None =>
          if at_rest th && match hfin c with None => true | Some _ => false end then
            match n, hend c with
            | NThrOut, None => Some (HS (hlib c) (upd (hq c) t (Some (hooks b NThrOut))) None None, [VNote t n])
            | NThrOut, Some t0 => if runs_on b then Some (HS (hlib c) (upd (hq c) t (Some (hooks b NThrOut))) (Some t0) None, [VNote t n]) else None
            | NProcOut, None => Some (HS (hlib c) (upd (hq c) t (Some (hooks b NProcOut))) (Some t) None, [VNote t n])
            | _, _ => None
            end
          else None
      | _, _ => None
      end
  | KHook t =>
      match nth_error (snd (hlib c)) t, nth_error (hq c) t with
      | Some th, Some (Some (h :: r)) =>
          if may_run b c t then
            match h, est th, stk th, hfin c with
            | (HProcIn | HThrIn), _, _, None => Some (HS (hlib c) (upd (hq c) t (Some r)) (hend c) None, [VHook t h])        (* W:136-138 W:152-154 *)
            | HThrOut, Running, [], None =>
                match tss_step Win (hlib c) (AExit t) with
                | Some (l, e) => Some (HS l (upd (hq c) t (Some r)) (hend c) None, VHook t h :: lib_evs e)
                | None => None
                end
            | HThrOut, Done, [], None => match slot (fst (hlib c)) t with                                                    (* once more: W:160 *)
                                         | None => Some (HS (hlib c) (upd (hq c) t (Some r)) (hend c) None, [VHook t h])
                                         | Some _ => None
                                         end
            | HProcOut, (Running | Done), [], None => Some (HS (hlib c) (upd (hq c) t (Some r)) (hend c) (Some (t, pe_start (fst (hlib c)))), [VHook t h])      (* W:142-144 *)
            | HProcOut, (Running | Done), [], Some (t0, q) =>
                if (t =? t0)%nat then
                  match pph q, pe_step ctls t0 q PAgain with
                  | PEnd, Some (q', e) => Some (HS (hlib c) (upd (hq c) t (Some r)) (hend c) (Some (t0, q')), VHook t h :: lib_evs e)
                  | _, _ => None
                  end
                else None
            | _, _, _, _ => None
            end
          else None
      | _, _ => None
      end
  | KFin a' =>
      match hfin c with
      | Some (t0, q) => match pph q, a' with
                        | PEnd, _ => None
                        | _, _ => match pe_step ctls t0 q a' with Some (q', e) => Some (HS (hlib c) (hq c) (hend c) (Some (t0, q')), lib_evs e) | None => None end
                        end
      | None => None
      end
  | KLate t a' =>
      match hfin c, nth_error (snd (hlib c)) t, nth_error (hq c) t with
      | Some (t0, q), Some th, Some o =>
          if negb (t =? t0)%nat && runs_on b && at_rest th && negb (crashed q) then
            match a', o with
            | (PAtExit | PNotExit _ | PNew _ _ | PDel _ | PGet _), None =>
                match pe_user t q a' with Some (q', e) => Some (HS (hlib c) (hq c) (hend c) (Some (t0, q')), lib_evs e) | None => None end
            | PThreadExit, None =>                                                                                           (* the thread ends, E:275-277, W:156-165 *)
                match hooks b NThrOut with
                | [] => Some (HS (hlib c) (upd (hq c) t (Some [])) (hend c) (Some (t0, q)), [VNote t NThrOut])
                | _ => match access_of (psh q) t with
                       | ANone => Some (HS (hlib c) (upd (hq c) t (Some [])) (hend c) (Some (t0, q)), [VNote t NThrOut; VHook t HThrOut])
                       | _ => Some (HS (hlib c) (upd (hq c) t (Some [])) (hend c) (Some (t0, PS (psh q) (pstk q) (pph q) true)), [VNote t NThrOut; VHook t HThrOut])      (* W:162 *)
                       end
                end
            | _, _ => None
            end
          else None
      | _, _, _ => None
      end
  end.

(** D:25-30, E:245-263: nothing has been registered when the process starts; on_process_enter and on_thread_enter do nothing (W:136-138 W:152-154). *)
Definition hk_init (n : nat) : hst := HS (tss_init n) (repeat None n) None None.

(** What the program sees of a history, P:43-103, M:134-194. *)
Definition libs (tr : list hevt) : list tev := flat_map (fun e => match e with VLib e => [e] | _ => [] end) tr.
(** The process has ended: every hook of the ending thread (D:44-49, E:256, E:265-269, E:292-294, E:65-66) has been called and has returned. *)
Definition ended (c : hst) : Prop := exists t0, hend c = Some t0 /\ nth_error (hq c) t0 = Some (Some []) /\ match hfin c with Some (_, q) => pph q = PEnd | None => exists th, nth_error (snd (hlib c)) t0 = Some th /\ stk th = [] /\ (est th = Running \/ est th = Done) end.
(** The thread has ended: every hook (D:38-42, E:45-48, E:275-277, E:289-291) has been called and has returned. *)
Definition thread_ended (c : hst) (t : nat) : Prop := nth_error (hq c) t = Some (Some []) /\ exists th, nth_error (snd (hlib c)) t = Some th /\ stk th = [] /\ (est th = Running \/ est th = Done).

(** ** on_tls_prepare, E:204-240: the part for MSVC 6.
    The memory from __xl_a to __xl_z inclusive is a list, 0 the null pointer; [i] pfbegin, [d] pfdst. *)
Fixpoint prepare_loop (fuel : nat) (mem : list nat) (i d stop : nat) : list nat * nat :=
  match fuel with
  | O => (mem, d)
  | S f => if (i <? stop)%nat then                                                         (* E:226 *)
             match nth i mem 0%nat with
             | O => prepare_loop f mem (S i) d stop                                        (* E:233 *)
             | v => prepare_loop f (upd mem d v) (S i) (S d) stop                          (* E:228-233 *)
             end
           else (mem, d)
  end.
(** E:217-236; [length mem - 1] is the position of __xl_z. *)
Definition prepare (mem : list nat) : list nat :=
  let (m, d) := prepare_loop (length mem) mem 0 0 (length mem - 1) in upd m d 0%nat.
(** The loader calls the entries up to the first null pointer: the system's reading of the array that E:217-236 rearranges. *)
Fixpoint callbacks (mem : list nat) : list nat := match mem with [] => [] | O :: _ => [] | v :: r => v :: callbacks r end.
