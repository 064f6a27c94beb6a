(** Model of thread-specific storage and thread-exit functions.
    /repo/src/tss_manager.hpp ("M:"), /repo/src/tss_pthread.cpp ("X:"), /repo/src/tss_windows.cpp ("W:"),
    /repo/include/boost/sync/thread_specific/thread_specific_ptr.hpp ("P:"), .../at_thread_exit.hpp ("A:"),
    /repo/include/boost/sync/condition_variables/notify_all_at_thread_exit.hpp ("N:").

    Any number of threads; every thread runs arbitrary user code, and so does every cleanup and exit function: which library function
    it calls next is chosen by the schedule.  The sections protected by m_mutex are single steps, and so is each access to a context's
    vectors, each call of a user function and each notification.  Values are numbers, 0 is the null pointer.  Cleanup functions are numbers,
    [None] is a null cleanup function.  Exit functions are numbered by registration.  The one-time initialisation is C47's subject.
    Process exit on Windows (W:140-150) is modelled in ProcExit.v. *)
From Coq Require Import List Bool Arith ZArith.
From Verif Require Import ListSum Exec.
Import ListNotations.

(** [Win]: tss_windows.cpp; [Posix lim]: tss_pthread.cpp with a pthread key, whose destructors are run in at most [lim] rounds
    (PTHREAD_DESTRUCTOR_ITERATIONS); [PosixTls]: tss_pthread.cpp with BOOST_SYNC_USE_COMPILER_TLS (config.hpp:57-59), which creates no pthread key. *)
Inductive plat := Win | Posix (lim : nat) | PosixTls.

(** M:50-71; [xown] is the thread the context was created for (not stored by the code, used in proofs only). *)
Record ctx := X { xown : nat; storage : list nat; atexit : list nat; notif : list nat }.
(** P:38-40; [palive]: not destroyed yet. *)
Record tptr := TP { pkey : nat; pcb : option nat; palive : bool }.
(** M:115-119 and M:121-129 (the contexts are listed in order of creation, a destroyed one leaves [None]); [slots]: the thread's context pointer, X:39 X:41 W:45 W:47. *)
Record tsh := TS { keys : list (option nat * bool); freed : list nat; ctxs : list (option ctx); tptrs : list tptr; slots : list (option nat); nreg : nat }.

(** Library and user functions active on the thread's stack: M:250-253, P:100-101, M:160, M:176. *)
Inductive frame :=
| FUser                                 (* a user function called by the library is running *)
| FRun (cb : nat) (vs : list nat).      (* calls of cleanup function [cb] to be made: M:250-253, P:100-101 *)

(** M:150-194 (destroy_thread_context), X:46-52, W:156-165. *)
Inductive estate :=
| Running                                                     (* the thread's own function is running *)
| Iter (n : nat)                                              (* POSIX: pthread's destructor loop, [n] rounds left *)
| ExAt (x n : nat) (fs : list nat)                            (* M:153-162, functions of this round still to be called *)
| ExTls (x n : nat) (k : nat) (st : list nat)                 (* M:165-179 *)
| ExNot (x n : nat) (ms : list nat)                           (* M:182-193 *)
| Done.

(** The stack of a thread and how far its exit has got; no counterpart in /repo. *)
Record thr := Th { stk : list frame; est : estate }.

(** Observable steps of P:43-103, A:48-61, N:53-58, M:150-194. *)
Inductive tev :=
| ENew (t p : nat) (cb : option nat) | EDel (t p : nat)
| EGet (t p v : nat)
| ESet (t p : nat) (cb : option nat) (v : nat)                (* reset installed [v] *)
| ERel (t p : nat) (cb : option nat) (v : nat)                (* release took [v] out *)
| ECall (t cb v : nat)                                        (* cleanup function [cb] is called with [v] *)
| EReg (t f : nat) | ERun (t f : nat)                         (* exit function registered / called *)
| ENot (t m : nat) | ENotified (t m : nat)                    (* notify_all_at_thread_exit registered / mutex unlocked and notified *)
| EUnlk (t m : nat)                                           (* mutex unlocked by the unique_lock when the registration throws *)
| EExit (t : nat) | ETls (t : nat)                            (* the thread exits / its values are about to be destroyed *)
| EDet (t : nat).                                             (* POSIX: pthread has cleared the thread's context pointer and is about to call the key destructor with the old one *)

(** [FNone]: success; [FCtx]: create_thread_context throws; [FPush]: the later vector operation throws. std::bad_alloc (M:142-145, M:85, M:94, M:102) and the like. *)
Inductive failure := FNone | FCtx | FPush.

(** Calls of P:43-103, A:48-61, N:53-58; return of a user function; thread exit; the library's next step. *)
Inductive tact2 :=
| ANew (t : nat) (cb : option nat) (flag : bool) | ADel (t p : nat)
| AGet (t p : nat) | ARelease (t p : nat) | AReset (t p v : nat) (f : failure)
| AAtExit (t : nat) (f : failure) | ANotExit (t m : nat) (f : failure)
| ARet (t : nat) | AExit (t : nat) | AStep (t : nat).

(** Is user code of the thread running?. Model machinery; no counterpart in /repo. *)
Definition user (th : thr) : bool :=
  match stk th with FUser :: _ => true | FRun _ _ :: _ => false | [] => match est th with Running => true | _ => false end end.

(** X:39 X:41 W:45 W:47. *)
Definition slot (s : tsh) (t : nat) : option nat := match nth_error (slots s) t with Some (Some x) => Some x | _ => None end.
(** Dereferencing a context pointer, M:50-71. *)
Definition ctx_of (s : tsh) (x : nat) : option ctx := match nth_error (ctxs s) x with Some (Some c) => Some c | _ => None end.
(** X:39 X:41 W:45 W:47. *)
Definition set_slot (s : tsh) (t : nat) (o : option nat) : tsh := TS (keys s) (freed s) (ctxs s) (tptrs s) (upd (slots s) t o) (nreg s).
(** Assignment to a member of a context, M:69-71. *)
Definition set_ctx (s : tsh) (x : nat) (c : option ctx) : tsh := TS (keys s) (freed s) (upd (ctxs s) x c) (tptrs s) (slots s) (nreg s).

(** M:74-80 and M:82-87 on the vector m_storage. *)
Definition getv (l : list nat) (k : nat) : nat := nth k l 0.
(** M:82-87: resize, then assign. *)
Fixpoint setv (l : list nat) (k v : nat) : list nat :=
  match k, l with
  | O, [] => [v]
  | O, _ :: l' => v :: l'
  | S k', [] => 0 :: setv [] k' v
  | S k', x :: l' => x :: setv l' k' v
  end.

(** X:145-151 W:215-221 get_thread_specific. *)
Definition get (s : tsh) (t k : nat) : nat :=
  match slot s t with
  | Some x => match ctx_of s x with Some c => getv (storage c) k | None => 0 end
  | None => 0
  end.

(** X:102-108 X:116-122 X:155-161 (same in W): the thread's context, created if needed (M:140-148). *)
Definition ensure (s : tsh) (t : nat) : tsh * nat :=
  match slot s t with
  | Some x => (s, x)
  | None => (TS (keys s) (freed s) (ctxs s ++ [Some (X t [] [] [])]) (tptrs s) (upd (slots s) t (Some (length (ctxs s)))) (nreg s), length (ctxs s))
  end.

(** X:153-164 W:223-234 set_thread_specific. *)
Definition set_value (s : tsh) (t k v : nat) : tsh :=
  let (s1, x) := ensure s t in
  match ctx_of s1 x with
  | Some c => set_ctx s1 x (Some (X (xown c) (setv (storage c) k v) (atexit c) (notif c)))
  | None => s1
  end.

(** create_thread_context (M:140-148) runs only if there is no context yet. *)
Definition can_fail (s : tsh) (t : nat) (f : failure) : bool := match f, slot s t with FCtx, Some _ => false | _, _ => true end.
(** The state after a failed attempt. X:104-110: the context created first stays. *)
Definition failed (s : tsh) (t : nat) (f : failure) : tsh := match f with FPush => fst (ensure s t) | _ => s end.

(** M:196-220 new_key and P:43-53. *)
Definition new_key (s : tsh) (cb : option nat) (flag : bool) : tsh :=
  match freed s with
  | k :: fr => TS (upd (keys s) k (cb, flag)) fr (ctxs s) (tptrs s ++ [TP k cb true]) (slots s) (nreg s)
  | [] => TS (keys s ++ [(cb, flag)]) [] (ctxs s) (tptrs s ++ [TP (length (keys s)) cb true]) (slots s) (nreg s)
  end.

(** M:235-243: clear the key in every context. *)
Definition clear1 (k : nat) (o : option ctx) : option ctx :=
  match o with
  | Some c => if getv (storage c) k =? 0 then Some c else Some (X (xown c) (setv (storage c) k 0) (atexit c) (notif c))
  | None => None
  end.
(** M:237-242. *)
Definition vals1 (k : nat) (o : option ctx) : list nat :=
  match o with Some c => if getv (storage c) k =? 0 then [] else [getv (storage c) k] | None => [] end.

(** M:222-255 delete_key up to the calls of the cleanup function, and P:55-58.  The new state and the frame with those calls. *)
Definition delete_key (s : tsh) (p : nat) (q : tptr) : tsh * list frame :=
  let dead := upd (tptrs s) p (TP (pkey q) (pcb q) false) in
  match nth_error (keys s) (pkey q) with
  | Some (cb, true) =>
      (TS (upd (keys s) (pkey q) (None, true)) (pkey q :: freed s) (map (clear1 (pkey q)) (ctxs s)) dead (slots s) (nreg s),
       match cb with Some f => [FRun f (concat (map (vals1 (pkey q)) (ctxs s)))] | None => [] end)
  | _ => (TS (keys s) (freed s) (ctxs s) dead (slots s) (nreg s), [])
  end.

(** M:107-129 and the threads. *)
Definition tss_st : Type := tsh * list thr.

(** Model machinery: calls a function; no counterpart in /repo. *)
Definition push (th : thr) (fr : list frame) : thr := Th (fr ++ stk th) (est th).

(** The library's own steps: loops calling user functions, and destroy_thread_context, M:150-194, X:46-52, W:156-165. *)
Definition tss_run (pl : plat) (s : tsh) (t : nat) (th : thr) : option (tsh * thr * list tev) :=
  match stk th with
  | FUser :: _ => None
  | FRun cb (v :: vs) :: r => Some (s, Th (FUser :: FRun cb vs :: r) (est th), [ECall t cb v])
  | FRun cb [] :: r => Some (s, Th r (est th), [])
  | [] =>
      match est th with
      | Running | Done => None
      | Iter O => Some (s, Th [] Done, [])
      | Iter (S n) => match slot s t with
                      | Some x => Some (set_slot s t None, Th [] (ExAt x n []), [EDet t])
                      | None => Some (s, Th [] Done, [])
                      end
      | ExAt x n (f :: fs) => Some (s, Th [FUser] (ExAt x n fs), [ERun t f])
      | ExAt x n [] =>
          match ctx_of s x with
          | None => None
          | Some c => match atexit c with
                      | [] => Some (s, Th [] (ExTls x n 0 []), [])
                      | l => Some (set_ctx s x (Some (X (xown c) (storage c) [] (notif c))), Th [] (ExAt x n (rev l)), [])
                      end
          end
      | ExTls x n k st =>
          match nth_error st k with
          | Some O => Some (s, Th [] (ExTls x n (S k) st), [])
          | Some v => match nth_error (keys s) k with
                      | Some (Some cb, _) => Some (s, Th [FUser] (ExTls x n (S k) st), [ECall t cb v])
                      | _ => Some (s, Th [] (ExTls x n (S k) st), [])
                      end
          | None =>
              match ctx_of s x with
              | None => None
              | Some c => match storage c with
                          | [] => Some (s, Th [] (ExNot x n (notif c)), [])
                          | l => Some (set_ctx s x (Some (X (xown c) [] (atexit c) (notif c))), Th [] (ExTls x n 0 l), [ETls t])
                          end
              end
          end
      | ExNot x n (m :: ms) => Some (s, Th [] (ExNot x n ms), [ENotified t m])
      | ExNot x n [] =>
          match pl with
          | Win => Some (set_slot (set_ctx s x None) t None, Th [] Done, [])
          | _ => Some (set_ctx s x None, Th [] (Iter n), [])
          end
      end
  end.

(** P:43-103, A:48-61, N:53-58, with X:99-164 / W:169-234. *)
Definition tss_user (pl : plat) (s : tsh) (th : thr) (a : tact2) : option (tsh * thr * list tev) :=
  match a with
  | ANew t cb flag => Some (new_key s cb flag, th, [ENew t (length (tptrs s)) cb])
  | ADel t p => match nth_error (tptrs s) p with
                | Some q => if palive q then let (s', fr) := delete_key s p q in Some (s', push th fr, [EDel t p]) else None
                | None => None
                end
  | AGet t p => match nth_error (tptrs s) p with                                             (* P:60-63 *)
                | Some q => if palive q then Some (s, th, [EGet t p (get s t (pkey q))]) else None
                | None => None
                end
  | ARelease t p => match nth_error (tptrs s) p with                                         (* P:86-92 *)
                    | Some q => if palive q then
                                  let v := get s t (pkey q) in
                                  if v =? 0 then Some (s, th, []) else Some (set_value s t (pkey q) 0, th, [ERel t p (pcb q) v])
                                else None
                    | None => None
                    end
  | AReset t p v f =>                                                                        (* P:94-103 *)
      match nth_error (tptrs s) p with
      | Some q =>
          if palive q then
            let old := get s t (pkey q) in
            if old =? v then Some (s, th, []) else
            match f with
            | FNone => Some (set_value s t (pkey q) v,
                             push th (match pcb q with Some cb => if old =? 0 then [] else [FRun cb [old]] | None => [] end),
                             [ESet t p (pcb q) v])
            | _ => if can_fail s t f then Some (failed s t f, th, []) else None
            end
          else None
      | None => None
      end
  | AAtExit t f =>                                                                           (* A:48-61, M:89-95 *)
      match f with
      | FNone => let (s1, x) := ensure s t in
                 match ctx_of s1 x with
                 | Some c => Some (TS (keys s1) (freed s1) (upd (ctxs s1) x (Some (X (xown c) (storage c) (atexit c ++ [nreg s1]) (notif c)))) (tptrs s1) (slots s1) (S (nreg s1)), th,
                                   [EReg t (nreg s1)])
                 | None => None
                 end
      | _ => if can_fail s t f then Some (failed s t f, th, []) else None
      end
  | ANotExit t m f =>                                                                        (* N:53-58, M:97-103 *)
      match f with
      | FNone => let (s1, x) := ensure s t in
                 match ctx_of s1 x with
                 | Some c => Some (set_ctx s1 x (Some (X (xown c) (storage c) (atexit c) (notif c ++ [m]))), th, [ENot t m])
                 | None => None
                 end
      | _ => if can_fail s t f then Some (failed s t f, th, [EUnlk t m]) else None
      end
  | ARet t => match stk th with FUser :: r => Some (s, Th r (est th), []) | _ => None end
  | AExit t => match stk th with
               | [] => Some (s, Th [] (match pl with
                                       | Win => match slot s t with Some x => ExAt x 0 [] | None => Done end       (* W:160 *)
                                       | Posix lim => Iter lim
                                       | PosixTls => Done
                                       end), [EExit t])
               | _ => None
               end
  | AStep t => None
  end.

(** Model machinery; no counterpart in /repo. *)
Definition thread_of (a : tact2) : nat :=
  match a with ANew t _ _ | ADel t _ | AGet t _ | ARelease t _ | AReset t _ _ _ | AAtExit t _ | ANotExit t _ _ | ARet t | AExit t | AStep t => t end.

(** One call, or one step, of one thread.  P:43-103, A:48-61, N:53-58, M:134-255, X:46-164, W:156-234. *)
Definition tss_step (pl : plat) (c : tss_st) (a : tact2) : option (tss_st * list tev) :=
  let (s, ths) := c in
  let t := thread_of a in
  match nth_error ths t with
  | None => None
  | Some th =>
      match (match a with AStep _ => tss_run pl s t th | _ => if user th then tss_user pl s th a else None end) with
      | Some (s', th', e) => Some ((s', upd ths t th'), e)
      | None => None
      end
  end.

(** M:121-129; no thread has a context. *)
Definition tss_init (n : nat) : tss_st := (TS [] [] [] [] (repeat None n) 0, repeat (Th [] Running) n).
