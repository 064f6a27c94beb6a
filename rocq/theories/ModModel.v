(** Waitable timers when modules (DLLs) are loaded and unloaded, and when modules compiled against different versions of Boost share the contexts.
    /repo/include/boost/sync/detail/waitable_timer.hpp ("T:"), /repo/include/boost/sync/detail/weak_linkage.hpp ("L:").

    Extends OnceModel: its steps, plus loading and unloading of modules, waitable_timer_state::destroy (T:289-297), the address of the callback (T:107-110, T:263)
    and the check of the Boost version (T:313-315).
    std::atexit of a module runs its handlers when the module is unloaded (the C run-time library of Windows keeps one table per DLL); the handler
    is registered (T:205, T:212) on every path that leaves the member tls_key_holder not null, except inside init; a module is unloaded while no thread executes
    its code, so the handler has been registered then exactly if the member is not null, or a second time with no further effect. *)
From Coq Require Import List Bool Arith.
From Verif Require Import ListSum Exec OnceModel.
Import ListNotations.

(** Whether the module is loaded, and how often it has been loaded before (a later copy is other code with other globals, L:32-39; T:303). *)
Record ml := ML { mloaded : bool; mgen : nat }.
(** [xb]: the process of OnceModel; [xml]: its modules; [xcr]: for every context (T:247), the module and the copy of it that made it: its version is stored in the context (T:84, T:90), its code is the callback (T:263). *)
Record xst := XS { xb : once_st; xml : list ml; xcr : list (nat * nat) }.

(** Observable steps: those of OnceModel; [XMade]: T:247; [XMis]: the logic_error of T:315; [XLost]: the last handle of the semaphore with count [k] is closed, T:294; [XCrash]: the callback T:263 is called after its code is gone. *)
Inductive xev := XE (e : oev) | XMade (c m g : nat) | XMis (t m c : nat) | XLost (k : nat) | XCrash (c : nat).
(** Steps of OnceModel (T:301-318, T:107-110), loading and unloading (T:289-297). *)
Inductive xact := XB (a : oact) | XLoad (m : nat) | XUnload (m : nat).

(** Is the thread executing code of module [m]?  [cr] tells whose code the clean-up T:283 is. T:125-318. *)
Definition runs (cr : list (nat * nat)) (m : nat) (pc : opc) : bool :=
  match pc with
  | OIdle | OGone => false
  | OChk j | OCas j | OOpen j | OAlloc j | OCreate j _ | ODrop j _ | OQuery j | OAlloc2 j | OUndo j | OPut j _ | OPub j | OLook j
  | ODup j _ | OReg j _ | OTim j _ | OVal j _ => j =? m
  | ODel c => match nth_error cr c with Some (j, _) => j =? m | None => false end
  end.

(** waitable_timer_state::destroy T:289-297: closes the handle; the semaphore is gone with its last handle. *)
Definition mod_destroy (p : proc) (m : nat) : proc * list xev :=
  match nth_error (mods p) m with
  | Some x =>
      if holder x
      then match semh p, sem p with
           | S (S h), _ => (set_mod (set_sem p (sem p) (S h)) m (MS (ini x) (tkey x) false), [])
           | _, Some k => (set_mod (set_sem p None 0) m (MS (ini x) (tkey x) false), [XLost k])
           | _, None => (set_mod p m (MS (ini x) (tkey x) false), [])
           end
      else (p, [])
  | None => (p, [])
  end.

Section Versions.
  (** BOOST_VERSION that copy [g] of module [m] was compiled with. T:90, T:314. *)
  Variable vs : nat -> nat -> nat.

  (** T:314-317: the version of the context against the version of the calling module; [g] its copy. *)
  Definition check (cr : list (nat * nat)) (l : list ml) (e : oev) : xev :=
    match e with
    | ERet t m c => match nth_error cr c, nth_error l m with
                    | Some (j, h), Some y => if vs j h =? vs m (mgen y) then XE e else XMis t m c
                    | _, _ => XE e
                    end
    | _ => XE e
    end.

  (** The process with its modules. T:107-110, T:125-318. *)
  Definition xstep (s : xst) (a : xact) : option (xst * list xev) :=
    match a with
    | XB a0 =>
        match once_step (xb s) a0 with
        | None => None
        | Some (b', e) =>
            match a0 with
            | OCall t m => match nth_error (xml s) m with
                           | Some y => if mloaded y then Some (XS b' (xml s) (xcr s), map XE e) else None
                           | None => None
                           end
            | OStep t o =>
                match nth_error (snd (xb s)) t with
                | Some (OLook m) =>
                    if length (tlcs (fst (xb s))) <? length (tlcs (fst b'))
                    then match nth_error (xml s) m with
                         | Some y => Some (XS b' (xml s) (xcr s ++ [(m, mgen y)]), map XE e ++ [XMade (length (tlcs (fst (xb s)))) m (mgen y)])
                         | None => None
                         end
                    else Some (XS b' (xml s) (xcr s), map (check (xcr s) (xml s)) e)
                | _ => Some (XS b' (xml s) (xcr s), map (check (xcr s) (xml s)) e)
                end
            | OExit t => Some (XS b' (xml s) (xcr s), map XE e)
            | OCallback c =>
                match nth_error (xcr s) c with
                | Some (j, h) => match nth_error (xml s) j with
                                 | Some y => if mloaded y && (mgen y =? h) then Some (XS b' (xml s) (xcr s), map XE e) else Some (s, [XCrash c])
                                 | None => None
                                 end
                | None => None
                end
            end
        end
    | XLoad m => match nth_error (xml s) m with
                 | Some y => if mloaded y then None else Some (XS (xb s) (upd (xml s) m (ML true (S (mgen y)))) (xcr s), [])
                 | None => None
                 end
    | XUnload m => match nth_error (xml s) m with
                   | Some y => if mloaded y && negb (existsb (runs (xcr s) m) (snd (xb s)))
                               then let (p', e) := mod_destroy (fst (xb s)) m in
                                    Some (XS (set_mod p' m (MS 0 0 false), snd (xb s)) (upd (xml s) m (ML false (mgen y))) (xcr s), e)
                               else None
                   | None => None
                   end
    end.
End Versions.

(** All modules loaded, nothing initialised (L:39, T:303: zero-initialised). *)
Definition x_init (nm n : nat) : xst := XS (once_init nm n) (repeat (ML true 0) nm) [].
