(** Model of the generic condition_variable_any: wait, timed waits, notify_one, notify_all.
    /repo/include/boost/sync/detail/condition_variables/condition_variable_any_generic.hpp ("G:").

    Threads interleave at every operation on the internal mutex m_mutex, on the user's lock and on the internal condition variable m_cond.
    m_mutex is an atomic mutex (C19 and the POSIX mutex), m_cond.wait releases m_mutex and joins the wait set in one step and can end at any
    time (spurious wake-up, timeout, failure; POSIX contract).  The user's lock is any type: unlock() and lock() may throw, lock() may
    take any time.  The chrono overloads of m_cond and the predicate loops are repetitions of these calls (CvWaitModel.v). *)
From Coq Require Import List Bool Arith.
From Verif Require Import ListSum Exec.
Import ListNotations.

Inductive gpc :=
| GIdle
| GLock                 (* G:94 G:111 G:133 G:155: unique_lock internal_lock(m_mutex) *)
| GUnl                  (* G:95: relock_guard.unlock(lock) *)
| GCond                 (* G:96: m_cond.wait entered *)
| GBlk                  (* blocked in m_cond, in its wait set, m_mutex released *)
| GWok                  (* woken; re-acquires m_mutex inside m_cond.wait *)
| GRel                  (* ~unique_lock: m_mutex.unlock() *)
| GUser                 (* G:55-56: ~relocker: lock.lock() *)
| GNLock (all : bool)   (* G:80 G:86 *)
| GNSig (all : bool)    (* G:81 G:87 *)
| GNUnl (all : bool).   (* ~lock_guard *)

(** What happens to the caller's lock and to m_cond in G:90-170 and G:78-88. *)
Inductive gev :=
| ERel (t : nat)                    (* t has released the user's lock inside wait() *)
| EWake (t : nat)                   (* t's wait on m_cond ends, for whatever reason *)
| ESig (u t : nat)                  (* u's m_cond.notify_one() wakes t *)
| EDone (t : nat) (ok : bool)       (* t's wait() returns / throws *)
| ENotify (u : nat) (all : bool)    (* u calls notify_one()/notify_all() *)
| ENotified (u : nat) (ok : bool).  (* the call returns / throws *)

(** [CPick t]: the thread chosen by the kernel; [CFail]: the operation throws. Outcomes of m_cond.notify_one (G:81), of m_mutex.lock() (G:94, G:80, G:86) and of the caller's lock. *)
Inductive gchoice := CNorm | CFail | CPick (t : nat).
(** Calls of G:78-170, or the next operation of a thread. *)
Inductive gact := AWait (t : nat) | ANotify (t : nat) (all : bool) | ARun (t : nat) (ch : gchoice).

(** Members of G:67-68 as seen by the model. *)
Definition gst : Type := option nat * list gpc.     (* owner of m_mutex, threads *)

(** Blocked in m_cond.wait (G:96) or a timed wait (G:113 and its siblings). *)
Definition is_blk (p : gpc) : bool := match p with GBlk => true | _ => false end.
(** Threads in the wait set of m_cond. G:96. *)
Definition blocked (ths : list gpc) : list nat := filter (fun t => match nth_error ths t with Some p => is_blk p | None => false end) (seq 0 (length ths)).
(** pthread_cond_broadcast. G:87. *)
Definition wake_all (ths : list gpc) : list gpc := map (fun p => if is_blk p then GWok else p) ths.

(** G:78-97 and the timed functions G:106-170, which have the same shape. *)
Definition gv_step (c : gst) (a : gact) : option (gst * list gev) :=
  let (m, ths) := c in
  match a with
  | AWait t => match nth_error ths t with Some GIdle => Some ((m, upd ths t GLock), []) | _ => None end
  | ANotify t all => match nth_error ths t with Some GIdle => Some ((m, upd ths t (GNLock all)), [ENotify t all]) | _ => None end
  | ARun t ch =>
      match nth_error ths t with
      | Some GLock =>
          match ch, m with
          | CFail, _ => Some ((m, upd ths t GIdle), [EDone t false])
          | _, None => Some ((Some t, upd ths t GUnl), [])
          | _, Some _ => None
          end
      | Some GUnl =>
          match ch with
          | CFail => Some ((None, upd ths t GIdle), [EDone t false])      (* m_lock still NULL: ~unique_lock, nothing to re-lock *)
          | _ => Some ((m, upd ths t GCond), [ERel t])
          end
      | Some GCond => Some ((None, upd ths t GBlk), [])
      | Some GBlk => Some ((m, upd ths t GWok), [EWake t])                (* spurious wake-up, timeout or failure *)
      | Some GWok => match m with None => Some ((Some t, upd ths t GRel), []) | Some _ => None end
      | Some GRel => Some ((None, upd ths t GUser), [])
      | Some GUser => Some ((m, upd ths t GIdle), [EDone t (match ch with CFail => false | _ => true end)])
      | Some (GNLock all) =>
          match ch, m with
          | CFail, _ => Some ((m, upd ths t GIdle), [ENotified t false])
          | _, None => Some ((Some t, upd ths t (GNSig all)), [])
          | _, Some _ => None
          end
      | Some (GNSig true) => Some ((m, upd (wake_all ths) t (GNUnl true)), map EWake (blocked ths))
      | Some (GNSig false) =>
          match ch with
          | CPick u => match nth_error ths u with
                       | Some GBlk => Some ((m, upd (upd ths u GWok) t (GNUnl false)), [ESig t u; EWake u])
                       | _ => None
                       end
          | _ => match blocked ths with
                 | [] => Some ((m, upd ths t (GNUnl false)), [])
                 | _ :: _ => None                           (* some blocked thread must be picked *)
                 end
          end
      | Some (GNUnl all) => Some ((None, upd ths t GIdle), [ENotified t true])
      | _ => None
      end
  end.

(** G:73 / 75: the constructors. *)
Definition gv_init (n : nat) : gst := (None, repeat GIdle n).
