(** Condition variable waits that may be interrupted by a signal.
    /repo/include/boost/sync/detail/pthread.hpp lines 47-58 (no workaround) and 132-141 (the workaround for pthread_cond_wait), used by
    condition_variable::wait(lock, pred), /repo/include/boost/sync/detail/condition_variables/condition_variable_posix.hpp 106-113, 206-211.

    The protected data is a number of items.  A consumer runs  lock; wait(lock, items > 0); --items; unlock.  A producer runs  lock; ++items; notify; unlock,
    with notify_one (89-92) or notify_all (94-97).  pthread_cond_wait follows POSIX, except that a waiting thread may also be interrupted: it leaves the wait set
    without consuming a notification, re-locks the mutex and returns EINTR.  [wk]: the workaround is compiled in, EINTR makes pthread_cond_wait be called again
    at once (139); otherwise priv_wait throws wait_error (209), the exception leaves wait() and the lock is released by its destructor.
    The pthread mutex is not interrupted (its wrappers, pthread.hpp 74-83, just repeat the call).  Not modelled: timed waits. *)
From Coq Require Import List Bool Arith ZArith.
From Verif Require Import ListSum Exec.
Import ListNotations.

Inductive epc :=
| IRest
| ILock                (* consumer: about to lock *)
| ITest                (* consumer, mutex held: evaluates the predicate, 111 *)
| ISleep               (* in the wait set, mutex released *)
| IWoken               (* notified or woken spuriously, must re-lock, then pthread_cond_wait returns 0 *)
| IIntr                (* interrupted, must re-lock, then pthread_cond_wait returns EINTR *)
| IAgain               (* mutex held, EINTR returned, [wk]: calls pthread_cond_wait again *)
| IThrow               (* mutex held, EINTR returned, no workaround: wait_error leaves wait() *)
| ITake                (* mutex held, predicate true: takes an item *)
| IPut (all : bool)    (* producer: about to lock *)
| INote (all : bool)   (* mutex held, item added: about to notify *)
| IUnl.                (* mutex held: about to unlock *)

(** The client's items and the notifications, interruptions and exceptions of condition_variable_posix.hpp 89-97, 206-211. *)
Inductive iev := EvPut (t : nat) | EvNote (t : nat) (all : bool) | EvTake (t : nat) | EvIntr (t : nat) | EvThrow (t : nat).
(** [IStep t w]: next step of [t]; [w] the waiter woken by notify_one.  [ISpur], [IInt]: spurious wake-up, interruption. Calls of wait(lock, pred) (condition_variable_posix.hpp 106-113) and of notify_one / notify_all (89-97) by a client; the rest is the environment. *)
Inductive iact := IConsume (t : nat) | IProduce (t : nat) (all : bool) | IStep (t w : nat) | ISpur (t : nat) | IInt (t : nat).

(** Blocked in pthread_cond_wait, condition_variable_posix.hpp 208. *)
Definition isleep (p : epc) : bool := match p with ISleep => true | _ => false end.
(** pthread_cond_broadcast, condition_variable_posix.hpp 96. *)
Definition iwake (p : epc) : epc := match p with ISleep => IWoken | _ => p end.

(** State: the mutex is held?, number of items; threads. The pthread mutex and the client's data; the condition variable's wait set (condition_variable_posix.hpp 54) is the set of threads at [ISleep]. *)
Definition ist : Type := (bool * nat) * list epc.
(** condition_variable_posix.hpp 106-113, 206-211, 89-97, pthread.hpp 47-58 / 132-141. *)
Definition i_run (wk : bool) (s : bool * nat) (ths : list epc) (t : nat) (p : epc) (w : nat) : option (ist * list iev) :=
  let (held, items) := s in
  match p with
  | IRest | ISleep => None
  | ILock | IWoken => if held then None else Some (((true, items), upd ths t ITest), [])
  | IIntr => if held then None else Some (((true, items), upd ths t (if wk then IAgain else IThrow)), [])
  | ITest => match items with 0 => Some (((false, items), upd ths t ISleep), []) | S _ => Some ((s, upd ths t ITake), []) end
  | IAgain => Some (((false, items), upd ths t ISleep), [])
  | IThrow => Some (((false, items), upd ths t IRest), [EvThrow t])
  | ITake => Some (((held, pred items), upd ths t IUnl), [EvTake t])
  | IPut all => if held then None else Some (((true, S items), upd ths t (INote all)), [EvPut t])
  | INote true => Some ((s, upd (map iwake ths) t IUnl), [EvNote t true])
  | INote false => if existsb isleep ths
                   then match nth_error ths w with Some ISleep => Some ((s, upd (upd ths w IWoken) t IUnl), [EvNote t false]) | _ => None end
                   else Some ((s, upd ths t IUnl), [EvNote t false])
  | IUnl => Some (((false, items), upd ths t IRest), [])
  end.
(** condition_variable_posix.hpp 89-113, 206-211. *)
Definition i_step (wk : bool) (c : ist) (a : iact) : option (ist * list iev) :=
  let (s, ths) := c in
  match a with
  | IConsume t => match nth_error ths t with Some IRest => Some ((s, upd ths t ILock), []) | _ => None end
  | IProduce t all => match nth_error ths t with Some IRest => Some ((s, upd ths t (IPut all)), []) | _ => None end
  | IStep t w => match nth_error ths t with Some p => i_run wk s ths t p w | None => None end
  | ISpur t => match nth_error ths t with Some ISleep => Some ((s, upd ths t IWoken), []) | _ => None end
  | IInt t => match nth_error ths t with Some ISleep => Some ((s, upd ths t IIntr), [EvIntr t]) | _ => None end
  end.
(** condition_variable_posix.hpp 65-72. *)
Definition i_init (n : nat) : ist := ((false, 0), repeat IRest n).
