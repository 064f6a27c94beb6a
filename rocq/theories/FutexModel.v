(** The futex wrappers (detail/futex.hpp) on top of a kernel with wait queues, for every combination of header macros and time types. *)
From Coq Require Import List Bool Arith ZArith Lia.
From Verif Require Import Word TimeModel.
Import ListNotations.
Local Open Scope Z_scope.

(** ** The platform the headers are compiled on
    - [wait_priv], [wake_priv]: FUTEX_WAIT_PRIVATE / FUTEX_WAKE_PRIVATE are macros of <linux/futex.h>; tested separately at futex.hpp 61, 79 and 95, 110;
    - [user64]: tv_sec of the timespec of futex.hpp 73-75 has 64 bits (otherwise 32);
    - [kern64]: the system call number of futex.hpp 34-39 takes a timespec with 64-bit fields (true on 64-bit kernels; the 32-bit SYS_futex takes
      32-bit fields whatever the C library's time_t is);
    - [kern_priv]: the running kernel knows FUTEX_PRIVATE_FLAG (since Linux 2.6.22). *)
Record plat := { wait_priv : bool; wake_priv : bool; user64 : bool; kern64 : bool; kern_priv : bool }.

(** Constants of <linux/futex.h>, not in /repo; used at futex.hpp 62, 64, 80, 82. *)
Definition FUTEX_WAIT : Z := 0.
(** See [FUTEX_WAIT]; futex.hpp 98, 113. *)
Definition FUTEX_WAKE : Z := 1.
(** The flag of the _PRIVATE operations, <linux/futex.h>; futex.hpp 62, 80, 96, 111. *)
Definition FUTEX_PRIVATE_FLAG : Z := 128.
(** <limits.h>; futex.hpp 100. *)
Definition INT_MAX : Z := 2 ^ 31 - 1.

(** The arguments of the system call made at futex.hpp 52: address, operation, value, and the timespec if [timeout] is not NULL, as the integers
    stored in tv_sec and tv_nsec.  addr2 and val3 are always their defaults and unused by the two operations. *)
Record req := { raddr : nat; rop : Z; rval : Z; rtime : option (Z * Z) }.

(** The operation chosen at futex.hpp 61-65 and 79-83. *)
Definition wait_op (p : plat) : Z := if wait_priv p then FUTEX_WAIT + FUTEX_PRIVATE_FLAG else FUTEX_WAIT.
(** The operation chosen at futex.hpp 95-99 and 110-114. *)
Definition wake_op (p : plat) : Z := if wake_priv p then FUTEX_WAKE + FUTEX_PRIVATE_FLAG else FUTEX_WAKE.

(** futex_wait, futex.hpp 56-68; the callers pass an unsigned int for [expected] (auto_reset_event_futex.hpp 101, manual_reset_event_futex.hpp 77):
    converted to int. *)
Definition futex_wait (p : plat) (a : nat) (expected : Z) : req := {| raddr := a; rop := wait_op p; rval := i32 expected; rtime := None |}.
(** An assignment to tv_sec, futex.hpp 74: a time_t of 64 or 32 bits. *)
Definition to_time_t (p : plat) (x : Z) : Z := if user64 p then i64 x else i32 x.
(** futex_timedwait, futex.hpp 71-87; [ns] is the native_type (int64_t) of the callers, converted to uint64_t. *)
Definition futex_timedwait (p : plat) (a : nat) (expected ns : Z) : req :=
  {| raddr := a; rop := wait_op p; rval := i32 expected;
     rtime := Some (to_time_t p (cdiv (u64 ns) 1000000000), crem (u64 ns) 1000000000) |}.
(** futex_broadcast, futex.hpp 90-102. *)
Definition futex_broadcast (p : plat) (a : nat) : req := {| raddr := a; rop := wake_op p; rval := INT_MAX; rtime := None |}.
(** futex_signal, futex.hpp 105-117, with the default count of line 105 (the only caller is auto_reset_event_futex.hpp 81). *)
Definition futex_signal (p : plat) (a : nat) : req := {| raddr := a; rop := wake_op p; rval := 1; rtime := None |}.

(** ** The kernel (not in /repo; assumed by futex.hpp 50-117) *)

(** A sleeping thread: its number, the key it sleeps on (private futex or not, and address), its deadline if it has one.  No counterpart in /repo. *)
Record sleeper := { sthr : nat; skey : bool * nat; sdl : option Z }.
(** Memory words (32 bits, as unsigned), the clock in nanoseconds, the wait queue (oldest first); no counterpart in /repo. *)
Record kst := { kmem : nat -> Z; know : Z; kq : list sleeper }.

(** What a thread sees: the return of a waiting call (0 or an errno, futex.hpp 58, 76) or the number of threads woken (futex.hpp 92, 107). *)
Inductive out := ORet (t : nat) (err : Z) | OWoken (n : Z).

(** Error numbers of Linux; tested at auto_reset_event_futex.hpp 105-112 and manual_reset_event_futex.hpp 131. *)
Definition EINTR : Z := 4.
(** EWOULDBLOCK, auto_reset_event_futex.hpp 108. *)
Definition EWOULDBLOCK : Z := 11.
(** Falls into [default], auto_reset_event_futex.hpp 111. *)
Definition EINVAL : Z := 22.
(** Falls into [default], auto_reset_event_futex.hpp 111. *)
Definition ENOSYS : Z := 38.
(** ETIMEDOUT, auto_reset_event_futex.hpp 191. *)
Definition ETIMEDOUT : Z := 110.

(** The timespec as the kernel reads it (little endian): 64-bit fields when [kern64]; 32-bit fields otherwise, so that when the process stored a 64-bit
    tv_sec (futex.hpp 73-75 with a 64-bit time_t), the upper half of tv_sec is taken for tv_nsec.  ([user64 = false] with [kern64 = true] does
    not exist on Linux; the definition reads the fields unchanged.) *)
Definition kread (p : plat) (ts : Z * Z) : Z * Z :=
  if kern64 p then ts else if user64 p then (i32 (fst ts), i32 (Z.shiftr (fst ts) 32)) else ts.

(** Linux: timespec64_valid; no counterpart in /repo. *)
Definition ts_valid (ts : Z * Z) : bool := (0 <=? fst ts) && (0 <=? snd ts) && (snd ts <? 1000000000).

(** Linux futex_wake: wakes the sleepers of the key in queue order, until [nr] are awake; returns them and the queue left. No counterpart in /repo. *)
Fixpoint kwake (key : bool * nat) (nr ret : Z) (q : list sleeper) : list sleeper * list sleeper :=
  match q with
  | [] => ([], [])
  | s :: q' =>
      if Bool.eqb (fst (skey s)) (fst key) && Nat.eqb (snd (skey s)) (snd key) then
        if nr <=? ret + 1 then ([s], q')
        else let '(w, r) := kwake key nr (ret + 1) q' in (s :: w, r)
      else let '(w, r) := kwake key nr ret q' in (w, s :: r)
  end.

(** The system call made by thread [t] at futex.hpp 52.  A relative timeout starts at the time of the call. *)
Definition ksys (p : plat) (k : kst) (t : nat) (r : req) : kst * list out :=
  let priv := FUTEX_PRIVATE_FLAG <=? rop r in
  let cmd := if priv then rop r - FUTEX_PRIVATE_FLAG else rop r in
  if priv && negb (kern_priv p) then (k, [ORet t ENOSYS])
  else if cmd =? FUTEX_WAIT then
    match rtime r with
    | Some ts0 =>
        let ts := kread p ts0 in
        if negb (ts_valid ts) then (k, [ORet t EINVAL])
        else if negb (kmem k (raddr r) =? u32 (rval r)) then (k, [ORet t EWOULDBLOCK])
        else ({| kmem := kmem k; know := know k; kq := kq k ++ [{| sthr := t; skey := (priv, raddr r); sdl := Some (know k + fst ts * 1000000000 + snd ts) |}] |}, [])
    | None =>
        if negb (kmem k (raddr r) =? u32 (rval r)) then (k, [ORet t EWOULDBLOCK])
        else ({| kmem := kmem k; know := know k; kq := kq k ++ [{| sthr := t; skey := (priv, raddr r); sdl := None |}] |}, [])
    end
  else if cmd =? FUTEX_WAKE then
    let '(w, q) := kwake (priv, raddr r) (rval r) 0 (kq k) in
    ({| kmem := kmem k; know := know k; kq := q |}, map (fun s => ORet (sthr s) 0) w ++ [OWoken (Z.of_nat (length w))])
  else (k, [ORet t ENOSYS]).

(** ** Histories: calls of the wrappers by threads that are not asleep, changes of the words, signals, time *)
(** The calls are futex.hpp 56-117; [HStore] is any atomic operation on a word (auto_reset_event_futex.hpp 68, 91, 124; manual_reset_event_futex.hpp 58, 65, 74). *)
Inductive hev :=
| HWait (t a : nat) (expected : Z) | HTimed (t a : nat) (expected ns : Z) | HSignal (t a : nat) | HBroadcast (t a : nat)
| HStore (a : nat) (v : Z) | HIntr (t : nat) | HTick (d : Z) | HExpire (t : nat).

(** Thread [t] sleeps in the kernel; no counterpart in /repo. *)
Definition asleep (q : list sleeper) (t : nat) : bool := existsb (fun s => Nat.eqb (sthr s) t) q.
(** Removes [t] from the queue; no counterpart in /repo. *)
Definition leave (q : list sleeper) (t : nat) : list sleeper := filter (fun s => negb (Nat.eqb (sthr s) t)) q.
(** The deadline of the sleeper [t] has come; no counterpart in /repo. *)
Definition due (q : list sleeper) (now : Z) (t : nat) : bool :=
  existsb (fun s => Nat.eqb (sthr s) t && match sdl s with Some d => d <=? now | None => false end) q.

(** One event: the calls of the wrappers (futex.hpp 56-117; a thread that sleeps cannot call), an atomic operation on a word (the events' m_state),
    a signal delivered to a sleeping thread, time passing, and the kernel noticing (possibly late) that a deadline has passed. *)
Definition kstep (p : plat) (k : kst) (e : hev) : kst * list out :=
  match e with
  | HWait t a x => if asleep (kq k) t then (k, []) else ksys p k t (futex_wait p a x)
  | HTimed t a x ns => if asleep (kq k) t then (k, []) else ksys p k t (futex_timedwait p a x ns)
  | HSignal t a => if asleep (kq k) t then (k, []) else ksys p k t (futex_signal p a)
  | HBroadcast t a => if asleep (kq k) t then (k, []) else ksys p k t (futex_broadcast p a)
  | HStore a v => ({| kmem := fun b => if Nat.eqb b a then u32 v else kmem k b; know := know k; kq := kq k |}, [])
  | HIntr t => if asleep (kq k) t then ({| kmem := kmem k; know := know k; kq := leave (kq k) t |}, [ORet t EINTR]) else (k, [])
  | HTick d => ({| kmem := kmem k; know := know k + Z.max 0 d; kq := kq k |}, [])
  | HExpire t => if due (kq k) (know k) t then ({| kmem := kmem k; know := know k; kq := leave (kq k) t |}, [ORet t ETIMEDOUT]) else (k, [])
  end.
(** A whole history; no counterpart in /repo. *)
Fixpoint krun (p : plat) (k : kst) (h : list hev) : kst * list (list out) :=
  match h with
  | [] => (k, [])
  | e :: h' => let '(k1, o) := kstep p k e in let '(k2, os) := krun p k1 h' in (k2, o :: os)
  end.
(** All words zero (the events' constructors, auto_reset_event_futex.hpp 54, manual_reset_event_futex.hpp 52), nobody asleep. *)
Definition k0 : kst := {| kmem := fun _ => 0; know := 0; kq := [] |}.
