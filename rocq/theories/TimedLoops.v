(** Loops that turn user timeouts into kernel waits.  The environment (kernel results, clock readings) is an input list of
    arbitrary length; an exhausted list means "still blocked in the current kernel call".  Durations are in native units
    (ms on Windows, ns elsewhere). *)
From Coq Require Import List Bool ZArith.
From Verif Require Import Word TimeModel.
Import ListNotations.
Local Open Scope Z_scope.

(** ** Windows: WaitForSingleObject in slices *)

(** Results of WaitForSingleObject distinguished at basic_event_windows.hpp 119-133. *)
Inductive wres := WSig | WTime | WFail (err : Z).
(** Returns true, false, throws (basic_event_windows.hpp 121-132), is still blocked. *)
Inductive wout := WTrue | WFalse | WThrow (err : Z) | WBlocked.

(** boost::winapi::max_non_infinite_wait and infinite (Boost.WinAPI, not in /repo): 0xfffffffe and 0xffffffff. *)
Definition max_wait : Z := 2 ^ 32 - 2.
(** See [max_wait]; used at basic_event_windows.hpp 85. *)
Definition infinite : Z := 2 ^ 32 - 1.

(** The slice: events/basic_event_windows.hpp 116-117, semaphore/semaphore_windows.hpp 123-124,
    mutexes/timed_mutex_windows.hpp 176-177, condition_variables/basic_condition_variable_windows.hpp 362-363. *)
Definition slice (time_left : Z) : Z := if max_wait <? time_left then max_wait else u32 time_left.

(** basic_event::timed_wait(duration), events/basic_event_windows.hpp 108-138, and semaphore::priv_timed_wait(duration),
    semaphore/semaphore_windows.hpp 115-145: do ... while (time_left > 0).  Second component: every kernel call made, with
    its timeout and result. *)
Fixpoint ev_loop (time_left : Z) (ks : list wres) : wout * list (Z * option wres) :=
  let dur := slice time_left in
  match ks with
  | [] => (WBlocked, [(dur, None)])
  | k :: ks' =>
      match k with
      | WSig => (WTrue, [(dur, Some k)])
      | WFail e => (WThrow e, [(dur, Some k)])
      | WTime =>
          let time_left' := time_left - dur in
          if 0 <? time_left'
          then let '(o, l) := ev_loop time_left' ks' in (o, (dur, Some k) :: l)
          else (WFalse, [(dur, Some k)])
      end
  end.
(** basic_event_windows.hpp 108-114. *)
Definition ev_timed_wait (t : Z) (ks : list wres) := ev_loop (if t <? 0 then 0 else t) ks.

(** basic_condition_variable::priv_timed_wait(duration), 357-410, and timed_mutex::priv_timed_lock(duration), 163-208:
    while (time_left > 0); a signalled wait succeeds only if [b] (a notification is present / the lock was free), otherwise
    the loop goes on with the same time_left.  After the loop the condition variable looks once more for a notification
    ([late]; the mutex does not: [late = false]). *)
Fixpoint cv_loop (late : bool) (time_left : Z) (ks : list (wres * bool)) : wout * list (Z * option wres) :=
  if 0 <? time_left then
    let dur := slice time_left in
    match ks with
    | [] => (WBlocked, [(dur, None)])
    | (k, b) :: ks' =>
        match k with
        | WSig => if b then (WTrue, [(dur, Some k)])
                  else let '(o, l) := cv_loop late time_left ks' in (o, (dur, Some k) :: l)
        | WFail e => (WThrow e, [(dur, Some k)])
        | WTime => let '(o, l) := cv_loop late (time_left - dur) ks' in (o, (dur, Some k) :: l)
        end
    end
  else ((if late then WTrue else WFalse), []).

(** Time spent in kernel waits that timed out. Specification vocabulary; no counterpart in /repo. *)
Fixpoint waited (l : list (Z * option wres)) : Z :=
  match l with [] => 0 | (d, Some WTime) :: l' => d + waited l' | _ :: l' => waited l' end.

(** ** Waits with a deadline of an arbitrary clock *)

(** Returns true, false, is still blocked: the loops below. No counterpart in /repo. *)
Inductive cout := CTrue | CFalse | CBlocked.

(** do { ... } while (now < t): events/basic_event_windows.hpp 171-187, events/auto_reset_event_futex.hpp 276-292,
    events/manual_reset_event_futex.hpp 187-203, semaphore/semaphore_posix.hpp 169-183, semaphore_dispatch.hpp 127-140,
    semaphore_windows.hpp 179-195.  [env]: result of each inner relative wait and the clock reading after it.
    Second component: the relative times waited for (before conversion). *)
Fixpoint chrono_do (t now : Z) (env : list (bool * Z)) : cout * list Z :=
  match env with
  | [] => (CBlocked, [t - now])
  | (true, _) :: _ => (CTrue, [t - now])
  | (false, now') :: env' =>
      if now' <? t then let '(o, l) := chrono_do t now' env' in (o, (t - now) :: l) else (CFalse, [t - now])
  end.

(** while (now < t) { ... }: condition_variable_posix.hpp 230-244, basic_condition_variable_windows.hpp 239-253,
    timed_mutex_posix.hpp 246-263 (after a try_lock), timed_mutex_windows.hpp 210-224, basic_semaphore_mach.hpp 134-148. *)
Fixpoint chrono_while (t now : Z) (env : list (bool * Z)) : cout * list Z :=
  if now <? t then
    match env with
    | [] => (CBlocked, [t - now])
    | (true, _) :: _ => (CTrue, [t - now])
    | (false, now') :: env' => let '(o, l) := chrono_while t now' env' in (o, (t - now) :: l)
    end
  else (CFalse, []).

(** ** Linux events with a system clock deadline *)

(** One turn of auto_reset_event::priv_timed_wait(system_time_point), auto_reset_event_futex.hpp 178-212, or
    manual_reset_event_futex.hpp 116-141: the clock reading [f_now], then (if the deadline is not reached) the outcome of
    FUTEX_WAIT with that relative timeout, and whether the event turned out to be signalled afterwards. *)
Inductive fstatus := FWoken | FIntr | FAgain | FTimedOut.
(** auto_reset_event_futex.hpp 180-207, manual_reset_event_futex.hpp 115-139. *)
Record fturn := { f_now : Z; f_status : fstatus; f_signalled : bool }.

(** Result and the turns whose kernel call was made.  [f_late]: on_wait_timed_out (auto-reset, 294-315) may still find a post;
    the manual-reset event does not look ([late = false]). *)
Fixpoint futex_until (abs : Z) (late : bool) (env : list fturn) : cout :=
  match env with
  | [] => CBlocked
  | f :: env' =>
      if abs - f_now f <=? 0 then (if late then CTrue else CFalse)
      else match f_status f with
           | FTimedOut => if late then CTrue else CFalse
           | _ => if f_signalled f then CTrue else futex_until abs late env'
           end
  end.

(** ** Timeouts handed to the kernel *)

(** futex_timedwait, futex.hpp 71-87: [timeout_nsec] is the uint64_t the native duration was converted to. *)
Definition futex_timespec (time_left : Z) : timespec := (i64 (cdiv (u64 time_left) 1000000000), i64 (crem (u64 time_left) 1000000000)).
(** Called from auto_reset_event_futex.hpp 226-241 / manual_reset_event_futex.hpp 153-166 only after [time_left <= 0] was excluded. *)
Definition futex_rel_timeout (time_left : Z) : option timespec := if time_left <=? 0 then None else Some (futex_timespec time_left).

(** mach basic_semaphore::timed_wait, basic_semaphore_mach.hpp 102-127: mach_timespec_t {unsigned int, clock_res_t (int)}. *)
Definition mach_timeout (d : Z) : Z * Z :=
  let time_left := if d <? 0 then 0 else d in
  (u32 (cdiv time_left NS), i32 (cdiv (crem time_left NS) (cdiv 1000000000 NS))).

(** dispatch semaphore::priv_timed_wait(duration), semaphore_dispatch.hpp 95-117: None = DISPATCH_TIME_NOW. *)
Definition dispatch_timeout (d : Z) : option Z := if 0 <? d then Some (cdiv d (cdiv 1000000000 NS)) else None.

(** POSIX relative waits become absolute ones: condition_variable_posix.hpp 214-217, semaphore_posix.hpp 139-142,
    timed_mutex_posix.hpp 205-208. *)
Definition posix_deadline (now : timespec) (d : Z) : option timespec := px_add now d.

(** SetWaitableTimer reads the 64-bit value as a signed LARGE_INTEGER: negative means relative (basic_event_windows.hpp 146,
    semaphore_windows.hpp 153, timed_mutex_windows.hpp 124, basic_condition_variable_windows.hpp 226).
    Inl: absolute FILETIME; Inr: relative, in 100 ns. *)
Definition timer_due (tp : Z) : Z + Z := if i64 tp <? 0 then inr (- i64 tp) else inl (i64 tp).
