(** How system call results become return values and exceptions.  The environment is the list of results of successive system
    calls; an exhausted list means "still blocked".  BOOST_ASSERT(false): the model is of builds with NDEBUG,
    where the statement after it is executed (with assertions enabled the process aborts instead). *)
From Coq Require Import List Bool ZArith.
Import ListNotations.
Local Open Scope Z_scope.

(** The values distinguished by semaphore_posix.hpp 58-167, mutex_posix.hpp 87-110, timed_mutex_posix.hpp 123-144, 212-241, condition_variable_posix.hpp 206-228. *)
Inductive errno := EINTR | EINVAL | EAGAIN | EBUSY | ETIMEDOUT | EOVERFLOW | EOTHER (code : Z).
(** Result of one system call: 0, or -1 / an error code. Operating system; no counterpart in /repo. *)
Inductive sysres := SOk | SErr (e : errno).
(** Exception classes of /repo/include/boost/sync/exceptions. *)
Inductive exn := Xwait | Xlock | Xoverflow | Xresource | Xruntime.
(** How the function ends: returns nothing, returns a bool, throws (BOOST_SYNC_DETAIL_THROW, throw_exception.hpp), is still blocked. *)
Inductive out (E : Type) := OVoid | OBool (b : bool) | OThrow (x : exn) (code : E) | OBlocked.
Arguments OVoid {E}. Arguments OBool {E}. Arguments OThrow {E}. Arguments OBlocked {E}.

(** ** POSIX semaphore, semaphore/semaphore_posix.hpp *)

(** post, 58-77. *)
Definition psem_post (r : sysres) : out errno :=
  match r with
  | SOk => OVoid
  | SErr EOVERFLOW => OThrow Xoverflow EOVERFLOW
  | SErr _ => OVoid            (* EINVAL: assertion; default: ignored *)
  end.

(** wait, 79-99. *)
Fixpoint psem_wait (rs : list sysres) : out errno :=
  match rs with
  | [] => OBlocked
  | SOk :: _ => OVoid
  | SErr EINTR :: rs' => psem_wait rs'
  | SErr _ :: _ => OVoid       (* EINVAL, default: assertion, return *)
  end.

(** try_wait, 101-118. *)
Definition psem_try_wait (r : sysres) : out errno :=
  match r with SOk => OBool true | SErr _ => OBool false end.

(** priv_timed_wait(system_time_point), 144-167. *)
Fixpoint psem_timed_wait (rs : list sysres) : out errno :=
  match rs with
  | [] => OBlocked
  | SOk :: _ => OBool true
  | SErr EINTR :: rs' => psem_timed_wait rs'
  | SErr _ :: _ => OBool false (* ETIMEDOUT; EINVAL, EAGAIN, default: assertion *)
  end.

(** ** pthread mutexes.  [eintr]: the workaround of pthread.hpp 64-152 is compiled in (BOOST_SYNC_HAS_PTHREAD_EINTR_BUG). *)
Fixpoint pcall (eintr : bool) (rs : list sysres) : option sysres :=
  match rs with
  | [] => None
  | SErr EINTR :: rs' => if eintr then pcall eintr rs' else Some (SErr EINTR)
  | r :: _ => Some r
  end.

(** mutex::lock, mutex_posix.hpp 87-94; timed_mutex::lock, timed_mutex_posix.hpp 123-128. *)
Definition pmutex_lock (eintr : bool) (rs : list sysres) : out errno :=
  match pcall eintr rs with
  | None => OBlocked
  | Some SOk => OVoid
  | Some (SErr e) => OThrow Xlock e
  end.
(** try_lock, mutex_posix.hpp 101-110; timed_mutex_posix.hpp 135-144. *)
Definition pmutex_try_lock (eintr : bool) (rs : list sysres) : out errno :=
  match pcall eintr rs with
  | None => OBlocked
  | Some SOk => OBool true
  | Some (SErr EBUSY) => OBool false
  | Some (SErr e) => OThrow Xlock e
  end.
(** timed_mutex::priv_timed_lock(system_time_point) with pthread_mutex_timedlock, timed_mutex_posix.hpp 212-220. *)
Definition pmutex_timed_lock (eintr : bool) (rs : list sysres) : out errno :=
  match pcall eintr rs with
  | None => OBlocked
  | Some SOk => OBool true
  | Some (SErr ETIMEDOUT) => OBool false
  | Some (SErr e) => OThrow Xlock e
  end.
(** condition_variable::priv_wait and priv_timed_wait(system_time_point), condition_variable_posix.hpp 205-210, 220-228
    ([OBool true]: no_timeout). *)
Definition pcv_wait (eintr : bool) (rs : list sysres) : out errno :=
  match pcall eintr rs with
  | None => OBlocked
  | Some SOk => OVoid
  | Some (SErr e) => OThrow Xwait e
  end.
(** condition_variable_posix.hpp 219-228. *)
Definition pcv_timed_wait (eintr : bool) (rs : list sysres) : out errno :=
  match pcall eintr rs with
  | None => OBlocked
  | Some SOk => OBool true
  | Some (SErr ETIMEDOUT) => OBool false
  | Some (SErr e) => OThrow Xwait e
  end.

(** ** Mach semaphore, semaphore/basic_semaphore_mach.hpp *)
Inductive kern := KSuccess | KInvalidArgument | KTerminated | KAborted | KTimedOut | KOther (code : Z).
(** The error codes given to wait_error in basic_semaphore_mach.hpp 69-94, 150-175. *)
Inductive merr := MInvalidArgument | MOperationCanceled.

(** wait, 69-94. *)
Fixpoint mach_wait (rs : list kern) : out merr :=
  match rs with
  | [] => OBlocked
  | KSuccess :: _ => OVoid
  | KAborted :: rs' => mach_wait rs'
  | (KInvalidArgument | KTerminated) :: _ => OThrow Xwait MInvalidArgument
  | _ :: _ => OThrow Xwait MOperationCanceled
  end.
(** priv_timed_wait, 150-175, used by try_wait (96-100) and the timed waits (102-148). *)
Definition mach_timed_wait (r : kern) : out merr :=
  match r with
  | KSuccess => OBool true
  | KTimedOut => OBool false
  | KInvalidArgument | KTerminated => OThrow Xwait MInvalidArgument
  | _ => OThrow Xwait MOperationCanceled
  end.

(** ** Windows.  [WAbandoned]: any result that is not one of the expected ones. Results of WaitForSingleObject / WaitForMultipleObjects as tested in semaphore_windows.hpp 74-177, basic_event_windows.hpp 83-169. *)
Inductive wait_res := WObj0 | WObj1 | WTimeout | WFailed (err : Z) | WAbandoned.

(** semaphore::post, semaphore_windows.hpp 64-72; [None]: ReleaseSemaphore succeeded. *)
Definition wsem_post (r : option Z) : out Z := match r with None => OVoid | Some e => OThrow Xoverflow e end.
(** semaphore::wait, 74-81.  GetLastError after a result other than WAIT_FAILED is whatever was there before ([last]). *)
Definition werr (last : Z) (r : wait_res) : Z := match r with WFailed e => e | _ => last end.
(** semaphore_windows.hpp 74-81. *)
Definition wsem_wait (last : Z) (r : wait_res) : out Z :=
  match r with WObj0 => OVoid | _ => OThrow Xwait (werr last r) end.
(** semaphore::try_wait, 84-94. *)
Definition wsem_try_wait (r : wait_res) : out Z :=
  match r with WFailed e => OThrow Xwait e | WObj0 => OBool true | _ => OBool false end.
(** semaphore::priv_timed_wait(system_time_point), 147-177, after SetWaitableTimer ([timer]: its error, if it failed). *)
Definition wsem_timed_wait (timer : option Z) (r : wait_res) : out Z :=
  match timer with
  | Some e => OThrow Xwait e
  | None =>
      match r with
      | WObj0 => OBool true
      | WFailed e => OThrow Xlock e
      | _ => OBool false
      end
  end.
(** basic_event, basic_event_windows.hpp: set / reset 63-81, wait 83-91, try_wait 93-106, timed_wait(system_time_point) 140-169. *)
Definition wev_set (r : option Z) : out Z := match r with None => OVoid | Some e => OThrow Xruntime e end.
(** basic_event_windows.hpp 83-91. *)
Definition wev_wait (last : Z) (r : wait_res) : out Z :=
  match r with WObj0 => OVoid | _ => OThrow Xwait (werr last r) end.
(** basic_event_windows.hpp 93-106. *)
Definition wev_try_wait (last : Z) (r : wait_res) : out Z :=
  match r with WObj0 => OBool true | WTimeout => OBool false | _ => OThrow Xwait (werr last r) end.
(** basic_event_windows.hpp 140-169. *)
Definition wev_timed_wait (timer : option Z) (r : wait_res) : out Z :=
  match timer with
  | Some e => OThrow Xwait e
  | None =>
      match r with
      | WFailed e => OThrow Xwait e
      | WObj0 => OBool true
      | _ => OBool false
      end
  end.
