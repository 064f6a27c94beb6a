(** Control flow of the waiting functions of the condition variables, with exceptions.

    Files (in /repo/include/boost/sync/detail/condition_variables): condition_variable_posix.hpp (P), basic_condition_variable_windows.hpp
    (B), condition_variable_windows.hpp (W), condition_variable_any_windows.hpp (A), condition_variable_any_generic.hpp (G).

    The functions run in a small monad: the state records whether the caller's lock and the internal mutex are held by this thread and
    everything that happened so far; an oracle (a list of numbers, any length) answers each call the function makes: whether a
    lock or unlock throws, whether a kernel wait ends by a notification, a timeout or an error, what another thread left in a shared
    counter, what the predicate returns, what the clock says.  An exhausted oracle means "has not returned (yet)".
    Scope guards are modelled as combinators that run their destructor on every exit; a destructor that throws while an exception is
    being propagated, and an exception leaving a noexcept function, terminate the program. *)
From Coq Require Import List Bool ZArith.
Import ListNotations.

(** How a kernel wait ends: pthread_cond_wait / pthread_cond_timedwait (P208, P222), WaitForSingleObject / WaitForMultipleObjects (B331, B364, B420). *)
Inductive kans := KWoken | KExpired | KFailed.

(** What a caller or the kernel can observe of P106-244, B106-469, G44-170; [internal_held], [user_held]: is the internal mutex / the caller's lock held at that moment? *)
Inductive ev :=
| EvEnlist (internal_held : bool)       (* this thread is registered as a waiter, B284-325 *)
| EvFound (b internal_held : bool)      (* the look for a notification: was there one? *)
| EvClock (n : Z)                       (* a reading of the clock *)
| EvFor (t : Z)                         (* a relative wait within a wait with a deadline, B248 *)
| EvAnswer (a : kans)                   (* how the kernel wait ended *)
| EvFault                               (* a call throws: internal mutex, waiter state, timer, unlocking the caller's lock, predicate *)
| EvUnlockUser (internal_held : bool)   (* the caller's lock is released; is the internal mutex held at that moment? *)
| EvLockUser (internal_held : bool)     (* the caller's lock is re-acquired *)
| EvLockFailed                          (* re-acquiring the caller's lock threw *)
| EvKernel (deadline : Z) (user_held internal_held : bool) (* a blocking kernel wait; the deadline passed to it, if any *)
| EvTimeout                             (* an inner wait reported a timeout *)
| EvPred (v : bool) (user_held : bool). (* predicate evaluated: its value, and whether the caller's lock was held *)

(** [rel]: the relocker object's m_unlocked (B111) / m_lock != NULL (G48). *)
Record st := ST { orc : list nat; user : bool; intl : bool; rel : bool; log : list ev }.

(** Outcomes of a C++ function: returns, throws, std::terminate (BOOST_NOEXCEPT: B124), has not returned yet.  No counterpart in /repo. *)
Inductive res (A : Type) := Val (a : A) | Exn | Term | Blocked.
Arguments Val {A}. Arguments Exn {A}. Arguments Term {A}. Arguments Blocked {A}.

(** Model machinery: state-passing with the outcomes above; no counterpart in /repo. *)
Definition M (A : Type) := st -> res A * st.
(** Model machinery: return; no counterpart in /repo. *)
Definition ret {A} (a : A) : M A := fun s => (Val a, s).
(** BOOST_SYNC_DETAIL_THROW (P210, P226, B229, B343, B395, B432). *)
Definition throw {A} : M A := fun s => (Exn, s).
(** std::terminate; reached through [noexcept] and [finally] only. C++ language rule; no counterpart in /repo. *)
Definition terminate {A} : M A := fun s => (Term, s).
(** Model machinery: sequencing of statements; no counterpart in /repo. *)
Definition bind {A B} (m : M A) (f : A -> M B) : M B := fun s =>
  match m s with
  | (Val a, s') => f a s'
  | (Exn, s') => (Exn, s')
  | (Term, s') => (Term, s')
  | (Blocked, s') => (Blocked, s')
  end.
Notation "x <- m ;; k" := (bind m (fun x => k)) (at level 61, m at next level, right associativity).
Notation "m ;;; k" := (bind m (fun _ => k)) (at level 61, right associativity).

(** Model machinery: one answer of the environment; no counterpart in /repo. *)
Definition ask : M nat := fun s =>
  match orc s with [] => (Blocked, s) | x :: r => (Val x, ST r (user s) (intl s) (rel s) (log s)) end.
(** Model machinery: records an observable event; no counterpart in /repo. *)
Definition emit (e : ev) : M unit := fun s => (Val tt, ST (orc s) (user s) (intl s) (rel s) (log s ++ [e])).
(** The caller's lock object is (not) locked: the [lock] parameter of B196, P100, G91. *)
Definition set_user (b : bool) : M unit := fun s => (Val tt, ST (orc s) b (intl s) (rel s) (log s)).
(** m_internal_mutex (B136) / m_mutex of the generic version is (not) held by this thread. *)
Definition set_intl (b : bool) : M unit := fun s => (Val tt, ST (orc s) (user s) b (rel s) (log s)).
(** Assignment to m_unlocked (B114, B127) / m_lock (G51, G62). *)
Definition set_rel (b : bool) : M unit := fun s => (Val tt, ST (orc s) (user s) (intl s) b (log s)).
(** B120 / G55. *)
Definition get_rel : M bool := fun s => (Val (rel s), s).
(** Whether this thread holds m_internal_mutex (B136). *)
Definition get_intl : M bool := fun s => (Val (intl s), s).
(** Whether the caller's lock is held (P102: BOOST_ASSERT(lock.owns_lock())). *)
Definition get_user : M bool := fun s => (Val (user s), s).

(** A destructor [d] run when [m] is left in any way but termination. C++ destructors at scope exit: relocker B118-122 / G53-57, lock_guard B174, B286, B336-346. *)
Definition finally {A} (m : M A) (d : M unit) : M A := fun s =>
  match m s with
  | (Val a, s') => match d s' with
                   | (Val _, s2) => (Val a, s2)
                   | (Exn, s2) => (Exn, s2)
                   | (Term, s2) => (Term, s2)
                   | (Blocked, s2) => (Blocked, s2)
                   end
  | (Exn, s') => match d s' with
                 | (Val _, s2) => (Exn, s2)
                 | (Exn, s2) => (Term, s2)
                 | (Term, s2) => (Term, s2)
                 | (Blocked, s2) => (Blocked, s2)
                 end
  | r => r
  end.
(** BOOST_NOEXCEPT, B124. *)
Definition noexcept {A} (m : M A) : M A := fun s => match m s with (Exn, s') => (Term, s') | r => r end.

(** A call made by the waiting function throws: std::bad_alloc, resource_error, lock_error (B286, B303-318, B222-230), whatever the caller's lock or predicate throws. *)
Definition fault {A} : M A := emit EvFault ;;; throw.
(** Answers: 0 = success for every call; a lock/unlock answered by 1 throws and leaves the lock as it was. m_lock.lock(), B121 / G56. *)
Definition lock_user : M unit := x <- ask ;; match x with 1 => emit EvLockFailed ;;; throw | _ => i <- get_intl ;; emit (EvLockUser i) ;;; set_user true end.
(** m_lock.unlock(), B126 / G61. *)
Definition unlock_user : M unit := x <- ask ;; match x with 1 => fault | _ => i <- get_intl ;; emit (EvUnlockUser i) ;;; set_user false end.
(** lock_guard internal_lock(m_internal_mutex), B286, B336, B346, B369, B388, B400, B425, B439, B452; may throw (the Windows mutex creates an event on contention). *)
Definition lock_intl : M unit := x <- ask ;; match x with 1 => fault | _ => set_intl true end.
(** ~lock_guard, lock_guard.hpp 56-59. *)
Definition unlock_intl : M unit := set_intl false.
(** lock_guard< mutex > / unique_lock< mutex > over the internal mutex. The guarded blocks B286-324, B336-342, B346-353, B369-377, B388-394, B400-409, B425-431, B439-447, B452-462. *)
Definition with_internal {A} (m : M A) : M A := lock_intl ;;; finally m unlock_intl.
(** Evaluation of the user's predicate (answer 1: true, 2: it throws, otherwise false). P111 P130 P133 P144 P147, W77 A71 G102 and the like. *)
Definition pred : M bool :=
  x <- ask ;; u <- get_user ;;
  match x with 1 => emit (EvPred true u) ;;; ret true | 2 => fault | _ => emit (EvPred false u) ;;; ret false end.

(** cv_status. /repo/include/boost/sync/condition_variables/cv_status.hpp 30-35. *)
Inductive status := NoTimeout | Timeout.
(** Records P224, P243, B252, B409, B461. *)
Definition note (r : status) : M status := match r with Timeout => emit EvTimeout ;;; ret Timeout | NoTimeout => ret NoTimeout end.

(** A kernel wait with the given deadline (0: none, or relative); answers: 0 woken, 2 expired if it is [timed], otherwise failed. P208, P222, B331, B364, B420; inside the condition
    variable used by G96, G113 and the like. *)
Definition kernel (timed : bool) (d : Z) : M kans :=
  u <- get_user ;; i <- get_intl ;; emit (EvKernel d u i) ;;; x <- ask ;;
  let a := match x with 0 => KWoken | 2 => if timed then KExpired else KFailed | _ => KFailed end in
  emit (EvAnswer a) ;;; ret a.

(** ** POSIX (P).  pthread_cond_wait / pthread_cond_timedwait (expired: ETIMEDOUT) release and re-acquire the
    caller's mutex themselves; an error leaves it locked. *)
Definition p_wait : M unit :=                                    (* priv_wait P206-211 *)
  a <- kernel false 0 ;; match a with KWoken => ret tt | _ => throw end.
Definition p_timed_abs (d : Z) : M status :=                     (* priv_timed_wait(system_time_point) P219-228 *)
  a <- kernel true d ;; match a with KWoken => ret NoTimeout | KExpired => note Timeout | KFailed => throw end.
(** system_time_point::now() P216, clock::now() P236 P241 B245 B250. *)
Definition clock_now : M Z := x <- ask ;; emit (EvClock (Z.of_nat x)) ;;; ret (Z.of_nat x).
Definition p_timed_rel (d : Z) : M status :=                     (* priv_timed_wait(system_duration) P213-217 *)
  n <- clock_now ;; p_timed_abs (n + d).
Fixpoint p_timed_chrono (fuel : nat) (d : Z) : M status :=       (* priv_timed_wait(chrono_time_point) P230-244 *)
  match fuel with
  | O => fun s => (Blocked, s)
  | S fuel' =>
      now <- clock_now ;;
      if (now <? d)%Z then
        r <- p_timed_rel (d - now) ;;
        match r with NoTimeout => ret NoTimeout | Timeout => p_timed_chrono fuel' d end
      else note Timeout
  end.

(** ** Windows (B). *)
(** relocker, B106-132: [unlock] is noexcept, the destructor re-locks if the lock was released. *)
Definition relocker_dtor : M unit := u <- get_rel ;; if u then lock_user else ret tt.
(** B198, B210, B222; G93 and its siblings. *)
Definition with_relocker {A} (m : M A) : M A := set_rel false ;;; finally m relocker_dtor.
(** B124-128 / G59-63. *)
Definition relocker_unlock : M unit := unlock_user ;;; set_rel true.
(** initiate_wait B284-325: under the internal mutex; creating a new waiter state may throw (answer 1). *)
Definition initiate_wait : M unit := with_internal (x <- ask ;; match x with 1 => fault | _ => i <- get_intl ;; emit (EvEnlist i) end).
(** The check "m_notify_count > 0" under the internal mutex (answer 1: yes). B346-353, B369-377, B439-447; on an error B336-342, B388-394, B425-431; on a timeout B400-409, B452-462.  The counters themselves are in WinCvModel.v. *)
Definition check_notified : M bool := with_internal (x <- ask ;; i <- get_intl ;; emit (EvFound (Nat.eqb x 1) i) ;;; ret (Nat.eqb x 1)).
(** priv_wait B327-355. *)
Fixpoint b_priv_wait (fuel : nat) : M unit :=
  match fuel with
  | O => fun s => (Blocked, s)
  | S fuel' =>
      a <- kernel false 0 ;;
      match a with
      | KWoken => b <- check_notified ;; if b then ret tt else b_priv_wait fuel'
      | _ => check_notified ;;; throw
      end
  end.
(** priv_timed_wait(system_duration) B357-410; one kernel wait per slice (expired: timeout of the slice;
    [left]: remaining slices, see TimedLoops for their lengths). *)
Fixpoint b_priv_timed (fuel : nat) (left_ : nat) : M status :=
  match fuel with
  | O => fun s => (Blocked, s)
  | S fuel' =>
      match left_ with
      | O => b <- check_notified ;; if b then ret NoTimeout else note Timeout
      | S left' =>
          a <- kernel true 0 ;;
          match a with
          | KWoken => b <- check_notified ;; if b then ret NoTimeout else b_priv_timed fuel' left_
          | KExpired => b_priv_timed fuel' left'
          | KFailed => check_notified ;;; throw
          end
      end
  end.
(** priv_timed_wait(timer) B412-469 (expired: the timer). *)
Fixpoint b_priv_timer (fuel : nat) (d : Z) : M status :=
  match fuel with
  | O => fun s => (Blocked, s)
  | S fuel' =>
      a <- kernel true d ;;
      match a with
      | KWoken => b <- check_notified ;; if b then ret NoTimeout else b_priv_timer fuel' d
      | KExpired => b <- check_notified ;; if b then ret NoTimeout else note Timeout
      | KFailed => check_notified ;;; throw
      end
  end.
Definition b_wait (fuel : nat) : M unit :=                       (* wait B195-205 *)
  with_relocker (initiate_wait ;;; noexcept relocker_unlock ;;; b_priv_wait fuel).
Definition b_timed_rel (fuel slices : nat) : M status :=         (* timed_wait(system_duration) B207-217 *)
  with_relocker (initiate_wait ;;; noexcept relocker_unlock ;;; b_priv_timed fuel slices).
Definition b_timed_abs (fuel : nat) (d : Z) : M status :=        (* timed_wait(system_time_point) B219-237; setting the timer may throw *)
  with_relocker (x <- ask ;; match x with 1 => fault | _ => initiate_wait ;;; noexcept relocker_unlock ;;; b_priv_timer fuel d end).
Fixpoint b_timed_chrono (fuel : nat) (d : Z) : M status :=       (* timed_wait(chrono_time_point) B239-253 *)
  match fuel with
  | O => fun s => (Blocked, s)
  | S fuel' =>
      now <- clock_now ;;
      if (now <? d)%Z then
        emit (EvFor (d - now)) ;;; k <- ask ;; r <- b_timed_rel fuel' k ;;
        match r with NoTimeout => ret NoTimeout | Timeout => b_timed_chrono fuel' d end
      else note Timeout
  end.

(** ** Generic condition_variable_any (G), over mutex + condition_variable. *)
(** relocker G44-64: the pointer is set only after lock.unlock() has returned; unlock is not noexcept here.
    wait G90-97, timed_wait G106-114, wait_until G128-136, wait_for G150-158 all have this shape around a wait on the inner condition
    variable, which is given the internal mutex as its lock. *)
Definition g_shape {A} (inner : M A) : M A :=
  with_relocker (with_internal (relocker_unlock ;;; inner)).
(** G90-97. *)
Definition g_wait : M unit := g_shape (a <- kernel false 0 ;; match a with KWoken => ret tt | _ => throw end).
(** G106-114, G128-136, G150-158. *)
Definition g_timed (d : Z) : M status :=
  g_shape (a <- kernel true d ;; match a with KWoken => ret NoTimeout | KExpired => note Timeout | KFailed => throw end).

(** ** Predicate forms.
    wait(lock, pred): P106-113 W73-79 A68-73 G99-104;
    timed: P123-150 P160-173 P183-195, W89-116 W126-139 W149-161, A82-107 A116-128 A137-148, G116-126 G138-148 G160-170. *)
Fixpoint wait_pred (fuel : nat) (w : M unit) : M unit :=
  match fuel with
  | O => fun s => (Blocked, s)
  | S fuel' => b <- pred ;; if b then ret tt else w ;;; wait_pred fuel' w
  end.
(** For example P130-135. *)
Fixpoint timed_pred (fuel : nat) (w : M status) : M bool :=
  match fuel with
  | O => fun s => (Blocked, s)
  | S fuel' =>
      b <- pred ;;
      if b then ret true
      else r <- w ;;
           match r with NoTimeout => timed_pred fuel' w | Timeout => pred end
  end.

(** ** The complete list of waiting functions: the primitive waits of each implementation ... condition_variable_posix.hpp; basic_condition_variable_windows.hpp (used by W and A); condition_variable_any_generic.hpp. *)
Inductive impl := Posix | Windows | Generic.
(** P206-211, B195-205, G90-97. *)
Definition basic_wait (i : impl) (fuel : nat) : M unit :=
  match i with Posix => p_wait | Windows => b_wait fuel | Generic => g_wait end.
(** ... and the timed ones: relative, absolute on the system clock, absolute on another clock.  [n], [d]: slices / time value.
    In the generic version all three are the same shape around the inner condition variable's function. Overloads for system_duration, system_time_point, chrono_time_point: P213, P219, P230; B207, B219, B239. *)
Inductive tkind := Rel | Abs | Chrono.
(** P213-244, B207-253, G106-158. *)
Definition basic_timed (i : impl) (k : tkind) (fuel n : nat) (d : Z) : M status :=
  match i, k with
  | Posix, Rel => p_timed_rel d
  | Posix, Abs => p_timed_abs d
  | Posix, Chrono => p_timed_chrono fuel d
  | Windows, Rel => b_timed_rel fuel n
  | Windows, Abs => b_timed_abs fuel d
  | Windows, Chrono => b_timed_chrono fuel d
  | Generic, _ => g_timed d
  end.
