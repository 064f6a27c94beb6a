(** Construction and destruction of the objects of the library: which operating system objects are made and dropped, in which order, when any creating
    call may fail.  Property C62.

    Paths are relative to /repo/include/boost/sync/detail.  A class is described by its shape; constructor and destructor are then those of C++: members are
    constructed in order; if one throws, the members constructed before are destroyed in reverse order and the exception goes on; the destructor of a
    class does not run unless its constructor has finished.  (Objects made lazily after construction are C20, C26 and C54.) *)
From Coq Require Import List Bool ZArith Permutation.
Import ListNotations.

(** Kinds of operating system objects. pthread_mutex_t (mutex_posix.hpp 49-83), pthread_cond_t (condition_variable_posix.hpp 54), semaphores (semaphore_posix.hpp, semaphore_windows.hpp, basic_semaphore_mach.hpp, semaphore_dispatch.hpp), events (basic_event_windows.hpp). *)
Inductive kobj := OMutex | OCond | OSem | OEvent.

(** [Wrap k st]: a class that makes one object of kind [k] in its constructor and drops it in its destructor.  [st]: initialised statically
      (PTHREAD_MUTEX_INITIALIZER), which cannot fail; otherwise by a call that may fail, and then the constructor throws resource_error.
    [Class ms]: a class with members [ms] and nothing of its own.
    [Raw ks st]: a class whose operating system objects are plain members (without constructors and destructors), made one after the other in the constructor body
      and dropped one after the other, in the same order, in the destructor body. The shapes of the classes listed at [library]. The members of the classes, e.g. condition_variable_posix.hpp 54. *)
Inductive cobj := Wrap (k : kobj) (st : bool) | Class (ms : list cobj) | Raw (ks : list kobj) (st : bool).

(** A constructed object: the operating system objects it holds, by identity. A C++ object of one of the classes listed at [library]. No counterpart in /repo. *)
Inductive inst := IWrap (k : kobj) (id : nat) | IClass (is : list inst) | IRaw (ids : list (kobj * nat)).

(** Creating and destroying calls, e.g. condition_variable_posix.hpp 78 and 86. *)
Inductive rev := EMake (x : kobj * nat) | EDrop (x : kobj * nat).

(** One creating call.  [n]: next identity; [env]: outcomes of the calls that may fail (none left: failure). For example condition_variable_posix.hpp 78-80. *)
Definition make (k : kobj) (st : bool) (n : nat) (env : list bool) : nat * list bool * list rev * option nat :=
  if st then (S n, env, [EMake (k, n)], Some n)
  else match env with
       | true :: env' => (S n, env', [EMake (k, n)], Some n)
       | _ :: env' => (n, env', [], None)
       | [] => (n, [], [], None)
       end.

(** Constructor body of [Raw]: stops at the first failure (BOOST_SYNC_DETAIL_THROW), leaving what has been made. timed_mutex_posix.hpp 100-107. *)
Fixpoint make_all (ks : list kobj) (st : bool) (n : nat) (env : list bool) : nat * list bool * list rev * option (list (kobj * nat)) :=
  match ks with
  | [] => (n, env, [], Some [])
  | k :: ks' =>
      match make k st n env with
      | (n1, e1, t1, None) => (n1, e1, t1, None)
      | (n1, e1, t1, Some id) =>
          match make_all ks' st n1 e1 with
          | (n2, e2, t2, None) => (n2, e2, t1 ++ t2, None)
          | (n2, e2, t2, Some ids) => (n2, e2, t1 ++ t2, Some ((k, id) :: ids))
          end
      end
  end.

(** Destructors: members in reverse order of construction. C++ rule; bodies: timed_mutex_posix.hpp 113-119 and the destructors of the classes listed at [library]. *)
Fixpoint dtor (i : inst) : list rev :=
  match i with
  | IWrap k id => [EDrop (k, id)]
  | IClass is => (fix go (is : list inst) : list rev := match is with [] => [] | i1 :: is' => go is' ++ dtor i1 end) is
  | IRaw ids => map EDrop ids
  end.

(** Constructors. C++ rule; bodies: timed_mutex_posix.hpp 98-110 and the constructors of the classes listed at [library]. *)
Fixpoint ctor (o : cobj) (n : nat) (env : list bool) : nat * list bool * list rev * option inst :=
  match o with
  | Wrap k st => match make k st n env with (n1, e1, t1, Some id) => (n1, e1, t1, Some (IWrap k id)) | (n1, e1, t1, None) => (n1, e1, t1, None) end
  | Raw ks st => match make_all ks st n env with (n1, e1, t1, Some ids) => (n1, e1, t1, Some (IRaw ids)) | (n1, e1, t1, None) => (n1, e1, t1, None) end
  | Class ms =>
      match (fix go (ms : list cobj) (n : nat) (env : list bool) : nat * list bool * list rev * option (list inst) :=
        match ms with
        | [] => (n, env, [], Some [])
        | m :: ms' =>
            match ctor m n env with
            | (n1, e1, t1, None) => (n1, e1, t1, None)
            | (n1, e1, t1, Some i) =>
                match go ms' n1 e1 with
                | (n2, e2, t2, None) => (n2, e2, t1 ++ t2 ++ dtor i, None)  (* unwinding: destroyed after the later members *)
                | (n2, e2, t2, Some is) => (n2, e2, t1 ++ t2, Some (i :: is))
                end
            end
        end) ms n env with
      | (n1, e1, t1, Some is) => (n1, e1, t1, Some (IClass is))
      | (n1, e1, t1, None) => (n1, e1, t1, None)
      end
  end.

(** The whole life of an object: construction and, if it succeeded, destruction. C++ rule; no counterpart in /repo. *)
Definition life (o : cobj) (env : list bool) : list rev :=
  match ctor o 0 env with (_, _, t, Some i) => t ++ dtor i | (_, _, t, None) => t end.

(** The classes of the library. *)
(** mutexes/mutex_posix.hpp 49-83: static or pthread_mutex_init; pthread_mutex_destroy. *)
Definition mutex_posix (st : bool) : cobj := Wrap OMutex st.
(** condition_variables/condition_variable_posix.hpp 56-87. *)
Definition condition_variable_posix (st : bool) : cobj := Wrap OCond st.
(** mutexes/timed_mutex_posix.hpp 66-119 with pthread_mutex_timedlock: one pthread_mutex_t. *)
Definition timed_mutex_posix_native (st : bool) : cobj := Raw [OMutex] st.
(** The same without pthread_mutex_timedlock: m_mutex (line 61) and m_cond (line 63) are plain members, made at lines 100 and 105, destroyed at 115 and 117. *)
Definition timed_mutex_posix_emulated (st : bool) : cobj := Raw [OMutex; OCond] st.
(** events/auto_reset_event_emulation.hpp 107-109, manual_reset_event_emulation.hpp (same members), semaphore/semaphore_emulation.hpp 103-105,
    condition_variables/condition_variable_any_generic.hpp 65-66: a mutex and a condition variable, as members with destructors. *)
Definition emulation (st1 st2 : bool) : cobj := Class [mutex_posix st1; condition_variable_posix st2].
(** semaphore/semaphore_posix.hpp 43-56, basic_semaphore_mach.hpp 47-57, semaphore_dispatch.hpp 42-59, semaphore_windows.hpp 48-61. *)
Definition semaphore_native : cobj := Wrap OSem false.
(** semaphore/semaphore_mach.hpp 38-40, 65-66: wraps basic_semaphore. *)
Definition semaphore_mach : cobj := Class [semaphore_native].
(** events/auto_reset_event_semaphore.hpp 38-40, 108-110: m_sem, then the atomic m_state (no operating system object). *)
Definition auto_reset_event_semaphore : cobj := Class [semaphore_native].
(** events/basic_event_windows.hpp 48-61, and the events that wrap it. *)
Definition event_windows : cobj := Class [Wrap OEvent false].
(** The remaining ones hold nothing when constructed: the futex events, the spin mutexes, the Windows mutexes (constexpr constructors) and condition variables. auto_reset_event_futex.hpp 54-56, manual_reset_event_futex.hpp 52-54, spin_mutex.hpp 48, 92, shared_spin_mutex.hpp 48, basic_mutex_windows.hpp 65, basic_condition_variable_windows.hpp 145. *)
Definition stateless : cobj := Class [].

(** All classes of /repo/include/boost/sync/detail/{mutexes,events,semaphore,condition_variables}. *)
Definition library : list cobj :=
  flat_map (fun st => [mutex_posix st; condition_variable_posix st; timed_mutex_posix_native st; emulation st true; emulation st false]) [true; false] ++
  [timed_mutex_posix_emulated true; semaphore_native; semaphore_mach; auto_reset_event_semaphore; event_windows; stateless].

(** ** The initial count of a semaphore *)
Local Open Scope Z_scope.
(** LONG_MAX (semaphore_windows.hpp 51), INT_MAX. *)
Definition int_max : Z := 2147483647.
(** 2^32, range of unsigned int. *)
Definition two32 : Z := 4294967296.
(** Conversion of an unsigned int to a 32 bit signed integer (LONG, int), as all supported compilers do it. *)
Definition to_i32 (i : Z) : Z := if i <=? int_max then i else i - two32.

(** semaphore_windows.hpp, semaphore_posix.hpp, basic_semaphore_mach.hpp, semaphore_dispatch.hpp, semaphore_emulation.hpp. *)
Inductive semimpl := SWindows | SPosix (sem_value_max : Z) | SMach | SDispatch | SEmulation.

(** The dispatch loop, semaphore_dispatch.hpp 52-53: one signal per unit. *)
Fixpoint signal_n (k : nat) (count : Z) : Z := match k with O => count | S k' => signal_n k' (count + 1) end.

(** Constructor with initial count [i]; [ok]: the system has the resources.  [None]: resource_error.  [Some c]: the counter is [c].
    Windows: CreateSemaphore(NULL, i, LONG_MAX) takes a LONG and fails unless 0 <= count <= maximum.  POSIX: sem_init fails with EINVAL above SEM_VALUE_MAX.
    Mach: semaphore_create takes an int and rejects negative values.  Emulation: m_count(i). semaphore_windows.hpp 49-57, semaphore_posix.hpp 43-51, basic_semaphore_mach.hpp 47-52, semaphore_dispatch.hpp 43-54, semaphore_emulation.hpp 40-42. *)
Definition sem_ctor (s : semimpl) (i : Z) (ok : bool) : option Z :=
  match s with
  | SWindows => if ok && (0 <=? to_i32 i) && (to_i32 i <=? int_max) then Some (to_i32 i) else None
  | SPosix m => if ok && (i <=? m) then Some i else None
  | SMach => if ok && (0 <=? to_i32 i) then Some (to_i32 i) else None
  | SDispatch => if ok then Some (signal_n (Z.to_nat i) 0) else None
  | SEmulation => if ok then Some i else None
  end.

(** dispatch_release crashes if the counter is below the value given to dispatch_semaphore_create (comment at lines 45-47).  [created]: that value, 0 in the code;
    the rest of the initial count is added by signals.  [ops]: true is a post, false a wait that succeeds (only possible above zero). *)
Fixpoint dispatch_use (count : Z) (ops : list bool) : option Z :=
  match ops with
  | [] => Some count
  | true :: ops' => dispatch_use (count + 1) ops'
  | false :: ops' => if 0 <? count then dispatch_use (count - 1) ops' else None
  end.
(** ~semaphore, semaphore_dispatch.hpp 56-59. *)
Definition release_crashes (created i : Z) (ops : list bool) : option bool :=
  match dispatch_use (signal_n (Z.to_nat (i - created)) created) ops with Some c => Some (c <? created) | None => None end.
