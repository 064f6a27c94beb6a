(** Configuration: which implementation of each object the headers select, what it is made of, under which name it is compiled, and which sources of the library are active.
      /repo/include/boost/sync/detail/config.hpp ("C:"), detail/semaphore_config.hpp ("S:"), detail/pthread.hpp ("H:"), detail/atomic.hpp ("A:"), detail/time_units.hpp ("U:"),
      detail/mutexes/spin_mutex.hpp ("M:"), the public headers (cited by name), /repo/build/Jamfile.v2 ("J:"), /repo/src/tss_windows_dll.cpp ("D:"), tss_windows_pe.cpp ("E:"),
      tss_pthread.cpp ("X:"), tss_windows.cpp ("W:").
    A configuration is the set of macros in force when a translation unit is compiled.  A macro compared with a number counts as 0 when it is not defined (C++ rule);
    macros that are only tested with defined() are booleans.  Simplified: several spellings of one fact (C:35, C:39, C:58) are one boolean. *)
From Coq Require Import List Bool ZArith.
Import ListNotations.
Local Open Scope Z_scope.

(** The macros that C, S, H, A, U, M, E test. *)
Record macros := Mac {
  use_pthread : bool;               (* BOOST_SYNC_USE_PTHREAD, C:26 *)
  windows : bool;                   (* BOOST_WINDOWS, C:30 *)
  linux : bool;                     (* __linux__ or its other spellings, C:35 *)
  apple : bool;                     (* macintosh, __APPLE__, __APPLE_CC__, C:39 *)
  winver : Z;                       (* BOOST_USE_WINAPI_VERSION, C:51 C:72 *)
  user_tls : bool;                  (* BOOST_SYNC_USE_COMPILER_TLS given by the user, C:50 *)
  gnuc : bool;                      (* __GNUC__ or __SUNPRO_CC, C:58 *)
  msvc : Z;                         (* BOOST_MSVC, 0: not that compiler; C:60, A:23-25 *)
  osx_min : option Z;               (* __MAC_OS_X_VERSION_MIN_REQUIRED, S:21-23 *)
  iphone_min : option Z;            (* __IPHONE_OS_VERSION_MIN_REQUIRED, S:27-30 *)
  unistd : bool;                    (* BOOST_HAS_UNISTD_H, S:38 *)
  posix_sem : Z;                    (* _POSIX_SEMAPHORES, S:41 *)
  posix_timeouts : option Z;        (* _POSIX_TIMEOUTS, H:31-32 *)
  given_timedlock : bool;           (* BOOST_SYNC_DETAIL_PTHREAD_HAS_TIMEDLOCK defined before, H:33 *)
  clock_gettime : bool;             (* BOOST_HAS_CLOCK_GETTIME, U:183 *)
  given_std_atomic : bool;          (* BOOST_SYNC_USE_STD_ATOMIC given by the user, A:14 *)
  clang : bool;                     (* BOOST_CLANG, A:16 *)
  gcc : Z;                          (* BOOST_GCC, 0: not that compiler, A:29-31 *)
  cplusplus : Z;                    (* __cplusplus, A:19 A:31 *)
  has_atomic_header : bool;         (* __has_include( <atomic> ), A:19 *)
  atomic_bool_lockfree : Z;         (* ATOMIC_BOOL_LOCKFREE, M:28 *)
  boost_atomic_bool_lockfree : Z }. (* BOOST_ATOMIC_BOOL_LOCKFREE, M:31 *)

(** Exactly one BOOST_SYNC_DETAIL_PLATFORM_ macro is defined, C:26-48. *)
Inductive platform := PPosix | PWinapi | PLinux | PMach.
(** The chain C:26-48; it has a final #else, so that the #error of C:80 is unreachable. *)
Definition platform_of (m : macros) : platform :=
  if use_pthread m then PPosix else if windows m then PWinapi else if linux m then PLinux else if apple m then PMach else PPosix.

(** BOOST_WINAPI_VERSION_WIN6 (Boost.WinAPI), used in C:51 and C:72. *)
Definition win6 : Z := 1536.
(** __MAC_10_6 (Availability.h), S:23. *)
Definition mac_10_6 : Z := 1060.
(** __IPHONE_4_0 (Availability.h), S:30. *)
Definition iphone_4_0 : Z := 40000.

(** BOOST_SYNC_DETAIL_ABI_NAMESPACE, C:67-81. *)
Inductive abi := NPosix | NLinux | NWin6 | NWin5 | NMach.
(** C:67-81. *)
Definition abi_of (m : macros) : abi :=
  match platform_of m with
  | PPosix => NPosix | PLinux => NLinux | PMach => NMach
  | PWinapi => if win6 <=? winver m then NWin6 else NWin5
  end.

(** BOOST_SYNC_DETAIL_TLS is defined, C:50-65. *)
Definition compiler_tls (m : macros) : bool :=
  (user_tls m || (match platform_of m with PWinapi => win6 <=? winver m | _ => false end)) && (gnuc m || (0 <? msvc m)).

(** BOOST_SYNC_DETAIL_USE_DISPATCH_SEMAPHORES, S:18-36. *)
Definition dispatch_sem (m : macros) : bool :=
  match platform_of m with
  | PMach => match osx_min m, iphone_min m with
             | Some v, _ => mac_10_6 <=? v
             | None, Some v => iphone_4_0 <=? v
             | None, None => false
             end
  | _ => false
  end.
(** BOOST_SYNC_DETAIL_USE_POSIX_SEMAPHORES, S:38-44. *)
Definition posix_semaphores (m : macros) : bool := negb (dispatch_sem m) && unistd m && (200112 <=? posix_sem m).
(** BOOST_SYNC_DETAIL_PTHREAD_HAS_TIMEDLOCK, H:31-37. *)
Definition has_timedlock (m : macros) : bool :=
  given_timedlock m || match posix_timeouts m with Some v => (0 <=? v) && (200112 <=? v) | None => false end.
(** BOOST_SYNC_USE_STD_ATOMIC, A:14-37. *)
Definition std_atomic (m : macros) : bool :=
  given_std_atomic m ||
  (if clang m then (201103 <=? cplusplus m) && has_atomic_header m
   else if 0 <? msvc m then 1700 <=? msvc m
   else if 0 <? gcc m then (40800 <=? gcc m) && (201103 <=? cplusplus m)
   else false).
(** BOOST_SYNC_DETAIL_SPINLOCK_BOOL, M:28-33. *)
Definition spinlock_bool (m : macros) : bool :=
  if std_atomic m then atomic_bool_lockfree m =? 2 else boost_atomic_bool_lockfree m =? 2.

(** The public classes. mutexes.hpp, events.hpp, condition_variables.hpp, semaphore.hpp. *)
Inductive obj := OMutex | OTimedMutex | OSpin | OShared | OCond | OCondAny | OSem | OAuto | OManual.
(** The files of detail/ that define them; [FSpinBool], [FSpinFlag]: the two branches of M:38-124; [FTimedNative], [FTimedEmulated]: those of timed_mutex_posix.hpp. *)
Inductive file :=
| FMutexPosix | FMutexWindows | FTimedNative | FTimedEmulated | FTimedWindows | FSpinBool | FSpinFlag | FShared
| FCondPosix | FCondWindows | FCondAnyGeneric | FCondAnyWindows
| FSemWindows | FSemDispatch | FSemPosix | FSemEmulation | FSemMach
| FAutoWindows | FAutoFutex | FAutoSemaphore | FAutoEmulation
| FManualWindows | FManualFutex | FManualEmulation.

(** semaphore.hpp 138-146. *)
Definition select_sem (m : macros) : file :=
  match platform_of m with
  | PWinapi => FSemWindows
  | _ => if dispatch_sem m then FSemDispatch else if posix_semaphores m then FSemPosix else FSemEmulation
  end.
(** The #if chains of mutexes/mutex.hpp 101-105, mutexes/timed_mutex.hpp 149-153 (and timed_mutex_posix.hpp 31-64), mutexes/spin_mutex.hpp 82, mutexes/shared_spin_mutex.hpp 105, condition_variables/condition_variable.hpp 278-282,
    condition_variables/condition_variable_any.hpp 232-236, semaphore.hpp 138-146, events/auto_reset_event.hpp 140-152, events/manual_reset_event.hpp 147-153. *)
Definition select (m : macros) (o : obj) : file :=
  match o with
  | OMutex => match platform_of m with PWinapi => FMutexWindows | _ => FMutexPosix end
  | OTimedMutex => match platform_of m with PWinapi => FTimedWindows | _ => if has_timedlock m then FTimedNative else FTimedEmulated end
  | OSpin => if spinlock_bool m then FSpinBool else FSpinFlag
  | OShared => FShared
  | OCond => match platform_of m with PWinapi => FCondWindows | _ => FCondPosix end
  | OCondAny => match platform_of m with PWinapi => FCondAnyWindows | _ => FCondAnyGeneric end
  | OSem => select_sem m
  | OAuto => match platform_of m with
             | PWinapi => FAutoWindows
             | PLinux => FAutoFutex
             | _ => if posix_semaphores m || dispatch_sem m then FAutoSemaphore else FAutoEmulation
             end
  | OManual => match platform_of m with PWinapi => FManualWindows | PLinux => FManualFutex | _ => FManualEmulation end
  end.

(** System interfaces: Windows API; pthreads; pthread_mutex_timedlock; futex; sem_t; libdispatch; Mach semaphores. The system headers included by mutex_posix.hpp 26, timed_mutex_posix.hpp 53, detail/futex.hpp 26, semaphore_posix.hpp 186, semaphore_dispatch.hpp 143, basic_semaphore_mach.hpp 178 and the Windows files. *)
Inductive api := AWin | APthread | ATimedlock | AFutex | ASem | ADispatch | AMachSem.
(** What a file uses, through the public headers it includes as well: auto_reset_event_semaphore.hpp 20, *_emulation.hpp 18-19, condition_variable_any_generic.hpp 26-27,
    basic_condition_variable_windows.hpp 38. The Windows API through mutex_windows.hpp 21 and the other basic_ files. *)
Definition direct (f : file) : list api :=
  match f with
  | FMutexPosix | FTimedEmulated | FCondPosix => [APthread]
  | FTimedNative => [APthread; ATimedlock]
  | FMutexWindows | FTimedWindows | FCondWindows | FCondAnyWindows | FSemWindows | FAutoWindows | FManualWindows => [AWin]
  | FSpinBool | FSpinFlag | FShared => []
  | FSemDispatch => [ADispatch] | FSemPosix => [ASem] | FSemMach => [AMachSem]
  | FAutoFutex | FManualFutex => [AFutex]
  | FCondAnyGeneric | FSemEmulation | FAutoSemaphore | FAutoEmulation | FManualEmulation => []
  end.
(** The public headers a file includes for its members: condition_variable_any_generic.hpp 26-27, *_emulation.hpp 18-19, auto_reset_event_semaphore.hpp 20, basic_condition_variable_windows.hpp 38. *)
Definition uses (f : file) : list obj :=
  match f with
  | FCondAnyGeneric | FSemEmulation | FAutoEmulation | FManualEmulation => [OMutex; OCond]
  | FAutoSemaphore => [OSem]
  | FCondWindows | FCondAnyWindows => [OMutex]
  | _ => []
  end.
(** Everything an object uses, following the includes of semaphore.hpp 138-146 and the like; [fuel]: their depth, three levels are enough (C76_needs_complete). *)
Fixpoint needs (fuel : nat) (m : macros) (o : obj) : list api :=
  match fuel with
  | O => []
  | S n => direct (select m o) ++ flat_map (needs n m) (uses (select m o))
  end.

(** Members, by type; atomics of std or of Boost (A:58-66). [TSem] and the like stand for the system's types. *)
Inductive lib := LStd | LBoost.
(** Types of members: the declarations mutex_posix.hpp 50, timed_mutex_posix.hpp 61-64, ... listed at [members_of]. *)
Inductive member := TPmutex | TPcond | TBool | TUnsigned | TSem | TDispatch | TMachSem | THandle | TPointer | TAtomic (l : lib) (bits : Z) | TFlag (l : lib).
(** Which atomics, A:58-66. *)
Definition lib_of (m : macros) : lib := if std_atomic m then LStd else LBoost.
(** Data members: mutex_posix.hpp 50; timed_mutex_posix.hpp 61-64; basic_mutex_windows.hpp 60-62 (boost::atomic); M:45 M:89; shared_spin_mutex.hpp 124; condition_variable_posix.hpp 54;
    basic_condition_variable_windows.hpp 136-142 (boost::atomic); condition_variable_any_generic.hpp 67-68; semaphore_windows.hpp 198, semaphore_dispatch.hpp 143, semaphore_posix.hpp 186,
    semaphore_emulation.hpp 102-104, basic_semaphore_mach.hpp 178; basic_event_windows.hpp 190; auto_reset_event_futex.hpp 319 (atomic_ns), auto_reset_event_semaphore.hpp 110-111,
    auto_reset_event_emulation.hpp 106-108; manual_reset_event_futex.hpp 206 (boost::atomic), manual_reset_event_emulation.hpp 106-108.
    Simplified: sizes of uintptr_t and size_t are those of a 64-bit target; the wrapper classes around one member (mutex_windows.hpp 40 and the like) are left out. *)
Definition members_of (l : lib) (sub : obj -> list member) (f : file) : list member :=
  match f with
  | FMutexPosix | FTimedNative => [TPmutex]
  | FTimedEmulated => [TPmutex; TPcond; TBool]
  | FMutexWindows | FTimedWindows => [TAtomic LBoost 32; TAtomic LBoost 64]
  | FSpinBool => [TAtomic l 8]
  | FSpinFlag => [TFlag l]
  | FShared => [TAtomic l 32]
  | FCondPosix => [TPcond]
  | FCondWindows | FCondAnyWindows => sub OMutex ++ [TPointer; TPointer; TAtomic LBoost 64]
  | FCondAnyGeneric => sub OMutex ++ sub OCond
  | FSemWindows | FAutoWindows | FManualWindows => [THandle]
  | FSemDispatch => [TDispatch] | FSemPosix => [TSem] | FSemMach => [TMachSem]
  | FSemEmulation => sub OMutex ++ sub OCond ++ [TUnsigned]
  | FAutoFutex => [TAtomic l 32]
  | FAutoSemaphore => sub OSem ++ [TAtomic l 32]
  | FAutoEmulation | FManualEmulation => sub OMutex ++ sub OCond ++ [TBool]
  | FManualFutex => [TAtomic LBoost 32]
  end.
(** The representation of an object in a translation unit, through the members of members (semaphore_emulation.hpp 102-104, ...); [fuel] as at [needs]. *)
Fixpoint members (fuel : nat) (m : macros) (o : obj) : list member :=
  match fuel with
  | O => []
  | S n => members_of (lib_of m) (members n m) (select m o)
  end.

(** The name under which a class is compiled: inside the ABI namespace (C:83-104; *_posix.hpp and the others, "BOOST_SYNC_DETAIL_OPEN_ABI_NAMESPACE") or, for the spin mutexes (M:35-38,
    shared_spin_mutex.hpp 33-36), outside of it. *)
Definition name_of (m : macros) (o : obj) : obj * option abi :=
  (o, match o with OSpin | OShared => None | _ => Some (abi_of m) end).

(** How now() reads the system clock, U:181-194. *)
Inductive clock := KGettime | KTimeofday | KSeconds | KFileTime.
(** U:88-150 (Windows: now() reads a FILETIME, U:116-121) and U:181-194. *)
Definition clock_of (m : macros) : clock :=
  match platform_of m with
  | PWinapi => KFileTime
  | p => if clock_gettime m then KGettime else match p with PMach => KTimeofday | _ => KSeconds end
  end.

(** ** The library and its users *)
(** Functions of the library, detail/tss.hpp 44-78 (here: one symbol) and notify_all_at_thread_exit.hpp 35; the parameter types of the last one are in the ABI namespace, so its name depends on it. *)
Inductive symbol := SKeys | SNotify (a : abi).
(** X:99-153, W:169-223: what the library defines when compiled with [m]. *)
Definition provides (m : macros) : list symbol := [SKeys; SNotify (abi_of m)].
(** thread_specific_ptr.hpp 44-62, at_thread_exit.hpp 54; notify_all_at_thread_exit.hpp 53-58. *)
Definition requires (m : macros) (notify : bool) : list symbol := SKeys :: if notify then [SNotify (abi_of m)] else [].

(** A build by the Jamfile: <threadapi>pthread or not, <target-os>windows or not, shared or static. J:59-72, J:137-191. *)
Record build := Bld { b_pthread : bool; b_windows : bool; b_shared : bool }.
(** Defining BOOST_SYNC_USE_PTHREAD. J:144, J:160. *)
Definition def_pthread (m : macros) : macros :=
  Mac true (windows m) (linux m) (apple m) (winver m) (user_tls m) (gnuc m) (msvc m) (osx_min m) (iphone_min m) (unistd m) (posix_sem m) (posix_timeouts m) (given_timedlock m)
      (clock_gettime m) (given_std_atomic m) (clang m) (gcc m) (cplusplus m) (has_atomic_header m) (atomic_bool_lockfree m) (boost_atomic_bool_lockfree m).
(** J:154-176 (requirements): how the library is compiled where the compiler's own macros are [m]. *)
Definition lib_macros (b : build) (m : macros) : macros := if b_pthread b then def_pthread m else m.
(** J:137-152 (usage-requirements): how its users are compiled. *)
Definition user_macros (b : build) (m : macros) : macros := if b_pthread b then (if b_windows b then def_pthread m else m) else m.

(** The compiler that builds the library, as seen by E:13, E:88, E:104-118; [mingw]: the whole condition of E:13. *)
Record tool := Tool { mingw : bool; msc_ver : Z; under_ce : bool; m_ix86 : bool; m_x64 : bool; m_arm : bool }.
(** Definitions of the exported functions (X, W) and of the exit hooks (D; E for MinGW; E for MSVC) in the library: X:18, W:18, D:8, E:13, E:88. *)
Inductive source := XPthread | XWindows | XDll | XMingw | XMsvc.
(** J:178-191, J:63-64, X:18, W:18, D:8, E:11-13, E:88: the sources listed for the target whose #if condition holds. *)
Definition sources (b : build) (t : tool) (m : macros) : list source :=
  let w := match platform_of m with PWinapi => true | _ => false end in
  (if w then [] else [XPthread]) ++
  (if b_windows b then
     (if w then [XWindows] else []) ++
     (if w && b_shared b then [XDll] else []) ++
     (if w && negb (b_shared b) then (if mingw t then [XMingw] else if (0 <? msc_ver t) && negb (under_ce t) then [XMsvc] else []) else [])
   else []).
(** E:104-118: MSVC from version 1500 on stops at the #error unless the processor is one of three. *)
Definition stops (t : tool) (s : source) : bool :=
  match s with XMsvc => (1500 <=? msc_ver t) && negb (m_ix86 t || m_x64 t || m_arm t) | _ => false end.
