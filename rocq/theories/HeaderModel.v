(* What a translation unit sees of the library's headers: every header of include/boost/sync with its
   include guard, the headers it includes, the names it declares and the names it uses, in the order of
   its text, under the preprocessor conditions around them; and the effect of including headers on the
   names known so far, on the compiler's warning settings and on the regions between
   boost/config/abi_prefix.hpp and boost/config/abi_suffix.hpp.
   The tables were extracted from the text of the headers and follow it line by line. Simplifications:
   - a name stands for one entity of the library (class, function, object, namespace alias), for one macro
     (M_), for the outcome of a preprocessor decision that later headers test (T_), for the definition of a
     class template that has a separate forward declaration (D_), or for a group of names of one external
     header (X, see provides);
   - the first use in a header stands for all later ones; uses inside a condition that guards no include
     and no declaration count in both cases (so more is required, never less), except for
     BOOST_SYNC_DETAIL_SPINLOCK_BOOL, BOOST_SYNC_DETAIL_PTHREAD_HAS_TIMEDLOCK and BOOST_HAS_CLOCK_GETTIME,
     whose cases are kept;
   - the parts that only Doxygen reads (BOOST_SYNC_DETAIL_DOXYGEN) are left out; '#pragma once' adds
     nothing to the guards;
   - the bodies of macros are not searched for names;
   - an external header provides the names its documentation gives, not what it happens to include. *)
From Coq Require Import ZArith List Bool String MSetPositive.
From Verif Require Import ConfigModel.
Import ListNotations.
Local Open Scope list_scope.

(* The headers under include/boost/sync (H_a_b is a/b.hpp), without detail/header.hpp and detail/footer.hpp. *)
Inductive hdr := H_condition_variables | H_condition_variables_condition_variable | H_condition_variables_condition_variable_any | H_condition_variables_cv_status
  | H_condition_variables_notify_all_at_thread_exit | H_detail_atomic | H_detail_auto_handle | H_detail_condition_variables_basic_condition_variable_windows
  | H_detail_condition_variables_condition_variable_any_generic | H_detail_condition_variables_condition_variable_any_windows
  | H_detail_condition_variables_condition_variable_posix | H_detail_condition_variables_condition_variable_windows | H_detail_config
  | H_detail_events_auto_reset_event_emulation | H_detail_events_auto_reset_event_futex | H_detail_events_auto_reset_event_semaphore
  | H_detail_events_auto_reset_event_windows | H_detail_events_basic_event_windows | H_detail_events_manual_reset_event_emulation
  | H_detail_events_manual_reset_event_futex | H_detail_events_manual_reset_event_windows | H_detail_futex | H_detail_link_config | H_detail_lockable_wrapper
  | H_detail_mutexes_basic_mutex_windows | H_detail_mutexes_mutex_posix | H_detail_mutexes_mutex_windows | H_detail_mutexes_shared_spin_mutex
  | H_detail_mutexes_spin_mutex | H_detail_mutexes_timed_mutex_posix | H_detail_mutexes_timed_mutex_windows | H_detail_pause | H_detail_pthread
  | H_detail_pthread_mutex_locks | H_detail_semaphore_basic_semaphore_mach | H_detail_semaphore_semaphore_dispatch | H_detail_semaphore_semaphore_emulation
  | H_detail_semaphore_semaphore_mach | H_detail_semaphore_semaphore_posix | H_detail_semaphore_semaphore_windows | H_detail_semaphore_config | H_detail_system_error
  | H_detail_throw_exception | H_detail_time_traits | H_detail_time_units | H_detail_tss | H_detail_waitable_timer | H_detail_weak_linkage | H_events
  | H_events_auto_reset_event | H_events_manual_reset_event | H_exceptions | H_exceptions_lock_error | H_exceptions_overflow_error | H_exceptions_resource_error
  | H_exceptions_runtime_exception | H_exceptions_wait_error | H_locks | H_locks_lock_guard | H_locks_lock_guard_fwd | H_locks_lock_options | H_locks_shared_lock
  | H_locks_shared_lock_fwd | H_locks_shared_lock_guard | H_locks_shared_lock_guard_fwd | H_locks_unique_lock | H_locks_unique_lock_fwd | H_locks_unlock_guard
  | H_locks_unlock_guard_fwd | H_locks_upgrade_lock | H_locks_upgrade_lock_fwd | H_mutexes | H_mutexes_mutex | H_mutexes_shared_spin_mutex | H_mutexes_spin_mutex
  | H_mutexes_timed_mutex | H_semaphore | H_support_boost_chrono | H_support_boost_date_time | H_support_posix_time | H_support_std_chrono
  | H_thread_specific_at_thread_exit | H_thread_specific_thread_specific_ptr | H_traits_is_condition_variable_compatible.

(* The headers of other projects that they include (E_B_a is <boost/a.hpp>). *)
Inductive ext := E_Availability_h | E_B_assert | E_B_assert_source_location | E_B_atomic_atomic | E_B_atomic_atomic_flag | E_B_atomic_fences | E_B_chrono_duration
  | E_B_chrono_system_clocks | E_B_chrono_time_point | E_B_config | E_B_config_auto_link | E_B_core_enable_if | E_B_core_explicit_operator_bool | E_B_core_scoped_enum
  | E_B_cstdint | E_B_date_time_posix_time_posix_time_types | E_B_detail_interlocked | E_B_memory_order | E_B_move_core | E_B_move_utility | E_B_mpl_and | E_B_mpl_bool
  | E_B_preprocessor_seq_enum | E_B_ratio_ratio | E_B_static_assert | E_B_system_error_code | E_B_system_system_error | E_B_throw_exception | E_B_version
  | E_B_winapi_config | E_B_winapi_dll | E_B_winapi_event | E_B_winapi_get_current_process | E_B_winapi_get_current_process_id | E_B_winapi_get_last_error
  | E_B_winapi_handles | E_B_winapi_semaphore | E_B_winapi_thread | E_B_winapi_thread_pool | E_B_winapi_time | E_B_winapi_tls | E_B_winapi_wait
  | E_B_winapi_waitable_timer | E_atomic | E_chrono | E_cstddef | E_cstdlib | E_dispatch_dispatch_h | E_errno_h | E_limits_h | E_linux_futex_h | E_mach_mach_init_h
  | E_mach_mach_traps_h | E_mach_semaphore_h | E_mach_task_h | E_pthread_h | E_ratio | E_semaphore_h | E_stddef_h | E_stdexcept | E_string | E_sys_syscall_h
  | E_sys_time_h | E_system_error | E_time_h | E_unistd_h | E_winerror_h.

(* The names. The X groups:
   XConfig: the macros of boost/config.hpp
   XAssert: BOOST_ASSERT, BOOST_VERIFY
   XStaticAssert: BOOST_STATIC_ASSERT, BOOST_STATIC_ASSERT_MSG
   XNull: NULL
   XSize: std::size_t
   XInt: uint8_t, int32_t, uint32_t, int64_t, uint64_t as found from namespace boost
   XLimits: INT_MAX, LONG_MAX
   XErrno: errno and the E constants
   XEnableIf: boost::enable_if, enable_if_c
   XMplBool: boost::mpl::true_, false_
   XMplAnd: boost::mpl::and_
   XTimespec: timespec, time_t, time, clock_gettime
   XTimeval: timeval, gettimeofday
   XBoostAtomic: boost::atomic, boost::memory_order
   XMove: BOOST_RV_REF, BOOST_MOVABLE_BUT_NOT_COPYABLE
   XMoveFn: boost::move
   XExplicit: BOOST_EXPLICIT_OPERATOR_BOOL
   XScopedEnum: BOOST_SCOPED_ENUM_DECLARE_BEGIN, _END
   XThrow: boost::throw_exception
   XLocation: boost::source_location, BOOST_CURRENT_LOCATION
   XString: std::string
   XStdErr: std::errc
   XBoostErr: boost::system::errc
   XVersion: BOOST_VERSION
   XInterlocked: BOOST_INTERLOCKED_EXCHANGE, _COMPARE_EXCHANGE
   XAtexit: std::atexit
   XLogicError: std::logic_error
   XPthread: pthread_mutex_t, pthread_cond_t and the functions on them
   XSem: sem_t and the functions on it
   XDispatch: dispatch_semaphore_t and the functions on it
   XMachSem: semaphore_t, semaphore_signal, semaphore_wait, semaphore_timedwait
   XMachTask: semaphore_create, semaphore_destroy
   XMachSelf: mach_task_self
   XFutex: FUTEX_WAIT and so on
   XSyscall: syscall
   XSysNum: SYS_futex
   XAvail: __MAC_10_6, __IPHONE_4_0
   XPosixOpt: _POSIX_SEMAPHORES
   XWinVer: BOOST_USE_WINAPI_VERSION
   XWinHandle: CloseHandle, DuplicateHandle and their constants
   XWinError: GetLastError
   XWinEvent: SetEvent, ResetEvent, create_anonymous_event
   XWinWait: WaitForSingleObject, WaitForMultipleObjects and their constants, among them infinite
   XWinSem: the functions on semaphores
   XWinTimer: SetWaitableTimer, create_anonymous_waitable_timer
   XWinTls: TlsAlloc and so on
   XWinDll: GetModuleHandleW, get_proc_address
   XWinThread: SwitchToThread, GetCurrentThread
   XWinPool: RegisterWaitForSingleObject, UnregisterWait
   XWinProc: GetCurrentProcess
   XWinProcId: GetCurrentProcessId
   XWinTime: FILETIME_, GetSystemTimeAsFileTime
   XWinTypes: HANDLE_, DWORD_ and so on
   XRatio: boost::ratio, std::ratio
   XDuration: boost::chrono::duration
   XTimePoint: boost::chrono::time_point
   XSysClock: boost::chrono::system_clock
   XStdChrono: the names of std::chrono *)
Inductive name := D_lock_guard | D_shared_lock | D_shared_lock_guard | D_unique_lock | D_unlock_guard | D_upgrade_lock | L_add_thread_exit_callback
  | L_add_thread_exit_notify_entry | L_adopt_lock | L_adopt_lock_t | L_at_thread_exit | L_at_thread_exit_trampoline | L_atomic_ns | L_auto_handle | L_auto_reset_event
  | L_basic_condition_variable | L_basic_event | L_basic_mutex | L_basic_semaphore | L_chrono_time_point | L_condition_variable | L_condition_variable_any | L_cv_status
  | L_defer_lock | L_defer_lock_t | L_delete_thread_specific_key | L_enable_if_tag | L_errc_t | L_futex_broadcast | L_futex_invoke | L_futex_signal | L_futex_timedwait
  | L_futex_wait | L_get_thread_specific | L_get_waitable_timer | L_is_condition_variable_compatible | L_is_time_tag_of | L_lock_error | L_lock_guard | L_lockable_wrapper
  | L_manual_reset_event | L_mutex | L_new_thread_specific_key | L_notify_all_at_thread_exit | L_overflow_error | L_pause | L_pthread_mutex_lock_guard
  | L_pthread_mutex_unlock_guard | L_resource_error | L_runtime_exception | L_semaphore | L_set_thread_specific | L_shared_lock | L_shared_lock_guard
  | L_shared_spin_mutex | L_spin_mutex | L_system_duration | L_system_ns | L_system_time_point | L_thread_specific_key | L_thread_specific_ptr | L_throw_exception
  | L_time_duration_tag | L_time_point_tag | L_time_traits | L_timed_mutex | L_try_to_lock | L_try_to_lock_t | L_unique_lock | L_unlock_guard | L_upgrade_lock
  | L_wait_error | L_waitable_timer_state | L_weak_linkage | L_wrap_pthread | M_api | M_constexpr_with_non_literal_base | M_open_abi_namespace | M_sys_futex | M_throw
  | M_throw_default | T_platform | T_sem_kind | T_std_atomic | T_timedlock | XConfig | XAssert | XStaticAssert | XNull | XSize | XInt | XLimits | XErrno | XEnableIf
  | XMplBool | XMplAnd | XTimespec | XTimeval | XBoostAtomic | XMove | XMoveFn | XExplicit | XScopedEnum | XThrow | XLocation | XString | XStdErr | XBoostErr | XVersion
  | XInterlocked | XAtexit | XLogicError | XPthread | XSem | XDispatch | XMachSem | XMachTask | XMachSelf | XFutex | XSyscall | XSysNum | XAvail | XPosixOpt | XWinVer
  | XWinHandle | XWinError | XWinEvent | XWinWait | XWinSem | XWinTimer | XWinTls | XWinDll | XWinThread | XWinPool | XWinProc | XWinProcId | XWinTime | XWinTypes
  | XRatio | XDuration | XTimePoint | XSysClock | XStdChrono.

(* The conditions that decide about includes and declarations, besides the platform:
   FStdAtomic: BOOST_SYNC_USE_STD_ATOMIC (detail/atomic.hpp 14-37)
   FSpinBool: BOOST_SYNC_DETAIL_SPINLOCK_BOOL (detail/mutexes/spin_mutex.hpp 28-33)
   FTimedlock: BOOST_SYNC_DETAIL_PTHREAD_HAS_TIMEDLOCK (detail/pthread.hpp 31-37)
   FDispatch: BOOST_SYNC_DETAIL_USE_DISPATCH_SEMAPHORES (detail/semaphore_config.hpp 18-36)
   FUnistd: BOOST_HAS_UNISTD_H (detail/semaphore_config.hpp 38)
   FStdError: BOOST_SYNC_USE_STD_SYSTEM_ERROR (detail/system_error.hpp 19)
   FGettime: BOOST_HAS_CLOCK_GETTIME (detail/time_units.hpp 183)
   FPosixSem: BOOST_SYNC_DETAIL_USE_POSIX_SEMAPHORES (detail/semaphore_config.hpp 38-44)
   FRvalue: not BOOST_NO_CXX11_RVALUE_REFERENCES (locks/unique_lock.hpp 31) *)
Inductive flag := FStdAtomic | FSpinBool | FTimedlock | FDispatch | FUnistd | FStdError | FGettime | FPosixSem | FRvalue.

(* A configuration: the platform (detail/config.hpp 26-48, as in ConfigModel) and the conditions above. *)
Record hconf := HConf { plat : platform; on : flag -> bool }.

(* The configuration that the macros of ConfigModel lead to (detail/semaphore_config.hpp 18-44, detail/pthread.hpp 31-37,
   detail/mutexes/spin_mutex.hpp 28-33, detail/atomic.hpp 14-37); rv and se are the two conditions that ConfigModel does not have. *)
Definition hconf_of (m : macros) (rv se : bool) : hconf :=
  HConf (platform_of m) (fun f => match f with FDispatch => dispatch_sem m | FPosixSem => posix_semaphores m | FTimedlock => has_timedlock m | FSpinBool => spinlock_bool m
    | FStdAtomic => std_atomic m | FRvalue => rv | FStdError => se | FUnistd => unistd m | FGettime => clock_gettime m end).

(* One step of a header's text. Header and Footer are the includes of detail/header.hpp and detail/footer.hpp. *)
Inductive item := Inc (h : hdr) | Ext (e : ext) | Use (n : name) | Decl (n : name) | Header | Footer
  | If (f : flag) (a b : list item) | IfP (p : platform) (a b : list item).

(* The guard macro of each header: the first #ifndef and #define of the file. Lines 1-20 of each .hpp file under /repo/include/boost/sync. *)
Definition guard (h : hdr) : string :=
  match h with
  | H_condition_variables => "BOOST_SYNC_CONDITION_VARIABLES_HPP_INCLUDED_"
  | H_condition_variables_condition_variable => "BOOST_SYNC_CONDITION_VARIABLES_CONDITION_VARIABLE_HPP_INCLUDED_"
  | H_condition_variables_condition_variable_any => "BOOST_SYNC_CONDITION_VARIABLES_CONDITION_VARIABLE_ANY_HPP_INCLUDED_"
  | H_condition_variables_cv_status => "BOOST_SYNC_CONDITION_VARIABLES_CV_STATUS_HPP_INCLUDED_"
  | H_condition_variables_notify_all_at_thread_exit => "BOOST_SYNC_CONDITION_VARIABLES_NOTIFY_ALL_AT_THREAD_EXIT_HPP_INCLUDED_"
  | H_detail_atomic => "BOOST_SYNC_DETAIL_ATOMIC_HPP"
  | H_detail_auto_handle => "BOOST_SYNC_DETAIL_AUTO_HANDLE_HPP_INCLUDED_"
  | H_detail_condition_variables_basic_condition_variable_windows => "BOOST_SYNC_DETAIL_CONDITION_VARIABLES_BASIC_CONDITION_VARIABLE_WINDOWS_HPP_INCLUDED_"
  | H_detail_condition_variables_condition_variable_any_generic => "BOOST_SYNC_DETAIL_CONDITION_VARIABLES_CONDITION_VARIABLE_ANY_GENERIC_HPP_INCLUDED_"
  | H_detail_condition_variables_condition_variable_any_windows => "BOOST_SYNC_DETAIL_CONDITION_VARIABLES_CONDITION_VARIABLE_ANY_WINDOWS_HPP_INCLUDED_"
  | H_detail_condition_variables_condition_variable_posix => "BOOST_SYNC_DETAIL_CONDITION_VARIABLES_CONDITION_VARIABLE_POSIX_HPP_INCLUDED_"
  | H_detail_condition_variables_condition_variable_windows => "BOOST_SYNC_DETAIL_CONDITION_VARIABLES_CONDITION_VARIABLE_WINDOWS_HPP_INCLUDED_"
  | H_detail_config => "BOOST_SYNC_DETAIL_CONFIG_HPP_INCLUDED_"
  | H_detail_events_auto_reset_event_emulation => "BOOST_SYNC_DETAIL_EVENTS_AUTO_RESET_EVENT_EMULATION_HPP_INCLUDED_"
  | H_detail_events_auto_reset_event_futex => "BOOST_SYNC_DETAIL_EVENTS_AUTO_RESET_EVENT_FUTEX_HPP_INCLUDED_"
  | H_detail_events_auto_reset_event_semaphore => "BOOST_SYNC_DETAIL_EVENTS_AUTO_RESET_EVENT_SEMAPHORE_HPP_INCLUDED_"
  | H_detail_events_auto_reset_event_windows => "BOOST_SYNC_DETAIL_EVENTS_AUTO_RESET_EVENT_WINDOWS_HPP_INCLUDED_"
  | H_detail_events_basic_event_windows => "BOOST_SYNC_DETAIL_EVENTS_BASIC_EVENT_WINDOWS_HPP_INCLUDED_"
  | H_detail_events_manual_reset_event_emulation => "BOOST_SYNC_DETAIL_EVENTS_MANUAL_RESET_EVENT_EMULATION_HPP_INCLUDED_"
  | H_detail_events_manual_reset_event_futex => "BOOST_SYNC_DETAIL_EVENTS_MANUAL_RESET_EVENT_FUTEX_HPP_INCLUDED_"
  | H_detail_events_manual_reset_event_windows => "BOOST_SYNC_DETAIL_EVENTS_MANUAL_RESET_EVENT_WINDOWS_HPP_INCLUDED_"
  | H_detail_futex => "BOOST_SYNC_DETAIL_FUTEX_HPP_INCLUDED_"
  | H_detail_link_config => "BOOST_SYNC_DETAIL_LINK_CONFIG_HPP_INCLUDED_"
  | H_detail_lockable_wrapper => "BOOST_SYNC_DETAIL_LOCKABLE_WRAPPER_HPP_INCLUDED_"
  | H_detail_mutexes_basic_mutex_windows => "BOOST_SYNC_DETAIL_MUTEXES_BASIC_MUTEX_WINDOWS_HPP_INCLUDED_"
  | H_detail_mutexes_mutex_posix => "BOOST_SYNC_DETAIL_MUTEXES_MUTEX_POSIX_HPP_INCLUDED_"
  | H_detail_mutexes_mutex_windows => "BOOST_SYNC_DETAIL_MUTEXES_MUTEX_WINDOWS_HPP_INCLUDED_"
  | H_detail_mutexes_shared_spin_mutex => "BOOST_SYNC_DETAIL_MUTEXES_SHARED_SPIN_MUTEX_HPP_INCLUDED_"
  | H_detail_mutexes_spin_mutex => "BOOST_SYNC_DETAIL_MUTEXES_SPIN_MUTEX_HPP_INCLUDED_"
  | H_detail_mutexes_timed_mutex_posix => "BOOST_SYNC_DETAIL_MUTEXES_TIMED_MUTEX_POSIX_HPP_INCLUDED_"
  | H_detail_mutexes_timed_mutex_windows => "BOOST_SYNC_DETAIL_MUTEXES_TIMED_MUTEX_WINDOWS_HPP_INCLUDED_"
  | H_detail_pause => "BOOST_SYNC_DETAIL_PAUSE_HPP_INCLUDED_"
  | H_detail_pthread => "BOOST_SYNC_DETAIL_PTHREAD_HPP_INCLUDED_"
  | H_detail_pthread_mutex_locks => "BOOST_SYNC_DETAIL_PTHREAD_MUTEX_LOCKS_HPP_INCLUDED_"
  | H_detail_semaphore_basic_semaphore_mach => "BOOST_SYNC_DETAIL_SEMAPHORE_BASIC_SEMAPHORE_MACH_HPP_INCLUDED_"
  | H_detail_semaphore_semaphore_dispatch => "BOOST_SYNC_DETAIL_SEMAPHORE_SEMAPHORE_DISPATCH_HPP_INCLUDED_"
  | H_detail_semaphore_semaphore_emulation => "BOOST_SYNC_DETAIL_SEMAPHORE_SEMAPHORE_EMULATION_HPP_INCLUDED_"
  | H_detail_semaphore_semaphore_mach => "BOOST_SYNC_DETAIL_SEMAPHORE_SEMAPHORE_MACH_HPP_INCLUDED_"
  | H_detail_semaphore_semaphore_posix => "BOOST_SYNC_DETAIL_SEMAPHORE_SEMAPHORE_POSIX_HPP_INCLUDED_"
  | H_detail_semaphore_semaphore_windows => "BOOST_SYNC_DETAIL_SEMAPHORE_SEMAPHORE_WINDOWS_HPP_INCLUDED_"
  | H_detail_semaphore_config => "BOOST_SYNC_DETAIL_SEMAPHORE_CONFIG_HPP_INCLUDED_"
  | H_detail_system_error => "BOOST_SYNC_DETAIL_SYSTEM_ERROR_HPP_INCLUDED_"
  | H_detail_throw_exception => "BOOST_SYNC_DETAIL_THROW_EXCEPTION_HPP_INCLUDED_"
  | H_detail_time_traits => "BOOST_SYNC_DETAIL_TIME_TRAITS_HPP_INCLUDED_"
  | H_detail_time_units => "BOOST_SYNC_DETAIL_TIME_UNITS_HPP_INCLUDED_"
  | H_detail_tss => "BOOST_SYNC_DETAIL_TSS_HPP_INCLUDED_"
  | H_detail_waitable_timer => "BOOST_SYNC_DETAIL_WAITABLE_TIMER_HPP_INCLUDED_"
  | H_detail_weak_linkage => "BOOST_SYNC_DETAIL_WEAK_LINKAGE_HPP_INCLUDED_"
  | H_events => "BOOST_SYNC_EVENTS_HPP_INCLUDED_"
  | H_events_auto_reset_event => "BOOST_SYNC_EVENTS_AUTO_RESET_EVENT_HPP_INCLUDED_"
  | H_events_manual_reset_event => "BOOST_SYNC_EVENTS_MANUAL_RESET_EVENT_HPP_INCLUDED_"
  | H_exceptions => "BOOST_SYNC_EXCEPTIONS_HPP_INCLUDED_"
  | H_exceptions_lock_error => "BOOST_SYNC_EXCEPTIONS_LOCK_ERROR_HPP_INCLUDED_"
  | H_exceptions_overflow_error => "BOOST_SYNC_EXCEPTIONS_OVERFLOW_ERROR_HPP_INCLUDED_"
  | H_exceptions_resource_error => "BOOST_SYNC_EXCEPTIONS_RESOURCE_ERROR_HPP_INCLUDED_"
  | H_exceptions_runtime_exception => "BOOST_SYNC_EXCEPTIONS_RUNTIME_EXCEPTION_HPP_INCLUDED_"
  | H_exceptions_wait_error => "BOOST_SYNC_EXCEPTIONS_WAIT_ERROR_HPP_INCLUDED_"
  | H_locks => "BOOST_SYNC_LOCKS_HPP_INCLUDED_"
  | H_locks_lock_guard => "BOOST_SYNC_LOCKS_LOCK_GUARD_HPP_INCLUDED_"
  | H_locks_lock_guard_fwd => "BOOST_SYNC_LOCKS_LOCK_GUARD_FWD_HPP_INCLUDED_"
  | H_locks_lock_options => "BOOST_SYNC_LOCKS_LOCK_OPTIONS_HPP_INCLUDED_"
  | H_locks_shared_lock => "BOOST_SYNC_LOCKS_SHARED_LOCK_HPP_INCLUDED_"
  | H_locks_shared_lock_fwd => "BOOST_SYNC_LOCKS_SHARED_LOCK_FWD_HPP_INCLUDED_"
  | H_locks_shared_lock_guard => "BOOST_SYNC_LOCKS_SHARED_LOCK_GUARD_HPP_INCLUDED_"
  | H_locks_shared_lock_guard_fwd => "BOOST_SYNC_LOCKS_SHARED_LOCK_GUARD_FWD_HPP_INCLUDED_"
  | H_locks_unique_lock => "BOOST_SYNC_LOCKS_UNIQUE_LOCK_HPP_INCLUDED_"
  | H_locks_unique_lock_fwd => "BOOST_SYNC_LOCKS_UNIQUE_LOCK_FWD_HPP_INCLUDED_"
  | H_locks_unlock_guard => "BOOST_SYNC_LOCKS_UNLOCK_GUARD_HPP_INCLUDED_"
  | H_locks_unlock_guard_fwd => "BOOST_SYNC_LOCKS_UNLOCK_GUARD_FWD_HPP_INCLUDED_"
  | H_locks_upgrade_lock => "BOOST_SYNC_LOCKS_UPGRADE_LOCK_HPP_INCLUDED_"
  | H_locks_upgrade_lock_fwd => "BOOST_SYNC_LOCKS_UPGRADE_LOCK_FWD_HPP_INCLUDED_"
  | H_mutexes => "BOOST_SYNC_MUTEXES_HPP_INCLUDED_"
  | H_mutexes_mutex => "BOOST_SYNC_MUTEXES_MUTEX_HPP_INCLUDED_"
  | H_mutexes_shared_spin_mutex => "BOOST_SYNC_MUTEXES_SHARED_SPIN_MUTEX_HPP_INCLUDED_"
  | H_mutexes_spin_mutex => "BOOST_SYNC_MUTEXES_SPIN_MUTEX_HPP_INCLUDED_"
  | H_mutexes_timed_mutex => "BOOST_SYNC_MUTEXES_TIMED_MUTEX_HPP_INCLUDED_"
  | H_semaphore => "BOOST_SYNC_SEMAPHORE_HPP_INCLUDED_"
  | H_support_boost_chrono => "BOOST_SYNC_SUPPORT_BOOST_CHRONO_HPP_INCLUDED_"
  | H_support_boost_date_time => "BOOST_SYNC_SUPPORT_BOOST_DATE_TIME_HPP_INCLUDED_"
  | H_support_posix_time => "BOOST_SYNC_SUPPORT_POSIX_TIME_HPP_INCLUDED_"
  | H_support_std_chrono => "BOOST_SYNC_SUPPORT_STD_CHRONO_HPP_INCLUDED_"
  | H_thread_specific_at_thread_exit => "BOOST_SYNC_THREAD_SPECIFIC_AT_THREAD_EXIT_HPP_INCLUDED_"
  | H_thread_specific_thread_specific_ptr => "BOOST_SYNC_THREAD_SPECIFIC_THREAD_SPECIFIC_PTR_HPP_INCLUDED_"
  | H_traits_is_condition_variable_compatible => "BOOST_SYNC_TRAITS_IS_CONDITION_VARIABLE_COMPATIBLE_HPP_INCLUDED_"
  end%string.

(* The text of each header; the comments give the lines of the steps. *)
Definition source (h : hdr) : list item :=
  match h with
  (* include/boost/sync/condition_variables.hpp:17,19,23,24,25 *)
  | H_condition_variables => [Inc H_detail_config; Use XConfig; Inc H_condition_variables_condition_variable; Inc H_condition_variables_condition_variable_any
  ; Inc H_condition_variables_notify_all_at_thread_exit]
  (* include/boost/sync/condition_variables/condition_variable.hpp:272,274,278,279,281 *)
  | H_condition_variables_condition_variable => [Inc H_detail_config; Use XConfig; Use T_platform
  ; IfP PWinapi [Inc H_detail_condition_variables_condition_variable_windows] [Inc H_detail_condition_variables_condition_variable_posix]]
  (* include/boost/sync/condition_variables/condition_variable_any.hpp:226,228,232,233,235 *)
  | H_condition_variables_condition_variable_any => [Inc H_detail_config; Use XConfig; Use T_platform
  ; IfP PWinapi [Inc H_detail_condition_variables_condition_variable_any_windows] [Inc H_detail_condition_variables_condition_variable_any_generic]]
  (* include/boost/sync/condition_variables/cv_status.hpp:17,18,19,21,30,30,41 *)
  | H_condition_variables_cv_status => [Ext E_B_core_scoped_enum; Inc H_detail_config; Header; Use XConfig; Decl L_cv_status; Use XScopedEnum; Footer]
  (* include/boost/sync/condition_variables/notify_all_at_thread_exit.hpp:17,18,19,20,21,22,24,35,35,35,35,53,53,55,64 *)
  | H_condition_variables_notify_all_at_thread_exit => [Ext E_B_assert; Inc H_detail_link_config; Inc H_locks_unique_lock; Inc H_mutexes_mutex
  ; Inc H_condition_variables_condition_variable; Header; Use XConfig; Use M_api; Decl L_add_thread_exit_notify_entry; Use L_mutex; Use L_condition_variable
  ; Decl L_notify_all_at_thread_exit; Use D_unique_lock; Use XAssert; Footer]
  (* include/boost/sync/detail/atomic.hpp:12,14,40,42,43,44,45,48,50,60,64,72 *)
  | H_detail_atomic => [Inc H_detail_config; Decl T_std_atomic
  ; If FStdAtomic [Ext E_atomic] [Ext E_B_memory_order; Ext E_B_atomic_atomic; Ext E_B_atomic_atomic_flag; Ext E_B_atomic_fences]; Header; Use XConfig
  ; If FStdAtomic [Decl L_atomic_ns] [Decl L_atomic_ns]; Footer]
  (* include/boost/sync/detail/auto_handle.hpp:22,23,24,25,26,27,28,29,30,32,44,47,50,61,63,92,96,97,97,121 *)
  | H_detail_auto_handle => [Ext E_cstddef; Ext E_B_assert; Ext E_B_winapi_handles; Ext E_B_winapi_get_last_error; Ext E_B_winapi_get_current_process; Inc H_detail_config
  ; Inc H_detail_throw_exception; Inc H_exceptions_resource_error; Header; Use XConfig; Decl L_auto_handle; Use XWinTypes; Use XNull; Use XWinHandle; Use XAssert
  ; Use XWinProc; Use XWinError; Use M_throw; Use L_resource_error; Footer]
  (* include/boost/sync/detail/condition_variables/basic_condition_variable_windows.hpp:20,21,22,23,24,25,26,27,28,29,30,31,32,33,34,35,36,37,38,39,40,42,54,57,81,88,88,88,91,92,92,99,99,142,142,145,174,208,208,220,224,226,229,240,248,331,480 *)
  | H_detail_condition_variables_basic_condition_variable_windows => [Ext E_limits_h; Ext E_cstddef; Ext E_B_assert; Ext E_B_memory_order; Ext E_B_atomic_atomic
  ; Ext E_B_winapi_get_last_error; Ext E_B_winapi_semaphore; Ext E_B_winapi_wait; Ext E_B_winapi_waitable_timer; Inc H_detail_config; Inc H_exceptions_wait_error
  ; Inc H_exceptions_resource_error; Inc H_detail_throw_exception; Inc H_detail_time_traits; Inc H_detail_time_units; Inc H_detail_waitable_timer
  ; Inc H_locks_unique_lock_fwd; Inc H_locks_lock_guard; Inc H_mutexes_mutex; Inc H_condition_variables_cv_status; Header; Use XConfig; Decl L_basic_condition_variable
  ; Use L_mutex; Use XWinTypes; Use XWinSem; Use XNull; Use XLimits; Use XWinError; Use M_throw; Use L_resource_error; Use XAssert; Use XWinHandle; Use XBoostAtomic
  ; Use XSize; Use M_constexpr_with_non_literal_base; Use D_lock_guard; Use L_cv_status; Use L_system_duration; Use L_system_time_point; Use L_get_waitable_timer
  ; Use XWinTimer; Use L_wait_error; Use L_chrono_time_point; Use L_time_traits; Use XWinWait; Footer]
  (* include/boost/sync/detail/condition_variables/condition_variable_any_generic.hpp:20,21,22,23,24,25,26,27,28,29,31,39,41,51,67,68,80,94,107,107,129,129,129,151,182 *)
  | H_detail_condition_variables_condition_variable_any_generic => [Ext E_cstddef; Ext E_B_core_enable_if; Inc H_detail_config; Inc H_detail_time_traits
  ; Inc H_locks_lock_guard; Inc H_locks_unique_lock; Inc H_mutexes_mutex; Inc H_condition_variables_condition_variable; Inc H_condition_variables_cv_status; Header
  ; Use XConfig; Use M_open_abi_namespace; Decl L_condition_variable_any; Use XNull; Use L_mutex; Use L_condition_variable; Use D_lock_guard; Use D_unique_lock
  ; Use XEnableIf; Use L_time_traits; Use L_enable_if_tag; Use L_time_point_tag; Use L_cv_status; Use L_time_duration_tag; Footer]
  (* include/boost/sync/detail/condition_variables/condition_variable_any_windows.hpp:20,21,22,23,24,25,26,28,36,38,41,44,48,76,76,79,83,83,97,100,160 *)
  | H_detail_condition_variables_condition_variable_any_windows => [Ext E_B_core_enable_if; Inc H_detail_config; Inc H_detail_time_traits; Inc H_detail_time_units
  ; Inc H_detail_condition_variables_basic_condition_variable_windows; Inc H_condition_variables_cv_status; Header; Use XConfig; Use M_open_abi_namespace
  ; Decl L_condition_variable_any; Use L_basic_condition_variable; Use T_platform; Use M_constexpr_with_non_literal_base; Use XEnableIf; Use L_time_traits
  ; Use L_cv_status; Use L_enable_if_tag; Use L_time_point_tag; Use L_time_duration_tag; Use L_system_time_point; Footer]
  (* include/boost/sync/detail/condition_variables/condition_variable_posix.hpp:20,21,22,23,24,25,26,27,28,29,30,31,32,33,34,36,46,48,51,78,80,80,86,86,100,100,100,116,120,124,124,124,139,143,210,214,223,231,253 *)
  | H_detail_condition_variables_condition_variable_posix => [Ext E_cstddef; Ext E_B_assert; Ext E_B_core_enable_if; Ext E_B_mpl_and; Inc H_detail_config
  ; Inc H_locks_unique_lock_fwd; Inc H_exceptions_wait_error; Inc H_exceptions_resource_error; Inc H_traits_is_condition_variable_compatible; Inc H_detail_pthread
  ; Inc H_detail_time_traits; Inc H_detail_time_units; Inc H_detail_throw_exception; Inc H_condition_variables_cv_status; Header; Use XConfig; Use M_open_abi_namespace
  ; Decl L_condition_variable; Use XPthread; Use XNull; Use M_throw; Use L_resource_error; Use XAssert; Use L_wrap_pthread; Use XEnableIf
  ; Use L_is_condition_variable_compatible; Use L_unique_lock; Use L_time_traits; Use L_cv_status; Use XMplAnd; Use L_is_time_tag_of; Use L_time_point_tag
  ; Use L_time_duration_tag; Use L_system_time_point; Use L_wait_error; Use L_system_duration; Use XErrno; Use L_chrono_time_point; Footer]
  (* include/boost/sync/detail/condition_variables/condition_variable_windows.hpp:20,21,22,23,24,25,26,27,28,29,30,32,40,42,45,48,52,67,67,67,69,82,86,90,90,90,105,109,173 *)
  | H_detail_condition_variables_condition_variable_windows => [Ext E_B_assert; Ext E_B_core_enable_if; Ext E_B_mpl_and; Inc H_detail_config; Inc H_locks_unique_lock_fwd
  ; Inc H_traits_is_condition_variable_compatible; Inc H_detail_time_traits; Inc H_detail_time_units; Inc H_detail_condition_variables_basic_condition_variable_windows
  ; Inc H_condition_variables_cv_status; Header; Use XConfig; Use M_open_abi_namespace; Decl L_condition_variable; Use L_basic_condition_variable; Use T_platform
  ; Use M_constexpr_with_non_literal_base; Use XEnableIf; Use L_is_condition_variable_compatible; Use L_unique_lock; Use XAssert; Use L_time_traits; Use L_cv_status
  ; Use XMplAnd; Use L_is_time_tag_of; Use L_time_point_tag; Use L_time_duration_tag; Use L_system_time_point; Footer]
  (* include/boost/sync/detail/config.hpp:19,21,32,41,26,72,83,113 *)
  | H_detail_config => [Ext E_B_config; Use XConfig; IfP PWinapi [Ext E_B_winapi_config] [IfP PMach [Ext E_Availability_h] []]; Decl T_platform
  ; IfP PWinapi [Use XWinVer] []; Decl M_open_abi_namespace; Decl M_constexpr_with_non_literal_base]
  (* include/boost/sync/detail/events/auto_reset_event_emulation.hpp:13,14,15,16,17,18,19,20,22,32,34,46,46,57,75,75,94,94,100,107,117 *)
  | H_detail_events_auto_reset_event_emulation => [Ext E_B_core_enable_if; Inc H_detail_config; Inc H_detail_time_traits; Inc H_locks_lock_guard; Inc H_locks_unique_lock
  ; Inc H_mutexes_mutex; Inc H_condition_variables_condition_variable; Header; Use XConfig; Use M_open_abi_namespace; Decl L_auto_reset_event; Use D_lock_guard
  ; Use L_mutex; Use D_unique_lock; Use XEnableIf; Use L_time_traits; Use L_is_time_tag_of; Use L_time_duration_tag; Use L_time_point_tag; Use L_condition_variable
  ; Footer]
  (* include/boost/sync/detail/events/auto_reset_event_futex.hpp:13,14,16,17,18,19,20,21,22,23,24,25,27,35,37,60,71,81,101,104,112,147,147,153,153,159,165,182,185,277,318,328 *)
  | H_detail_events_auto_reset_event_futex => [Ext E_errno_h; Ext E_sys_time_h; Ext E_B_assert; Ext E_B_static_assert; Ext E_B_core_enable_if; Inc H_detail_config
  ; Inc H_detail_atomic; Inc H_detail_pause; Inc H_detail_futex; Inc H_detail_time_traits; Inc H_detail_time_units; Header; Use XConfig; Use M_open_abi_namespace
  ; Decl L_auto_reset_event; Use L_atomic_ns; Use L_pause; Use L_futex_signal; Use L_futex_wait; Use XErrno; Use XAssert; Use XEnableIf; Use L_time_traits
  ; Use L_is_time_tag_of; Use L_time_duration_tag; Use L_time_point_tag; Use L_system_time_point; Use L_system_duration; Use L_futex_timedwait; Use L_chrono_time_point
  ; Use XStaticAssert; Footer]
  (* include/boost/sync/detail/events/auto_reset_event_semaphore.hpp:13,14,15,16,17,18,19,20,21,23,31,33,45,45,59,85,85,98,98,104,110,120 *)
  | H_detail_events_auto_reset_event_semaphore => [Ext E_cstddef; Ext E_B_cstdint; Ext E_B_core_enable_if; Inc H_detail_config; Inc H_detail_atomic; Inc H_detail_pause
  ; Inc H_detail_time_traits; Inc H_semaphore; Header; Use XConfig; Use M_open_abi_namespace; Decl L_auto_reset_event; Use XInt; Use L_atomic_ns; Use L_pause
  ; Use XEnableIf; Use L_time_traits; Use L_is_time_tag_of; Use L_time_duration_tag; Use L_time_point_tag; Use L_semaphore; Footer]
  (* include/boost/sync/detail/events/auto_reset_event_windows.hpp:13,14,15,16,17,19,27,29,44,44,50,50,56,62,71 *)
  | H_detail_events_auto_reset_event_windows => [Ext E_B_core_enable_if; Inc H_detail_config; Inc H_detail_time_traits; Inc H_detail_events_basic_event_windows; Header
  ; Use XConfig; Use M_open_abi_namespace; Decl L_auto_reset_event; Use XEnableIf; Use L_time_traits; Use L_is_time_tag_of; Use L_time_duration_tag; Use L_time_point_tag
  ; Use L_basic_event; Footer]
  (* include/boost/sync/detail/events/basic_event_windows.hpp:13,14,15,16,17,18,19,20,21,22,23,24,25,26,27,28,30,42,50,50,53,53,54,54,60,60,69,85,89,108,140,144,146,172,180,201 *)
  | H_detail_events_basic_event_windows => [Ext E_cstddef; Ext E_B_assert; Ext E_B_winapi_get_last_error; Ext E_B_winapi_event; Ext E_B_winapi_wait
  ; Ext E_B_winapi_waitable_timer; Ext E_B_winapi_handles; Inc H_detail_config; Inc H_detail_time_units; Inc H_detail_time_traits; Inc H_detail_waitable_timer
  ; Inc H_detail_throw_exception; Inc H_exceptions_runtime_exception; Inc H_exceptions_resource_error; Inc H_exceptions_wait_error; Header; Use XConfig
  ; Decl L_basic_event; Use XWinEvent; Use XNull; Use XWinTypes; Use XWinError; Use M_throw; Use L_resource_error; Use XAssert; Use XWinHandle; Use L_runtime_exception
  ; Use XWinWait; Use L_wait_error; Use L_system_duration; Use L_system_time_point; Use L_get_waitable_timer; Use XWinTimer; Use L_chrono_time_point; Use L_time_traits
  ; Footer]
  (* include/boost/sync/detail/events/manual_reset_event_emulation.hpp:13,14,15,16,17,18,19,20,22,32,34,46,46,63,76,76,94,94,100,107,117 *)
  | H_detail_events_manual_reset_event_emulation => [Ext E_B_core_enable_if; Inc H_detail_config; Inc H_detail_time_traits; Inc H_locks_lock_guard
  ; Inc H_locks_unique_lock; Inc H_mutexes_mutex; Inc H_condition_variables_condition_variable; Header; Use XConfig; Use M_open_abi_namespace; Decl L_manual_reset_event
  ; Use D_lock_guard; Use L_mutex; Use D_unique_lock; Use XEnableIf; Use L_time_traits; Use L_is_time_tag_of; Use L_time_duration_tag; Use L_time_point_tag
  ; Use L_condition_variable; Footer]
  (* include/boost/sync/detail/events/manual_reset_event_futex.hpp:13,14,16,17,18,19,20,21,22,23,24,25,27,35,37,58,60,77,90,90,96,96,102,108,117,125,127,130,188,215 *)
  | H_detail_events_manual_reset_event_futex => [Ext E_errno_h; Ext E_sys_time_h; Ext E_B_assert; Ext E_B_static_assert; Ext E_B_memory_order; Ext E_B_atomic_atomic
  ; Ext E_B_core_enable_if; Inc H_detail_config; Inc H_detail_futex; Inc H_detail_time_traits; Inc H_detail_time_units; Header; Use XConfig; Use M_open_abi_namespace
  ; Decl L_manual_reset_event; Use XBoostAtomic; Use L_futex_broadcast; Use L_futex_wait; Use XEnableIf; Use L_time_traits; Use L_is_time_tag_of; Use L_time_duration_tag
  ; Use L_time_point_tag; Use L_system_time_point; Use L_system_duration; Use XStaticAssert; Use L_futex_timedwait; Use XErrno; Use L_chrono_time_point; Footer]
  (* include/boost/sync/detail/events/manual_reset_event_windows.hpp:13,14,15,16,17,19,27,29,45,45,51,51,57,63,72 *)
  | H_detail_events_manual_reset_event_windows => [Ext E_B_core_enable_if; Inc H_detail_config; Inc H_detail_time_traits; Inc H_detail_events_basic_event_windows; Header
  ; Use XConfig; Use M_open_abi_namespace; Decl L_manual_reset_event; Use XEnableIf; Use L_time_traits; Use L_is_time_tag_of; Use L_time_duration_tag
  ; Use L_time_point_tag; Use L_basic_event; Footer]
  (* include/boost/sync/detail/futex.hpp:21,22,23,24,25,26,27,28,30,35,35,50,50,50,52,56,62,71,71,90,100,105,127 *)
  | H_detail_futex => [Ext E_stddef_h; Ext E_limits_h; Ext E_unistd_h; Ext E_sys_time_h; Ext E_sys_syscall_h; Ext E_linux_futex_h; Inc H_detail_config; Header
  ; Use XConfig; Use XSysNum; Decl M_sys_futex; Decl L_futex_invoke; Use XTimespec; Use XNull; Use XSyscall; Decl L_futex_wait; Use XFutex; Decl L_futex_timedwait
  ; Use XInt; Decl L_futex_broadcast; Use XLimits; Decl L_futex_signal; Footer]
  (* include/boost/sync/detail/link_config.hpp:19,21,42,50 *)
  | H_detail_link_config => [Inc H_detail_config; Use XConfig; Ext E_B_config_auto_link; Decl M_api]
  (* include/boost/sync/detail/lockable_wrapper.hpp:19,20,22,33,51 *)
  | H_detail_lockable_wrapper => [Inc H_detail_config; Header; Use XConfig; Decl L_lockable_wrapper; Footer]
  (* include/boost/sync/detail/mutexes/basic_mutex_windows.hpp:20,21,22,23,24,25,26,27,28,29,30,31,32,34,36,48,60,60,71,73,73,90,106,120,121,121,169,173,195 *)
  | H_detail_mutexes_basic_mutex_windows => [Ext E_cstddef; Ext E_B_cstdint; Ext E_B_assert; Ext E_B_memory_order; Ext E_B_atomic_atomic; Ext E_B_winapi_handles
  ; Ext E_B_winapi_event; Ext E_B_winapi_wait; Ext E_B_winapi_get_last_error; Inc H_detail_config; Inc H_exceptions_lock_error; Inc H_exceptions_resource_error
  ; Inc H_detail_throw_exception; Header; Use XConfig; Decl L_basic_mutex; Use XBoostAtomic; Use XInt; Use XWinTypes; Use XAssert; Use XWinHandle; Use XWinEvent
  ; Use XNull; Use XWinError; Use M_throw; Use L_resource_error; Use XWinWait; Use L_lock_error; Footer]
  (* include/boost/sync/detail/mutexes/mutex_posix.hpp:20,21,22,23,24,25,26,28,30,40,42,47,74,77,77,84,84,92,107,127 *)
  | H_detail_mutexes_mutex_posix => [Ext E_cstddef; Ext E_B_assert; Inc H_detail_config; Inc H_exceptions_lock_error; Inc H_exceptions_resource_error
  ; Inc H_detail_throw_exception; Inc H_detail_pthread; Header; Use XConfig; Use M_open_abi_namespace; Decl L_mutex; Use XPthread; Use XNull; Use M_throw
  ; Use L_resource_error; Use XAssert; Use L_wrap_pthread; Use L_lock_error; Use XErrno; Footer]
  (* include/boost/sync/detail/mutexes/mutex_windows.hpp:20,21,22,24,32,34,40,43,47,74 *)
  | H_detail_mutexes_mutex_windows => [Inc H_detail_config; Inc H_detail_mutexes_basic_mutex_windows; Header; Use XConfig; Use M_open_abi_namespace; Decl L_mutex
  ; Use L_basic_mutex; Use T_platform; Use M_constexpr_with_non_literal_base; Footer]
  (* include/boost/sync/detail/mutexes/shared_spin_mutex.hpp:22,24,25,27,29,36,49,54,60,61,130 *)
  | H_detail_mutexes_shared_spin_mutex => [Ext E_B_cstdint; Inc H_detail_atomic; Inc H_detail_pause; Header; Use XConfig; Decl L_shared_spin_mutex; Use XInt; Use XAssert
  ; Use L_atomic_ns; Use L_pause; Footer]
  (* include/boost/sync/detail/mutexes/spin_mutex.hpp:19,20,22,24,28,41,45,54,62,87,89,106,133 *)
  | H_detail_mutexes_spin_mutex => [Inc H_detail_atomic; Inc H_detail_pause; Header; Use XConfig; Use T_std_atomic
  ; If FSpinBool [Decl L_spin_mutex; Use L_atomic_ns; Use XAssert; Use L_pause] [Decl L_spin_mutex; Use L_atomic_ns; Use L_pause]; Footer]
  (* include/boost/sync/detail/mutexes/timed_mutex_posix.hpp:20,21,22,23,24,25,26,27,28,29,30,31,32,34,36,48,50,57,100,102,102,115,115,127,141,150,177,177,183,183,189,205,207,218,219,224,228,237,247,272 *)
  | H_detail_mutexes_timed_mutex_posix => [Ext E_errno_h; Ext E_cstddef; Ext E_B_assert; Ext E_B_core_enable_if; Inc H_exceptions_lock_error
  ; Inc H_exceptions_resource_error; Inc H_detail_config; Inc H_detail_pthread; Inc H_detail_time_traits; Inc H_detail_time_units; Inc H_detail_throw_exception
  ; Use T_timedlock; If FTimedlock [] [Inc H_detail_pthread_mutex_locks]; Header; Use XConfig; Use M_open_abi_namespace; Decl L_timed_mutex; Use XPthread; Use XNull
  ; Use M_throw; Use L_resource_error; Use XAssert; Use L_wrap_pthread; If FTimedlock [Use L_lock_error; Use XErrno] [Use L_pthread_mutex_lock_guard]; Use XEnableIf
  ; Use L_time_traits; Use L_enable_if_tag; Use L_time_duration_tag; Use L_time_point_tag; Use L_system_duration; Use L_system_time_point
  ; If FTimedlock [Use XErrno; Use L_lock_error] [Use L_pthread_mutex_lock_guard; Use XErrno; Use L_lock_error]; Use L_chrono_time_point; Footer]
  (* include/boost/sync/detail/mutexes/timed_mutex_windows.hpp:20,21,22,23,24,25,26,27,28,29,30,31,32,33,34,36,38,46,48,54,57,61,81,81,90,90,99,111,113,113,120,122,124,124,126,127,127,132,163,211,233 *)
  | H_detail_mutexes_timed_mutex_windows => [Ext E_cstddef; Ext E_B_cstdint; Ext E_B_assert; Ext E_B_memory_order; Ext E_B_atomic_atomic; Ext E_B_core_enable_if
  ; Ext E_B_winapi_wait; Ext E_B_winapi_waitable_timer; Inc H_exceptions_lock_error; Inc H_detail_config; Inc H_detail_throw_exception; Inc H_detail_time_traits
  ; Inc H_detail_time_units; Inc H_detail_waitable_timer; Inc H_detail_mutexes_basic_mutex_windows; Header; Use XConfig; Use M_open_abi_namespace; Decl L_timed_mutex
  ; Use L_basic_mutex; Use T_platform; Use M_constexpr_with_non_literal_base; Use XEnableIf; Use L_time_traits; Use L_enable_if_tag; Use L_time_duration_tag
  ; Use L_time_point_tag; Use L_system_time_point; Use XInt; Use XBoostAtomic; Use XWinTypes; Use L_get_waitable_timer; Use XWinTimer; Use XNull; Use XWinError
  ; Use M_throw; Use L_lock_error; Use XWinWait; Use L_system_duration; Use L_chrono_time_point; Footer]
  (* include/boost/sync/detail/pause.hpp:13,14,16,31,44 *)
  | H_detail_pause => [Inc H_detail_config; Header; Use XConfig; Decl L_pause; Footer]
  (* include/boost/sync/detail/pthread.hpp:21,22,23,24,25,27,31,47,47,47,47,164 *)
  | H_detail_pthread => [Ext E_time_h; Ext E_errno_h; Ext E_pthread_h; Inc H_detail_config; Header; Use XConfig; Decl T_timedlock; Use XPthread; Use XErrno; Use XTimespec
  ; Decl L_wrap_pthread; Footer]
  (* include/boost/sync/detail/pthread_mutex_locks.hpp:19,20,21,22,24,36,38,43,43,55,82 *)
  | H_detail_pthread_mutex_locks => [Ext E_B_assert; Inc H_detail_pthread; Inc H_detail_config; Header; Use XConfig; Decl L_pthread_mutex_lock_guard; Use XPthread
  ; Use XAssert; Use L_wrap_pthread; Decl L_pthread_mutex_unlock_guard; Footer]
  (* include/boost/sync/detail/semaphore/basic_semaphore_mach.hpp:13,14,15,16,18,19,20,21,22,23,24,25,26,27,29,41,49,49,51,51,51,56,61,79,102,113,129,135,143,189 *)
  | H_detail_semaphore_basic_semaphore_mach => [Ext E_mach_task_h; Ext E_mach_semaphore_h; Ext E_mach_mach_traps_h; Ext E_mach_mach_init_h; Ext E_B_assert
  ; Ext E_B_cstdint; Inc H_detail_config; Inc H_detail_time_traits; Inc H_detail_time_units; Inc H_detail_throw_exception; Inc H_detail_system_error
  ; Inc H_exceptions_resource_error; Inc H_exceptions_wait_error; Header; Use XConfig; Decl L_basic_semaphore; Use XMachTask; Use XMachSelf; Use M_throw
  ; Use L_resource_error; Use L_system_ns; Use XAssert; Use XMachSem; Use L_wait_error; Use L_system_duration; Use XInt; Use L_system_time_point; Use L_chrono_time_point
  ; Use L_time_traits; Footer]
  (* include/boost/sync/detail/semaphore/semaphore_dispatch.hpp:13,14,15,17,18,19,20,21,22,23,24,25,27,35,37,48,49,50,50,50,77,77,83,83,89,95,105,119,121,127,152 *)
  | H_detail_semaphore_semaphore_dispatch => [Ext E_time_h; Ext E_cstddef; Ext E_dispatch_dispatch_h; Ext E_B_cstdint; Ext E_B_core_enable_if; Inc H_detail_config
  ; Inc H_detail_time_traits; Inc H_detail_time_units; Inc H_detail_throw_exception; Inc H_detail_system_error; Inc H_exceptions_resource_error; Header; Use XConfig
  ; Use M_open_abi_namespace; Decl L_semaphore; Use XDispatch; Use XNull; Use M_throw; Use L_resource_error; Use L_system_ns; Use XEnableIf; Use L_time_traits
  ; Use L_is_time_tag_of; Use L_time_duration_tag; Use L_time_point_tag; Use L_system_duration; Use XInt; Use L_system_time_point; Use XTimespec; Use L_chrono_time_point
  ; Footer]
  (* include/boost/sync/detail/semaphore/semaphore_emulation.hpp:13,14,15,16,17,18,19,20,22,32,34,46,46,53,71,71,90,90,96,103,113 *)
  | H_detail_semaphore_semaphore_emulation => [Ext E_B_core_enable_if; Inc H_detail_config; Inc H_detail_time_traits; Inc H_locks_lock_guard; Inc H_locks_unique_lock
  ; Inc H_mutexes_mutex; Inc H_condition_variables_condition_variable; Header; Use XConfig; Use M_open_abi_namespace; Decl L_semaphore; Use D_lock_guard; Use L_mutex
  ; Use D_unique_lock; Use XEnableIf; Use L_time_traits; Use L_is_time_tag_of; Use L_time_duration_tag; Use L_time_point_tag; Use L_condition_variable; Footer]
  (* include/boost/sync/detail/semaphore/semaphore_mach.hpp:13,14,15,16,17,19,27,29,44,44,50,50,56,62,71 *)
  | H_detail_semaphore_semaphore_mach => [Ext E_B_core_enable_if; Inc H_detail_config; Inc H_detail_time_traits; Inc H_detail_semaphore_basic_semaphore_mach; Header
  ; Use XConfig; Use M_open_abi_namespace; Decl L_semaphore; Use XEnableIf; Use L_time_traits; Use L_is_time_tag_of; Use L_time_duration_tag; Use L_time_point_tag
  ; Use L_basic_semaphore; Footer]
  (* include/boost/sync/detail/semaphore/semaphore_posix.hpp:14,15,17,18,19,20,21,22,23,24,25,27,35,37,45,48,49,49,55,68,121,121,127,127,133,139,141,170,195 *)
  | H_detail_semaphore_semaphore_posix => [Ext E_errno_h; Ext E_semaphore_h; Ext E_B_assert; Ext E_B_core_enable_if; Inc H_detail_config; Inc H_exceptions_resource_error
  ; Inc H_exceptions_overflow_error; Inc H_detail_throw_exception; Inc H_detail_time_traits; Inc H_detail_time_units; Header; Use XConfig; Use M_open_abi_namespace
  ; Decl L_semaphore; Use XSem; Use XErrno; Use M_throw; Use L_resource_error; Use XAssert; Use L_overflow_error; Use XEnableIf; Use L_time_traits; Use L_is_time_tag_of
  ; Use L_time_duration_tag; Use L_time_point_tag; Use L_system_duration; Use L_system_time_point; Use L_chrono_time_point; Footer]
  (* include/boost/sync/detail/semaphore/semaphore_windows.hpp:13,14,15,16,17,18,19,20,21,22,23,24,25,26,27,28,29,30,31,33,41,43,51,51,51,54,54,55,55,61,61,70,76,79,97,97,103,103,109,115,147,151,153,174,180,207 *)
  | H_detail_semaphore_semaphore_windows => [Ext E_limits_h; Ext E_cstddef; Ext E_B_assert; Ext E_B_core_enable_if; Ext E_B_winapi_get_last_error
  ; Ext E_B_winapi_semaphore; Ext E_B_winapi_wait; Ext E_B_winapi_waitable_timer; Ext E_B_winapi_handles; Inc H_detail_config; Inc H_detail_throw_exception
  ; Inc H_exceptions_lock_error; Inc H_exceptions_overflow_error; Inc H_exceptions_resource_error; Inc H_exceptions_wait_error; Inc H_detail_time_traits
  ; Inc H_detail_time_units; Inc H_detail_waitable_timer; Header; Use XConfig; Use M_open_abi_namespace; Decl L_semaphore; Use XWinSem; Use XNull; Use XLimits
  ; Use XWinTypes; Use XWinError; Use M_throw; Use L_resource_error; Use XAssert; Use XWinHandle; Use L_overflow_error; Use XWinWait; Use L_wait_error; Use XEnableIf
  ; Use L_time_traits; Use L_is_time_tag_of; Use L_time_duration_tag; Use L_time_point_tag; Use L_system_duration; Use L_system_time_point; Use L_get_waitable_timer
  ; Use XWinTimer; Use L_lock_error; Use L_chrono_time_point; Footer]
  (* include/boost/sync/detail/semaphore_config.hpp:12,14,18,23,39,41,38 *)
  | H_detail_semaphore_config => [Inc H_detail_config; Use XConfig; Use T_platform; IfP PMach [Use XAvail] []
  ; If FDispatch [] [If FUnistd [Ext E_unistd_h; Use XPosixOpt] []]; Decl T_sem_kind]
  (* include/boost/sync/detail/system_error.hpp:18,20,22,23,25,27,38,38,39,41,41,42,51 *)
  | H_detail_system_error => [Inc H_detail_config; If FStdError [Ext E_system_error] [Ext E_B_system_error_code; Ext E_B_system_system_error]; Header; Use XConfig
  ; If FStdError [Decl L_system_ns; Use XStdErr; Decl L_errc_t] [Decl L_system_ns; Use XBoostErr; Decl L_errc_t]; Footer]
  (* include/boost/sync/detail/throw_exception.hpp:18,19,20,21,22,24,37,37,39,70,73,82 *)
  | H_detail_throw_exception => [Ext E_B_throw_exception; Ext E_B_assert_source_location; Ext E_B_preprocessor_seq_enum; Inc H_detail_config; Header; Use XConfig
  ; Decl L_throw_exception; Use XLocation; Use XThrow; Decl M_throw_default; Decl M_throw; Footer]
  (* include/boost/sync/detail/time_traits.hpp:19,20,21,23,33,34,37,43,54,54,65 *)
  | H_detail_time_traits => [Ext E_B_mpl_bool; Inc H_detail_config; Header; Use XConfig; Decl L_time_point_tag; Decl L_time_duration_tag; Decl L_time_traits
  ; Decl L_enable_if_tag; Decl L_is_time_tag_of; Use XMplBool; Footer]
  (* include/boost/sync/detail/time_units.hpp:17,18,19,21,22,24,27,29,39,42,90,103,119,153,156,188,237,299 *)
  | H_detail_time_units => [Ext E_time_h; Ext E_B_cstdint; Inc H_detail_config; Use T_platform; IfP PWinapi [Ext E_B_winapi_time] [IfP PMach [Ext E_sys_time_h] []]
  ; Header; Use XConfig; Decl L_system_duration; Use XInt
  ; IfP PWinapi [Decl L_system_time_point; Use XTimespec; Use XWinTime] [Decl L_system_time_point; Use XTimespec; If FGettime [] [IfP PMach [Use XTimeval] []]]
  ; Decl L_chrono_time_point; Footer]
  (* include/boost/sync/detail/tss.hpp:19,20,22,32,44,44,56,62,71,78,86 *)
  | H_detail_tss => [Inc H_detail_link_config; Header; Use XConfig; Decl L_thread_specific_key; Use M_api; Decl L_add_thread_exit_callback; Decl L_new_thread_specific_key
  ; Decl L_delete_thread_specific_key; Decl L_get_thread_specific; Decl L_set_thread_specific; Footer]
  (* include/boost/sync/detail/waitable_timer.hpp:18,19,20,21,22,23,24,25,26,27,28,29,30,31,32,33,34,35,36,37,38,39,40,42,68,79,84,90,91,100,102,127,131,147,166,176,179,181,181,186,205,217,248,267,272,291,301,315,328 *)
  | H_detail_waitable_timer => [Ext E_winerror_h; Ext E_limits_h; Ext E_cstddef; Ext E_cstdlib; Ext E_stdexcept; Ext E_B_cstdint; Ext E_B_version; Ext E_B_winapi_dll
  ; Ext E_B_winapi_tls; Ext E_B_winapi_handles; Ext E_B_winapi_thread; Ext E_B_winapi_thread_pool; Ext E_B_winapi_get_current_process
  ; Ext E_B_winapi_get_current_process_id; Ext E_B_winapi_waitable_timer; Ext E_B_winapi_semaphore; Ext E_B_winapi_get_last_error; Ext E_B_detail_interlocked
  ; Inc H_detail_config; Inc H_detail_weak_linkage; Inc H_detail_throw_exception; Inc H_exceptions_resource_error; Header; Use XConfig; Decl L_waitable_timer_state
  ; Use XWinTypes; Use XInt; Use XVersion; Use XNull; Use XWinPool; Use XWinHandle; Use XInterlocked; Use XWinThread; Use XWinProcId; Use XWinSem; Use XWinTls
  ; Use XWinError; Use M_throw; Use L_resource_error; Use XLimits; Use XAtexit; Use XWinDll; Use XWinProc; Use XWinWait; Use XWinTimer; Use L_weak_linkage
  ; Decl L_get_waitable_timer; Use XLogicError; Footer]
  (* include/boost/sync/detail/weak_linkage.hpp:18,19,21,33,47 *)
  | H_detail_weak_linkage => [Inc H_detail_config; Header; Use XConfig; Decl L_weak_linkage; Footer]
  (* include/boost/sync/events.hpp:17,19,23,24 *)
  | H_events => [Inc H_detail_config; Use XConfig; Inc H_events_auto_reset_event; Inc H_events_manual_reset_event]
  (* include/boost/sync/events/auto_reset_event.hpp:134,136,140,141,143,146,147,148,148,150 *)
  | H_events_auto_reset_event => [Inc H_detail_config; Use XConfig; Use T_platform
  ; IfP PWinapi [Inc H_detail_events_auto_reset_event_windows] [IfP PLinux [Inc H_detail_events_auto_reset_event_futex] [Inc H_detail_semaphore_config; Use T_sem_kind; If FPosixSem [Inc H_detail_events_auto_reset_event_semaphore] [If FDispatch [Inc H_detail_events_auto_reset_event_semaphore] [Inc H_detail_events_auto_reset_event_emulation]]]]]
  (* include/boost/sync/events/manual_reset_event.hpp:141,143,147,148,150,152 *)
  | H_events_manual_reset_event => [Inc H_detail_config; Use XConfig; Use T_platform
  ; IfP PWinapi [Inc H_detail_events_manual_reset_event_windows] [IfP PLinux [Inc H_detail_events_manual_reset_event_futex] [Inc H_detail_events_manual_reset_event_emulation]]]
  (* include/boost/sync/exceptions.hpp:17,19,23,24,25,26,27 *)
  | H_exceptions => [Inc H_detail_config; Use XConfig; Inc H_exceptions_runtime_exception; Inc H_exceptions_resource_error; Inc H_exceptions_lock_error
  ; Inc H_exceptions_wait_error; Inc H_exceptions_overflow_error]
  (* include/boost/sync/exceptions/lock_error.hpp:17,18,19,20,21,23,31,32,43,56 *)
  | H_exceptions_lock_error => [Ext E_string; Inc H_detail_config; Inc H_detail_system_error; Inc H_exceptions_runtime_exception; Header; Use XConfig; Decl L_lock_error
  ; Use L_runtime_exception; Use XString; Footer]
  (* include/boost/sync/exceptions/overflow_error.hpp:17,18,19,20,21,23,31,32,35,43,56 *)
  | H_exceptions_overflow_error => [Ext E_string; Inc H_detail_config; Inc H_detail_system_error; Inc H_exceptions_runtime_exception; Header; Use XConfig
  ; Decl L_overflow_error; Use L_runtime_exception; Use L_system_ns; Use XString; Footer]
  (* include/boost/sync/exceptions/resource_error.hpp:17,18,19,20,21,23,31,32,43,66 *)
  | H_exceptions_resource_error => [Ext E_string; Inc H_detail_config; Inc H_detail_system_error; Inc H_exceptions_runtime_exception; Header; Use XConfig
  ; Decl L_resource_error; Use L_runtime_exception; Use L_errc_t; Footer]
  (* include/boost/sync/exceptions/runtime_exception.hpp:17,18,19,20,22,30,31,43,62 *)
  | H_exceptions_runtime_exception => [Ext E_string; Inc H_detail_config; Inc H_detail_system_error; Header; Use XConfig; Decl L_runtime_exception; Use L_system_ns
  ; Use XString; Footer]
  (* include/boost/sync/exceptions/wait_error.hpp:17,18,19,20,21,23,31,32,43,56 *)
  | H_exceptions_wait_error => [Ext E_string; Inc H_detail_config; Inc H_detail_system_error; Inc H_exceptions_runtime_exception; Header; Use XConfig; Decl L_wait_error
  ; Use L_runtime_exception; Use XString; Footer]
  (* include/boost/sync/locks.hpp:17,19,23,24,25,26,27,28 *)
  | H_locks => [Inc H_detail_config; Use XConfig; Inc H_locks_lock_guard; Inc H_locks_unlock_guard; Inc H_locks_shared_lock_guard; Inc H_locks_unique_lock
  ; Inc H_locks_shared_lock; Inc H_locks_upgrade_lock]
  (* include/boost/sync/locks/lock_guard.hpp:19,21,25,26,28,38,38,52,69 *)
  | H_locks_lock_guard => [Inc H_detail_config; Use XConfig; Inc H_locks_lock_options; Inc H_locks_lock_guard_fwd; Header; Decl L_lock_guard; Decl D_lock_guard
  ; Use L_adopt_lock_t; Footer]
  (* include/boost/sync/locks/lock_guard_fwd.hpp:19,21,25,35,41 *)
  | H_locks_lock_guard_fwd => [Inc H_detail_config; Use XConfig; Header; Decl L_lock_guard; Footer]
  (* include/boost/sync/locks/lock_options.hpp:14,16,20,26,29,32,36,37,38,44 *)
  | H_locks_lock_options => [Inc H_detail_config; Use XConfig; Header; Decl L_defer_lock_t; Decl L_try_to_lock_t; Decl L_adopt_lock_t; Decl L_defer_lock
  ; Decl L_try_to_lock; Decl L_adopt_lock; Footer]
  (* include/boost/sync/locks/shared_lock.hpp:19,20,21,22,23,24,25,26,27,28,29,30,31,32,33,36,37,40,54,54,64,68,77,81,85,92,92,106,114,136,151,151,151,188,188,202,227,273 *)
  | H_locks_shared_lock => [Ext E_cstddef; Ext E_B_move_core; Ext E_B_move_utility; Ext E_B_core_enable_if; Ext E_B_core_explicit_operator_bool; Inc H_detail_config
  ; Inc H_detail_time_traits; Inc H_detail_throw_exception; Inc H_detail_system_error; Inc H_exceptions_lock_error; Inc H_locks_lock_options; Inc H_locks_shared_lock_fwd
  ; Use XConfig; If FRvalue [Inc H_locks_unique_lock_fwd; Inc H_locks_upgrade_lock_fwd] [Inc H_locks_unique_lock; Inc H_locks_upgrade_lock]; Header; Decl L_shared_lock
  ; Decl D_shared_lock; Use XMove; Use XNull; Use L_adopt_lock_t; Use L_defer_lock_t; Use L_try_to_lock_t; Use XEnableIf; Use L_time_traits; Use L_unique_lock
  ; Use L_upgrade_lock; Use XMoveFn; Use M_throw; Use L_lock_error; Use L_system_ns; Use L_enable_if_tag; Use L_time_duration_tag; Use L_time_point_tag; Use XExplicit
  ; Footer]
  (* include/boost/sync/locks/shared_lock_fwd.hpp:19,21,25,35,41 *)
  | H_locks_shared_lock_fwd => [Inc H_detail_config; Use XConfig; Header; Decl L_shared_lock; Footer]
  (* include/boost/sync/locks/shared_lock_guard.hpp:18,20,24,25,27,37,37,51,68 *)
  | H_locks_shared_lock_guard => [Inc H_detail_config; Use XConfig; Inc H_locks_lock_options; Inc H_locks_shared_lock_guard_fwd; Header; Decl L_shared_lock_guard
  ; Decl D_shared_lock_guard; Use L_adopt_lock_t; Footer]
  (* include/boost/sync/locks/shared_lock_guard_fwd.hpp:19,21,25,35,41 *)
  | H_locks_shared_lock_guard_fwd => [Inc H_detail_config; Use XConfig; Header; Decl L_shared_lock_guard; Footer]
  (* include/boost/sync/locks/unique_lock.hpp:19,20,21,22,23,24,25,26,27,28,29,30,31,32,33,36,37,40,54,54,64,68,77,81,85,92,92,105,132,181,189,189,189,226,226,240,265,311 *)
  | H_locks_unique_lock => [Ext E_cstddef; Ext E_B_move_core; Ext E_B_move_utility; Ext E_B_core_enable_if; Ext E_B_core_explicit_operator_bool; Inc H_detail_config
  ; Inc H_detail_time_traits; Inc H_detail_throw_exception; Inc H_detail_system_error; Inc H_exceptions_lock_error; Inc H_locks_lock_options; Inc H_locks_unique_lock_fwd
  ; Use XConfig; If FRvalue [Inc H_locks_shared_lock_fwd; Inc H_locks_upgrade_lock_fwd] [Inc H_locks_shared_lock; Inc H_locks_upgrade_lock]; Header; Decl L_unique_lock
  ; Decl D_unique_lock; Use XMove; Use XNull; Use L_adopt_lock_t; Use L_defer_lock_t; Use L_try_to_lock_t; Use XEnableIf; Use L_time_traits; Use L_upgrade_lock
  ; Use L_shared_lock; Use XMoveFn; Use M_throw; Use L_lock_error; Use L_system_ns; Use L_enable_if_tag; Use L_time_duration_tag; Use L_time_point_tag; Use XExplicit
  ; Footer]
  (* include/boost/sync/locks/unique_lock_fwd.hpp:19,21,25,35,41 *)
  | H_locks_unique_lock_fwd => [Inc H_detail_config; Use XConfig; Header; Decl L_unique_lock; Footer]
  (* include/boost/sync/locks/unlock_guard.hpp:17,19,23,25,35,35,63 *)
  | H_locks_unlock_guard => [Inc H_detail_config; Use XConfig; Inc H_locks_unlock_guard_fwd; Header; Decl L_unlock_guard; Decl D_unlock_guard; Footer]
  (* include/boost/sync/locks/unlock_guard_fwd.hpp:17,19,23,33,39 *)
  | H_locks_unlock_guard_fwd => [Inc H_detail_config; Use XConfig; Header; Decl L_unlock_guard; Footer]
  (* include/boost/sync/locks/upgrade_lock.hpp:19,20,21,22,23,24,25,26,27,28,29,30,31,32,33,36,37,40,54,54,64,68,77,81,85,92,92,105,114,163,171,171,171,208,208,222,247,293 *)
  | H_locks_upgrade_lock => [Ext E_cstddef; Ext E_B_move_core; Ext E_B_move_utility; Ext E_B_core_enable_if; Ext E_B_core_explicit_operator_bool; Inc H_detail_config
  ; Inc H_detail_time_traits; Inc H_detail_throw_exception; Inc H_detail_system_error; Inc H_exceptions_lock_error; Inc H_locks_lock_options; Inc H_locks_upgrade_lock_fwd
  ; Use XConfig; If FRvalue [Inc H_locks_unique_lock_fwd; Inc H_locks_shared_lock_fwd] [Inc H_locks_unique_lock; Inc H_locks_shared_lock]; Header; Decl L_upgrade_lock
  ; Decl D_upgrade_lock; Use XMove; Use XNull; Use L_adopt_lock_t; Use L_defer_lock_t; Use L_try_to_lock_t; Use XEnableIf; Use L_time_traits; Use L_unique_lock
  ; Use L_shared_lock; Use XMoveFn; Use M_throw; Use L_lock_error; Use L_system_ns; Use L_enable_if_tag; Use L_time_duration_tag; Use L_time_point_tag; Use XExplicit
  ; Footer]
  (* include/boost/sync/locks/upgrade_lock_fwd.hpp:19,21,25,35,41 *)
  | H_locks_upgrade_lock_fwd => [Inc H_detail_config; Use XConfig; Header; Decl L_upgrade_lock; Footer]
  (* include/boost/sync/mutexes.hpp:17,19,23,24,25,26 *)
  | H_mutexes => [Inc H_detail_config; Use XConfig; Inc H_mutexes_mutex; Inc H_mutexes_shared_spin_mutex; Inc H_mutexes_spin_mutex; Inc H_mutexes_timed_mutex]
  (* include/boost/sync/mutexes/mutex.hpp:95,97,101,102,104 *)
  | H_mutexes_mutex => [Inc H_detail_config; Use XConfig; Use T_platform; IfP PWinapi [Inc H_detail_mutexes_mutex_windows] [Inc H_detail_mutexes_mutex_posix]]
  (* include/boost/sync/mutexes/shared_spin_mutex.hpp:99,101,105 *)
  | H_mutexes_shared_spin_mutex => [Inc H_detail_config; Use XConfig; Inc H_detail_mutexes_shared_spin_mutex]
  (* include/boost/sync/mutexes/spin_mutex.hpp:76,78,82 *)
  | H_mutexes_spin_mutex => [Inc H_detail_config; Use XConfig; Inc H_detail_mutexes_spin_mutex]
  (* include/boost/sync/mutexes/timed_mutex.hpp:143,145,149,150,152 *)
  | H_mutexes_timed_mutex => [Inc H_detail_config; Use XConfig; Use T_platform
  ; IfP PWinapi [Inc H_detail_mutexes_timed_mutex_windows] [Inc H_detail_mutexes_timed_mutex_posix]]
  (* include/boost/sync/semaphore.hpp:132,134,138,138,139,141,143,145 *)
  | H_semaphore => [Inc H_detail_semaphore_config; Use XConfig; Use T_platform; Use T_sem_kind
  ; IfP PWinapi [Inc H_detail_semaphore_semaphore_windows] [If FDispatch [Inc H_detail_semaphore_semaphore_dispatch] [If FPosixSem [Inc H_detail_semaphore_semaphore_posix] [Inc H_detail_semaphore_semaphore_emulation]]]]
  (* include/boost/sync/support/boost_chrono.hpp:16,17,18,19,20,21,22,23,25,36,36,38,39,45,51,53,54,65,68,86 *)
  | H_support_boost_chrono => [Ext E_B_ratio_ratio; Ext E_B_chrono_duration; Ext E_B_chrono_time_point; Ext E_B_chrono_system_clocks; Inc H_detail_config
  ; Inc H_detail_time_traits; Inc H_detail_time_units; Header; Use XConfig; Use L_time_traits; Use XDuration; Use L_time_duration_tag; Use L_system_duration; Use XRatio
  ; Use XTimePoint; Use L_time_point_tag; Use L_chrono_time_point; Use XSysClock; Use L_system_time_point; Footer]
  (* include/boost/sync/support/boost_date_time.hpp:16,17,18,19,20,21,22,24,35,37,38,44,49,61,62,83 *)
  | H_support_boost_date_time => [Ext E_B_assert; Ext E_B_cstdint; Ext E_B_date_time_posix_time_posix_time_types; Inc H_detail_config; Inc H_detail_time_traits
  ; Inc H_detail_time_units; Header; Use XConfig; Use L_time_traits; Use L_time_duration_tag; Use L_system_duration; Use XAssert; Use XInt; Use L_time_point_tag
  ; Use L_system_time_point; Footer]
  (* include/boost/sync/support/posix_time.hpp:16,17,18,19,20,21,23,34,34,36,37,60 *)
  | H_support_posix_time => [Ext E_time_h; Ext E_B_static_assert; Inc H_detail_config; Inc H_detail_time_traits; Inc H_detail_time_units; Header; Use XConfig
  ; Use L_time_traits; Use XTimespec; Use L_time_point_tag; Use L_system_time_point; Footer]
  (* include/boost/sync/support/std_chrono.hpp:16,17,18,19,20,21,23,34,34,36,37,43,51,52,66,89 *)
  | H_support_std_chrono => [Ext E_ratio; Ext E_chrono; Inc H_detail_config; Inc H_detail_time_traits; Inc H_detail_time_units; Header; Use XConfig; Use L_time_traits
  ; Use XStdChrono; Use L_time_duration_tag; Use L_system_duration; Use XRatio; Use L_time_point_tag; Use L_chrono_time_point; Use L_system_time_point; Footer]
  (* include/boost/sync/thread_specific/at_thread_exit.hpp:17,18,19,21,32,49,54,67 *)
  | H_thread_specific_at_thread_exit => [Inc H_detail_config; Inc H_detail_tss; Header; Use XConfig; Decl L_at_thread_exit_trampoline; Decl L_at_thread_exit
  ; Use L_add_thread_exit_callback; Footer]
  (* include/boost/sync/thread_specific/thread_specific_ptr.hpp:18,19,20,21,22,24,33,39,44,57,62,68,84,90,125 *)
  | H_thread_specific_thread_specific_ptr => [Ext E_B_assert; Ext E_B_core_explicit_operator_bool; Inc H_detail_config; Inc H_detail_tss; Header; Use XConfig
  ; Decl L_thread_specific_ptr; Use L_thread_specific_key; Use L_new_thread_specific_key; Use L_delete_thread_specific_key; Use L_get_thread_specific; Use XAssert
  ; Use XExplicit; Use L_set_thread_specific; Footer]
  (* include/boost/sync/traits/is_condition_variable_compatible.hpp:16,17,18,20,29,29,38 *)
  | H_traits_is_condition_variable_compatible => [Ext E_B_mpl_bool; Inc H_detail_config; Header; Use XConfig; Decl L_is_condition_variable_compatible; Use XMplBool
  ; Footer]
  end.

(* What the documentation of each external header promises, as far as the library uses it (all
   boost/winapi headers also give the basic types). Other projects' headers; no counterpart in /repo. *)
Definition provides (e : ext) : list name :=
  match e with
  | E_Availability_h => [XAvail]
  | E_B_assert => [XAssert]
  | E_B_assert_source_location => [XLocation]
  | E_B_atomic_atomic => [XBoostAtomic]
  | E_B_chrono_duration => [XDuration]
  | E_B_chrono_system_clocks => [XSysClock]
  | E_B_chrono_time_point => [XTimePoint]
  | E_B_config => [XConfig]
  | E_B_core_enable_if => [XEnableIf]
  | E_B_core_explicit_operator_bool => [XExplicit]
  | E_B_core_scoped_enum => [XScopedEnum]
  | E_B_cstdint => [XInt]
  | E_B_detail_interlocked => [XInterlocked]
  | E_B_move_core => [XMove]
  | E_B_move_utility => [XMoveFn]
  | E_B_mpl_and => [XMplAnd]
  | E_B_mpl_bool => [XMplBool]
  | E_B_ratio_ratio => [XRatio]
  | E_B_static_assert => [XStaticAssert]
  | E_B_system_error_code => [XBoostErr]
  | E_B_throw_exception => [XThrow]
  | E_B_version => [XVersion]
  | E_B_winapi_config => [XWinVer; XWinTypes]
  | E_B_winapi_dll => [XWinDll; XWinTypes]
  | E_B_winapi_event => [XWinEvent; XWinTypes]
  | E_B_winapi_get_current_process => [XWinProc; XWinTypes]
  | E_B_winapi_get_current_process_id => [XWinProcId; XWinTypes]
  | E_B_winapi_get_last_error => [XWinError; XWinTypes]
  | E_B_winapi_handles => [XWinHandle; XWinTypes]
  | E_B_winapi_semaphore => [XWinSem; XWinTypes]
  | E_B_winapi_thread => [XWinThread; XWinTypes]
  | E_B_winapi_thread_pool => [XWinPool; XWinTypes]
  | E_B_winapi_time => [XWinTime; XWinTypes]
  | E_B_winapi_tls => [XWinTls; XWinTypes]
  | E_B_winapi_wait => [XWinWait; XWinTypes]
  | E_B_winapi_waitable_timer => [XWinTimer; XWinTypes]
  | E_chrono => [XTimespec; XStdChrono]
  | E_cstddef => [XNull; XSize]
  | E_cstdlib => [XNull; XSize; XAtexit]
  | E_dispatch_dispatch_h => [XDispatch]
  | E_errno_h => [XErrno]
  | E_limits_h => [XLimits]
  | E_linux_futex_h => [XFutex]
  | E_mach_mach_init_h => [XMachSelf]
  | E_mach_semaphore_h => [XMachSem]
  | E_mach_task_h => [XMachTask]
  | E_pthread_h => [XTimespec; XPthread]
  | E_ratio => [XRatio]
  | E_semaphore_h => [XSem]
  | E_stddef_h => [XNull]
  | E_stdexcept => [XLogicError]
  | E_string => [XString]
  | E_sys_syscall_h => [XSysNum]
  | E_sys_time_h => [XTimespec; XTimeval]
  | E_system_error => [XStdErr]
  | E_time_h => [XNull; XTimespec]
  | E_unistd_h => [XNull; XSyscall; XPosixOpt]
  | E_B_atomic_atomic_flag | E_B_atomic_fences | E_B_config_auto_link | E_B_date_time_posix_time_posix_time_types | E_B_memory_order | E_B_preprocessor_seq_enum
  | E_B_system_system_error | E_atomic | E_mach_mach_traps_h | E_winerror_h => []
  end.

(* Numbers for headers and names, to keep them in sets. Model machinery; no counterpart in /repo. *)
Definition hid (h : hdr) : positive :=
  match h with H_condition_variables => 1 | H_condition_variables_condition_variable => 2
  | H_condition_variables_condition_variable_any => 3 | H_condition_variables_cv_status => 4 | H_condition_variables_notify_all_at_thread_exit => 5 | H_detail_atomic => 6
  | H_detail_auto_handle => 7 | H_detail_condition_variables_basic_condition_variable_windows => 8 | H_detail_condition_variables_condition_variable_any_generic => 9
  | H_detail_condition_variables_condition_variable_any_windows => 10 | H_detail_condition_variables_condition_variable_posix => 11
  | H_detail_condition_variables_condition_variable_windows => 12 | H_detail_config => 13 | H_detail_events_auto_reset_event_emulation => 14
  | H_detail_events_auto_reset_event_futex => 15 | H_detail_events_auto_reset_event_semaphore => 16 | H_detail_events_auto_reset_event_windows => 17
  | H_detail_events_basic_event_windows => 18 | H_detail_events_manual_reset_event_emulation => 19 | H_detail_events_manual_reset_event_futex => 20
  | H_detail_events_manual_reset_event_windows => 21 | H_detail_futex => 22 | H_detail_link_config => 23 | H_detail_lockable_wrapper => 24
  | H_detail_mutexes_basic_mutex_windows => 25 | H_detail_mutexes_mutex_posix => 26 | H_detail_mutexes_mutex_windows => 27 | H_detail_mutexes_shared_spin_mutex => 28
  | H_detail_mutexes_spin_mutex => 29 | H_detail_mutexes_timed_mutex_posix => 30 | H_detail_mutexes_timed_mutex_windows => 31 | H_detail_pause => 32
  | H_detail_pthread => 33 | H_detail_pthread_mutex_locks => 34 | H_detail_semaphore_basic_semaphore_mach => 35 | H_detail_semaphore_semaphore_dispatch => 36
  | H_detail_semaphore_semaphore_emulation => 37 | H_detail_semaphore_semaphore_mach => 38 | H_detail_semaphore_semaphore_posix => 39
  | H_detail_semaphore_semaphore_windows => 40 | H_detail_semaphore_config => 41 | H_detail_system_error => 42 | H_detail_throw_exception => 43
  | H_detail_time_traits => 44 | H_detail_time_units => 45 | H_detail_tss => 46 | H_detail_waitable_timer => 47 | H_detail_weak_linkage => 48 | H_events => 49
  | H_events_auto_reset_event => 50 | H_events_manual_reset_event => 51 | H_exceptions => 52 | H_exceptions_lock_error => 53 | H_exceptions_overflow_error => 54
  | H_exceptions_resource_error => 55 | H_exceptions_runtime_exception => 56 | H_exceptions_wait_error => 57 | H_locks => 58 | H_locks_lock_guard => 59
  | H_locks_lock_guard_fwd => 60 | H_locks_lock_options => 61 | H_locks_shared_lock => 62 | H_locks_shared_lock_fwd => 63 | H_locks_shared_lock_guard => 64
  | H_locks_shared_lock_guard_fwd => 65 | H_locks_unique_lock => 66 | H_locks_unique_lock_fwd => 67 | H_locks_unlock_guard => 68 | H_locks_unlock_guard_fwd => 69
  | H_locks_upgrade_lock => 70 | H_locks_upgrade_lock_fwd => 71 | H_mutexes => 72 | H_mutexes_mutex => 73 | H_mutexes_shared_spin_mutex => 74 | H_mutexes_spin_mutex => 75
  | H_mutexes_timed_mutex => 76 | H_semaphore => 77 | H_support_boost_chrono => 78 | H_support_boost_date_time => 79 | H_support_posix_time => 80
  | H_support_std_chrono => 81 | H_thread_specific_at_thread_exit => 82 | H_thread_specific_thread_specific_ptr => 83 | H_traits_is_condition_variable_compatible => 84 end%positive.
(** Model machinery; no counterpart in /repo. *)
Definition nid (n : name) : positive :=
  match n with D_lock_guard => 1 | D_shared_lock => 2 | D_shared_lock_guard => 3 | D_unique_lock => 4 | D_unlock_guard => 5
  | D_upgrade_lock => 6 | L_add_thread_exit_callback => 7 | L_add_thread_exit_notify_entry => 8 | L_adopt_lock => 9 | L_adopt_lock_t => 10 | L_at_thread_exit => 11
  | L_at_thread_exit_trampoline => 12 | L_atomic_ns => 13 | L_auto_handle => 14 | L_auto_reset_event => 15 | L_basic_condition_variable => 16 | L_basic_event => 17
  | L_basic_mutex => 18 | L_basic_semaphore => 19 | L_chrono_time_point => 20 | L_condition_variable => 21 | L_condition_variable_any => 22 | L_cv_status => 23
  | L_defer_lock => 24 | L_defer_lock_t => 25 | L_delete_thread_specific_key => 26 | L_enable_if_tag => 27 | L_errc_t => 28 | L_futex_broadcast => 29
  | L_futex_invoke => 30 | L_futex_signal => 31 | L_futex_timedwait => 32 | L_futex_wait => 33 | L_get_thread_specific => 34 | L_get_waitable_timer => 35
  | L_is_condition_variable_compatible => 36 | L_is_time_tag_of => 37 | L_lock_error => 38 | L_lock_guard => 39 | L_lockable_wrapper => 40 | L_manual_reset_event => 41
  | L_mutex => 42 | L_new_thread_specific_key => 43 | L_notify_all_at_thread_exit => 44 | L_overflow_error => 45 | L_pause => 46 | L_pthread_mutex_lock_guard => 47
  | L_pthread_mutex_unlock_guard => 48 | L_resource_error => 49 | L_runtime_exception => 50 | L_semaphore => 51 | L_set_thread_specific => 52 | L_shared_lock => 53
  | L_shared_lock_guard => 54 | L_shared_spin_mutex => 55 | L_spin_mutex => 56 | L_system_duration => 57 | L_system_ns => 58 | L_system_time_point => 59
  | L_thread_specific_key => 60 | L_thread_specific_ptr => 61 | L_throw_exception => 62 | L_time_duration_tag => 63 | L_time_point_tag => 64 | L_time_traits => 65
  | L_timed_mutex => 66 | L_try_to_lock => 67 | L_try_to_lock_t => 68 | L_unique_lock => 69 | L_unlock_guard => 70 | L_upgrade_lock => 71 | L_wait_error => 72
  | L_waitable_timer_state => 73 | L_weak_linkage => 74 | L_wrap_pthread => 75 | M_api => 76 | M_constexpr_with_non_literal_base => 77 | M_open_abi_namespace => 78
  | M_sys_futex => 79 | M_throw => 80 | M_throw_default => 81 | T_platform => 82 | T_sem_kind => 83 | T_std_atomic => 84 | T_timedlock => 85 | XConfig => 86
  | XAssert => 87 | XStaticAssert => 88 | XNull => 89 | XSize => 90 | XInt => 91 | XLimits => 92 | XErrno => 93 | XEnableIf => 94 | XMplBool => 95 | XMplAnd => 96
  | XTimespec => 97 | XTimeval => 98 | XBoostAtomic => 99 | XMove => 100 | XMoveFn => 101 | XExplicit => 102 | XScopedEnum => 103 | XThrow => 104 | XLocation => 105
  | XString => 106 | XStdErr => 107 | XBoostErr => 108 | XVersion => 109 | XInterlocked => 110 | XAtexit => 111 | XLogicError => 112 | XPthread => 113 | XSem => 114
  | XDispatch => 115 | XMachSem => 116 | XMachTask => 117 | XMachSelf => 118 | XFutex => 119 | XSyscall => 120 | XSysNum => 121 | XAvail => 122 | XPosixOpt => 123
  | XWinVer => 124 | XWinHandle => 125 | XWinError => 126 | XWinEvent => 127 | XWinWait => 128 | XWinSem => 129 | XWinTimer => 130 | XWinTls => 131 | XWinDll => 132
  | XWinThread => 133 | XWinPool => 134 | XWinProc => 135 | XWinProcId => 136 | XWinTime => 137 | XWinTypes => 138 | XRatio => 139 | XDuration => 140 | XTimePoint => 141
  | XSysClock => 142 | XStdChrono => 143 end%positive.

(* All headers. The files under /repo/include/boost/sync. *)
Definition headers : list hdr := [H_condition_variables; H_condition_variables_condition_variable; H_condition_variables_condition_variable_any
  ; H_condition_variables_cv_status; H_condition_variables_notify_all_at_thread_exit; H_detail_atomic; H_detail_auto_handle
  ; H_detail_condition_variables_basic_condition_variable_windows; H_detail_condition_variables_condition_variable_any_generic
  ; H_detail_condition_variables_condition_variable_any_windows; H_detail_condition_variables_condition_variable_posix
  ; H_detail_condition_variables_condition_variable_windows; H_detail_config; H_detail_events_auto_reset_event_emulation; H_detail_events_auto_reset_event_futex
  ; H_detail_events_auto_reset_event_semaphore; H_detail_events_auto_reset_event_windows; H_detail_events_basic_event_windows
  ; H_detail_events_manual_reset_event_emulation; H_detail_events_manual_reset_event_futex; H_detail_events_manual_reset_event_windows; H_detail_futex
  ; H_detail_link_config; H_detail_lockable_wrapper; H_detail_mutexes_basic_mutex_windows; H_detail_mutexes_mutex_posix; H_detail_mutexes_mutex_windows
  ; H_detail_mutexes_shared_spin_mutex; H_detail_mutexes_spin_mutex; H_detail_mutexes_timed_mutex_posix; H_detail_mutexes_timed_mutex_windows; H_detail_pause
  ; H_detail_pthread; H_detail_pthread_mutex_locks; H_detail_semaphore_basic_semaphore_mach; H_detail_semaphore_semaphore_dispatch; H_detail_semaphore_semaphore_emulation
  ; H_detail_semaphore_semaphore_mach; H_detail_semaphore_semaphore_posix; H_detail_semaphore_semaphore_windows; H_detail_semaphore_config; H_detail_system_error
  ; H_detail_throw_exception; H_detail_time_traits; H_detail_time_units; H_detail_tss; H_detail_waitable_timer; H_detail_weak_linkage; H_events; H_events_auto_reset_event
  ; H_events_manual_reset_event; H_exceptions; H_exceptions_lock_error; H_exceptions_overflow_error; H_exceptions_resource_error; H_exceptions_runtime_exception
  ; H_exceptions_wait_error; H_locks; H_locks_lock_guard; H_locks_lock_guard_fwd; H_locks_lock_options; H_locks_shared_lock; H_locks_shared_lock_fwd
  ; H_locks_shared_lock_guard; H_locks_shared_lock_guard_fwd; H_locks_unique_lock; H_locks_unique_lock_fwd; H_locks_unlock_guard; H_locks_unlock_guard_fwd
  ; H_locks_upgrade_lock; H_locks_upgrade_lock_fwd; H_mutexes; H_mutexes_mutex; H_mutexes_shared_spin_mutex; H_mutexes_spin_mutex; H_mutexes_timed_mutex; H_semaphore
  ; H_support_boost_chrono; H_support_boost_date_time; H_support_posix_time; H_support_std_chrono; H_thread_specific_at_thread_exit; H_thread_specific_thread_specific_ptr
  ; H_traits_is_condition_variable_compatible].

(* All names. The names in the files under /repo/include/boost/sync. *)
Definition names : list name := [D_lock_guard; D_shared_lock; D_shared_lock_guard; D_unique_lock; D_unlock_guard; D_upgrade_lock; L_add_thread_exit_callback
  ; L_add_thread_exit_notify_entry; L_adopt_lock; L_adopt_lock_t; L_at_thread_exit; L_at_thread_exit_trampoline; L_atomic_ns; L_auto_handle; L_auto_reset_event
  ; L_basic_condition_variable; L_basic_event; L_basic_mutex; L_basic_semaphore; L_chrono_time_point; L_condition_variable; L_condition_variable_any; L_cv_status
  ; L_defer_lock; L_defer_lock_t; L_delete_thread_specific_key; L_enable_if_tag; L_errc_t; L_futex_broadcast; L_futex_invoke; L_futex_signal; L_futex_timedwait
  ; L_futex_wait; L_get_thread_specific; L_get_waitable_timer; L_is_condition_variable_compatible; L_is_time_tag_of; L_lock_error; L_lock_guard; L_lockable_wrapper
  ; L_manual_reset_event; L_mutex; L_new_thread_specific_key; L_notify_all_at_thread_exit; L_overflow_error; L_pause; L_pthread_mutex_lock_guard
  ; L_pthread_mutex_unlock_guard; L_resource_error; L_runtime_exception; L_semaphore; L_set_thread_specific; L_shared_lock; L_shared_lock_guard; L_shared_spin_mutex
  ; L_spin_mutex; L_system_duration; L_system_ns; L_system_time_point; L_thread_specific_key; L_thread_specific_ptr; L_throw_exception; L_time_duration_tag
  ; L_time_point_tag; L_time_traits; L_timed_mutex; L_try_to_lock; L_try_to_lock_t; L_unique_lock; L_unlock_guard; L_upgrade_lock; L_wait_error; L_waitable_timer_state
  ; L_weak_linkage; L_wrap_pthread; M_api; M_constexpr_with_non_literal_base; M_open_abi_namespace; M_sys_futex; M_throw; M_throw_default; T_platform; T_sem_kind
  ; T_std_atomic; T_timedlock; XConfig; XAssert; XStaticAssert; XNull; XSize; XInt; XLimits; XErrno; XEnableIf; XMplBool; XMplAnd; XTimespec; XTimeval; XBoostAtomic
  ; XMove; XMoveFn; XExplicit; XScopedEnum; XThrow; XLocation; XString; XStdErr; XBoostErr; XVersion; XInterlocked; XAtexit; XLogicError; XPthread; XSem; XDispatch
  ; XMachSem; XMachTask; XMachSelf; XFutex; XSyscall; XSysNum; XAvail; XPosixOpt; XWinVer; XWinHandle; XWinError; XWinEvent; XWinWait; XWinSem; XWinTimer; XWinTls
  ; XWinDll; XWinThread; XWinPool; XWinProc; XWinProcId; XWinTime; XWinTypes; XRatio; XDuration; XTimePoint; XSysClock; XStdChrono].

(* The headers a user includes: all but those of detail. The files under /repo/include/boost/sync outside detail/. *)
Definition public (h : hdr) : bool :=
  match h with H_condition_variables | H_condition_variables_condition_variable | H_condition_variables_condition_variable_any
  | H_condition_variables_cv_status | H_condition_variables_notify_all_at_thread_exit | H_events | H_events_auto_reset_event | H_events_manual_reset_event | H_exceptions
  | H_exceptions_lock_error | H_exceptions_overflow_error | H_exceptions_resource_error | H_exceptions_runtime_exception | H_exceptions_wait_error | H_locks
  | H_locks_lock_guard | H_locks_lock_guard_fwd | H_locks_lock_options | H_locks_shared_lock | H_locks_shared_lock_fwd | H_locks_shared_lock_guard
  | H_locks_shared_lock_guard_fwd | H_locks_unique_lock | H_locks_unique_lock_fwd | H_locks_unlock_guard | H_locks_unlock_guard_fwd | H_locks_upgrade_lock
  | H_locks_upgrade_lock_fwd | H_mutexes | H_mutexes_mutex | H_mutexes_shared_spin_mutex | H_mutexes_spin_mutex | H_mutexes_timed_mutex | H_semaphore
  | H_support_boost_chrono | H_support_boost_date_time | H_support_posix_time | H_support_std_chrono | H_thread_specific_at_thread_exit
  | H_thread_specific_thread_specific_ptr | H_traits_is_condition_variable_compatible => true | _ => false end.

(* Resolving the conditions of one step (the preprocessor's #if, #elif, #else). Preprocessor rule; no counterpart in /repo. *)
Fixpoint resolve (c : hconf) (i : item) : list item :=
  match i with
  | If f a b => flat_map (resolve c) (if on c f then a else b)
  | IfP p a b => flat_map (resolve c) (match p, plat c with PWinapi, PWinapi | PLinux, PLinux | PMach, PMach | PPosix, PPosix => a | _, _ => b end)
  | _ => [i]
  end.

(* The steps of a header in one configuration. See [source], which cites the lines in /repo. *)
Definition text (c : hconf) (h : hdr) : list item := flat_map (resolve c) (source h).

(* The compiler, as include/boost/sync/detail/header.hpp:11-61 and include/boost/sync/detail/footer.hpp:9-21 ask for it: _MSC_VER, __GNUC__ * 100 +
   __GNUC_MINOR__ (0: not defined), one of the macros of Intel's compilers, and the user's BOOST_SYNC_ENABLE_WARNINGS. *)
Record comp := Comp { c_msc : bool; c_gnuc : Z; c_intel : bool; c_enable : bool }.

(* What the pragmas set: the warning level and warnings switched off. Preprocessor rule; no counterpart in /repo. *)
Inductive setting := Level (n : Z) | Off (w : string) | OffNum (n : Z).

(* The compiler's warning state: the settings in force and those saved by push. Preprocessor rule; no counterpart in /repo. *)
Record diag := Diag { cur : list setting; saved : list (list setting) }.

(* include/boost/sync/detail/header.hpp:15-41 *)
Definition msvc_settings : list setting :=
  [Level 3; OffNum 4251; OffNum 4275; OffNum 4065; OffNum 4355; OffNum 4800; OffNum 4100; OffNum 4127; OffNum 4510; OffNum 4511; OffNum 4512; OffNum 4610; OffNum 4714; OffNum 4503]%Z.

(* include/boost/sync/detail/header.hpp:46-57 *)
Definition gcc_settings (v : Z) : list setting :=
  [Off "unused-variable"; Off "unused-parameter"; Off "missing-field-initializers"]%string ++ (if (407 <=? v)%Z then [Off "unused-local-typedefs"%string] else []).

(* #pragma warning(push), #pragma GCC diagnostic push, then the settings. Preprocessor rule; no counterpart in /repo. *)
Definition push (s : list setting) (d : diag) : diag := Diag (s ++ cur d) (cur d :: saved d).

(* include/boost/sync/detail/header.hpp:11-61 *)
Definition header_pragmas (k : comp) (d : diag) : diag :=
  if c_enable k then d
  else if c_msc k then push msvc_settings d
  else if ((0 <? c_gnuc k) && negb (c_intel k) && (406 <=? c_gnuc k))%Z then push (gcc_settings (c_gnuc k)) d
  else d.

(* #pragma GCC diagnostic pop without a push goes back to the command line; #pragma warning(pop) without a push does nothing. Preprocessor rule; no counterpart in /repo. *)
Definition gcc_pop (d : diag) : diag := match saved d with s :: r => Diag s r | [] => Diag [] [] end.
(* #pragma warning(pop), see gcc_pop. Preprocessor rule; no counterpart in /repo. *)
Definition msvc_pop (d : diag) : diag := match saved d with s :: r => Diag s r | [] => d end.

(* include/boost/sync/detail/footer.hpp:9-21 *)
Definition footer_pragmas (k : comp) (d : diag) : diag :=
  if c_enable k then d
  else if c_msc k then msvc_pop d
  else if ((0 <? c_gnuc k) && (406 <=? c_gnuc k))%Z then gcc_pop d
  else d.

(* What a translation unit has seen: the headers read (latest first), the guards and the names known, the
   names that a header used before they were known, the warning state, whether a region between
   abi_prefix.hpp and abi_suffix.hpp is open, and whether one was opened twice or closed without being open
   (both are #error in Boost.Config; any other include inside a region counts as well, since it may open one). *)
Record state := St { reads : list hdr; guards : PositiveSet.t; known : PositiveSet.t; missing : list (hdr * name); warn : diag; abi : bool; nested : bool }.

(* A name becomes known. Preprocessor rule; no counterpart in /repo. *)
Definition learn (n : name) (st : state) : state := St (reads st) (guards st) (PositiveSet.add (nid n) (known st)) (missing st) (warn st) (abi st) (nested st).
(* Its guard is not defined: the header's text is read (the #ifndef and #define of each header). Preprocessor rule; no counterpart in /repo. *)
Definition enter (h : hdr) (st : state) : state :=
  St (h :: reads st) (PositiveSet.add (hid h) (guards st)) (known st) (missing st) (warn st) (abi st) (nested st || abi st).
(* A name is used in header h. Preprocessor rule; no counterpart in /repo. *)
Definition use (h : hdr) (n : name) (st : state) : state :=
  if PositiveSet.mem (nid n) (known st) then st else St (reads st) (guards st) (known st) ((h, n) :: missing st) (warn st) (abi st) (nested st).
(* An external header is included. Preprocessor rule; no counterpart in /repo. *)
Definition external (e : ext) (st : state) : state :=
  let st' := fold_right learn st (provides e) in St (reads st') (guards st') (known st') (missing st') (warn st') (abi st') (nested st' || abi st').
(* include/boost/sync/detail/header.hpp:9-61 *)
Definition header_hpp (k : comp) (st : state) : state := St (reads st) (guards st) (known st) (missing st) (header_pragmas k (warn st)) true (nested st || abi st).
(* include/boost/sync/detail/footer.hpp:9-23 *)
Definition footer_hpp (k : comp) (st : state) : state := St (reads st) (guards st) (known st) (missing st) (footer_pragmas k (warn st)) false (nested st || negb (abi st)).

(* Reading the steps of header h; inc includes another header. Preprocessor rule; no counterpart in /repo. *)
Fixpoint body (inc : hdr -> state -> option state) (k : comp) (h : hdr) (l : list item) (st : state) : option state :=
  match l with
  | [] => Some st
  | i :: l' =>
    match (match i with
           | Inc g => inc g st
           | Ext e => Some (external e st)
           | Use n => Some (use h n st)
           | Decl n => Some (learn n st)
           | Header => Some (header_hpp k st)
           | Footer => Some (footer_hpp k st)
           | If _ _ _ | IfP _ _ _ => None
           end) with
    | Some st' => body inc k h l' st'
    | None => None
    end
  end.

(* Including a header, to a depth of at most n includes inside each other: nothing if its guard is defined. Preprocessor rule; no counterpart in /repo. *)
Fixpoint include (n : nat) (k : comp) (c : hconf) (h : hdr) (st : state) : option state :=
  match n with
  | O => None
  | S n' => if PositiveSet.mem (hid h) (guards st) then Some st else body (include n' k c) k h (text c h) (enter h st)
  end.

(* What the user's file includes: headers of the library, each with the compiler settings of that moment, and other headers. The user's translation unit; no counterpart in /repo. *)
Inductive uitem := UInc (k : comp) (h : hdr) | UExt (e : ext).

(* The depth to which headers may include each other here; compilers allow at least 200. *)
Definition depth : nat := 20.

(* A translation unit. The user's translation unit; no counterpart in /repo. *)
Fixpoint tunit (c : hconf) (us : list uitem) (st : state) : option state :=
  match us with
  | [] => Some st
  | UInc k h :: us' => match include depth k c h st with Some st' => tunit c us' st' | None => None end
  | UExt e :: us' => tunit c us' (external e st)
  end.

(* Nothing seen yet; the user's warning settings are d. The user's translation unit; no counterpart in /repo. *)
Definition start (d : diag) : state := St [] PositiveSet.empty PositiveSet.empty [] d false false.
