(** What the exceptions of the library say about the error: which constructor each BOOST_SYNC_DETAIL_THROW selects, which
    error_code the exception then carries, and which error conditions that code compares equal to.  Paths relative to
    /repo/include/boost/sync.  Not modelled: the message strings, boost::throw_exception and its source location
    (throw_exception.hpp 34-74), and the std::logic_error of waitable_timer.hpp 315, which carries no code (see [ModModel]). *)
From Coq Require Import List Bool ZArith.
From Verif Require Import ErrModel.
Import ListNotations.
Local Open Scope Z_scope.

(** The error conditions named at the places that throw (locks/*_lock.hpp, basic_semaphore_mach.hpp, semaphore_dispatch.hpp, overflow_error.hpp 35); any
    other member of errc is [errc_other]. *)
Inductive errc := operation_not_permitted | resource_deadlock_would_occur | not_enough_memory | invalid_argument
  | operation_canceled | value_too_large | errc_other (n : nat).

(** The headers that throw: /repo/include/boost/sync/detail/waitable_timer.hpp 181-284, detail/mutexes/mutex_posix.hpp 77-108 and so on, as
    listed line by line in [sites]. *)
Inductive file := waitable_timer_hpp | mutex_posix_hpp | timed_mutex_windows_hpp | timed_mutex_posix_hpp | basic_mutex_windows_hpp
  | basic_event_windows_hpp | basic_condition_variable_windows_hpp | condition_variable_posix_hpp | auto_handle_hpp
  | semaphore_windows_hpp | basic_semaphore_mach_hpp | semaphore_posix_hpp | semaphore_dispatch_hpp
  | upgrade_lock_hpp | unique_lock_hpp | shared_lock_hpp.

(** First argument of BOOST_SYNC_DETAIL_THROW: an int holding errno or the result of a pthread function (e.g. mutex_posix.hpp 90,
    semaphore_posix.hpp 48), a DWORD holding GetLastError() (e.g. basic_event_windows.hpp 53), or a member of
    system_ns::errc (e.g. unique_lock.hpp 189). *)
Inductive arg := FromInt | FromDword | FromErrc (e : errc).

(** One BOOST_SYNC_DETAIL_THROW(class, (argument)(message)) of /repo. *)
Record site := mk { s_file : file; s_line : nat; s_class : exn; s_arg : arg }.

(** Every BOOST_SYNC_DETAIL_THROW of a class derived from runtime_exception under /repo/include/boost/sync; the line number is part
    of each entry. *)
Definition sites : list site :=
  [mk waitable_timer_hpp 181 Xresource FromDword;
   mk waitable_timer_hpp 237 Xresource FromDword;
   mk waitable_timer_hpp 284 Xresource FromDword;
   mk mutex_posix_hpp 77 Xresource FromInt;
   mk mutex_posix_hpp 92 Xlock FromInt;
   mk mutex_posix_hpp 108 Xlock FromInt;
   mk timed_mutex_windows_hpp 127 Xlock FromDword;
   mk timed_mutex_windows_hpp 136 Xlock FromDword;
   mk timed_mutex_windows_hpp 194 Xlock FromDword;
   mk timed_mutex_posix_hpp 102 Xresource FromInt;
   mk timed_mutex_posix_hpp 107 Xresource FromInt;
   mk timed_mutex_posix_hpp 127 Xlock FromInt;
   mk timed_mutex_posix_hpp 142 Xlock FromInt;
   mk timed_mutex_posix_hpp 219 Xlock FromInt;
   mk timed_mutex_posix_hpp 237 Xlock FromInt;
   mk basic_mutex_windows_hpp 121 Xresource FromDword;
   mk basic_mutex_windows_hpp 173 Xlock FromDword;
   mk basic_event_windows_hpp 54 Xresource FromDword;
   mk basic_event_windows_hpp 69 Xruntime FromDword;
   mk basic_event_windows_hpp 79 Xruntime FromDword;
   mk basic_event_windows_hpp 89 Xwait FromDword;
   mk basic_event_windows_hpp 102 Xwait FromDword;
   mk basic_event_windows_hpp 131 Xwait FromDword;
   mk basic_event_windows_hpp 149 Xwait FromDword;
   mk basic_event_windows_hpp 156 Xwait FromDword;
   mk basic_condition_variable_windows_hpp 92 Xresource FromDword;
   mk basic_condition_variable_windows_hpp 229 Xwait FromDword;
   mk basic_condition_variable_windows_hpp 343 Xwait FromDword;
   mk basic_condition_variable_windows_hpp 395 Xwait FromDword;
   mk basic_condition_variable_windows_hpp 432 Xwait FromDword;
   mk condition_variable_posix_hpp 80 Xresource FromInt;
   mk condition_variable_posix_hpp 210 Xwait FromInt;
   mk condition_variable_posix_hpp 226 Xwait FromInt;
   mk auto_handle_hpp 97 Xresource FromDword;
   mk semaphore_windows_hpp 55 Xresource FromDword;
   mk semaphore_windows_hpp 70 Xoverflow FromDword;
   mk semaphore_windows_hpp 79 Xwait FromDword;
   mk semaphore_windows_hpp 90 Xwait FromDword;
   mk semaphore_windows_hpp 138 Xwait FromDword;
   mk semaphore_windows_hpp 156 Xwait FromDword;
   mk semaphore_windows_hpp 174 Xlock FromDword;
   mk basic_semaphore_mach_hpp 51 Xresource (FromErrc not_enough_memory);
   mk basic_semaphore_mach_hpp 79 Xwait (FromErrc invalid_argument);
   mk basic_semaphore_mach_hpp 82 Xwait (FromErrc invalid_argument);
   mk basic_semaphore_mach_hpp 89 Xwait (FromErrc operation_canceled);
   mk basic_semaphore_mach_hpp 163 Xwait (FromErrc invalid_argument);
   mk basic_semaphore_mach_hpp 166 Xwait (FromErrc invalid_argument);
   mk basic_semaphore_mach_hpp 170 Xwait (FromErrc operation_canceled);
   mk semaphore_posix_hpp 49 Xresource FromInt;
   mk semaphore_posix_hpp 68 Xoverflow FromInt;
   mk semaphore_dispatch_hpp 50 Xresource (FromErrc not_enough_memory);
   mk upgrade_lock_hpp 171 Xlock (FromErrc operation_not_permitted);
   mk upgrade_lock_hpp 174 Xlock (FromErrc resource_deadlock_would_occur);
   mk upgrade_lock_hpp 183 Xlock (FromErrc operation_not_permitted);
   mk upgrade_lock_hpp 186 Xlock (FromErrc resource_deadlock_would_occur);
   mk upgrade_lock_hpp 197 Xlock (FromErrc operation_not_permitted);
   mk upgrade_lock_hpp 200 Xlock (FromErrc resource_deadlock_would_occur);
   mk upgrade_lock_hpp 211 Xlock (FromErrc operation_not_permitted);
   mk upgrade_lock_hpp 214 Xlock (FromErrc resource_deadlock_would_occur);
   mk upgrade_lock_hpp 225 Xlock (FromErrc operation_not_permitted);
   mk upgrade_lock_hpp 228 Xlock (FromErrc resource_deadlock_would_occur);
   mk upgrade_lock_hpp 238 Xlock (FromErrc operation_not_permitted);
   mk upgrade_lock_hpp 241 Xlock (FromErrc operation_not_permitted);
   mk unique_lock_hpp 189 Xlock (FromErrc operation_not_permitted);
   mk unique_lock_hpp 192 Xlock (FromErrc resource_deadlock_would_occur);
   mk unique_lock_hpp 201 Xlock (FromErrc operation_not_permitted);
   mk unique_lock_hpp 204 Xlock (FromErrc resource_deadlock_would_occur);
   mk unique_lock_hpp 215 Xlock (FromErrc operation_not_permitted);
   mk unique_lock_hpp 218 Xlock (FromErrc resource_deadlock_would_occur);
   mk unique_lock_hpp 229 Xlock (FromErrc operation_not_permitted);
   mk unique_lock_hpp 232 Xlock (FromErrc resource_deadlock_would_occur);
   mk unique_lock_hpp 243 Xlock (FromErrc operation_not_permitted);
   mk unique_lock_hpp 246 Xlock (FromErrc resource_deadlock_would_occur);
   mk unique_lock_hpp 256 Xlock (FromErrc operation_not_permitted);
   mk unique_lock_hpp 259 Xlock (FromErrc operation_not_permitted);
   mk shared_lock_hpp 151 Xlock (FromErrc operation_not_permitted);
   mk shared_lock_hpp 154 Xlock (FromErrc resource_deadlock_would_occur);
   mk shared_lock_hpp 163 Xlock (FromErrc operation_not_permitted);
   mk shared_lock_hpp 166 Xlock (FromErrc resource_deadlock_would_occur);
   mk shared_lock_hpp 177 Xlock (FromErrc operation_not_permitted);
   mk shared_lock_hpp 180 Xlock (FromErrc resource_deadlock_would_occur);
   mk shared_lock_hpp 191 Xlock (FromErrc operation_not_permitted);
   mk shared_lock_hpp 194 Xlock (FromErrc resource_deadlock_would_occur);
   mk shared_lock_hpp 205 Xlock (FromErrc operation_not_permitted);
   mk shared_lock_hpp 208 Xlock (FromErrc resource_deadlock_would_occur);
   mk shared_lock_hpp 218 Xlock (FromErrc operation_not_permitted);
   mk shared_lock_hpp 221 Xlock (FromErrc operation_not_permitted)].

(** Parameter types of the numeric parameter of the constructors that also take a message: int (e.g. lock_error.hpp 39) or errc_t (resource_error.hpp 53). *)
Inductive param := PInt | PErrc.

(** The two-argument constructors: exceptions/runtime_exception.hpp 38-46, lock_error.hpp 39-45, wait_error.hpp 39-45,
    overflow_error.hpp 39-45, resource_error.hpp 47-55.  A string literal prefers the const char* overload of each pair, so a
    pair counts once. *)
Definition constructors (x : exn) : list param :=
  match x with
  | Xresource => [PInt; PErrc]
  | _ => [PInt]
  end.

(** Implicit conversion of the argument to the parameter, and its rank (0 exact, 1 promotion, 2 conversion).  [std]:
    BOOST_SYNC_USE_STD_SYSTEM_ERROR is defined (detail/system_error.hpp 37-43), so errc is std::errc, a scoped enumeration, which
    does not convert to int; boost::system::errc::errc_t is unscoped and promotes to it.  The arguments arrive as lvalues or
    rvalues of their own type (throw_exception.hpp 36-40, 56-60). *)
Definition conversion (std : bool) (a : arg) (p : param) : option nat :=
  match a, p with
  | FromInt, PInt => Some 0%nat
  | FromDword, PInt => Some 2%nat
  | FromErrc _, PErrc => Some 0%nat
  | FromErrc _, PInt => if std then None else Some 1%nat
  | _, PErrc => None
  end.

(** Is no constructor of [ps] better than or as good as rank [n]?  C++ overload resolution; no counterpart in /repo. *)
Definition beats (std : bool) (a : arg) (n : nat) (ps : list param) : bool :=
  forallb (fun q => match conversion std a q with Some m => Nat.ltb n m | None => true end) ps.

(** Overload resolution: the constructor all others are worse than; [None]: the call does not compile.  C++; no counterpart in
    /repo. *)
Fixpoint select (std : bool) (a : arg) (before after : list param) : option param :=
  match after with
  | [] => None
  | p :: after' =>
      match conversion std a p with
      | Some n => if beats std a n (before ++ after') then Some p else select std a (before ++ [p]) after'
      | None => select std a (before ++ [p]) after'
      end
  end.

(** A platform's error numbers: the value of each errc (the errno value, cast to int in resource_error.hpp 43, 53 or promoted to it),
    and error_category::default_error_condition of its system_category as far as it names a generic condition
    (Boost.System or the standard library; no counterpart in /repo). *)
Record platform := { errv : errc -> Z; sysmap : Z -> option errc }.

(** A DWORD converted to int (two's complement): the first parameter of the constructors is an int (e.g. resource_error.hpp 48). *)
Definition to_int (d : Z) : Z := if 2 ^ 31 <=? d then d - 2 ^ 32 else d.

(** The error a throw reports: the number the system call produced (ignored if the argument is a member of errc); e.g. mutex_posix.hpp
    92, basic_event_windows.hpp 54, unique_lock.hpp 189. *)
Definition argument (p : platform) (a : arg) (v : Z) : Z :=
  match a with FromInt => v | FromDword => to_int v | FromErrc e => errv p e end.

(** The code of an exception; runtime_exception.hpp 34-46 pass system_category(), always. *)
Inductive category := System | Generic.
(** The value and the category, runtime_exception.hpp 39, 44. *)
Record code := { value : Z; cat : category }.

(** runtime_exception(sys_err, what), runtime_exception.hpp 38-46; the derived classes pass sys_err on, resource_error.hpp 47-55,
    lock_error.hpp 39-45 and the same in the others. *)
Definition make (n : Z) : code := {| value := n; cat := System |}.

(** What the throw at [s] throws: the code, or [None] if the statement does not compile. throw_exception.hpp 73-74. *)
Definition thrown (std : bool) (p : platform) (s : site) (v : Z) : option (exn * code) :=
  match select std (s_arg s) [] (constructors (s_class s)) with
  | Some _ => Some (s_class s, make (argument p (s_arg s) v))
  | None => None
  end.

(** runtime_exception::native_error, runtime_exception.hpp 52-55. *)
Definition native_error (c : code) : Z := value c.

(** The exception made by the constructors without an error: runtime_exception.hpp 34, lock_error.hpp 35, wait_error.hpp 35,
    resource_error.hpp 35, and overflow_error.hpp 35, where the default is errc::value_too_large. *)
Definition default_code (p : platform) (x : exn) : code :=
  match x with Xoverflow => make (errv p value_too_large) | _ => make 0 end.

(** [e.code() == errc::x]: the default condition of the code is that member of the generic category (Boost.System or the
    standard library; no counterpart in /repo). *)
Definition compares_equal (p : platform) (c : code) (e : errc) : Prop :=
  match cat c with System => sysmap p (value c) = Some e | Generic => value c = errv p e end.

(** The error that happened, as a condition: an errno value or a member of errc means that member of the generic category, a DWORD
    of GetLastError means whatever the system category says it means. The specification side; no counterpart in /repo. *)
Definition happened (p : platform) (a : arg) (v : Z) (e : errc) : Prop :=
  match a with
  | FromInt => errv p e = v
  | FromDword => sysmap p (to_int v) = Some e
  | FromErrc x => e = x
  end.

(** Where the library is compiled: with BOOST_SYNC_USE_PTHREAD the POSIX headers are used on Windows too (detail/config.hpp 25-28). *)
Definition is_windows_header (f : file) : bool :=
  match f with
  | waitable_timer_hpp | timed_mutex_windows_hpp | basic_mutex_windows_hpp | basic_event_windows_hpp
  | basic_condition_variable_windows_hpp | auto_handle_hpp | semaphore_windows_hpp => true
  | _ => false
  end.

(** A POSIX system_category: errno values are its codes. Environment; no counterpart in /repo. *)
Definition posix_like (p : platform) : Prop := forall z e, sysmap p z = Some e <-> errv p e = z.

(** Windows: errno values of the C runtime (EPERM 1, ENOMEM 12, EINVAL 22, EDEADLK 36, ECANCELED 105, EOVERFLOW 132) and an excerpt of the
    conditions of Win32 codes (ERROR_INVALID_FUNCTION 1, ERROR_INVALID_HANDLE 6, ERROR_NOT_ENOUGH_MEMORY 8, ERROR_INVALID_PARAMETER
    87, ERROR_OPERATION_ABORTED 995) as Boost.System and the Microsoft standard library map them; [errc_other 40] is
    function_not_supported. Environment; no counterpart in /repo. *)
Definition windows : platform :=
  {| errv := fun e => match e with
       | operation_not_permitted => 1 | not_enough_memory => 12 | invalid_argument => 22
       | resource_deadlock_would_occur => 36 | operation_canceled => 105 | value_too_large => 132 | errc_other n => 1000 + Z.of_nat n end;
     sysmap := fun z =>
       if z =? 1 then Some (errc_other 40) else if z =? 6 then Some invalid_argument else if z =? 8 then Some not_enough_memory
       else if z =? 87 then Some invalid_argument else if z =? 995 then Some operation_canceled else None |}.

(** Linux: errno values. Environment; no counterpart in /repo. *)
Definition linux : platform :=
  {| errv := fun e => match e with
       | operation_not_permitted => 1 | not_enough_memory => 12 | invalid_argument => 22
       | resource_deadlock_would_occur => 35 | operation_canceled => 125 | value_too_large => 75 | errc_other n => 1000 + Z.of_nat n end;
     sysmap := fun z =>
       if z =? 1 then Some operation_not_permitted else if z =? 12 then Some not_enough_memory
       else if z =? 22 then Some invalid_argument else if z =? 35 then Some resource_deadlock_would_occur
       else if z =? 125 then Some operation_canceled else if z =? 75 then Some value_too_large
       else if 1000 <=? z then Some (errc_other (Z.to_nat (z - 1000))) else None |}.
