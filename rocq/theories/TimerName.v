(** The name of the semaphore that holds a process's TLS key.
    /repo/include/boost/sync/detail/waitable_timer.hpp ("T:"), lines 142-163.
    Characters are their codes; the array is a list of 24 entries, all accesses are writes at computed positions; arithmetic on uint8_t is done modulo 256. *)
From Coq Require Import List Bool Arith ZArith Lia.
From Verif Require Import ListSum.
Import ListNotations.
Local Open Scope Z_scope.

(** T:143-146: the initialiser "boost_sync_tls_", the rest of the array is zero. *)
Definition name0 : list Z := [98; 111; 111; 115; 116; 95; 115; 121; 110; 99; 95; 116; 108; 115; 95; 0; 0; 0; 0; 0; 0; 0; 0; 0].
(** T:152-155, T:158-161. *)
Definition digit (half : Z) : Z := if half <? 10 then 48 + half else 97 - 10 + half.
(** One round of T:148-162. *)
Definition name_round (pid : Z) (i : nat) (a : list Z) : list Z :=
  let b := Z.shiftr pid ((3 - Z.of_nat i) * 8) mod 256 in          (* T:150 *)
  let a1 := upd a (15 + i * 2) (digit (Z.shiftr b 4)) in           (* T:151-155 *)
  upd a1 (16 + i * 2) (digit (Z.land b 15)).                       (* T:157-161 *)
(** T:142-163; [pid] is GetCurrentProcessId(), a DWORD. *)
Definition sem_name (pid : Z) : list Z := upd (fold_left (fun a i => name_round pid i a) (seq 0 4) name0) 23 0.
