(** delete_thread_specific_key with its possible failures: /repo/src/tss_manager.hpp ("M:") 222-255, /repo/src/tss_pthread.cpp:133-143, /repo/src/tss_windows.cpp:203-213.
    [lock_ok]: locking m_mutex succeeds (M:224).  [al i]: the [i]-th container operation that may allocate (the push_backs of M:240 in order, then the push of M:245) succeeds.
    The calls of the cleanup function (M:250-253) are the result's list; functions that throw are the subject of TssThrow.v.
    The contexts and keys are those of TssModel.v, whose [delete_key] is the failure-free case. *)
From Coq Require Import List Bool Arith ZArith Lia.
From Verif Require Import ListSum TssModel.
Import ListNotations.

(** M:235-243.  [None]: std::bad_alloc.  The result: the contexts, the collected values, the number of operations that may have allocated. *)
Fixpoint del_walk (k : nat) (cb : bool) (al : nat -> bool) (i : nat) (l : list (option ctx)) : option (list (option ctx) * list nat * nat) :=
  match l with
  | [] => Some ([], [], i)
  | o :: l' =>
      match o with
      | Some c =>
          if getv (storage c) k =? 0 then
            match del_walk k cb al i l' with Some (l2, vs, i2) => Some (Some c :: l2, vs, i2) | None => None end
          else if cb then
            if al i then
              match del_walk k cb al (S i) l' with
              | Some (l2, vs, i2) => Some (Some (X (xown c) (setv (storage c) k 0) (atexit c) (notif c)) :: l2, getv (storage c) k :: vs, i2)
              | None => None
              end
            else None
          else match del_walk k cb al i l' with
               | Some (l2, vs, i2) => Some (Some (X (xown c) (setv (storage c) k 0) (atexit c) (notif c)) :: l2, vs, i2)
               | None => None
               end
      | None => match del_walk k cb al i l' with Some (l2, vs, i2) => Some (None :: l2, vs, i2) | None => None end
      end
  end.

(** Outcomes of M:222-255. *)
Inductive del_res := DAbort | DOk (ks : list (option nat * bool)) (fr : list nat) (cs : list (option ctx)) (calls : option (nat * list nat)).

(** The whole function; any exception ends in std::abort (tss_pthread.cpp:139-142). *)
Definition del_code (lock_ok : bool) (al : nat -> bool) (s : tsh) (k : nat) : del_res :=
  if negb lock_ok then DAbort else
  match nth_error (keys s) k with
  | Some (cb, true) =>
      match del_walk k (match cb with Some _ => true | None => false end) al 0 (ctxs s) with
      | None => DAbort
      | Some (cs, vs, i) =>
          if al i then DOk (upd (keys s) k (None, true)) (k :: freed s) cs (match cb with Some f => Some (f, vs) | None => None end)
          else DAbort
      end
  | _ => DOk (keys s) (freed s) (ctxs s) None
  end.

(** Values stored under the key. The values collected at M:235-243. *)
Definition stored (k : nat) (l : list (option ctx)) : nat := length (concat (map (vals1 k) l)).
(** How many push_backs of M:240 there are. *)
Definition needs (cb : bool) (k : nat) (l : list (option ctx)) : nat := if cb then stored k l else 0.

Lemma del_walk_spec k cb al l : forall i,
  del_walk k cb al i l = (if forallb al (seq i (needs cb k l)) then Some (map (clear1 k) l, (if cb then concat (map (vals1 k) l) else []), i + needs cb k l) else None).
Proof.
  unfold needs, stored. induction l as [|o l IH]; intros i; [destruct cb; cbn; rewrite Nat.add_0_r; reflexivity|].
  cbn [del_walk map concat]. destruct o as [c|].
  - cbn [vals1 clear1]. destruct (getv (storage c) k =? 0) eqn:E.
    + rewrite IH. destruct cb; cbn [app]; [destruct (forallb al _); reflexivity|]. cbn. reflexivity.
    + destruct cb.
      * cbn [app length seq forallb]. destruct (al i); [|reflexivity]. cbn [andb]. rewrite IH. destruct (forallb al _); [|reflexivity]. rewrite Nat.add_succ_r. reflexivity.
      * rewrite IH. cbn. reflexivity.
  - rewrite IH. cbn [vals1 clear1 app]. destruct cb; [destruct (forallb al _); reflexivity|]. cbn. reflexivity.
Qed.
