(** C67: the functions declared noexcept that call throwing functions do not terminate the program.
    auto_reset_event::post on a semaphore (auto_reset_event_semaphore.hpp:43-64 calls semaphore::post, which throws when the semaphore's value would exceed SEM_VALUE_MAX): proved.
    delete_thread_specific_key (called by ~thread_specific_ptr): aborts exactly when a lock or an allocation fails.
    mutex::unlock and the notify functions on Windows are C51 and C52. *)
From Coq Require Import List Bool Arith ZArith Lia.
From Verif Require Import ListSum Exec Lin Thr Word EventSpec AutoSemModel AutoSemProof TssModel DelKey.
Import ListNotations.
Local Open Scope Z_scope.

(** The semaphore's value never exceeds the number of threads plus one: when a thread is about to post it, there is room, if SEM_VALUE_MAX (at least 32767 on POSIX, 2^31-1 on Linux) is more than the number of threads. *)
Theorem C67_event_post : forall maxv n sched st v ths tr t, Z.of_nat n < maxv -> maxv <= 2 ^ 31 - 1 ->
  exec as_step (as_init n) sched = Some (((st, v), ths), tr) -> nth_error ths t = Some SSemPost -> v + 1 <= maxv.
Proof.
  intros maxv n sched st v ths tr t Hn Hm H Ht. assert (Hn' : Z.of_nat n < 2 ^ 31 - 1) by lia. destruct (as_main _ _ _ _ Hn' H) as (_ & _ & _ & Hb & _).
  assert (L : length ths = n).
  { revert H. apply (exec_inv_state as_step (fun c => length (snd c) = n)); [apply repeat_length|]. intros c1 a c2 e E Hs. rewrite (tstep_length _ _ _ as_length _ _ _ _ Hs). exact E. }
  pose proof (sumf_elem spst ths t SSemPost) as E. specialize (E spst_nn Ht). cbn [spst] in E. rewrite L in Hb. lia.
Qed.
Print Assumptions C67_event_post.

(** The value does grow beyond one: a post before the wait, another one after the wait has announced itself but not waited yet. *)
Example C67_event_post_ex : exists sched st ths tr, exec as_step (as_init 2) sched = Some (((st, 1), ths), tr) /\ nth_error ths 0 = Some SSemPost.
Proof.
  exists [TCall 0%nat EPost; TRun 0%nat SNorm; TRun 0%nat SNorm; TRun 0%nat SNorm; TRun 0%nat SNorm; TCall 1%nat EWait; TRun 1%nat SNorm; TCall 0%nat EPost; TRun 0%nat SNorm; TRun 0%nat SNorm].
  eexists _, _, _. split; [vm_compute; reflexivity|reflexivity].
Qed.

(** ~thread_specific_ptr aborts the program if and only if locking fails or one of the allocations does: one for each thread's value to be cleaned and one for the list of free keys. *)
Theorem C67_delete_key_partial : forall lock_ok al s k cb, nth_error (keys s) k = Some (cb, true) ->
  (del_code lock_ok al s k = DAbort <-> lock_ok = false \/ exists i, (i <= match cb with Some _ => stored k (ctxs s) | None => 0 end)%nat /\ al i = false).
Proof.
  intros lock_ok al s k cb Hk. unfold del_code. rewrite Hk. destruct lock_ok; cbn [negb]; [|split; auto].
  rewrite del_walk_spec. unfold needs. set (m := match cb with Some _ => stored k (ctxs s) | None => 0%nat end).
  assert (Em : (if match cb with Some _ => true | None => false end then stored k (ctxs s) else 0%nat) = m) by (unfold m; destruct cb; reflexivity). rewrite Em. cbn [Nat.add].
  destruct (forallb al (seq 0 m)) eqn:Ef.
  - destruct (al m) eqn:Em2.
    + split; [discriminate|]. intros [G|(i & Hi & G)]; [discriminate|]. exfalso. destruct (Nat.eq_dec i m) as [->|]; [congruence|]. rewrite forallb_forall in Ef. rewrite (Ef i) in G; [discriminate|]. apply in_seq. lia.
    + split; [|reflexivity]. intros _. right. exists m. auto.
  - split; [|reflexivity]. intros _. right. assert (G : exists i, In i (seq 0 m) /\ al i = false).
    { clear -Ef. induction (seq 0 m) as [|x l IH]; [discriminate|]. cbn in Ef. apply andb_false_iff in Ef. destruct Ef as [Ef|Ef]; [exists x; split; [left; reflexivity|exact Ef]|]. destruct (IH Ef) as (i & Hi & Hb). exists i. split; [right; exact Hi|exact Hb]. }
    destruct G as (i & Hi & G). exists i. apply in_seq in Hi. split; [lia|exact G].
Qed.
Print Assumptions C67_delete_key_partial.

(** When nothing fails, the function does what TssModel.v's [delete_key] says (the step the theorems C41 to C46 are about). *)
Theorem C67_delete_key_ok : forall al s k p q, pkey q = k -> (forall i, al i = true) -> nth_error (keys s) k <> None ->
  exists ks fr cs calls, del_code true al s k = DOk ks fr cs calls /\
  fst (delete_key s p q) = TS ks fr cs (upd (tptrs s) p (TP (pkey q) (pcb q) false)) (slots s) (nreg s) /\
  snd (delete_key s p q) = match calls with Some (f, vs) => [FRun f vs] | None => [] end.
Proof.
  intros al s k p q Hq Hal Hk. unfold del_code, delete_key. rewrite Hq. cbn [negb]. destruct (nth_error (keys s) k) as [[cb fl]|]; [|contradiction].
  assert (F : forall l, forallb al l = true) by (intros l; apply forallb_forall; auto).
  destruct fl; [|eexists _, _, _, _; repeat split]. rewrite del_walk_spec, F, Hal. eexists _, _, _, _. split; [reflexivity|]. split; [reflexivity|]. destruct cb; reflexivity.
Qed.
Print Assumptions C67_delete_key_ok.

(** Two threads have a value; the second push_back fails: the program is aborted by a destructor. *)
Theorem C67_delete_key_refuted : exists n sched c tr al k cb, exec (tss_step (Posix 4)) (tss_init n) sched = Some (c, tr) /\ nth_error (keys (fst c)) k = Some (Some cb, true) /\ del_code true al (fst c) k = DAbort.
Proof.
  exists 2%nat, ([ANew 0 (Some 7) true; AReset 0 0 5 FNone; AReset 1 0 6 FNone])%nat. eexists _, _. exists (fun i => (i =? 0)%nat), 0%nat, 7%nat. split; [vm_compute; reflexivity|]. split; reflexivity.
Qed.
Print Assumptions C67_delete_key_refuted.
