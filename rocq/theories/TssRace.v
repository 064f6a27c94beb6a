(** Memory accesses of the thread-specific storage code. *)
From Coq Require Import List Bool Arith ZArith Lia.
From Verif Require Import ListSum Exec TssModel TssProof TssKeys.
Import ListNotations.

(** Shared objects: the three vectors of a context (M:66-70), the vector m_storage_cleanup, the stack m_freed_keys and the list
    m_thread_contexts (M:121-128).  The context pointer of a thread is thread-local and left out. *)
Inductive tloc := LStor (x : nat) | LAt (x : nat) | LNot (x : nat) | LCleanups | LFreed | LList.
(** Location, written?, under m_mutex? *)
Definition acc : Type := tloc * bool * bool.

(** The context of the calling thread; a context created by the call is not shared before it is in the list, only the insertion (M:144-145) counts. *)
Definition with_ctx (s : tsh) (t : nat) (f : nat -> list acc) : list acc := match slot s t with Some x => f x | None => [(LList, true, true)] end.
Fixpoint live (n : nat) (l : list (option ctx)) : list nat := match l with [] => [] | Some _ :: l' => n :: live (S n) l' | None :: l' => live (S n) l' end.

Definition footprint (s : tsh) (th : thr) (a : tact2) : list acc :=
  match a with
  | ANew _ _ _ => [(LFreed, true, true); (LCleanups, true, true)]                                        (* M:198-217 *)
  | ADel _ _ => [(LCleanups, true, true); (LFreed, true, true); (LList, false, true)]                    (* M:224-246 *)
                ++ map (fun x => (LStor x, true, true)) (live 0 (ctxs s))
  | AGet t _ => match slot s t with Some x => [(LStor x, false, false)] | None => [] end                 (* M:74-80 *)
  | ARelease t _ | AReset t _ _ _ => with_ctx s t (fun x => [(LStor x, true, false)])                    (* M:82-87 *)
  | AAtExit t _ => with_ctx s t (fun x => [(LAt x, true, false)])                                        (* M:89-95 *)
  | ANotExit t _ _ => with_ctx s t (fun x => [(LNot x, true, false)])                                    (* M:97-103 *)
  | AStep t => match stk th, est th with
               | [], ExAt x _ [] => [(LAt x, true, false)]                                               (* M:153-156 *)
               | [], ExTls x _ k st => match nth_error st k with
                                       | Some O => []
                                       | Some _ => [(LCleanups, false, false)]                           (* M:174 *)
                                       | None => [(LStor x, true, false)]                                (* M:165-168 *)
                                       end
               | [], ExNot x _ [] => [(LNot x, false, false); (LList, true, true); (LStor x, true, false); (LAt x, true, false); (LNot x, true, false)]   (* M:182-193 *)
               | [], ExNot x _ _ => [(LNot x, false, false)]
               | _, _ => []
               end
  | ARet _ | AExit _ => []
  end.

(** Two calls race: they access the same object, one writes it, and not both hold the mutex. *)
Definition conflict (A B : list acc) : Prop := exists l w1 w2 k1 k2, In (l, w1, k1) A /\ In (l, w2, k2) B /\ w1 || w2 = true /\ k1 && k2 = false.
Definition enabled (pl : plat) (c : tss_st) (a : tact2) : Prop := exists r, tss_step pl c a = Some r.
Definition race (pl : plat) (c : tss_st) (a b : tact2) : Prop :=
  enabled pl c a /\ enabled pl c b /\ thread_of a <> thread_of b /\
  exists tha thb, nth_error (snd c) (thread_of a) = Some tha /\ nth_error (snd c) (thread_of b) = Some thb /\ conflict (footprint (fst c) tha a) (footprint (fst c) thb b).

(** The objects a call accesses without the mutex are the vectors of a context of the calling thread, or m_storage_cleanup. *)
Definition own_loc (s : tsh) (t : nat) (l : tloc) : Prop :=
  match l with LStor x | LAt x | LNot x => forall c, ctx_of s x = Some c -> xown c = t | _ => False end.
Definition is_del (a : tact2) : Prop := match a with ADel _ _ => True | _ => False end.
Definition is_new (a : tact2) : Prop := match a with ANew _ _ _ => True | _ => False end.
Definition is_step (a : tact2) : Prop := match a with AStep _ => True | _ => False end.

Lemma slot_loc pl s ths t x : WFC pl s ths -> slot s t = Some x -> forall c, ctx_of s x = Some c -> xown c = t.
Proof. intros (_ & H2 & _) Hs c Hc. destruct (H2 t x Hs) as (d & A & B). congruence. Qed.
Lemma slot_ctx pl s ths t x : WFC pl s ths -> slot s t = Some x -> ctx_of s x <> None.
Proof. intros (_ & H2 & _) Hs. destruct (H2 t x Hs) as (d & A & B). congruence. Qed.

(** Every access of a call that destroys no pointer. *)
Lemma foot_cases pl s ths th a l w k : WFC pl s ths -> nth_error ths (thread_of a) = Some th -> ~ is_del a -> In (l, w, k) (footprint s th a) ->
  (k = true /\ (l = LList \/ (is_new a /\ (l = LFreed \/ l = LCleanups)))) \/
  (k = false /\ ((exists x, (l = LStor x \/ l = LAt x \/ l = LNot x) /\ exists c, ctx_of s x = Some c /\ xown c = thread_of a) \/ (is_step a /\ l = LCleanups /\ w = false))).
Proof.
  intros HW Ht Hd Hi. pose proof HW as (H1 & H2 & H3 & _).
  assert (Hc : forall t f, In (l, w, k) (with_ctx s t f) -> (exists x, slot s t = Some x /\ In (l, w, k) (f x)) \/ (l = LList /\ k = true)).
  { intros t f. unfold with_ctx. destruct (slot s t) as [x|]; [intros H; left; exists x; auto|]. intros [H|[]]. inversion H. auto. }
  assert (He : forall x, exof (est th) = Some x -> exists c, ctx_of s x = Some c /\ xown c = thread_of a).
  { intros x Hx. destruct (H3 _ _ x Ht Hx) as (c & A & B & _). eauto. }
  destruct a as [u cb fl|u q|u q|u q|u q v f|u f|u m f|u|u|u]; cbn [footprint thread_of] in *.
  - left. destruct Hi as [H|[H|[]]]; inversion H; subst; cbn; auto.
  - exfalso. apply Hd. exact I.
  - right. destruct (slot s u) as [x|] eqn:Es; [|destruct Hi]. destruct Hi as [H|[]]. inversion H; subst. split; [reflexivity|]. left. exists x. auto.
  - destruct (Hc _ _ Hi) as [(x & Es & [H|[]])|(-> & ->)]; [|left; auto]. inversion H; subst. right. split; [reflexivity|]. left. exists x. auto.
  - destruct (Hc _ _ Hi) as [(x & Es & [H|[]])|(-> & ->)]; [|left; auto]. inversion H; subst. right. split; [reflexivity|]. left. exists x. auto.
  - destruct (Hc _ _ Hi) as [(x & Es & [H|[]])|(-> & ->)]; [|left; auto]. inversion H; subst. right. split; [reflexivity|]. left. exists x. auto.
  - destruct (Hc _ _ Hi) as [(x & Es & [H|[]])|(-> & ->)]; [|left; auto]. inversion H; subst. right. split; [reflexivity|]. left. exists x. auto.
  - destruct Hi.
  - destruct Hi.
  - destruct (stk th); [|destruct Hi]. destruct (est th) as [|n|x n [|f fs]|x n j st|x n [|m ms]|] eqn:Ee; try (destruct Hi; fail); specialize (He x eq_refl).
    + destruct Hi as [H|[]]. inversion H; subst. right. split; [reflexivity|]. left. exists x. auto.
    + destruct (nth_error st j) as [[|v]|]; [destruct Hi| |]; destruct Hi as [H|[]]; inversion H; subst; right; (split; [reflexivity|]); [right; cbn; auto|left; exists x; auto].
    + cbn in Hi. repeat (destruct Hi as [Hi|Hi]; [inversion Hi; subst; first [left; auto; fail|right; split; [reflexivity|]; left; exists x; auto]|]). destruct Hi.
    + destruct Hi as [H|[]]. inversion H; subst. right. split; [reflexivity|]. left. exists x. auto.
Qed.

Lemma race_cases pl s ths a b : WFC pl s ths -> race pl (s, ths) a b -> is_del a \/ is_del b \/ (is_new a /\ is_step b) \/ (is_step a /\ is_new b).
Proof.
  intros HW (_ & _ & Hn & tha & thb & Ha & Hb & l & w1 & w2 & k1 & k2 & A & B & W & K). cbn [fst snd] in *.
  assert (Da : is_del a \/ ~ is_del a) by (destruct a; cbn; auto). assert (Db : is_del b \/ ~ is_del b) by (destruct b; cbn; auto).
  destruct Da as [Da|Da]; [left; exact Da|]. destruct Db as [Db|Db]; [right; left; exact Db|]. right. right.
  destruct (foot_cases pl s ths tha a l w1 k1 HW Ha Da A) as [(-> & [La|(Na & La)])|(-> & [(x & Lx & c & Hc & Ho)|(Sa & La & ->)])];
  destruct (foot_cases pl s ths thb b l w2 k2 HW Hb Db B) as [(-> & [Lb|(Nb & Lb)])|(-> & [(y & Ly & d & Hd & Ho')|(Sb & Lb & ->)])];
    try discriminate K; subst; try (repeat match goal with H : _ \/ _ |- _ => destruct H end; congruence).
  - left. auto.
  - right. auto.
  - discriminate W.
Qed.
