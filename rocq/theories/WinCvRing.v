(** The circular list of waiter states of the Windows condition variable: facts about the three loops that walk it. *)
From Coq Require Import List Bool Arith ZArith Lia Permutation.
From Verif Require Import ListSum Exec WinCvModel.
Import ListNotations.
Local Open Scope Z_scope.

(** [linked nx l z]: following [nx] from the head of [l] visits [l] in order and then [z]. *)
Fixpoint linked (nx : nat -> nat) (l : list nat) (z : nat) : Prop :=
  match l with
  | [] => True
  | a :: l' => nx a = hd z l' /\ linked nx l' z
  end.
Definition ringed (nx : nat -> nat) (r : list nat) : Prop := linked nx r (hd O r).

Lemma linked_app nx l1 l2 z : linked nx (l1 ++ l2) z <-> linked nx l1 (hd z l2) /\ linked nx l2 z.
Proof.
  induction l1 as [|a l1 IH]; cbn [app linked]; [tauto|]. rewrite IH.
  replace (hd z (l1 ++ l2)) with (hd (hd z l2) l1) by (destruct l1; reflexivity). tauto.
Qed.
Lemma ringed_rot nx l1 l2 : ringed nx (l1 ++ l2) -> ringed nx (l2 ++ l1).
Proof.
  unfold ringed. intros H. destruct l1 as [|a l1]; [rewrite app_nil_r; exact H|]. destruct l2 as [|b l2]; [rewrite app_nil_r in H; exact H|].
  apply linked_app in H. apply linked_app. cbn [hd app] in *. tauto.
Qed.
Lemma linked_ext nx nx' l z : (forall a, In a l -> nx a = nx' a) -> linked nx l z -> linked nx' l z.
Proof.
  induction l as [|a l IH]; cbn [linked]; [tauto|]. intros H (H1 & H2). split; [rewrite <- H by (left; reflexivity); exact H1|].
  apply IH; [intros b Hb; apply H; right; exact Hb|exact H2].
Qed.

Definition nx (l : list wst) (a : nat) : nat := match nth_error l a with Some w => nxt w | None => a end.
Definition avail (w : wst) : Z := waiter w - notify w.
Definition availn (l : list wst) (a : nat) : Z := match nth_error l a with Some w => avail w | None => 0 end.

(** All states of [l], in ring order. *)
Definition ring (l : list wst) (r : list nat) : Prop := ringed (nx l) r /\ Permutation r (seq 0 (length l)).

Lemma ring_rot l r1 r2 : ring l (r1 ++ r2) -> ring l (r2 ++ r1).
Proof. intros (H1 & H2). split; [apply ringed_rot; exact H1|]. rewrite Permutation_app_comm. exact H2. Qed.
Lemma ring_In l r a : ring l r -> In a r <-> (a < length l)%nat.
Proof. intros (_ & H). rewrite H, in_seq. lia. Qed.
Lemma ring_NoDup l r : ring l r -> NoDup r.
Proof. intros (_ & H). eapply Permutation_NoDup; [symmetry; exact H|apply seq_NoDup]. Qed.
Lemma ring_length l r : ring l r -> length r = length l.
Proof. intros (_ & H). apply Permutation_length in H. rewrite seq_length in H. exact H. Qed.
Lemma ring_at l r a : ring l r -> (a < length l)%nat -> exists r', ring l (a :: r').
Proof.
  intros H Ha. apply (ring_In _ _ _ H) in Ha. apply in_split in Ha. destruct Ha as (l1 & l2 & ->).
  exists (l2 ++ l1). apply (ring_rot l l1 (a :: l2)). exact H.
Qed.
Lemma ring_end l r a : ring l r -> (a < length l)%nat -> exists r', ring l (r' ++ [a]).
Proof.
  intros H Ha. apply (ring_In _ _ _ H) in Ha. apply in_split in Ha. destruct Ha as (l1 & l2 & ->).
  exists (l2 ++ l1). rewrite <- app_assoc. apply (ring_rot l (l1 ++ [a]) l2). rewrite <- app_assoc. exact H.
Qed.

Lemma sumf_perm {A} (f : A -> Z) l1 l2 : Permutation l1 l2 -> sumf f l1 = sumf f l2.
Proof. induction 1; cbn [sumf]; lia. Qed.
Lemma sumf_seq l r : ring l r -> sumf (availn l) r = sumf avail l.
Proof.
  intros (_ & H). rewrite (sumf_perm _ _ _ H). clear.
  enough (G : forall l0 l, (forall k, nth_error l0 (length l0 - length l + k) = nth_error l k) -> (length l <= length l0)%nat ->
            sumf (availn l0) (seq (length l0 - length l) (length l)) = sumf avail l).
  { specialize (G l l). replace (length l - length l)%nat with O in G by lia. apply G; [reflexivity|lia]. }
  intros l0. clear l. induction l as [|w l IH]; intros Hk Hl; cbn [length seq sumf] in *; [reflexivity|].
  unfold availn at 1. pose proof (Hk O) as H0. rewrite Nat.add_0_r in H0. rewrite H0. cbn [nth_error]. f_equal.
  replace (S (length l0 - S (length l))) with (length l0 - length l)%nat by lia. apply IH; [|lia].
  intros k. specialize (Hk (S k)). cbn [nth_error] in Hk. rewrite <- Hk. f_equal. lia.
Qed.

(** ** wake_waiters *)
Definition woken1 (w w' : wst) : Prop :=
  waiter w' = waiter w /\ nxt w' = nxt w /\
  ((notify w' = notify w /\ tokens w' = tokens w) \/
   (notify w < notify w' <= waiter w /\ tokens w' = sem_release (tokens w) (notify w' - notify w))).
Definition wakeok (l l' : list wst) (r : list nat) : Prop :=
  length l' = length l /\
  (forall a w, nth_error l a = Some w -> exists w', nth_error l' a = Some w' /\ woken1 w w' /\ (~ In a r -> w' = w)).

Lemma wake_ok : forall r l i z count,
  linked (nx l) (i :: r) z -> NoDup (i :: r) -> (forall a, In a (i :: r) -> (a < length l)%nat) ->
  (forall a w, nth_error l a = Some w -> notify w <= waiter w) ->
  0 < count <= sumf (availn l) (i :: r) ->
  exists l' j, wake (S (length r)) l i count = Some (l', j) /\ In j (i :: r) /\ wakeok l l' (i :: r) /\ sumf avail l' = sumf avail l - count.
Proof.
  induction r as [|i' r IH]; intros l i z count Hl Hnd Hin Hle Hc.
  - destruct (nth_error l i) as [w|] eqn:Hi; [|apply nth_error_None in Hi; specialize (Hin i (or_introl eq_refl)); lia].
    cbn [sumf] in Hc. unfold availn in Hc. rewrite Hi in Hc. unfold avail in Hc.
    cbn [wake length]. rewrite Hi. replace (0 <? waiter w - notify w) with true by (symmetry; apply Z.ltb_lt; lia).
    assert (E : (if count <? waiter w - notify w then count else waiter w - notify w) = count) by (destruct (Z.ltb_spec count (waiter w - notify w)); lia).
    rewrite E. replace (0 <? count - count) with false by (symmetry; apply Z.ltb_ge; lia).
    eexists _, i. split; [reflexivity|]. split; [left; reflexivity|]. split; [split; [apply upd_length|]|].
    + intros a x Ha. destruct (Nat.eq_dec i a) as [->|Hne].
      * rewrite Hi in Ha. inversion Ha; subst x. eexists. split; [eapply nth_upd_eq; eauto|]. split; [|intros Hn; exfalso; apply Hn; left; reflexivity].
        split; [reflexivity|]. split; [reflexivity|]. right. cbn [notify waiter tokens]. split; [lia|]. f_equal. lia.
      * exists x. rewrite nth_upd_neq by exact Hne. split; [exact Ha|]. split; [split; [reflexivity|split; [reflexivity|left; auto]]|auto].
    + rewrite (sumf_upd _ _ _ _ _ Hi). unfold avail at 2 3. cbn [waiter notify]. lia.
  - destruct (nth_error l i) as [w|] eqn:Hi; [|apply nth_error_None in Hi; specialize (Hin i (or_introl eq_refl)); lia].
    set (n' := if 0 <? waiter w - notify w then (if count <? waiter w - notify w then count else waiter w - notify w) else 0).
    set (w' := if 0 <? waiter w - notify w then WS (waiter w) (notify w + n') (sem_release (tokens w) n') (nxt w) else w).
    assert (Hn' : n' = Z.min count (waiter w - notify w)).
    { unfold n'. pose proof (Hle _ _ Hi). destruct (Z.ltb_spec 0 (waiter w - notify w)); [destruct (Z.ltb_spec count (waiter w - notify w)); lia|lia]. }
    assert (Hw : woken1 w w' /\ notify w' = notify w + n').
    { unfold w'. pose proof (Hle _ _ Hi). destruct (Z.ltb_spec 0 (waiter w - notify w)).
      - cbn [waiter notify tokens nxt]. split; [|reflexivity]. split; [reflexivity|]. split; [reflexivity|]. right. cbn [notify tokens waiter].
        split; [lia|]. f_equal. lia.
      - split; [split; [reflexivity|split; [reflexivity|left; auto]]|]. lia. }
    destruct Hw as (Hw & Hwn). pose proof Hw as (Hww & Hwx & _).
    assert (Hsum : sumf avail (upd l i w') = sumf avail l - n').
    { rewrite (sumf_upd _ _ _ _ _ Hi). unfold avail at 2 3. lia. }
    change (wake (S (length (i' :: r))) l i count) with
      (match nth_error l i with
       | None => None
       | Some w => let n := waiter w - notify w in
          let n' := if 0 <? n then (if count <? n then count else n) else 0 in
          let w' := if 0 <? n then WS (waiter w) (notify w + n') (sem_release (tokens w) n') (nxt w) else w in
          if 0 <? count - n' then wake (length (i' :: r)) (upd l i w') (nxt w) (count - n') else Some (upd l i w', i) end).
    rewrite Hi. cbv zeta. fold n'. fold w'.
    destruct Hl as (Hl1 & Hl2). cbn [hd] in Hl1. unfold nx in Hl1. rewrite Hi in Hl1.
    apply NoDup_cons_iff in Hnd. destruct Hnd as (Hni & Hnd').
    destruct (Z.ltb_spec 0 (count - n')) as [Hgo|Hstop].
    + assert (Hget : forall a, a <> i -> nth_error (upd l i w') a = nth_error l a) by (intros a Ha; apply nth_upd_neq; congruence).
      destruct (IH (upd l i w') i' z (count - n')) as (l' & j & Hwk & Hj & (HL & HW) & HS).
      * eapply linked_ext; [|exact Hl2]. intros a Ha. unfold nx. rewrite Hget; [reflexivity|]. intros ->. contradiction.
      * exact Hnd'.
      * intros a Ha. rewrite upd_length. apply Hin. right. exact Ha.
      * intros a x Ha. apply nth_upd_inv in Ha. destruct Ha as [(<- & -> & _)|(_ & Ha)]; [|eauto]. pose proof (Hle _ _ Hi). lia.
      * split; [lia|]. assert (E : sumf (availn (upd l i w')) (i' :: r) = sumf (availn l) (i' :: r)).
        { assert (Hx : forall q, ~ In i q -> sumf (availn (upd l i w')) q = sumf (availn l) q).
          { induction q as [|a q IHq]; intros Hq; [reflexivity|]. cbn [sumf]. rewrite IHq by (intros Hx; apply Hq; right; exact Hx).
            unfold availn at 1. rewrite Hget; [reflexivity|]. intros ->. apply Hq. left; reflexivity. }
          apply Hx. exact Hni. }
        rewrite E. cbn [sumf] in Hc |- *. unfold availn at 1 in Hc. rewrite Hi in Hc. unfold avail at 1 in Hc. lia.
      * exists l', j. rewrite Hl1. split; [exact Hwk|]. split; [right; exact Hj|]. split; [|lia]. split; [rewrite HL; apply upd_length|].
        intros a x Ha. destruct (Nat.eq_dec i a) as [<-|Hne].
        -- rewrite Hi in Ha. inversion Ha; subst x. destruct (HW i w') as (w2 & H2 & _ & H3); [eapply nth_upd_eq; eauto|].
           rewrite (H3 Hni) in H2. exists w'. split; [exact H2|]. split; [exact Hw|]. intros Hn. exfalso. apply Hn. left. reflexivity.
        -- destruct (HW a x) as (w2 & H2 & H3 & H4); [rewrite Hget by congruence; exact Ha|]. exists w2. split; [exact H2|]. split; [exact H3|].
           intros Hn. apply H4. intros Hn9. apply Hn. right. exact Hn9.
    + eexists _, i. split; [reflexivity|]. split; [left; reflexivity|]. split; [|lia]. split; [apply upd_length|].
      intros a x Ha. destruct (Nat.eq_dec i a) as [<-|Hne].
      * rewrite Hi in Ha. inversion Ha; subst x. exists w'. split; [eapply nth_upd_eq; eauto|]. split; [exact Hw|]. intros Hn. exfalso. apply Hn. left. reflexivity.
      * exists x. rewrite nth_upd_neq by exact Hne. split; [exact Ha|]. split; [split; [reflexivity|split; [reflexivity|left; auto]]|auto].
Qed.

(** ** The search of initiate_wait *)
Definition usable (l : list wst) (a : nat) : Prop := exists w, nth_error l a = Some w /\ notify w = 0 /\ waiter w < long_max.
Lemma find_ok : forall r l i e,
  linked (nx l) (i :: r) e -> ~ In e r -> (forall a, In a (i :: r) -> (a < length l)%nat) ->
  match find (S (length r)) l i e with
  | Found j => In j (i :: r) /\ usable l j
  | NotFound => forall a, In a (i :: r) -> ~ usable l a
  | Lost => False
  end.
Proof.
  assert (Hu : forall l i w, nth_error l i = Some w -> (notify w =? 0) && (waiter w <? long_max) = false -> ~ usable l i).
  { intros l i w Hi E (w' & Hw & H1 & H2). rewrite Hi in Hw. inversion Hw; subst w'. apply andb_false_iff in E.
    destruct E as [E|E]; [apply Z.eqb_neq in E|apply Z.ltb_ge in E]; lia. }
  induction r as [|i' r IH]; intros l i e Hl Hne Hin; destruct Hl as (Hl1 & Hl2); cbn [hd] in Hl1; unfold nx in Hl1;
    (destruct (nth_error l i) as [w|] eqn:Hi; [|apply nth_error_None in Hi; specialize (Hin i (or_introl eq_refl)); lia]).
  - cbn [find length]. rewrite Hi. destruct ((notify w =? 0) && (waiter w <? long_max)) eqn:E.
    + apply andb_prop in E. destruct E as (E1 & E2). apply Z.eqb_eq in E1. apply Z.ltb_lt in E2. split; [left; reflexivity|]. exists w. auto.
    + rewrite Hl1, Nat.eqb_refl. intros a [<-|[]]. eapply Hu; eauto.
  - change (find (S (length (i' :: r))) l i e) with
      (match nth_error l i with
       | None => Lost
       | Some w => if (notify w =? 0) && (waiter w <? long_max) then Found i
                   else if Nat.eqb (nxt w) e then NotFound else find (length (i' :: r)) l (nxt w) e end).
    rewrite Hi. destruct ((notify w =? 0) && (waiter w <? long_max)) eqn:E.
    + apply andb_prop in E. destruct E as (E1 & E2). apply Z.eqb_eq in E1. apply Z.ltb_lt in E2. split; [left; reflexivity|]. exists w. auto.
    + destruct (Nat.eqb_spec (nxt w) e) as [He|He]; [exfalso; apply Hne; left; congruence|]. rewrite Hl1. cbn [length].
      specialize (IH l i' e Hl2). cbn [length] in IH.
      destruct (find (S (length r)) l i' e) as [j| |].
      * destruct IH as (IH1 & IH2); [intros Hx; apply Hne; right; exact Hx|intros a Ha; apply Hin; right; exact Ha|]. split; [right; exact IH1|exact IH2].
      * intros a [<-|Ha]; [eapply Hu; eauto|]. apply IH; auto; [intros Hx; apply Hne; right; exact Hx|intros b Hb; apply Hin; right; exact Hb].
      * apply IH; auto; [intros Hx; apply Hne; right; exact Hx|intros b Hb; apply Hin; right; exact Hb].
Qed.

(** ** The destructor *)
Lemma del_ok : forall r l i e,
  linked (nx l) (i :: r) e -> ~ In e r -> (forall a, In a (i :: r) -> (a < length l)%nat) -> cv_del (S (length r)) l i e = Some (i :: r).
Proof.
  induction r as [|i' r IH]; intros l i e Hl Hne Hin; destruct Hl as (Hl1 & Hl2); cbn [hd] in Hl1; unfold nx in Hl1;
    (destruct (nth_error l i) as [w|] eqn:Hi; [|apply nth_error_None in Hi; specialize (Hin i (or_introl eq_refl)); lia]).
  - cbn [cv_del length]. rewrite Hi, Hl1, Nat.eqb_refl. reflexivity.
  - change (cv_del (S (length (i' :: r))) l i e) with
      (match nth_error l i with
       | None => None
       | Some w => if Nat.eqb (nxt w) e then Some [i] else match cv_del (length (i' :: r)) l (nxt w) e with Some d => Some (i :: d) | None => None end end).
    rewrite Hi. destruct (Nat.eqb_spec (nxt w) e) as [He|He]; [exfalso; apply Hne; left; congruence|]. rewrite Hl1. cbn [length].
    rewrite IH; [reflexivity|exact Hl2|intros Hx; apply Hne; right; exact Hx|intros a Ha; apply Hin; right; exact Ha].
Qed.

(** ** Inserting a new state after [e] *)
Lemma ring_insert l r e w x : ring l (r ++ [e]) -> nth_error l e = Some w ->
  ring (upd l e (WS (waiter w) (notify w) (tokens w) (length l)) ++ [WS (waiter x) (notify x) (tokens x) (nxt w)]) (length l :: r ++ [e]).
Proof.
  intros HR He. pose proof HR as (H1 & H2). assert (Hlt : (e < length l)%nat) by (apply nth_error_Some; congruence).
  set (l' := upd l e _ ++ [_]).
  assert (Hnew : nx l' (length l) = nxt w).
  { unfold nx, l'. rewrite nth_error_app2 by (rewrite upd_length; lia). rewrite upd_length, Nat.sub_diag. reflexivity. }
  assert (Hold : forall a, (a < length l)%nat -> a <> e -> nx l' a = nx l a).
  { intros a Ha Hn. unfold nx, l'. rewrite nth_error_app1 by (rewrite upd_length; lia). rewrite nth_upd_neq by congruence. reflexivity. }
  assert (Hee : nx l' e = length l).
  { unfold nx, l'. rewrite nth_error_app1 by (rewrite upd_length; lia). rewrite (nth_upd_eq _ _ _ _ He). reflexivity. }
  pose proof (ring_NoDup _ _ HR) as Hnd. apply NoDup_remove_2 in Hnd. rewrite app_nil_r in Hnd.
  unfold ringed in H1. apply linked_app in H1. destruct H1 as (H1 & H1' & _). cbn [hd] in H1, H1'.
  unfold nx in H1' at 1. rewrite He in H1'.
  split.
  - unfold ringed. cbn [hd linked]. split; [rewrite Hnew, H1'; destruct r; reflexivity|].
    apply linked_app. cbn [hd linked]. split; [|auto]. eapply linked_ext; [|exact H1]. intros a Ha. symmetry. apply Hold.
    + apply (ring_In _ _ _ HR). apply in_or_app. auto.
    + intros ->. contradiction.
  - unfold l'. rewrite app_length, upd_length. cbn [length]. rewrite seq_app. cbn [seq Nat.add]. rewrite H2. apply Permutation_cons_append.
Qed.

Lemma ring_same l l' r : length l' = length l -> (forall a w, nth_error l a = Some w -> exists w', nth_error l' a = Some w' /\ nxt w' = nxt w) -> ring l r -> ring l' r.
Proof.
  intros HL H (H1 & H2). split; [|rewrite HL; exact H2]. eapply linked_ext; [|exact H1]. intros a _. unfold nx.
  destruct (nth_error l a) as [w|] eqn:E; [destruct (H a w E) as (w' & -> & ->); reflexivity|].
  apply nth_error_None in E. rewrite <- HL in E. apply nth_error_None in E. rewrite E. reflexivity.
Qed.
