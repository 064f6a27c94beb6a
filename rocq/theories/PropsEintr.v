(** C48: interrupted condition variable waits. *)
From Coq Require Import List Bool Arith ZArith Lia.
From Verif Require Import ListSum Exec Events EintrModel.
Import ListNotations.
Local Open Scope Z_scope.

Definition zb (b : bool) : Z := if b then 1 else 0.
Definition nsleep (ths : list epc) : Z := sumf (fun p => zb (isleep p)) ths.
Definition intr (p : epc) : bool := match p with IIntr | IAgain => true | _ => false end.
Definition nintr (ths : list epc) : Z := sumf (fun p => zb (intr p)) ths.
(** Threads that will look at the items, or notify, before they can block. *)
Definition busy (p : epc) : bool := match p with IWoken | ITest | ITake | INote _ => true | _ => false end.
Definition nbusy (ths : list epc) : Z := sumf (fun p => zb (busy p)) ths.
Definition hold (p : epc) : bool := match p with ITest | IAgain | IThrow | ITake | INote _ | IUnl => true | _ => false end.
Definition nhold (ths : list epc) : Z := sumf (fun p => zb (hold p)) ths.
Lemma zb_pos b : 0 <= zb b. Proof. destruct b; cbn; lia. Qed.

(** No notification is issued while a thread is between an interruption and its next wait. *)
Definition calm (c : ist) (a : iact) : Prop := forall t w all, a = IStep t w -> nth_error (snd c) t = Some (INote all) -> nintr (snd c) = 0.
Definition calm_step (wk : bool) (c : ist) (a : iact) : option (ist * list iev) :=
  match a with
  | IStep t _ => match nth_error (snd c) t with Some (INote _) => if existsb intr (snd c) then None else i_step wk c a | _ => i_step wk c a end
  | _ => i_step wk c a
  end.

Definition EJ (wk : bool) (c : ist) : Prop :=
  let '((held, items), ths) := c in
  nhold ths = zb held /\ (wk = true -> nsleep ths + nintr ths > 0 -> Z.of_nat items <= nbusy ths) /\ (wk = false -> nsleep ths > 0 -> Z.of_nat items <= nbusy ths) /\ (forall t, nth_error ths t = Some ITake -> (0 < items)%nat) /\ (wk = false -> forall t, nth_error ths t <> Some IAgain).

Lemma wake_counts ths : nsleep (map iwake ths) = 0 /\ nintr (map iwake ths) = nintr ths /\ nbusy (map iwake ths) = nbusy ths + nsleep ths /\ nhold (map iwake ths) = nhold ths.
Proof.
  unfold nsleep, nintr, nbusy, nhold. induction ths as [|p ths IH]; cbn [map sumf]; [repeat split; lia|]. destruct IH as (A & B & C & D). destruct p; cbn [iwake isleep intr busy hold zb]; repeat split; lia.
Qed.
Lemma no_sleep ths : existsb isleep ths = false -> nsleep ths = 0.
Proof. unfold nsleep. induction ths as [|p ths IH]; cbn [existsb sumf]; [reflexivity|]. intros H. apply orb_false_iff in H. destruct H as (H1 & H2). rewrite H1, IH by exact H2. reflexivity. Qed.
Lemma no_intr ths : existsb intr ths = false -> nintr ths = 0.
Proof. unfold nintr. induction ths as [|p ths IH]; cbn [existsb sumf]; [reflexivity|]. intros H. apply orb_false_iff in H. destruct H as (H1 & H2). rewrite H1, IH by exact H2. reflexivity. Qed.
Lemma count_pos f (ths : list epc) t p : nth_error ths t = Some p -> f p = true -> 1 <= sumf (fun p => zb (f p)) ths.
Proof. intros H E. pose proof (sumf_elem (fun p => zb (f p)) ths t p (fun a => zb_pos _) H) as G. cbn beta in G. rewrite E in G. exact G. Qed.
Lemma count_nn (f : epc -> bool) ths : 0 <= sumf (fun p => zb (f p)) ths.
Proof. apply sumf_nonneg. intros; apply zb_pos. Qed.

Lemma nth_iwake ths u : nth_error (map iwake ths) u = Some ITake -> nth_error ths u = Some ITake.
Proof. intros H. apply nth_map_inv in H. destruct H as (p & Hp & E). destruct p; try discriminate. exact Hp. Qed.
Lemma nth_iwake_again ths u : nth_error (map iwake ths) u = Some IAgain -> nth_error ths u = Some IAgain.
Proof. intros H. apply nth_map_inv in H. destruct H as (p & Hp & E). destruct p; try discriminate. exact Hp. Qed.

Lemma EJ_step wk c a c' e : EJ wk c -> (wk = true -> calm c a) -> i_step wk c a = Some (c', e) -> EJ wk c'.
Proof.
  destruct c as [[held items] ths]. intros (A & B & B' & C & D) Hcalm H.
  assert (Hold1 : forall t p u q, nth_error ths t = Some p -> hold p = true -> nth_error ths u = Some q -> hold q = true -> t = u).
  { intros t p u q Ht Hp Hu Hq. destruct (Nat.eq_dec t u) as [|Hn]; [assumption|exfalso]. pose proof (sumf_two (fun p => zb (hold p)) ths t u p q (fun a => zb_pos _) Hn Ht Hu) as K. cbn beta in K. rewrite Hp, Hq in K. unfold nhold in A. destruct held; cbn in A, K; lia. }
  assert (Hheld : forall t p, nth_error ths t = Some p -> hold p = true -> held = true) by (intros t p Ht Hp; pose proof (count_pos hold ths t p Ht Hp) as K; unfold nhold in A; destruct held; [reflexivity|cbn in A; lia]).
  pose proof (count_nn isleep ths) as N1. pose proof (count_nn intr ths) as N2. pose proof (count_nn busy ths) as N3. fold (nsleep ths) in N1. fold (nintr ths) in N2. fold (nbusy ths) in N3.
  assert (Gen : forall t p p' held' items', nth_error ths t = Some p -> zb held' = zb held - zb (hold p) + zb (hold p') ->
    (wk = true -> nsleep ths - zb (isleep p) + zb (isleep p') + (nintr ths - zb (intr p) + zb (intr p')) > 0 -> Z.of_nat items' <= nbusy ths - zb (busy p) + zb (busy p')) ->
    (wk = false -> nsleep ths - zb (isleep p) + zb (isleep p') > 0 -> Z.of_nat items' <= nbusy ths - zb (busy p) + zb (busy p')) ->
    (p' = ITake -> (0 < items')%nat) -> (wk = false -> p' <> IAgain) -> ((items <= items')%nat \/ hold p = true) -> EJ wk ((held', items'), upd ths t p')).
  { intros t p p' held' items' Ht G1 G2 G2' G3 G4 G5. unfold EJ, nhold, nsleep, nintr, nbusy in *. rewrite !(sumf_upd _ _ _ _ _ Ht). split; [rewrite A; lia|]. split; [exact G2|]. split; [exact G2'|]. split.
    - intros u Hu. apply nth_upd_inv in Hu. destruct Hu as [(<- & E & _)|(Hn & Hu)]; [auto|]. destruct G5 as [G5|G5]; [specialize (C _ Hu); lia|]. exfalso. apply Hn. symmetry. eapply (Hold1 u ITake t p); eauto.
    - intros Hwk u Hu. apply nth_upd_inv in Hu. destruct Hu as [(<- & E & _)|(Hn & Hu)]; [symmetry in E; exact (G4 Hwk E)|exact (D Hwk u Hu)]. }
  destruct a as [t|t all|t w|t|t]; cbn [i_step] in H; destruct (nth_error ths t) as [p|] eqn:Et; try discriminate.
  - destruct p; inversion H; subst. eapply (Gen t IRest ILock); cbn; auto; try discriminate; try lia; intros W1 W2; try specialize (B W1); try specialize (B' W1); lia.
  - destruct p; inversion H; subst. eapply (Gen t IRest (IPut all)); cbn; auto; try discriminate; try lia; intros W1 W2; try specialize (B W1); try specialize (B' W1); lia.
  - assert (HC : forall all, wk = true -> p = INote all -> nintr ths = 0) by (intros all Hwk ->; exact (Hcalm Hwk t w all eq_refl Et)).
    destruct p; cbn [i_run] in H; try discriminate.
    + destruct held eqn:Eh; inversion H; subst. eapply (Gen t ILock ITest); cbn; auto; try discriminate; try lia; intros W1 W2; try specialize (B W1); try specialize (B' W1); lia.
    + pose proof (Hheld _ _ Et eq_refl) as ->. destruct items as [|i]; inversion H; subst.
      * eapply (Gen t ITest ISleep); cbn [hold isleep intr busy zb]; auto; try discriminate; try lia; intros W1 W2; pose proof (count_pos busy ths t ITest Et eq_refl) as K; fold (nbusy ths) in K; lia.
      * eapply (Gen t ITest ITake); cbn [hold isleep intr busy zb]; auto; try discriminate; try lia; intros W1 W2; try specialize (B W1); try specialize (B' W1); lia.
    + destruct held eqn:Eh; inversion H; subst. eapply (Gen t IWoken ITest); cbn [hold isleep intr busy zb]; auto; try discriminate; try lia; intros W1 W2; try specialize (B W1); try specialize (B' W1); lia.
    + destruct held eqn:Eh; inversion H; subst. destruct wk.
      * eapply (Gen t IIntr IAgain); cbn [hold isleep intr busy zb]; auto; try discriminate; try lia; intros W1 W2; try specialize (B W1); try specialize (B' W1); lia.
      * eapply (Gen t IIntr IThrow); cbn [hold isleep intr busy zb]; auto; try discriminate; try lia; intros W1 W2; try specialize (B W1); try specialize (B' W1); lia.
    + inversion H; subst. pose proof (Hheld _ _ Et eq_refl) as ->. assert (wk = true) as -> by (destruct wk; [reflexivity|exfalso; exact (D eq_refl t Et)]).
      eapply (Gen t IAgain ISleep); cbn [hold isleep intr busy zb]; auto; try discriminate; try lia; intros W1 W2; specialize (B W1); lia.
    + inversion H; subst. pose proof (Hheld _ _ Et eq_refl) as ->. eapply (Gen t IThrow IRest); cbn [hold isleep intr busy zb]; auto; try discriminate; try lia; intros W1 W2; try specialize (B W1); try specialize (B' W1); lia.
    + inversion H; subst. pose proof (Hheld _ _ Et eq_refl) as ->. pose proof (C _ Et) as Hi. eapply (Gen t ITake IUnl); cbn [hold isleep intr busy zb]; auto; try discriminate; try lia; intros W1 W2; try specialize (B W1); try specialize (B' W1); lia.
    + destruct held eqn:Eh; inversion H; subst. eapply (Gen t (IPut all) (INote all)); cbn [hold isleep intr busy zb]; auto; try discriminate; try lia; intros W1 W2; try specialize (B W1); try specialize (B' W1); lia.
    + pose proof (Hheld _ _ Et eq_refl) as ->. destruct all.
      * inversion H; subst. destruct (wake_counts ths) as (W1 & W2 & W3 & W4). assert (Et' : nth_error (map iwake ths) t = Some (INote true)) by (apply (nth_map iwake _ _ _ Et)).
        unfold EJ. unfold nhold, nsleep, nintr, nbusy in W1, W2, W3, W4 |- *. rewrite !(sumf_upd _ _ _ _ _ Et'), W1, W2, W3, W4. cbn [hold isleep intr busy zb]. unfold nhold in A. cbn [zb] in A. split; [lia|]. unfold nsleep, nintr, nbusy in *. split; [|split; [|split]].
        -- intros Hwk HH. pose proof (HC true Hwk eq_refl). lia.
        -- intros Hwk HH. lia.
        -- intros u Hu. apply nth_upd_inv in Hu. destruct Hu as [(<- & E & _)|(Hn & Hu)]; [discriminate|]. apply nth_iwake in Hu. eauto.
        -- intros Hwk u Hu. apply nth_upd_inv in Hu. destruct Hu as [(<- & E & _)|(Hn & Hu)]; [discriminate|]. apply nth_iwake_again in Hu. exact (D Hwk u Hu).
      * destruct (existsb isleep ths) eqn:Ex.
        -- destruct (nth_error ths w) as [[]|] eqn:Ew; try discriminate. inversion H; subst. assert (Hn : t <> w) by (intros ->; congruence). assert (Et' : nth_error (upd ths w IWoken) t = Some (INote false)) by (rewrite nth_upd_neq; [exact Et|congruence]).
           unfold EJ, nhold, nsleep, nintr, nbusy in *. rewrite !(sumf_upd _ _ _ _ _ Et'), !(sumf_upd _ _ _ _ _ Ew). cbn [hold isleep intr busy zb] in *. pose proof (count_pos isleep ths w ISleep Ew eq_refl) as K. split; [lia|]. split; [intros W1 W2; specialize (B W1); lia|]. split; [intros W1 W2; specialize (B' W1); lia|]. split.
           ++ intros u Hu. apply nth_upd_inv in Hu. destruct Hu as [(<- & E & _)|(Hn' & Hu)]; [discriminate|]. apply nth_upd_inv in Hu. destruct Hu as [(<- & E & _)|(Hn'' & Hu)]; [discriminate|eauto].
           ++ intros Hwk u Hu. apply nth_upd_inv in Hu. destruct Hu as [(<- & E & _)|(Hn' & Hu)]; [discriminate|]. apply nth_upd_inv in Hu. destruct Hu as [(<- & E & _)|(Hn'' & Hu)]; [discriminate|exact (D Hwk u Hu)].
        -- inversion H; subst. pose proof (no_sleep _ Ex) as K. eapply (Gen t (INote false) IUnl); cbn [hold isleep intr busy zb]; auto; try discriminate; try lia. intros W1 W2. pose proof (HC false W1 eq_refl). lia.
    + inversion H; subst. pose proof (Hheld _ _ Et eq_refl) as ->. eapply (Gen t IUnl IRest); cbn [hold isleep intr busy zb]; auto; try discriminate; try lia; intros W1 W2; try specialize (B W1); try specialize (B' W1); lia.
  - destruct p; inversion H; subst. pose proof (count_pos isleep ths t ISleep Et eq_refl) as K. fold (nsleep ths) in K. eapply (Gen t ISleep IWoken); cbn [hold isleep intr busy zb]; auto; try discriminate; try lia; intros W1 W2; try specialize (B W1); try specialize (B' W1); lia.
  - destruct p; inversion H; subst. pose proof (count_pos isleep ths t ISleep Et eq_refl) as K. fold (nsleep ths) in K. eapply (Gen t ISleep IIntr); cbn [hold isleep intr busy zb]; auto; try discriminate; try lia; intros W1 W2; try specialize (B W1); try specialize (B' W1); lia.
Qed.

Lemma EJ_init wk n : EJ wk (i_init n).
Proof.
  unfold EJ, i_init, nhold, nsleep, nintr, nbusy. rewrite !sumf_repeat. cbn. repeat split; try lia.
  - intros t H. apply nth_error_In, repeat_spec in H. discriminate.
  - intros _ t H. apply nth_error_In, repeat_spec in H. discriminate.
Qed.

(** Nobody can do anything but wait to be woken. *)
Definition stuck (c : ist) : Prop := forall t p, nth_error (snd c) t = Some p -> p = IRest \/ p = ISleep.

Lemma stuck_busy c : stuck c -> nbusy (snd c) = 0.
Proof.
  destruct c as [s ths]. unfold stuck, nbusy. cbn [snd]. induction ths as [|p ths IH]; intros H; [reflexivity|]. cbn [sumf]. rewrite IH; [|exact (fun t => H (S t))]. destruct (H 0%nat p eq_refl) as [->| ->]; reflexivity.
Qed.

(** Without the workaround a consumer is never left asleep while there are items: every execution, interruptions included. *)
Theorem C48_without_workaround n sched c tr t : exec (i_step false) (i_init n) sched = Some (c, tr) -> stuck c -> nth_error (snd c) t = Some ISleep -> snd (fst c) = 0%nat.
Proof.
  intros H Hs Ht. assert (J : EJ false c) by (revert H; apply (exec_inv_state (i_step false) (EJ false)); [apply EJ_init|intros; eapply EJ_step; eauto; discriminate]).
  pose proof (stuck_busy _ Hs) as Z. destruct c as [[held items] ths]. cbn [fst snd] in *. destruct J as (_ & _ & J & _). pose proof (count_pos isleep ths t ISleep Ht eq_refl) as K. fold (nsleep ths) in K. specialize (J eq_refl). lia.
Qed.

Lemma calm_ok wk c a r : calm_step wk c a = Some r -> i_step wk c a = Some r /\ calm c a.
Proof.
  unfold calm_step, calm. destruct a as [t|t all|t w|t|t]; try (intros H; split; [exact H|intros; discriminate]).
  destruct (nth_error (snd c) t) as [p|] eqn:Et; [|intros H; split; [exact H|intros t' w' all E; inversion E; subst; congruence]].
  destruct p; try (intros H; split; [exact H|intros t' w' all' E; inversion E; subst; congruence]). destruct (existsb intr (snd c)) eqn:Ex; [discriminate|]. intros H. split; [exact H|]. intros. apply no_intr. exact Ex.
Qed.

(** With the workaround this holds as long as nobody notifies between an interruption and the next wait of the interrupted thread. *)
Theorem C48_workaround_partial n sched c tr t : exec (calm_step true) (i_init n) sched = Some (c, tr) -> stuck c -> nth_error (snd c) t = Some ISleep -> snd (fst c) = 0%nat.
Proof.
  intros H Hs Ht. assert (J : EJ true c) by (revert H; apply (exec_inv_state (calm_step true) (EJ true)); [apply EJ_init|intros c1 a c2 e HJ Hst; apply calm_ok in Hst; destruct Hst; eapply EJ_step; eauto]).
  pose proof (stuck_busy _ Hs) as Z. destruct c as [[held items] ths]. cbn [fst snd] in *. destruct J as (_ & J & _). pose proof (count_pos isleep ths t ISleep Ht eq_refl) as K. fold (nsleep ths) in K. pose proof (count_nn intr ths) as K2. fold (nintr ths) in K2. specialize (J eq_refl). lia.
Qed.
(** In particular if no wait is interrupted. *)
Definition unint (a : iact) : Prop := match a with IInt _ => False | _ => True end.
Theorem C48_uninterrupted wk n sched c tr t : exec (i_step wk) (i_init n) sched = Some (c, tr) -> Forall unint sched -> stuck c -> nth_error (snd c) t = Some ISleep -> snd (fst c) = 0%nat.
Proof.
  intros H Hu Hs Ht. assert (J : EJ wk c /\ nintr (snd c) = 0).
  { revert Hu H. apply (exec_inv_acts (i_step wk) unint (fun c _ => EJ wk c /\ nintr (snd c) = 0)).
    - split; [apply EJ_init|]. cbn. unfold nintr. rewrite sumf_repeat. cbn. lia.
    - intros c1 t1 a c2 e (HJ & HN) Hua Hst. split; [eapply EJ_step; eauto; intros _ ? ? ? _ _; exact HN|]. destruct c1 as [[held items] ths]. cbn [snd] in HN. unfold nintr in HN |- *.
      assert (F : forall t p, nth_error ths t = Some p -> intr p = false) by (intros t0 p Hp; destruct (intr p) eqn:E; [exfalso; pose proof (count_pos intr ths t0 p Hp E); lia|reflexivity]).
      destruct a as [t0|t0 all|t0 w|t0|t0]; cbn [i_step] in Hst; cbn in Hua; try contradiction; destruct (nth_error ths t0) as [p|] eqn:Et; try discriminate.
      + destruct p; inversion Hst; subst. cbn [snd]. rewrite (sumf_upd _ _ _ _ _ Et). cbn. lia.
      + destruct p; inversion Hst; subst. cbn [snd]. rewrite (sumf_upd _ _ _ _ _ Et). cbn. lia.
      + pose proof (F _ _ Et) as Fp. destruct p; cbn [i_run] in Hst; try discriminate; try (inversion Hst; subst; cbn [snd]; rewrite (sumf_upd _ _ _ _ _ Et); cbn; lia); try (destruct held; inversion Hst; subst; cbn [snd]; rewrite (sumf_upd _ _ _ _ _ Et); cbn; lia).
        * destruct items; inversion Hst; subst; cbn [snd]; rewrite (sumf_upd _ _ _ _ _ Et); cbn; lia.
        * destruct all.
          -- inversion Hst; subst. cbn [snd]. assert (Et' : nth_error (map iwake ths) t0 = Some (INote true)) by (apply (nth_map iwake _ _ _ Et)). rewrite (sumf_upd _ _ _ _ _ Et'). destruct (wake_counts ths) as (_ & W2 & _). unfold nintr in W2. cbn. lia.
          -- destruct (existsb isleep ths); [|inversion Hst; subst; cbn [snd]; rewrite (sumf_upd _ _ _ _ _ Et); cbn; lia]. destruct (nth_error ths w) as [[]|] eqn:Ew; try discriminate. inversion Hst; subst. cbn [snd]. assert (Hn : t0 <> w) by (intros ->; congruence). assert (Et' : nth_error (upd ths w IWoken) t0 = Some (INote false)) by (rewrite nth_upd_neq; [exact Et|congruence]). rewrite (sumf_upd _ _ _ _ _ Et'), (sumf_upd _ _ _ _ _ Ew). cbn. lia.
      + destruct p; inversion Hst; subst. cbn [snd]. rewrite (sumf_upd _ _ _ _ _ Et). cbn. lia. }
  destruct J as (J & HN). pose proof (stuck_busy _ Hs) as Z. destruct c as [[held items] ths]. cbn [fst snd] in *. destruct J as (_ & J1 & J2 & _). pose proof (count_pos isleep ths t ISleep Ht eq_refl) as K. fold (nsleep ths) in K. destruct wk; [specialize (J1 eq_refl)|specialize (J2 eq_refl)]; lia.
Qed.

(** The interrupted thread waits again without looking at the items: a notification issued meanwhile, even notify_all, is lost and the thread sleeps on although there is an item. *)
Definition lost_sched : list iact := [IConsume 0; IStep 0 0; IStep 0 0; IInt 0; IProduce 1 true; IStep 1 0; IStep 1 0; IStep 1 0; IStep 0 0; IStep 0 0]%nat.
Theorem C48_lost_refuted : exists n sched c tr t u, exec (i_step true) (i_init n) sched = Some (c, tr) /\ In (EvPut u) tr /\ In (EvNote u true) tr /\ stuck c /\ nth_error (snd c) t = Some ISleep /\ (0 < snd (fst c))%nat.
Proof.
  exists 2%nat, lost_sched. eexists _, _, 0%nat, 1%nat. split; [vm_compute; reflexivity|]. cbn. split; [auto|]. split; [auto|]. split; [|split; [reflexivity|lia]].
  intros [|[|[|t]]] p E; inversion E; auto.
Qed.
(** The same schedule without the workaround: the consumer reports the interruption and sleeps no more. *)
Example C48_ex : exists c tr, exec (i_step false) (i_init 2) lost_sched = Some (c, tr) /\ In (EvThrow 0%nat) tr /\ nth_error (snd c) 0%nat = Some IRest.
Proof. eexists _, _. split; [vm_compute; reflexivity|]. vm_compute. auto 10. Qed.
(** The partial theorem's hypothesis is met by executions with interruptions. *)
Example C48_partial_ex : exists c tr, exec (calm_step true) (i_init 2) [IConsume 0; IStep 0 0; IStep 0 0; IInt 0; IStep 0 0; IStep 0 0; IProduce 1 false; IStep 1 0; IStep 1 0; IStep 1 0; IStep 0 0; IStep 0 0; IStep 0 0; IStep 0 0; IConsume 0; IStep 0 0; IStep 0 0]%nat = Some (c, tr)
  /\ In (EvIntr 0%nat) tr /\ In (EvTake 0%nat) tr /\ nth_error (snd c) 0%nat = Some ISleep /\ stuck c.
Proof. eexists _, _. split; [vm_compute; reflexivity|]. cbn. repeat (split; [auto|]). intros [|[|[|t]]] p E; inversion E; auto. Qed.
