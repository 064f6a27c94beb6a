(** Invariants of the Windows condition variable on weak memory (over WeakCv.v). *)
From Coq Require Import List Bool Arith ZArith Lia.
From Verif Require Import ListSum Exec Events Lin Thr Word MutexSpec MutexSpecFacts WinMutexModel WinMutexProof WinCvModel WinCvRing WinCvProof PropsWinCv Hb HbSpin HbWinMutex Weak WeakAuto WeakSem WeakWin WeakWinHb WeakCv.
Import ListNotations.
Local Open Scope Z_scope.

(** Locking the internal mutex does not throw. *)
Definition x_nomf (a : xact) : Prop := match a with XC a _ => no_mutex_failure a | XM _ => True end.

(** The number of events that changed m_total_waiter_count. *)
Definition chg (e : hev xev) : nat := match e with HEv (XCv e) _ => if un e =? 0 then 0%nat else 1%nat | _ => 0%nat end.
Fixpoint nchg (tr : list (hev xev)) : nat := match tr with [] => 0%nat | e :: tr => (chg e + nchg tr)%nat end.
Lemma nchg_app a b : nchg (a ++ b) = (nchg a + nchg b)%nat. Proof. induction a as [|e a IH]; [reflexivity|]. cbn. rewrite IH. lia. Qed.
Lemma nchg_xmap e : nchg (map xmap e) = 0%nat.
Proof. induction e as [|[t j|e0 K] e IH]; [reflexivity| |]; cbn; exact IH. Qed.

(** What happened in the sections of the internal mutex is known to whoever enters it next. *)
Definition in_sec (e : xev) : bool := match e with XCv (EJoin _) | XCv (EEnd _ _ _) => true | XCv (ENotify _ _ k) => negb (k =? 0) | _ => false end.

(** The messages of m_total_waiter_count are its values over time; whoever registered knows its own message. *)
Definition XH (w : wmem) (tr : list (hev xev)) : Prop :=
  length (hist w 2%nat) = S (nchg tr) /\
  (forall i m, nth_error (hist w 2%nat) i = Some m -> exists a b, tr = a ++ b /\ nchg a = i /\ mval m = unnotified (cvs a)) /\
  (forall a u K b, tr = a ++ HEv (XCv (EJoin u)) K :: b -> exists m, nth_error (hist w 2%nat) (S (nchg a)) = Some m /\ In (mid m) K).
Definition XO (w : wmem) (tr : list (hev xev)) : Prop := forall e K, In (HEv e K) tr -> incl K (wkn w (xth e)).
Definition XS (w : wmem) (tr : list (hev xev)) : Prop := forall a e K b e1 K1, tr = a ++ HEv e K :: b -> in_sec e = true -> In (HEv e1 K1) a -> xth e1 = xth e -> incl K1 (trel w 3).

(** A notification that had no effect although the calling thread knew of a registered waiter: in between everybody had been notified or had left. *)
Definition placed (a : list (hev xev)) (x : hev xev) : Prop :=
  match x with
  | HEv (XCv (ENotify t al 0)) _ => forall a1 u K a2 e Ke, a = a1 ++ HEv (XCv (EJoin u)) K :: a2 -> In (HEv e Ke) a -> xth e = t -> incl K Ke ->
      exists b1 b2, a2 = b1 ++ b2 /\ unnotified (cvs (a1 ++ HEv (XCv (EJoin u)) K :: b1)) = 0
  | _ => True
  end.
(** A waiter that received a notification knows what earlier sections' threads had done. *)
Definition told (a : list (hev xev)) (x : hev xev) : Prop :=
  match x with
  | HEv e K' => in_sec e = true -> forall a1 e0 K0 a2 e1 K1, a = a1 ++ HEv e0 K0 :: a2 -> in_sec e0 = true -> In (HEv e1 K1) a1 -> xth e1 = xth e0 -> incl K1 K'
  | _ => True
  end.

(** A notification with an effect released as many as it should. *)
Definition released (a : list (hev xev)) (x : hev xev) : Prop :=
  match x with
  | HEv (XCv (ENotify t al k)) _ => k <> 0 -> 0 < unnotified (cvs a) /\ k = if al then unnotified (cvs a) else 1
  | _ => True
  end.

Definition XI (q : bool) (n : nat) (c : x_st) (tr : list (hev xev)) : Prop :=
  let w := fst (fst (fst c)) in
  (exists s0, exec (x_step q) (x_init n) s0 = Some (c, tr)) /\
  CI (snd c) /\ ccap (snd c) /\ total (fst (snd c)) = unnotified (cvs tr) /\ XH w tr /\ XO w tr /\ XS w tr /\
  (forall a b, tr = a ++ b -> 0 <= unnotified (cvs a)) /\
  (forall a x b, tr = a ++ x :: b -> placed a x /\ told a x /\ released a x).

Lemma unn_app a b : unnotified (a ++ b) = unnotified a + unnotified b. Proof. apply sumf_app. Qed.

Lemma XI_init q n : Z.of_nat n < 2 ^ 30 -> XI q n (x_init n) [].
Proof.
  intros Hn. split; [exists []; reflexivity|]. split; [apply CI_init|]. split; [unfold ccap; cbn; rewrite repeat_length; lia|]. split; [reflexivity|]. split; [|split; [|split; [|split]]].
  - split; [reflexivity|]. split.
    + intros [|i] m H; cbn in H; [|destruct i; discriminate]. injection H as <-. exists [], []. auto.
    + intros a u K b E. destruct a; discriminate.
  - intros e K [].
  - intros a e K b e1 K1 E. destruct a; discriminate.
  - intros a b E. symmetry in E. apply app_eq_nil in E. destruct E as (-> & _). cbn. lia.
  - intros a x b E. destruct a; discriminate.
Qed.

(** A step of the user's mutex or of the program leaves the condition variable's locations alone. *)
Lemma wwm_hist q w k ths a w' k' ths' e l : (2 <= l)%nat -> (forall t l' o i, a = WClient t l' o i -> l' <> l) ->
  wwm_step q ((w, k), ths) a = Some (((w', k'), ths'), e) -> hist w' l = hist w l.
Proof.
  intros Hl Ha H. assert (N0 : l <> 0%nat) by lia. assert (N1 : l <> 1%nat) by lia.
  destruct a as [t o|t c|t|t l' o i]; cbn [wwm_step] in H.
  - destruct (nth_error ths t) as [p|]; [|discriminate]. destruct (wm_call p o); inversion H; subst; reflexivity.
  - destruct (nth_error ths t) as [p|]; [|discriminate]. destruct (wm_ret p) as [[[o r] p']|]; [inversion H; subst; reflexivity|].
    destruct (wwm_run q t w k p c) as [[[w1 k1] p1]|] eqn:Hr; [|discriminate]. inversion H; subst w1 k1 ths' e. clear H.
    destruct c as [ch i]. unfold wwm_run in Hr. destruct (kdead k); [discriminate|].
    assert (Ld : forall l0 acq v w1, wload t l0 acq i w = Some (v, w1) -> hist w1 l = hist w l).
    { intros l0 acq v w1 E. destruct (wload_inv _ _ _ _ _ _ _ E) as (m & _ & _ & _ & -> & _). reflexivity. }
    assert (Rm : forall l0 acq rel f v w1, l <> l0 -> wrmw t l0 acq rel f i w = Some (v, w1) -> hist w1 l = hist w l).
    { intros l0 acq rel f v w1 Hn E. destruct (wrmw_inv _ _ _ _ _ _ _ _ _ E) as (m & _ & _ & _ & _ & _ & Ek & _). apply Ek. exact Hn. }
    assert (Cs : forall l0 wk acq rel fa ex de sp b v w1, l <> l0 -> wcas t l0 wk acq rel fa ex de sp i w = Some (b, v, w1) -> hist w1 l = hist w l).
    { intros l0 wk acq rel fa ex de sp b v w1 Hn E. destruct (wcas_inv _ _ _ _ _ _ _ _ _ _ _ _ _ _ E) as [(_ & _ & E1)|(_ & _ & E1)]; eauto. }
    destruct p; try discriminate.
    + destruct (wrmw _ _ _ _ _ _ _) as [[v w1]|] eqn:E; [|discriminate]. injection Hr as <- _ _. eauto.
    + destruct (wrmw _ _ _ _ _ _ _) as [[v w1]|] eqn:E; [|discriminate]. injection Hr as <- _ _. eauto.
    + destruct ch; injection Hr as <- _ _; reflexivity.
    + destruct (wload _ _ _ _ _) as [[v w1]|] eqn:E; [|discriminate]. injection Hr as <- _ _. eauto.
    + destruct (wcas _ _ _ _ _ _ _ _ _ _ _) as [[[[|] v] w1]|] eqn:E; [| |discriminate]; injection Hr as <- _ _; eauto.
    + destruct (wload _ _ _ _ _) as [[v w1]|] eqn:E; [|discriminate]. injection Hr as <- _ _. eauto.
    + destruct ch; try (injection Hr as <- _ _; reflexivity). destruct c; injection Hr as <- _ _; reflexivity.
    + destruct (wcas _ _ _ _ _ _ _ _ _ _ _) as [[[[|] v] w1]|] eqn:E; [| |discriminate]; injection Hr as <- _ _; eauto.
    + injection Hr as <- _ _. reflexivity.
    + destruct ch; injection Hr as <- _ _; reflexivity.
    + destruct ch; try (destruct (nth_error (kev k) h) as [[[|] R]|]; try discriminate Hr; injection Hr as <- _ _; reflexivity); try (injection Hr as <- _ _; reflexivity);
        destruct k0; try discriminate; injection Hr as <- _ _; reflexivity.
    + destruct (wcas _ _ _ _ _ _ _ _ _ _ _) as [[[[|] v] w1]|] eqn:E; [| |discriminate]; injection Hr as <- _ _; eauto.
    + destruct (wrmw _ _ _ _ _ _ _) as [[v w1]|] eqn:E; [|discriminate]. injection Hr as <- _ _. eauto.
    + destruct (wrmw _ _ _ _ _ _ _) as [[v w1]|] eqn:E; [|discriminate]. injection Hr as <- _ _. eauto.
    + destruct (wrmw _ _ _ _ _ _ _) as [[v w1]|] eqn:E; [|discriminate]. injection Hr as <- _ _. eauto.
    + destruct (nth_error (kev k) h) as [[b R]|]; injection Hr as <- _ _; reflexivity.
  - injection H as <- _ _ _. reflexivity.
  - destruct (2 <=? l')%nat; [|discriminate]. destruct (wclient _ _ _ _ _) as [[v w1]|] eqn:E; [|discriminate]. injection H as <- _ _ _.
    destruct (wclient_inv _ _ _ _ _ _ _ E) as (_ & Ek & _). apply Ek. intros ->. eapply Ha; reflexivity.
Qed.

(** How the history parts of the invariant go on. *)
Lemma XH_quiet w w' tr e : XH w tr -> hist w' 2%nat = hist w 2%nat -> nchg e = 0%nat -> (forall u K, ~ In (HEv (XCv (EJoin u)) K) e) -> XH w' (tr ++ e).
Proof.
  intros (H1 & H2 & H3) Eh En Hj. unfold XH. rewrite Eh, nchg_app, En, Nat.add_0_r. split; [exact H1|]. split.
  - intros i m Hi. destruct (H2 i m Hi) as (a & b & -> & Ha & Hv). exists a, (b ++ e). rewrite <- app_assoc. auto.
  - intros a u K b E. apply app_cut in E. destruct E as [(b' & E & _)|(a' & -> & E)]; [eauto|]. exfalso. apply (Hj u K). rewrite E. apply in_or_app. right; left; reflexivity.
Qed.
Lemma XO_step w w' tr e : XO w tr -> kmono w w' -> (forall x K, In (HEv x K) e -> incl K (wkn w' (xth x))) -> XO w' (tr ++ e).
Proof. intros H M He x K Hin. apply in_app_or in Hin. destruct Hin as [Hin|Hin]; [eapply incl_tran; [apply (H _ _ Hin)|apply M]|auto]. Qed.
Lemma XS_quiet w w' tr e : XS w tr -> incl (trel w 3) (trel w' 3) -> (forall x K, In (HEv x K) e -> in_sec x = false) -> XS w' (tr ++ e).
Proof.
  intros H Ht He a x K b e1 K1 E Hs Hin Hth. apply app_cut in E. destruct E as [(b' & E & _)|(a' & -> & E)].
  - eapply incl_tran; [|exact Ht]. eapply H; eauto.
  - exfalso. assert (F : In (HEv x K) e) by (rewrite E; apply in_or_app; right; left; reflexivity). rewrite (He _ _ F) in Hs. discriminate.
Qed.
Lemma pre_quiet tr e : (forall a b, tr = a ++ b -> 0 <= unnotified (cvs a)) -> (forall a b, e = a ++ b -> 0 <= unnotified (cvs (tr ++ a))) -> forall a b, tr ++ e = a ++ b -> 0 <= unnotified (cvs a).
Proof.
  intros H He a b E. destruct b as [|x b]; [rewrite app_nil_r in E; subst; apply (He e []); rewrite app_nil_r; reflexivity|].
  apply app_cut in E. destruct E as [(b' & E & _)|(a' & -> & E)]; [eauto|]. eapply He; eauto.
Qed.
Lemma ev_step tr e (Q : list (hev xev) -> hev xev -> Prop) : (forall a x b, tr = a ++ x :: b -> Q a x) -> (forall a x b, e = a ++ x :: b -> Q (tr ++ a) x) -> forall a x b, tr ++ e = a ++ x :: b -> Q a x.
Proof. intros H He a x b E. apply app_cut in E. destruct E as [(b' & E & _)|(a' & -> & E)]; eauto. Qed.

(** The load at the beginning of notify_*: if the thread knows that a waiter registered, it reads that or something newer. *)
Lemma load_placed w tr t i v w' a1 u K a2 : XH w tr -> (forall a b, tr = a ++ b -> 0 <= unnotified (cvs a)) ->
  wclient t 2 (CLoad true) i w = Some (v, w') -> v <= 0 -> tr = a1 ++ HEv (XCv (EJoin u)) K :: a2 -> incl K (wkn w t) ->
  exists b1 b2, a2 = b1 ++ b2 /\ unnotified (cvs (a1 ++ HEv (XCv (EJoin u)) K :: b1)) = 0.
Proof.
  intros (H1 & H2 & H3) Hnn Hl Hv E Hk. cbn [wclient] in Hl. destruct (wload_inv _ _ _ _ _ _ _ Hl) as (m & En & R & -> & _).
  destruct (H3 _ _ _ _ E) as (mj & Ej & Hj). destruct (H2 _ _ En) as (a & b & Eab & Ha & Hm).
  destruct (nth_error_split _ _ Ej) as (h1 & h2 & Eh & Hlen). rewrite Eh in R. pose proof (readable_after _ _ _ _ _ (Hk _ Hj) R) as Hle. rewrite Hlen in Hle.
  pose proof (Hnn a b Eab) as H0. rewrite E in Eab.
  assert (G : (exists b1, a = a1 ++ HEv (XCv (EJoin u)) K :: b1 /\ a2 = b1 ++ b) \/ (exists b', a1 = a ++ b')).
  { symmetry in Eab. destruct (app_cut _ _ _ _ _ Eab) as [(b' & -> & ->)|(a' & -> & _)]; [left; exists b'; auto|right; exists a'; reflexivity]. }
  destruct G as [(b1 & -> & ->)|(b' & ->)]; [exists b1, b; split; [reflexivity|lia]|]. exfalso. rewrite nchg_app in Hle. lia.
Qed.

Lemma cv_in_sec s cths a s' cths' e p x : nth_error cths (cth a) = Some p -> (forall t ch al, a = ARun t ch -> p <> CNLoad al) -> cv_step (s, cths) a = Some ((s', cths'), e) ->
  In x e -> in_sec (XCv x) = true -> exists t ch, a = ARun t ch /\ is_sec p ch = true.
Proof.
  intros Hp Hl H Hin Hs. destruct a as [t k|t al|t ch]; cbn [cv_step cth] in *; rewrite Hp in H.
  - destruct p; inversion H; subst. destruct Hin as [<-|[]]. discriminate.
  - destruct p; inversion H; subst. destruct Hin as [<-|[]]. discriminate.
  - exists t, ch. split; [reflexivity|]. destruct (cdead s); [discriminate|]. destruct (cv_run s t p ch) as [[[s1 q1] e1]|] eqn:Hr; [|discriminate]. injection H as _ _ <-.
    destruct p; cbn [cv_run] in Hr; try discriminate.
    + exfalso. destruct ch; injection Hr as _ _ <-; try (destruct Hin; fail). destruct Hin as [<-|[]]. discriminate.
    + destruct ch; try reflexivity; injection Hr as _ _ <-; destruct Hin.
    + injection Hr as _ _ <-. destruct Hin.
    + exfalso. destruct ch, k; try discriminate; try (injection Hr as _ _ <-; destruct Hin; fail);
      destruct (nth_error (sts s) s0) as [w|]; try (injection Hr as _ _ <-; destruct Hin; fail); destruct (0 <? tokens w); try discriminate; injection Hr as _ _ <-; destruct Hin.
    + destruct ch; try reflexivity; injection Hr as _ _ <-; destruct Hin.
    + destruct ch; try reflexivity; injection Hr as _ _ <-; destruct Hin.
    + destruct ch; try reflexivity; injection Hr as _ _ <-; destruct Hin.
    + exfalso. destruct k, r; injection Hr as _ _ <-; try destruct Hin as [<-|[]]; try discriminate; destruct Hin.
    + exfalso. eapply Hl; reflexivity.
    + destruct ch; try reflexivity; injection Hr as _ _ <-; destruct Hin.
Qed.

Lemma in_map_cv K e x K1 : In (HEv x K1) (map (fun e => HEv (XCv e) K) e) -> exists y, x = XCv y /\ K1 = K /\ In y e.
Proof. intros H. apply in_map_iff in H. destruct H as (y & E & Hin). injection E as <- <-. eauto. Qed.

Lemma XI_step q n : Z.of_nat n < 2 ^ 30 -> forall c tr a c' e, XI q n c tr -> x_nomf a -> x_step q c a = Some (c', e) -> XI q n c' (tr ++ e).
Proof.
  intros Hn [[[w k] mths] [s cths]] tr a c' e ((s0 & H0) & HI & Hcap & Ht & HH & HO & HS & HP & HQ) Hmf Hstep. cbn [fst snd] in *.
  assert (HR : exists s1, exec (x_step q) (x_init n) s1 = Some (c', tr ++ e)) by (exists (s0 ++ [a]); rewrite exec_app, H0; cbn [exec]; rewrite Hstep, app_nil_r; reflexivity).
  destruct (x_proj _ _ _ _ _ H0) as (ms & Hms). cbn [fst] in Hms.
  pose proof (x_case _ _ _ _ _ _ _ _ _ Hstep) as Hc. clear Hstep. split; [exact HR|]. clear HR.
  destruct Hc as [a w' k' mths' e Hok Hw|t ch i al v w' Hp Hl Hv|t ch i al v w' Hp Hl Hv|a i p m s' cths' e w' Hp Hm Hok Hnl Hs Hmono Htr Hh2 Hsec _]; cbn [fst snd].
  - (* the mutex, or the program *)
    pose proof (wwm_mono _ _ _ _ _ _ _ _ _ _ _ _ Hn Hms Hw) as M.
    assert (Hcl : forall l, (2 <= l < 4)%nat -> hist w' l = hist w l).
    { intros l Hl. eapply wwm_hist; [|intros t l' o i Ea El|exact Hw]; [lia|]. subst. cbn [mut_ok] in Hok. apply Nat.leb_le in Hok. lia. }
    assert (Hev : forall x K, In (HEv x K) (map xmap e) -> exists y, x = XMut y /\ K = wkn w' (xth x)).
    { intros x K Hin. apply in_map_iff in Hin. destruct Hin as ([t1 j|y K1] & E & Hin); [discriminate|]. injection E as <- <-. exists y. split; [reflexivity|].
      apply wwm_case in Hw. destruct Hw; cbn in Hin; try contradiction; destruct Hin as [F|[]]; try discriminate F; injection F as <- <-; reflexivity. }
    split; [exact HI|]. split; [exact Hcap|]. rewrite cvs_app, cvs_xmap, app_nil_r. split; [exact Ht|]. split; [|split; [|split; [|split]]].
    + eapply XH_quiet; [exact HH|apply Hcl; lia|apply nchg_xmap|]. intros u K Hin. destruct (Hev _ _ Hin) as (y & F & _). discriminate.
    + eapply XO_step; [exact HO|exact M|]. intros x K Hin. destruct (Hev _ _ Hin) as (_ & _ & ->). apply incl_refl.
    + eapply XS_quiet; [exact HS|rewrite (trel_same w w' 3) by (apply Hcl; lia); apply incl_refl|]. intros x K Hin. destruct (Hev _ _ Hin) as (y & -> & _). reflexivity.
    + apply pre_quiet; [exact HP|]. intros a1 b1 E. rewrite cvs_app. assert (F : cvs a1 = []).
      { pose proof (cvs_xmap e) as F. rewrite E, cvs_app in F. apply app_eq_nil in F. apply F. }
      rewrite F, app_nil_r. apply (HP tr []). rewrite app_nil_r. reflexivity.
    + apply ev_step; [exact HQ|]. intros a1 x b1 E. destruct x as [t1 j|x K]; [repeat split|]. destruct (Hev x K) as (y & -> & _); [rewrite E; apply in_or_app; right; left; reflexivity|]. split; [exact I|]. split; [intros F; discriminate|exact I].
  - (* the load, positive *)
    cbn [wclient] in Hl. pose proof (wload_mono _ _ _ _ _ _ _ Hl) as M. destruct (wload_inv _ _ _ _ _ _ _ Hl) as (m0 & _ & _ & _ & Eh & _).
    rewrite !app_nil_r. split; [eapply CI_quiet; eauto; discriminate|]. split; [unfold ccap in *; cbn [snd] in *; rewrite upd_length; exact Hcap|]. split; [exact Ht|].
    split; [unfold XH; rewrite Eh; exact HH|]. split; [intros x K Hin; eapply incl_tran; [apply (HO _ _ Hin)|apply M]|]. split; [unfold XS; rewrite (trel_same w w' 3) by (rewrite Eh; reflexivity); exact HS|].
    split; [exact HP|exact HQ].
  - (* the load, zero *)
    pose proof Hl as Hl0. cbn [wclient] in Hl. pose proof (wload_mono _ _ _ _ _ _ _ Hl) as M. destruct (wload_inv _ _ _ _ _ _ _ Hl) as (m0 & _ & _ & _ & Eh & _).
    set (es := [HEv (XCv (ENotify t al 0)) (wkn w' t); HEv (XCv (ENotifyRet t)) (wkn w' t)]).
    assert (Hev : forall x K, In (HEv x K) es -> xth x = t /\ K = wkn w' t /\ in_sec x = false /\ forall u, x <> XCv (EJoin u)).
    { intros x K [F|[F|[]]]; injection F as <- <-; repeat split; discriminate. }
    split; [eapply CI_quiet; eauto; discriminate|]. split; [unfold ccap in *; cbn [snd] in *; rewrite upd_length; exact Hcap|].
    assert (Hu : forall a1 b1, es = a1 ++ b1 -> unnotified (cvs a1) = 0).
    { intros a1 b1 E. unfold es in E. destruct a1 as [|x1 [|x2 [|x3 a1]]]; [reflexivity| | |discriminate E]; injection E; intros; subst; reflexivity. }
    split; [rewrite cvs_app, unn_app, (Hu es []) by (rewrite app_nil_r; reflexivity); lia|]. split; [|split; [|split; [|split]]].
    + eapply XH_quiet; [exact HH|rewrite Eh; reflexivity|reflexivity|]. intros u K Hin. destruct (Hev _ _ Hin) as (_ & _ & _ & F). eapply F; reflexivity.
    + eapply XO_step; [exact HO|exact M|]. intros x K Hin. destruct (Hev _ _ Hin) as (-> & -> & _). apply incl_refl.
    + eapply XS_quiet; [exact HS|rewrite (trel_same w w' 3) by (rewrite Eh; reflexivity); apply incl_refl|]. intros x K Hin. apply (Hev _ _ Hin).
    + apply pre_quiet; [exact HP|]. intros a1 b1 E. rewrite cvs_app, unn_app, (Hu _ _ E), Z.add_0_r. apply (HP tr []). rewrite app_nil_r. reflexivity.
    + apply ev_step; [exact HQ|]. intros a1 x b1 E. split; [|split].
      * destruct x as [t1 j|x K]; [exact I|]. destruct a1 as [|y1 [|y2 a1]]; [|injection E as <- <-; subst; exact I|exfalso; destruct a1; discriminate]. injection E as <- <- _. rewrite app_nil_r.
        cbn [placed]. intros a1 u K0 a2 x Ke Ea Hin Hx Hk. eapply load_placed; [exact HH|exact HP|exact Hl0|lia|exact Ea|]. eapply incl_tran; [exact Hk|]. rewrite <- Hx. apply (HO _ _ Hin).
      * destruct x as [t1 j|x K]; [exact I|]. intros F. destruct (Hev x K) as (_ & _ & G & _); [rewrite E; apply in_or_app; right; left; reflexivity|]. congruence.
      * destruct x as [t1 j|x K]; [exact I|]. assert (Hx : In (HEv x K) es) by (rewrite E; apply in_or_app; right; left; reflexivity).
        destruct Hx as [F|[F|[]]]; injection F as <- <-; [|exact I]. intros F. congruence.
  - (* a step of the condition variable *)
    destruct (CI_step _ _ _ _ HI Hcap Hmf Hs) as (HI' & Htot & _ & Hnok). cbn [fst snd] in *. destruct (cv_shape _ _ _ _ Hs) as (Hsh & Hth).
    set (t := cth a) in *. set (es := map (fun e => HEv (XCv e) (wkn w' t)) e).
    assert (Hsum : forall x, e = [x] \/ e = [x; ENotifyRet t] -> sumf un e = un x) by (intros x [-> | ->]; cbn; lia).
    assert (Hnch : nchg es = if sumf un e =? 0 then 0%nat else 1%nat).
    { unfold es. destruct Hsh as [->|(x & _ & Hx)]; [reflexivity|]. rewrite (Hsum _ Hx). destruct Hx as [-> | ->]; cbn; lia. }
    assert (Htt : total s' = unnotified (cvs (tr ++ es))) by (rewrite cvs_app, unn_app; unfold es; rewrite cvs_cv; unfold unnotified in *; lia).
    assert (Hnn : 0 <= total s') by (apply (avail_nn (s', cths')); exact HI').
    assert (Hsx : forall x, In x e -> in_sec (XCv x) = true -> csec t w w').
    { intros x Hx Hxs. destruct (cv_in_sec _ _ _ _ _ _ _ _ Hp Hnl Hs Hx Hxs) as (t1 & ch & Ea & Es). unfold t. rewrite Ea. apply (Hsec t1 ch Ea Es). }
    assert (Hhd : forall x K b a1, es = a1 ++ HEv x K :: b -> in_sec x = true -> a1 = []).
    { intros x K b a1 E Hxs. unfold es in E. destruct Hsh as [->|(y & _ & [-> | ->])]; cbn in E.
      - destruct a1; discriminate.
      - destruct a1 as [|? [|]]; [reflexivity|discriminate|discriminate].
      - destruct a1 as [|? [|? [|]]]; [reflexivity| |discriminate|discriminate]. injection E as _ <- _ _. discriminate. }
    split; [exact HI'|]. split; [unfold ccap in *; pose proof (cv_step_length _ _ _ _ Hs) as El; cbn [snd] in *; rewrite El; exact Hcap|].
    split; [exact Htt|]. split; [|split; [|split; [|split]]].
    + destruct (Z.eqb_spec (total s') (total s)) as [Ez|Nz].
      * assert (Ez0 : sumf un e = 0) by lia. rewrite Ez0, Z.eqb_refl in Hnch. eapply XH_quiet; [exact HH|exact Hh2|exact Hnch|].
        intros u K Hin. destruct (in_map_cv _ _ _ _ Hin) as (y & F & _ & Hy). injection F as <-.
        destruct Hsh as [->|(x & _ & Hx)]; [destruct Hy|]. rewrite (Hsum _ Hx) in Ez0. destruct Hx as [-> | ->]; destruct Hy as [->|Hy]; try discriminate Ez0; [destruct Hy|destruct Hy as [F|[]]; discriminate F].
      * destruct Hh2 as (x & Eh & Vx & Kx). assert (Nz0 : sumf un e <> 0) by lia. rewrite (proj2 (Z.eqb_neq _ _) Nz0) in Hnch.
        destruct HH as (G1 & G2 & G3). unfold XH. rewrite Eh, app_length, nchg_app, Hnch. cbn [length]. split; [lia|]. split.
        -- intros j mj Hj. destruct (Nat.eq_dec j (length (hist w 2%nat))) as [->|Nj].
           ++ rewrite nth_mid in Hj. injection Hj as <-. exists (tr ++ es), []. rewrite app_nil_r, nchg_app, Hnch. split; [reflexivity|]. split; [lia|]. congruence.
           ++ assert (Hlt : (j < length (hist w 2%nat))%nat).
              { assert (F : nth_error (hist w 2%nat ++ [x]) j <> None) by congruence. apply nth_error_Some in F. rewrite app_length in F. cbn in F. lia. }
              rewrite nth_error_app1 in Hj by exact Hlt. destruct (G2 _ _ Hj) as (a1 & b1 & -> & A1 & A2). exists a1, (b1 ++ es). rewrite app_assoc. auto.
        -- intros a1 u K b1 E. apply app_cut in E. destruct E as [(b' & E & _)|(a' & -> & E)].
           ++ destruct (G3 _ _ _ _ E) as (mj & Ej & Hj). exists mj. split; [|exact Hj]. rewrite nth_error_app1; [exact Ej|]. apply nth_error_Some. congruence.
           ++ rewrite (Hhd _ _ _ _ E eq_refl) in E |- *. rewrite app_nil_r, <- G1, nth_mid. exists x. split; [reflexivity|].
              destruct (in_map_cv (wkn w' t) e (XCv (EJoin u)) K) as (_ & _ & -> & _); [change (In (HEv (XCv (EJoin u)) K) es); rewrite E; left; reflexivity|]. exact Kx.
    + eapply XO_step; [exact HO|exact Hmono|]. intros x K Hin. destruct (in_map_cv _ _ _ _ Hin) as (y & -> & -> & Hy). cbn [xth]. rewrite (Hth _ Hy). apply incl_refl.
    + intros a1 x K b1 e1 K1 E Hxs Hin Heq. apply app_cut in E. destruct E as [(b' & E & _)|(a' & -> & E)]; [eapply incl_tran; [|exact Htr]; eapply HS; eauto|].
      assert (Hx : In (HEv x K) es) by (rewrite E; apply in_or_app; right; left; reflexivity). rewrite (Hhd _ _ _ _ E Hxs), app_nil_r in Hin.
      destruct (in_map_cv _ _ _ _ Hx) as (y & -> & _ & Hy). eapply incl_tran; [apply (HO _ _ Hin)|]. rewrite Heq. cbn [xth]. rewrite (Hth _ Hy). apply (Hsx _ Hy Hxs).
    + apply pre_quiet; [exact HP|]. intros a1 b1 E. rewrite cvs_app, unn_app.
      assert (P0 : 0 <= unnotified (cvs tr)) by (apply (HP tr []); rewrite app_nil_r; reflexivity).
      assert (F : unnotified (cvs a1) = 0 \/ unnotified (cvs a1) = sumf un e).
      { unfold es in E. destruct Hsh as [->|(x & _ & Hx)]; [destruct a1; [auto|discriminate]|]. rewrite (Hsum _ Hx). destruct Hx as [-> | ->]; cbn in E.
        - destruct a1 as [|y1 [|y2 a1]]; [auto| |discriminate E]. injection E; intros; subst. right. cbn. lia.
        - destruct a1 as [|y1 [|y2 [|y3 a1]]]; [auto| | |discriminate E]; injection E; intros; subst; right; cbn; lia. }
      destruct F as [-> | ->]; [lia|]. unfold unnotified in *. lia.
    + apply ev_step; [exact HQ|]. intros a1 x b1 E. split; [|split].
      * destruct x as [t1 j|x K]; [exact I|]. assert (Hx : In (HEv x K) es) by (rewrite E; apply in_or_app; right; left; reflexivity).
        destruct (in_map_cv _ _ _ _ Hx) as (y & -> & _ & Hy). destruct y as [| |t2 al [|z|z]| | | |]; try exact I. cbn [placed].
        intros a2 u K0 a3 e1 Ke Ea Hin Hx1 Hk.
        assert (F : exists e1 e2, e = e1 ++ ENotify t2 al 0 :: e2) by (apply in_split; exact Hy). destruct F as (e2 & e3 & F).
        destruct (Hnok _ _ _ _ _ F) as (-> & Hz1 & Hz2). assert (Hz : total s = 0) by (destruct al; lia).
        assert (a1 = []).
        { destruct a1 as [|y a1]; [reflexivity|]. exfalso. unfold es in E. destruct Hsh as [->|(x & _ & [-> | ->])]; [discriminate F| |]; cbn in E.
          - destruct a1; discriminate.
          - destruct a1 as [|? [|]]; discriminate. }
        subst a1. rewrite app_nil_r in Ea. exists a3, []. rewrite app_nil_r. split; [reflexivity|]. rewrite <- Ea. lia.
      * destruct x as [t1 j|x K]; [exact I|]. intros Hxs a2 e0 K0 a3 e1 K1 Ea H1 H2 H3. rewrite (Hhd _ _ _ _ E Hxs), app_nil_r in Ea.
        assert (Hx : In (HEv x K) es) by (rewrite E; apply in_or_app; right; left; reflexivity). destruct (in_map_cv _ _ _ _ Hx) as (y & -> & -> & Hy).
        eapply incl_tran; [eapply HS; eauto|]. apply (Hsx _ Hy Hxs).
      * destruct x as [t1 j|x K]; [exact I|]. assert (Hx : In (HEv x K) es) by (rewrite E; apply in_or_app; right; left; reflexivity).
        destruct (in_map_cv _ _ _ _ Hx) as (y & -> & _ & Hy). destruct y as [| |t2 al z| | | |]; try exact I. cbn [released]. intros Hz0.
        rewrite (Hhd _ _ _ _ E (proj2 (negb_true_iff _) (proj2 (Z.eqb_neq _ _) Hz0))), app_nil_r, <- Ht.
        assert (F : exists e1 e2, e = e1 ++ ENotify t2 al z :: e2) by (apply in_split; exact Hy). destruct F as (e2 & e3 & F).
        destruct (Hnok _ _ _ _ _ F) as (-> & Hz1 & Hz2). destruct al; lia.
Qed.

Lemma XI_exec q n sched c tr : Z.of_nat n < 2 ^ 30 -> Forall x_nomf sched -> exec (x_step q) (x_init n) sched = Some (c, tr) -> XI q n c tr.
Proof. intros Hn HF H. exact (exec_inv_acts (x_step q) x_nomf (XI q n) (x_init n) sched c tr (XI_init q n Hn) (XI_step q n Hn) HF H). Qed.

Lemma XI_ev q n sched c tr a x b : Z.of_nat n < 2 ^ 30 -> Forall x_nomf sched -> exec (x_step q) (x_init n) sched = Some (c, tr) -> tr = a ++ x :: b ->
  placed a x /\ told a x /\ released a x.
Proof. intros Hn HF H E. destruct (XI_exec _ _ _ _ _ Hn HF H) as (_ & _ & _ & _ & _ & _ & _ & _ & G). eapply G; eauto. Qed.

(** What a thread knew at an event it still knows at its later events. *)
Lemma x_own q n sched c tr a x K b e1 K1 : Z.of_nat n < 2 ^ 30 -> exec (x_step q) (x_init n) sched = Some (c, tr) -> tr = a ++ HEv x K :: b ->
  In (HEv e1 K1) a -> xth e1 = xth x -> incl K1 K.
Proof.
  intros Hn H E Hin Heq.
  refine (exec_events (x_step q) (fun c tr => (exists s0, exec (x_step q) (x_init n) s0 = Some (c, tr)) /\ XO (fst (fst (fst c))) tr)
    (fun a y => match y with HEv x K => forall e1 K1, In (HEv e1 K1) a -> xth e1 = xth x -> incl K1 K | _ => True end) (x_init n) _ _ _ sched c tr a _ b H E e1 K1 Hin Heq); clear H E Hin Heq a x K b e1 K1 c tr sched.
  - split; [exists []; reflexivity|]. intros e K [].
  - intros [[[w k] mths] [s cths]] tr a c' e ((s0 & H0) & HO) Hs. split; [exists (s0 ++ [a]); rewrite exec_app, H0; cbn [exec]; rewrite Hs, app_nil_r; reflexivity|].
    destruct (x_proj _ _ _ _ _ H0) as (ms & Hms). cbn [fst] in *. apply x_case in Hs.
    destruct Hs as [a w' k' mths' e _ Hs|t ch i al v w' _ Hc _|t ch i al v w' _ Hc _|a i p m s' cths' e w' _ _ _ _ Hs M _ _ _ _]; cbn [fst].
    + eapply XO_step; [exact HO|eapply wwm_mono; eauto|]. intros x K Hin. apply in_map_iff in Hin. destruct Hin as ([t1 j|y K1] & E & Hin); [discriminate|]. injection E as <- <-.
      apply wwm_case in Hs. destruct Hs; cbn in Hin; try contradiction; destruct Hin as [F|[]]; try discriminate F; injection F as <- <-; apply incl_refl.
    + rewrite app_nil_r. intros x K Hin. eapply incl_tran; [apply (HO _ _ Hin)|]. apply (wload_mono _ _ _ _ _ _ _ Hc).
    + eapply XO_step; [exact HO|apply (wload_mono _ _ _ _ _ _ _ Hc)|]. intros x K [F|[F|[]]]; injection F as <- <-; apply incl_refl.
    + eapply XO_step; [exact HO|exact M|]. intros x K Hin. destruct (in_map_cv _ _ _ _ Hin) as (y & -> & -> & Hy). cbn [xth]. rewrite (proj2 (cv_shape _ _ _ _ Hs) _ Hy). apply incl_refl.
  - intros [[[w k] mths] [s cths]] tr a c' es d y b ((s0 & H0) & HO) Hs Ees. destruct y as [|x K]; [exact I|]. intros e1 K1 Hin Heq.
    destruct (x_proj _ _ _ _ _ H0) as (ms & Hms). cbn [fst] in *. pose proof Hs as Hs0. apply x_case in Hs.
    assert (Hone : forall w', kmono w w' -> (forall y Ky, In (HEv y Ky) es -> xth y = xth x -> Ky = wkn w' (xth x)) -> incl K1 K).
    { intros w' M Hall. rewrite (Hall x K) by (auto; rewrite Ees; apply in_or_app; right; left; reflexivity). apply in_app_or in Hin. destruct Hin as [Hin|Hin].
      - rewrite <- Heq. eapply incl_tran; [apply (HO _ _ Hin)|apply M].
      - rewrite (Hall e1 K1); [apply incl_refl| |exact Heq]. rewrite Ees. apply in_or_app. left. exact Hin. }
    destruct Hs as [a w' k' mths' e _ Hs|t ch i al v w' _ Hc _|t ch i al v w' _ Hc _|a i p m s' cths' e w' _ _ _ _ Hs M _ _ _ _].
    + apply (Hone w'); [eapply wwm_mono; eauto|]. intros y Ky Hy Hth. apply in_map_iff in Hy. destruct Hy as ([t1 j|z K2] & E & Hz); [discriminate|]. injection E as <- <-. rewrite <- Hth.
      apply wwm_case in Hs. destruct Hs; cbn in Hz; try contradiction; destruct Hz as [F|[]]; try discriminate F; injection F as <- <-; reflexivity.
    + destruct d; discriminate.
    + apply (Hone w'); [apply (wload_mono _ _ _ _ _ _ _ Hc)|]. intros y Ky Hy Hth. rewrite <- Hth. destruct Hy as [F|[F|[]]]; injection F as <- <-; reflexivity.
    + apply (Hone w'); [exact M|]. intros y Ky Hy Hth. destruct (in_map_cv _ _ _ _ Hy) as (z & -> & -> & Hz). rewrite <- Hth. cbn [xth]. rewrite (proj2 (cv_shape _ _ _ _ Hs) _ Hz). reflexivity.
Qed.

(** * The user's lock around a wait *)

(** Does [u] hold the user's mutex, from the history: since the return of its last successful lock function it has not called unlock(). *)
Definition holding_step (u : nat) (h : bool) (e : hev xev) : bool :=
  match e with
  | HEv (XMut (Ret t MLock ROk)) _ | HEv (XMut (Ret t MTryLock RTrue)) _ | HEv (XMut (Ret t MTimed RTrue)) _ => if Nat.eqb t u then true else h
  | HEv (XMut (Call t MUnlock)) _ => if Nat.eqb t u then false else h
  | _ => h
  end.
Definition holding (u : nat) (tr : list (hev xev)) : bool := fold_left (holding_step u) tr false.
(** Where [u] is: outside of any wait; in a wait and not registered; registered; no longer registered. *)
Inductive wphase := POut | PEntered | PRegistered | PEnded.
Definition phase_step (u : nat) (h : wphase) (e : hev xev) : wphase :=
  match e with
  | HEv (XCv (EWaitCall t)) _ => if Nat.eqb t u then PEntered else h
  | HEv (XCv (EJoin t)) _ => if Nat.eqb t u then PRegistered else h
  | HEv (XCv (EEnd t _ _)) _ => if Nat.eqb t u then PEnded else h
  | HEv (XCv (EWaitRet t _)) _ => if Nat.eqb t u then POut else h
  | _ => h
  end.
Definition phase (u : nat) (tr : list (hev xev)) : wphase := fold_left (phase_step u) tr POut.

(** The same from the program points. *)
Definition hb (p : wpc) : bool := match p with WRest m | WTry m => m | WDone m o _ => match o with MUnlock => false | _ => m end | _ => false end.
Definition cph (p : cpc) (h : wphase) : Prop :=
  match p with
  | CIdle | CNLoad _ | CNSec _ => h = POut
  | CUnlockU _ _ | CBlk _ _ | CTok _ _ | CErr _ _ | CTmo _ _ => h = PRegistered
  | CHung => True
  | _ => h <> POut
  end.
Definition mph (p : cpc) (m : wpc) : Prop :=
  match p with
  | CClock | CInit _ => m = WRest true
  | CBlk _ _ | CTok _ _ | CErr _ _ | CTmo _ _ => m = WRest false
  | CNLoad _ | CNSec _ => exists b, m = WRest b
  | _ => True
  end.
Definition XL (c : x_st) (tr : list (hev xev)) : Prop :=
  let '((_, mths), (_, cths)) := c in
  length mths = length cths /\
  (forall t m, nth_error mths t = Some m -> hb m = holding t tr) /\
  (forall t p, nth_error cths t = Some p -> cph p (phase t tr)) /\
  (forall t p m, nth_error cths t = Some p -> nth_error mths t = Some m -> mph p m).

Lemma hb_run q t w k p c w' k' p' : wwm_run q t w k p c = Some (w', k', p') -> hb p' = hb p.
Proof.
  destruct c as [ch i]. intros Hr. unfold wwm_run in Hr. destruct (kdead k); [discriminate|].
  assert (Ge : forall c h, hb (got_event c h) = false) by (intros [[]|] h; reflexivity).
  destruct p; try discriminate.
  + destruct (wrmw _ _ _ _ _ _ _) as [[v w1]|]; [|discriminate]. injection Hr as _ _ <-. reflexivity.
  + destruct (wrmw _ _ _ _ _ _ _) as [[v w1]|]; [|discriminate]. injection Hr as _ _ <-. destruct (locked v), k0, ch as [| | | | |[]]; reflexivity.
  + destruct ch; injection Hr as _ _ <-; destruct k0; reflexivity.
  + destruct (wload _ _ _ _ _) as [[v w1]|]; [|discriminate]. injection Hr as _ _ <-. reflexivity.
  + destruct (wcas _ _ _ _ _ _ _ _ _ _ _) as [[[[|] v] w1]|]; [| |discriminate]; injection Hr as _ _ <-; [destruct (locked old), k0|]; reflexivity.
  + destruct (wload _ _ _ _ _) as [[v w1]|]; [|discriminate]. injection Hr as _ _ <-. destruct (v =? 0); [reflexivity|apply Ge].
  + destruct ch; try (injection Hr as _ _ <-; reflexivity). destruct c; injection Hr as _ _ <-; reflexivity.
  + destruct (wcas _ _ _ _ _ _ _ _ _ _ _) as [[[[|] v] w1]|]; [| |discriminate]; injection Hr as _ _ <-; [apply Ge|reflexivity].
  + injection Hr as _ _ <-. apply Ge.
  + destruct ch; injection Hr as _ _ <-; reflexivity.
  + destruct ch; try (destruct (nth_error (kev k) h) as [[[|] R]|]; try discriminate Hr; injection Hr as _ _ <-; reflexivity); try (injection Hr as _ _ <-; reflexivity);
      destruct k0; try discriminate; injection Hr as _ _ <-; reflexivity.
  + destruct (wcas _ _ _ _ _ _ _ _ _ _ _) as [[[[|] v] w1]|]; [| |discriminate]; injection Hr as _ _ <-; [destruct (locked old), k0|]; reflexivity.
  + destruct (wrmw _ _ _ _ _ _ _) as [[v w1]|]; [|discriminate]. injection Hr as _ _ <-. destruct k0, r; reflexivity.
  + destruct (wrmw _ _ _ _ _ _ _) as [[v w1]|]; [|discriminate]. injection Hr as _ _ <-. destruct (_ && _); reflexivity.
  + destruct (wrmw _ _ _ _ _ _ _) as [[v w1]|]; [|discriminate]. injection Hr as _ _ <-. destruct (evset v); reflexivity.
  + destruct (nth_error (kev k) h) as [[b R]|]; injection Hr as _ _ <-; reflexivity.
Qed.

Lemma holding_cv u K e tr : holding u (tr ++ map (fun e => HEv (XCv e) K) e) = holding u tr.
Proof. unfold holding. rewrite fold_left_app. generalize (fold_left (holding_step u) tr false). induction e as [|x e IH]; intros h; [reflexivity|]. apply IH. Qed.
Lemma phase_mut u e tr : phase u (tr ++ map xmap e) = phase u tr.
Proof. unfold phase. rewrite fold_left_app. generalize (fold_left (phase_step u) tr POut). induction e as [|[t j|x K] e IH]; intros h; [reflexivity| |]; apply IH. Qed.
Lemma phase_other u K e tr : (forall x, In x e -> cev_th x <> u) -> phase u (tr ++ map (fun e => HEv (XCv e) K) e) = phase u tr.
Proof.
  unfold phase. rewrite fold_left_app. generalize (fold_left (phase_step u) tr POut). induction e as [|x e IH]; intros h H; [reflexivity|]. cbn [map fold_left].
  replace (phase_step u h (HEv (XCv x) K)) with h; [apply IH; intros y Hy; apply H; right; exact Hy|].
  pose proof (H x (or_introl eq_refl)) as Hx. destruct x; cbn in *; try reflexivity; destruct (Nat.eqb_spec t u); congruence.
Qed.

Lemma phase_one u K x tr : phase u (tr ++ [HEv (XCv x) K]) = phase_step u (phase u tr) (HEv (XCv x) K).
Proof. unfold phase. rewrite fold_left_app. reflexivity. Qed.

Ltac cfin := first [solve [auto] | split; [congruence | solve [auto]]].

(** A step of the condition variable by [t]. *)
Lemma cph_step s cths a s' cths' e p m K tr : nth_error cths (cth a) = Some p -> cv_ok p m a = true -> (forall t ch al, a = ARun t ch -> p <> CNLoad al) -> cv_step (s, cths) a = Some ((s', cths'), e) ->
  cph p (phase (cth a) tr) -> mph p m -> exists p', cths' = upd cths (cth a) p' /\ cph p' (phase (cth a) (tr ++ map (fun e => HEv (XCv e) K) e)) /\ mph p' m.
Proof.
  intros Hp Hok Hnl H Hc Hm. destruct a as [t k|t al|t ch]; cbn [cv_step cth] in *.
  - rewrite Hp in H. destruct p; inversion H; subst. cbn [map]. rewrite phase_one. cbn [phase_step]. rewrite Nat.eqb_refl. eexists. split; [reflexivity|].
    assert (m = WRest true) by (destruct m as [[]| | | | | | | | | | | | | | | | |]; try discriminate; reflexivity). subst m. destruct k; cbn; split; congruence.
  - rewrite Hp in H. destruct p; inversion H; subst. cbn [map]. rewrite phase_one. cbn [phase_step]. eexists. split; [reflexivity|]. split; [exact Hc|]. destruct m; try discriminate. cbn. eauto.
  - destruct (cdead s); [discriminate|]. rewrite Hp in H. destruct (cv_run s t p ch) as [[[s1 p1] e1]|] eqn:Hr; [|discriminate]. inversion H; subst s1 cths' e1. clear H. exists p1. split; [reflexivity|].
    destruct p; cbn [cv_run] in Hr; try discriminate; cbn [cph mph] in Hc, Hm.
    + destruct ch; inversion Hr; subst; cbn [map]; rewrite ?app_nil_r, ?phase_one; cbn; rewrite ?Nat.eqb_refl; cfin.
    + destruct (initiate s) as [[s1 i]|]; destruct ch; inversion Hr; subst; cbn [map]; rewrite ?app_nil_r, ?phase_one; cbn; rewrite ?Nat.eqb_refl; cfin.
    + assert (m = WRest false) by (destruct m as [[]| | | | | | | | | | | | | | | | |]; try discriminate; reflexivity). inversion Hr; subst. rewrite app_nil_r. destruct ch, k; cbn; auto.
    + destruct (nth_error (sts s) s0) as [w|]; destruct ch, k; try discriminate; try (inversion Hr; subst; cbn [map]; rewrite app_nil_r; cbn; cfin; fail);
        destruct (0 <? tokens w); inversion Hr; subst; cbn [map]; rewrite app_nil_r; cbn; cfin.
    + destruct (nth_error (sts s) s0) as [w|]; [destruct (sec_token w)|]; destruct ch; inversion Hr; subst; cbn [map]; rewrite ?app_nil_r, ?phase_one; cbn; rewrite ?Nat.eqb_refl; cfin.
    + destruct (nth_error (sts s) s0) as [w|]; [destruct (leave s s0 w)|]; destruct ch; inversion Hr; subst; cbn [map]; rewrite ?app_nil_r, ?phase_one; cbn; rewrite ?Nat.eqb_refl; cfin.
    + destruct (nth_error (sts s) s0) as [w|]; [destruct (leave s s0 w)|]; destruct ch; inversion Hr; subst; cbn [map]; rewrite ?app_nil_r, ?phase_one; cbn; rewrite ?Nat.eqb_refl; cfin.
    + assert (m = WRest true) by (destruct m as [[]| | | | | | | | | | | | | | | | |]; try discriminate; reflexivity).
      destruct k, r; inversion Hr; subst; cbn [map]; rewrite ?app_nil_r, ?phase_one; cbn; rewrite ?Nat.eqb_refl; cfin.
    + exfalso. eapply Hnl; reflexivity.
    + assert (G : forall k0 : Z, phase t (tr ++ map (fun e => HEv (XCv e) K) [ENotify t all k0; ENotifyRet t]) = POut) by (intros k0; unfold phase in *; rewrite fold_left_app; exact Hc).
      destruct (total s =? 0).
      * destruct ch; inversion Hr; subst; try (cbn [map]; rewrite app_nil_r; cbn; cfin; fail); (split; [apply G|exact I]).
      * destruct (nstate s) as [i|].
        -- destruct (wake _ _ _ _) as [[l j]|]; destruct ch; inversion Hr; subst; try (cbn [map]; rewrite app_nil_r; cbn; cfin; fail); (split; [apply G|exact I]).
        -- destruct ch; inversion Hr; subst; cbn [map]; rewrite app_nil_r; cbn; cfin.
Qed.

Lemma nth_def {A} (l : list A) n d x : nth_error l n = Some x -> nth n l d = x.
Proof. revert n. induction l as [|y l IH]; intros [|n] H; cbn in *; try discriminate; [injection H as ->; reflexivity|auto]. Qed.

Lemma XL_step q c tr a c' e : XL c tr -> x_step q c a = Some (c', e) -> XL c' (tr ++ e).
Proof.
  destruct c as [[[w k] mths] [s cths]]. intros (H0 & H1 & H2 & H3) Hs. apply x_case in Hs.
  destruct Hs as [a w' k' mths' e Hok Hw|t ch i al v w' Hp _ _|t ch i al v w' Hp _ _|a i p m s' cths' e w' Hp Hm Hok Hnl Hs _ _ _ _ _].
  - split; [apply wwm_case in Hw; destruct Hw; rewrite ?upd_length; exact H0|]. split; [|split; [intros t p Hp; rewrite phase_mut; auto|]].
    + intros t m Ht. destruct a as [t1 o|t1 c|t1|t1 l o i]; cbn [wwm_step] in Hw.
      * destruct (nth_error mths t1) as [p|] eqn:Ep; [|discriminate]. destruct (wm_call p o) as [p'|] eqn:Ec; [|discriminate]. inversion Hw; subst. clear Hw.
        destruct p; try discriminate. cbn in Ec. destruct (mpre m0 o) eqn:Em; [|discriminate]. injection Ec as <-. unfold holding. rewrite fold_left_app. cbn [map xmap fold_left]. fold (holding t tr).
        apply nth_upd_inv in Ht. destruct Ht as [(-> & -> & _)|(Hne & Ht)].
        -- specialize (H1 _ _ Ep). cbn in H1. destruct o; cbn in Em |- *; rewrite ?Nat.eqb_refl; destruct m0; try discriminate; auto.
        -- specialize (H1 _ _ Ht). destruct o; cbn; auto. destruct (Nat.eqb_spec t1 t); [congruence|auto].
      * destruct (nth_error mths t1) as [p|] eqn:Ep; [|discriminate]. destruct (wm_ret p) as [[[o r] p']|] eqn:Er.
        -- inversion Hw; subst. clear Hw. destruct p; try discriminate. cbn in Er. injection Er as -> -> <-. unfold holding. rewrite fold_left_app. cbn [map xmap fold_left]. fold (holding t tr).
           apply nth_upd_inv in Ht. destruct Ht as [(-> & -> & _)|(Hne & Ht)].
           ++ specialize (H1 _ _ Ep). cbn in H1. destruct o, r; cbn; rewrite ?Nat.eqb_refl; cfin.
           ++ specialize (H1 _ _ Ht). destruct o, r; cbn; auto; destruct (Nat.eqb_spec t1 t); congruence.
        -- destruct (wwm_run q t1 w k p c) as [[[w1 k1] p1]|] eqn:Hr; [|discriminate]. inversion Hw; subst. cbn [map]. rewrite app_nil_r.
           apply nth_upd_inv in Ht. destruct Ht as [(-> & -> & _)|(Hne & Ht)]; [|auto]. rewrite (hb_run _ _ _ _ _ _ _ _ _ Hr). auto.
      * inversion Hw; subst. unfold holding. rewrite fold_left_app. cbn. apply H1. exact Ht.
      * destruct (2 <=? l)%nat; [|discriminate]. destruct (wclient _ _ _ _ _) as [[v w1]|]; [|discriminate]. inversion Hw; subst. cbn [map]. rewrite app_nil_r. auto.
    + intros t p m Hp Hm. destruct a as [t1 o|t1 c|t1|t1 l o i]; cbn [wwm_step mth] in *.
      * destruct (nth_error mths t1) as [p1|] eqn:Ep; [|discriminate]. destruct (wm_call p1 o) as [p'|] eqn:Ec; [|discriminate]. inversion Hw; subst. clear Hw.
        apply nth_upd_inv in Hm. destruct Hm as [(-> & -> & _)|(Hne & Hm)]; [|eauto]. rewrite (nth_def _ _ _ _ Hp) in Hok. destruct p, o; try discriminate; exact I.
      * assert (G : forall p', mths' = upd mths t1 p' -> mph p m).
        { intros p' ->. apply nth_upd_inv in Hm. destruct Hm as [(-> & -> & _)|(Hne & Hm)]; [|eauto]. rewrite (nth_def _ _ _ _ Hp) in Hok. cbn [mut_ok] in Hok. destruct p; try discriminate; exact I. }
        destruct (nth_error mths t1) as [p1|] eqn:Ep; [|discriminate]. destruct (wm_ret p1) as [[[o r] p']|]; [inversion Hw; subst; eauto|].
        destruct (wwm_run q t1 w k p1 c) as [[[w1 k1] p2]|]; inversion Hw; subst; eauto.
      * inversion Hw; subst. eauto.
      * destruct (2 <=? l)%nat; [|discriminate]. destruct (wclient _ _ _ _ _) as [[v w1]|]; [|discriminate]. inversion Hw; subst. eauto.
  - rewrite app_nil_r. split; [rewrite upd_length; exact H0|]. split; [exact H1|]. split.
    + intros u p Hu. apply nth_upd_inv in Hu. destruct Hu as [(<- & -> & _)|(_ & Hu)]; [exact (H2 _ _ Hp)|auto].
    + intros u p m Hu Hm. apply nth_upd_inv in Hu. destruct Hu as [(<- & -> & _)|(_ & Hu)]; [exact (H3 _ _ _ Hp Hm)|eauto].
  - change [HEv (XCv (ENotify t al 0)) (wkn w' t); HEv (XCv (ENotifyRet t)) (wkn w' t)] with (map (fun e => HEv (XCv e) (wkn w' t)) [ENotify t al 0; ENotifyRet t]).
    assert (Hph : forall u, phase u (tr ++ map (fun e => HEv (XCv e) (wkn w' t)) [ENotify t al 0; ENotifyRet t]) = phase u tr) by (intros u; unfold phase; rewrite fold_left_app; reflexivity).
    split; [rewrite upd_length; exact H0|]. split; [intros u m Hu; rewrite holding_cv; auto|]. split.
    + intros u p Hu. rewrite Hph. apply nth_upd_inv in Hu. destruct Hu as [(<- & -> & _)|(_ & Hu)]; [exact (H2 _ _ Hp)|auto].
    + intros u p m Hu Hm. apply nth_upd_inv in Hu. destruct Hu as [(<- & -> & _)|(_ & Hu)]; [exact I|eauto].
  - destruct (cph_step _ _ _ _ _ _ _ _ (wkn w' (cth a)) tr Hp Hok Hnl Hs (H2 _ _ Hp) (H3 _ _ _ Hp Hm)) as (p' & -> & G1 & G2).
    split; [rewrite upd_length; exact H0|]. split; [intros u m1 Hu; rewrite holding_cv; auto|]. split.
    + intros u p1 Hu. apply nth_upd_inv in Hu. destruct Hu as [(<- & -> & _)|(Hne & Hu)]; [exact G1|]. rewrite phase_other; [auto|].
      intros x Hx. rewrite (proj2 (cv_shape _ _ _ _ Hs) _ Hx). congruence.
    + intros u p1 m1 Hu Hm1. apply nth_upd_inv in Hu. destruct Hu as [(<- & -> & _)|(_ & Hu)]; [congruence|eauto].
Qed.
Lemma XL_init n : XL (x_init n) [].
Proof.
  split; [cbn; rewrite !repeat_length; reflexivity|]. split; [|split].
  - intros t m H. apply nth_repeat in H. subst. reflexivity.
  - intros t p H. apply nth_repeat in H. subst. reflexivity.
  - intros t p m H _. apply nth_repeat in H. subst. exact I.
Qed.

(** Which events happen where. *)
Definition lock_ok (a : list (hev xev)) (x : hev xev) : Prop :=
  match x with
  | HEv (XCv (EWaitCall u)) _ | HEv (XCv (EJoin u)) _ | HEv (XCv (EWaitRet u _)) _ => holding u a = true
  | HEv (XCv (EEnd u _ _)) _ => holding u a = false
  | HEv (XMut (Call u MUnlock)) _ => phase u a = POut \/ phase u a = PRegistered
  | _ => True
  end.
Lemma lock_events q n sched c tr a x b : exec (x_step q) (x_init n) sched = Some (c, tr) -> tr = a ++ x :: b -> lock_ok a x.
Proof.
  apply (exec_events (x_step q) XL lock_ok (x_init n) (XL_init n) (XL_step q)). clear c tr a x b sched.
  intros [[[w k] mths] [s cths]] tr a c' es d x b (H0 & H1 & H2 & H3) Hs Ees. apply x_case in Hs.
  destruct Hs as [a w' k' mths' e Hok Hw|t ch i al v w' Hp _ _|t ch i al v w' Hp _ _|a i p m s' cths' e w' Hp Hm Hok Hnl Hs _ _ _ _ _].
  - assert (Hin : In x (map xmap e)) by (rewrite Ees; apply in_or_app; right; left; reflexivity). apply in_map_iff in Hin. destruct Hin as (y & <- & Hy).
    destruct y as [t j|[u []|u o r] K]; try exact I. cbn [xmap lock_ok].
    destruct a as [t1 o|t1 c|t1|t1 l o i]; cbn [wwm_step mth] in *.
    + destruct (nth_error mths t1) as [p1|] eqn:Ep; [|discriminate]. destruct (wm_call p1 o) as [p'|]; [|discriminate]. inversion Hw; subst. destruct Hy as [F|[]]. injection F as <- -> _.
      destruct d as [|? [|]]; [|discriminate|discriminate]. rewrite app_nil_r. destruct (nth_error cths t1) as [p|] eqn:Ec.
      * rewrite (nth_def _ _ _ _ Ec) in Hok. specialize (H2 _ _ Ec). destruct p; try discriminate; auto.
      * exfalso. apply nth_error_None in Ec. assert (F : nth_error mths t1 <> None) by congruence. apply nth_error_Some in F. lia.
    + destruct (nth_error mths t1) as [p1|]; [|discriminate]. destruct (wm_ret p1) as [[[o r] p']|]; [inversion Hw; subst; destruct Hy as [F|[]]; discriminate F|].
      destruct (wwm_run q t1 w k p1 c) as [[[w1 k1] p2]|]; inversion Hw; subst. destruct Hy.
    + inversion Hw; subst. destruct Hy as [F|[]]; discriminate F.
    + destruct (2 <=? l)%nat; [|discriminate]. destruct (wclient _ _ _ _ _) as [[v w1]|]; inversion Hw; subst. destruct Hy.
  - destruct d; discriminate.
  - destruct d as [|? [|? [|]]]; inversion Ees; exact I.
  - set (t := cth a) in *. assert (Hin : In x (map (fun e => HEv (XCv e) (wkn w' t)) e)) by (rewrite Ees; apply in_or_app; right; left; reflexivity).
    apply in_map_iff in Hin. destruct Hin as (y & <- & Hy). destruct (cv_shape _ _ _ _ Hs) as (Hsh & Hth). specialize (Hth _ Hy). fold t in Hsh, Hth.
    assert (Hd : holding t (tr ++ d) = holding t tr).
    { assert (F : exists e1, d = map (fun e => HEv (XCv e) (wkn w' t)) e1) by (exists (firstn (length d) e); rewrite <- firstn_map, Ees, firstn_app, Nat.sub_diag, firstn_all, firstn_O, app_nil_r; reflexivity).
      destruct F as (e1 & ->). apply holding_cv. }
    pose proof (H1 _ _ Hm) as Hh. pose proof (H3 _ _ _ Hp Hm) as Hmp.
    assert (Hgoal : forall b0, m = WRest b0 -> holding t (tr ++ d) = b0) by (intros b0 ->; rewrite Hd, <- Hh; reflexivity).
    destruct a as [t1 k1|t1 al|t1 ch]; cbn [cv_step cth] in *; subst t.
    + rewrite Hp in Hs. destruct p; inversion Hs; subst. destruct Hy as [<-|[]]. cbn [lock_ok]. apply Hgoal. destruct m as [[]| | | | | | | | | | | | | | | | |]; try discriminate; reflexivity.
    + rewrite Hp in Hs. destruct p; inversion Hs; subst. destruct Hy as [<-|[]]. exact I.
    + destruct (cdead s); [discriminate|]. rewrite Hp in Hs. destruct (cv_run s t1 p ch) as [[[s1 p1] e1]|] eqn:Hr; [|discriminate]. inversion Hs; subst s1 cths' e1. clear Hs.
      destruct p; cbn [cv_run] in Hr; try discriminate; cbn [mph] in Hmp.
      * destruct ch; inversion Hr; subst; try destruct Hy as [<-|[]]; try destruct Hy. cbn [lock_ok]. auto.
      * destruct (initiate s) as [[s1 i1]|]; destruct ch; inversion Hr; subst; try destruct Hy as [<-|[]]; try destruct Hy; cbn [lock_ok]; auto.
      * inversion Hr; subst. destruct Hy.
      * destruct (nth_error (sts s) s0) as [w0|]; destruct ch, k0; try discriminate; try (inversion Hr; subst; destruct Hy; fail); destruct (0 <? tokens w0); inversion Hr; subst; destruct Hy.
      * destruct (nth_error (sts s) s0) as [w0|]; [destruct (sec_token w0)|]; destruct ch; inversion Hr; subst; try destruct Hy as [<-|[]]; try destruct Hy; cbn [lock_ok]; auto.
      * destruct (nth_error (sts s) s0) as [w0|]; [destruct (leave s s0 w0)|]; destruct ch; inversion Hr; subst; try destruct Hy as [<-|[]]; try destruct Hy; cbn [lock_ok]; auto.
      * destruct (nth_error (sts s) s0) as [w0|]; [destruct (leave s s0 w0)|]; destruct ch; inversion Hr; subst; try destruct Hy as [<-|[]]; try destruct Hy; cbn [lock_ok]; auto.
      * assert (m = WRest true) by (destruct m as [[]| | | | | | | | | | | | | | | | |]; try discriminate; reflexivity).
        destruct k0, r; inversion Hr; subst; try destruct Hy as [<-|[]]; try destruct Hy; cbn [lock_ok]; auto.
      * exfalso. eapply Hnl; reflexivity.
      * destruct (total s =? 0); [|destruct (nstate s) as [i1|]; [destruct (wake _ _ _ _) as [[l j]|]|]]; destruct ch; inversion Hr; subst; try (destruct Hy; fail); destruct Hy as [<-|[<-|[]]]; exact I.
Qed.
