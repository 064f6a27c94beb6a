(** What posts publish to waits on weak memory: auto_reset_event on Linux, over WeakAuto.v. *)
From Coq Require Import List Bool Arith ZArith Lia.
From Verif Require Import ListSum Exec Events Lin Word EventSpec AutoFutexModel AutoFutexProof Hb HbSpin HbAuto Weak WeakAuto.
Import ListNotations.
Local Open Scope Z_scope.

Definition nrel (w : wmem) : list nat := mrel (last (hist w 0) (Msg 0 0 [] false)).
Lemma nrel_end w h m : hist w 0 = h ++ [m] -> nrel w = mrel m.
Proof. intros E. unfold nrel. rewrite E, last_last. reflexivity. Qed.
Lemma nrel_same w w' : hist w' 0 = hist w 0 -> nrel w' = nrel w. Proof. intros E. unfold nrel. rewrite E. reflexivity. Qed.
Lemma newest_same w w' : hist w' 0 = hist w 0 -> newest w' = newest w. Proof. intros E. unfold newest. rewrite E. reflexivity. Qed.
Lemma two_end {A} (h : list A) m x : h ++ [m; x] = (h ++ [m]) ++ [x]. Proof. rewrite <- app_assoc. reflexivity. Qed.

(** Threads that have consumed a post, before and after a step. *)
Lemma weff_keep w ths t p w' ths' v q : weff w ths t p w' ths' -> nth_error ths t = Some p -> dtake p = 0 -> nth_error ths v = Some q -> dtake q = 1 -> nth_error ths' v = Some q.
Proof.
  intros He Ht Hp Hv Hq. assert (v <> t) by (intros ->; rewrite Ht in Hv; injection Hv as ->; lia).
  destruct He as [p' _ -> _ _ _|u k _ _ Hu ->|p' h m x _ _ _ _ _ _ -> _ _]; try (rewrite nth_upd_neq by auto; exact Hv).
  assert (v <> u) by (intros ->; rewrite Hu in Hv; injection Hv as <-; discriminate Hq). rewrite !nth_upd_neq by auto. exact Hv.
Qed.
Lemma weff_new w ths t p w' ths' v q : weff w ths t p w' ths' -> nth_error ths t = Some p -> nth_error ths' v = Some q -> dtake q = 1 ->
  (v <> t /\ nth_error ths v = Some q) \/
  (v = t /\ inpost p = 0 /\ exists h m x, hist w 0 = h ++ [m] /\ hist w' 0 = h ++ [m; x] /\ posts_of (mval x) = posts_of (mval m) - 1 /\ 0 < posts_of (mval m) /\ incl (mrel m) (wkn w' t) /\ In (mid x) (wkn w' t)).
Proof.
  intros He Ht Hv Hq.
  destruct He as [p' _ -> _ P _|u k _ _ Hu ->|p' h m x E1 E2 _ _ _ Hi -> _ P].
  - destruct (nth_upd_inv _ _ _ _ _ Hv) as [(<- & -> & _)|(Hn & Hv')]; [lia|]. left. auto.
  - destruct (nth_upd_inv _ _ _ _ _ Hv) as [(<- & -> & _)|(Hn & Hv')]; [discriminate Hq|].
    destruct (nth_upd_inv _ _ _ _ _ Hv') as [(<- & -> & _)|(Hn2 & Hv2)]; [discriminate Hq|]. left. auto.
  - destruct (nth_upd_inv _ _ _ _ _ Hv) as [(<- & -> & _)|(Hn & Hv')]; [|left; auto]. right.
    destruct P as [(_ & _ & P)|[(_ & _ & P & _)|(P1 & P2 & P3 & _ & P4)]]; try lia. repeat split; auto. exists h, m, x. auto 10.
Qed.
Lemma weff_inpost w ths t p w' ths' v q : weff w ths t p w' ths' -> nth_error ths t = Some p -> nth_error ths' v = Some q -> inpost q = 1 ->
  exists q0, nth_error ths v = Some q0 /\ inpost q0 = 1.
Proof.
  intros He Ht Hv Hq. destruct He as [p' _ -> P1 _ _|u k _ _ Hu ->|p' h m x _ _ _ _ _ _ -> P0 _].
  - destruct (nth_upd_inv _ _ _ _ _ Hv) as [(<- & -> & _)|(Hn & Hv')]; [|eauto]. exists p. pose proof (inpost01 p). split; [exact Ht|lia].
  - destruct (nth_upd_inv _ _ _ _ _ Hv) as [(<- & -> & _)|(Hn & Hv')]; [discriminate Hq|].
    destruct (nth_upd_inv _ _ _ _ _ Hv') as [(<- & -> & _)|(Hn2 & Hv2)]; [discriminate Hq|eauto].
  - destruct (nth_upd_inv _ _ _ _ _ Hv) as [(<- & -> & _)|(Hn & Hv')]; [lia|eauto].
Qed.

(** ** Every consumption is in the knowledge of the wait that made it; every undelivered post publishes some call of post() *)
Definition took_at (w : wmem) (ths : list apc) (tr : list wev) (k : nat) : Prop :=
  (exists u q, nth_error ths u = Some q /\ dtake q = 1 /\ In k (wkn w u)) \/ exists u o r K, In (HEv (Ret u o r) K) tr /\ took o r = 1 /\ In k K.
Definition some_post (tr : list wev) (S : list nat) : Prop := exists u K, In (HEv (Call u EPost) K) tr /\ incl K S.
Record WK (c : wmem * list apc) (tr : list wev) : Prop := {
  wk_in : forall t p, nth_error (snd c) t = Some p -> inpost p = 1 -> exists K, In (HEv (Call t EPost) K) tr /\ incl K (wkn (fst c) t);
  wk_posts : 0 < posts_of (newest (fst c)) -> some_post tr (nrel (fst c));
  wk_took : forall t p, nth_error (snd c) t = Some p -> dtake p = 1 -> some_post tr (wkn (fst c) t);
  wk_drop : forall h1 a x h2, hist (fst c) 0 = h1 ++ a :: x :: h2 -> posts_of (mval x) < posts_of (mval a) -> took_at (fst c) (snd c) tr (mid x) }.

Lemma some_post_mono tr e S S' : some_post tr S -> incl S S' -> some_post (tr ++ e) S'.
Proof. intros (u & K & H1 & H2) H. exists u, K. split; [apply in_or_app; auto|eapply incl_tran; eauto]. Qed.

Lemma WK_init n : WK (wauto_init n) [].
Proof.
  constructor; unfold wauto_init; cbn [fst snd].
  - intros t p Hp Hi. apply nth_repeat in Hp. subst. discriminate.
  - cbn. lia.
  - intros t p Hp Hi. apply nth_repeat in Hp. subst. discriminate.
  - cbn [wm0 hist]. intros h1 a x h2 E. destruct h1 as [|? [|]]; discriminate E.
Qed.

Lemma cut_end (h h1 h2 : list msg) m x a y : h ++ [m; x] = h1 ++ a :: y :: h2 -> (h2 = [] /\ a = m /\ y = x /\ h1 = h) \/ exists h3, h2 = h3 ++ [x] /\ h ++ [m] = h1 ++ a :: y :: h3.
Proof.
  intros E. rewrite two_end in E. destruct (exists_last (l := a :: y :: h2) ltac:(discriminate)) as (l & z & El). rewrite El, app_assoc in E. apply app_inj_tail in E. destruct E as (E & <-).
  destruct h2 as [|b h2].
  - left. assert (l = [a] /\ y = x) as (-> & ->). { change [a; y] with ([a] ++ [y]) in El. apply app_inj_tail in El. destruct El; auto. }
    apply app_inj_tail in E. destruct E; auto.
  - right. destruct (exists_last (l := b :: h2) ltac:(discriminate)) as (l3 & z & E3). rewrite E3 in *. exists l3.
    change (a :: y :: l3 ++ [z]) with ((a :: y :: l3) ++ [z]) in El. apply app_inj_tail in El. destruct El as (<- & ->). auto.
Qed.

Lemma took_at_step n w ths tr a w' ths' e k : Z.of_nat n <= 1022 -> WA n (w, ths) -> wauto_step (w, ths) a = Some ((w', ths'), e) -> took_at w ths tr k -> took_at w' ths' (tr ++ e) k.
Proof.
  intros Hn HW Hs HT. destruct (wauto_case _ _ _ _ _ _ _ Hn HW Hs) as (_ & HM & Hc).
  destruct HT as [(u & q & H1 & H2 & H3)|(u & o & r & K & H1 & H2 & H3)]; [|right; exists u, o, r, K; split; [apply in_or_app; auto|auto]].
  destruct Hc as [t o Ht -> -> ->|t o r Ht -> -> ->|t p Ht Hd He ->|Eh -> Ee].
  - left. exists u, q. rewrite nth_upd_neq by (intros ->; rewrite Ht in H1; injection H1 as <-; discriminate). auto.
  - destruct (Nat.eq_dec u t) as [->|Hne].
    + right. rewrite Ht in H1. injection H1 as <-. exists t, o, r, (wkn w t). split; [apply in_or_app; right; left; reflexivity|auto].
    + left. exists u, q. rewrite nth_upd_neq by auto. auto.
  - left. exists u, q. split; [eapply weff_keep; eauto|]. split; [exact H2|]. apply HM. exact H3.
  - left. exists u, q. split; [exact H1|]. split; [exact H2|]. apply HM. exact H3.
Qed.

Lemma WK_step n w ths tr a w' ths' e : Z.of_nat n <= 1022 -> WA n (w, ths) -> WK (w, ths) tr -> wauto_step (w, ths) a = Some ((w', ths'), e) -> WK (w', ths') (tr ++ e).
Proof.
  intros Hn HW [K1 K2 K3 K4] Hs. destruct (wauto_case _ _ _ _ _ _ _ Hn HW Hs) as (_ & HM & Hc). cbn [fst snd] in *.
  pose proof (fun k => took_at_step _ _ _ tr _ _ _ _ k Hn HW Hs) as HT.
  assert (In1 : forall t p, nth_error ths t = Some p -> inpost p = 1 -> exists K, In (HEv (Call t EPost) K) (tr ++ e) /\ incl K (wkn w' t)).
  { intros t p Ht Hp. destruct (K1 _ _ Ht Hp) as (K & A & B). exists K. split; [apply in_or_app; auto|]. eapply incl_tran; [exact B|apply HM]. }
  assert (Tk1 : forall t p, nth_error ths t = Some p -> dtake p = 1 -> some_post (tr ++ e) (wkn w' t)).
  { intros t p Ht Hp. eapply some_post_mono; [exact (K3 _ _ Ht Hp)|apply HM]. }
  constructor; cbn [fst snd].
  - intros v q Hv Hq. destruct Hc as [t o Ht -> -> ->|t o r Ht -> -> ->|t p Ht Hd He ->|Eh -> Ee].
    + destruct (nth_upd_inv _ _ _ _ _ Hv) as [(<- & -> & _)|(_ & Hv')]; [|eauto]. exists (wkn w t). destruct o; try discriminate Hq. split; [apply in_or_app; right; left; reflexivity|apply incl_refl].
    + destruct (nth_upd_inv _ _ _ _ _ Hv) as [(<- & -> & _)|(_ & Hv')]; [discriminate Hq|eauto].
    + destruct (weff_inpost _ _ _ _ _ _ _ _ He Ht Hv Hq) as (q0 & H1 & H2). eauto.
    + eauto.
  - intros Hpos. destruct Hc as [t o Ht -> -> ->|t o r Ht -> -> ->|t p Ht Hd He ->|Eh -> Ee].
    + eapply some_post_mono; [apply K2; exact Hpos|apply incl_refl].
    + eapply some_post_mono; [apply K2; exact Hpos|apply incl_refl].
    + assert (Hs1 : hist w' 0 = hist w 0 -> some_post (tr ++ []) (nrel w')).
      { intros Eh. rewrite (nrel_same _ _ Eh). rewrite (newest_same _ _ Eh) in Hpos. eapply some_post_mono; [apply K2; exact Hpos|apply incl_refl]. }
      destruct He as [p' Eh _ _ _ _|u k Eh _ _ _|p' h m x E1 E2 _ _ Hr _ _ _ P]; [exact (Hs1 Eh)|exact (Hs1 Eh)|].
      rewrite two_end in E2. rewrite (newest_end _ _ _ E2) in Hpos. rewrite (nrel_end _ _ _ E2).
      assert (Hold : 0 < posts_of (mval m) -> some_post (tr ++ []) (mrel x)).
      { intros G. eapply some_post_mono; [apply K2; rewrite (newest_end _ _ _ E1); exact G|]. rewrite (nrel_end _ _ _ E1). exact Hr. }
      destruct P as [(P1 & _)|[(_ & P2 & _ & P3)|(_ & P2 & _)]]; [apply Hold; lia| |apply Hold; lia].
      destruct (K1 _ _ Ht P2) as (K & A & B). exists t, K. split; [apply in_or_app; auto|eapply incl_tran; eauto].
    + rewrite (nrel_same _ _ Eh). rewrite (newest_same _ _ Eh) in Hpos. eapply some_post_mono; [apply K2; exact Hpos|apply incl_refl].
  - intros v q Hv Hq. destruct Hc as [t o Ht -> -> ->|t o r Ht -> -> ->|t p Ht Hd He ->|Eh -> Ee].
    + destruct (nth_upd_inv _ _ _ _ _ Hv) as [(<- & -> & _)|(_ & Hv')]; [destruct o; discriminate Hq|eauto].
    + destruct (nth_upd_inv _ _ _ _ _ Hv) as [(<- & -> & _)|(_ & Hv')]; [discriminate Hq|eauto].
    + destruct (weff_new _ _ _ _ _ _ _ _ He Ht Hv Hq) as [(_ & Hv')|(-> & _ & h & m & x & E1 & _ & _ & Hm & Hi & _)]; [eauto|].
      eapply some_post_mono; [apply K2; rewrite (newest_end _ _ _ E1); exact Hm|]. rewrite (nrel_end _ _ _ E1). exact Hi.
    + eauto.
  - intros h1 a1 x1 h2 Eh1 Hlt.
    assert (Hold : forall h3, hist w 0 = h1 ++ a1 :: x1 :: h3 -> took_at w' ths' (tr ++ e) (mid x1)) by (intros h3 E; apply HT; eapply K4; eauto).
    destruct Hc as [t o Ht -> -> ->|t o r Ht -> -> ->|t p Ht Hd He ->|Eh -> Ee].
    + eauto.
    + eauto.
    + destruct He as [p' Eh _ _ _ _|u k Eh _ _ _|p' h m x E1 E2 _ _ _ Hi Eths _ P]; [rewrite Eh in Eh1; eauto|rewrite Eh in Eh1; eauto|].
      rewrite E2 in Eh1. destruct (cut_end _ _ _ _ _ _ _ Eh1) as [(-> & -> & -> & ->)|(h3 & -> & E3)]; [|rewrite <- E1 in E3; eauto].
      left. exists t, p'. rewrite Eths, (nth_upd_eq _ _ _ _ Ht). destruct P as [(P1 & _)|[(P1 & _)|(_ & _ & _ & P2 & _)]]; [lia|lia|auto].
    + rewrite Eh in Eh1. eauto.
Qed.

Definition WAK n (c : wmem * list apc) (tr : list wev) : Prop := WAC n c tr /\ WK c tr.
Lemma WAK_init n : Z.of_nat n <= 1022 -> WAK n (wauto_init n) []. Proof. split; [apply WAC_init; auto|apply WK_init]. Qed.
Lemma WAK_step n : Z.of_nat n <= 1022 -> forall c tr a c' e, WAK n c tr -> wauto_step c a = Some (c', e) -> WAK n c' (tr ++ e).
Proof. intros Hn [w ths] tr a [w' ths'] e (H1 & H2) Hs. split; [eapply WAC_step; eauto|eapply WK_step; eauto]. apply H1. Qed.
Lemma WAK_exec n sched c tr : Z.of_nat n <= 1022 -> exec wauto_step (wauto_init n) sched = Some (c, tr) -> WAK n c tr.
Proof. intros Hn. apply exec_inv; [apply WAK_init; exact Hn|]. intros. eapply WAK_step; eauto. Qed.

(** The event emitted by a step. *)
Lemma wcase_ret w ths w' ths' es d t o r K b : wcase w ths w' ths' es -> es = d ++ HEv (Ret t o r) K :: b ->
  d = [] /\ nth_error ths t = Some (ADone o r) /\ K = wkn w t.
Proof.
  intros Hc E. destruct Hc as [t1 o1 Ht -> -> ->|t1 o1 r1 Ht -> -> ->|t1 p Ht Hd He ->|Eh -> Ee].
  - destruct d as [|? [|]]; discriminate E.
  - destruct d as [|? [|]]; try discriminate E. injection E as <- <- <- <- <-. auto.
  - destruct d; discriminate E.
  - rewrite E, flat_map_app in Ee. cbn in Ee. destruct (flat_map base_ev d); discriminate Ee.
Qed.

Lemma wauto_some n sched c tr a t o r K' d : Z.of_nat n <= 1022 -> exec wauto_step (wauto_init n) sched = Some (c, tr) -> tr = a ++ HEv (Ret t o r) K' :: d -> took o r = 1 ->
  some_post a K'.
Proof.
  intros Hn H E0 Hg.
  refine (exec_events wauto_step (WAK n) (fun a x => match x with HEv (Ret t o r) K' => took o r = 1 -> some_post a K' | _ => True end) (wauto_init n) (WAK_init n Hn) (WAK_step n Hn) _ sched c tr a _ d H E0 Hg).
  clear H E0 Hg a t o r K' d c tr. intros [w ths] tr a [w' ths'] es d x b ((HW & _) & HK) Hs Ees. destruct x as [|[|t o r] K']; try exact I. intros Hg.
  destruct (wauto_case _ _ _ _ _ _ _ Hn HW Hs) as (_ & _ & Hc). destruct (wcase_ret _ _ _ _ _ _ _ _ _ _ _ Hc Ees) as (-> & Ht & ->).
  rewrite app_nil_r. exact (wk_took _ _ HK _ _ Ht Hg).
Qed.

(** ** What the newest message publishes reaches every wait that does not have its result yet *)
Lemma wauto_pub n w0 ths0 sched c tr K t : Z.of_nat n <= 1022 -> WA n (w0, ths0) -> exec wauto_step (w0, ths0) sched = Some (c, tr) ->
  incl K (nrel w0) -> (forall p, nth_error ths0 t = Some p -> dtake p = 0) ->
  forall a o r K' d, tr = a ++ HEv (Ret t o r) K' :: d -> took o r = 1 -> incl K K'.
Proof.
  intros Hn HW0 H HK0 Hd0 a o r K' d E0 Hg.
  set (PJ := fun (c : wmem * list apc) (tr : list wev) => WA n c /\ incl K (nrel (fst c)) /\ forall p, nth_error (snd c) t = Some p -> dtake p = 1 -> incl K (wkn (fst c) t)).
  refine (exec_events wauto_step PJ (fun a x => match x with HEv (Ret t1 o r) K' => t1 = t -> took o r = 1 -> incl K K' | _ => True end) (w0, ths0) _ _ _ sched c tr a (HEv (Ret t o r) K') d H E0 eq_refl Hg); clear H E0 Hg a o r K' d c tr sched.
  - split; [exact HW0|]. split; [exact HK0|]. cbn [snd]. intros p Hp Hq. rewrite (Hd0 _ Hp) in Hq. discriminate.
  - intros [w ths] tr a [w' ths'] e (HW & H1 & H2) Hs. destruct (wauto_case _ _ _ _ _ _ _ Hn HW Hs) as (HW' & HM & Hc). split; [exact HW'|]. cbn [fst snd] in *.
    assert (Hkn : forall p, nth_error ths t = Some p -> dtake p = 1 -> incl K (wkn w' t)) by (intros p Hp Hq; eapply incl_tran; [eapply H2; eauto|apply HM]).
    destruct Hc as [v o Ht -> -> ->|v o r Ht -> -> ->|v p Ht Hd He ->|Eh -> Ee].
    + split; [exact H1|]. intros q Hv Hq. destruct (nth_upd_inv _ _ _ _ _ Hv) as [(<- & -> & _)|(_ & Hv')]; [destruct o; discriminate Hq|eauto].
    + split; [exact H1|]. intros q Hv Hq. destruct (nth_upd_inv _ _ _ _ _ Hv) as [(<- & -> & _)|(_ & Hv')]; [discriminate Hq|eauto].
    + split.
      * destruct He as [p' Eh _ _ _ _|u k Eh _ _ _|p' h m x E1 E2 _ _ Hr _ _ _ _]; [rewrite (nrel_same _ _ Eh); exact H1|rewrite (nrel_same _ _ Eh); exact H1|].
        rewrite two_end in E2. rewrite (nrel_end _ _ _ E2). rewrite (nrel_end _ _ _ E1) in H1. eapply incl_tran; eauto.
      * intros q Hv Hq. destruct (weff_new _ _ _ _ _ _ _ _ He Ht Hv Hq) as [(_ & Hv')|(-> & _ & h & m & x & E1 & _ & _ & _ & Hi & _)]; [eauto|].
        rewrite (nrel_end _ _ _ E1) in H1. eapply incl_tran; eauto.
    + split; [rewrite (nrel_same _ _ Eh); exact H1|eauto].
  - intros [w ths] tr a [w' ths'] es d x b (HW & H1 & H2) Hs Ees. destruct x as [|[|t1 o r] K']; try exact I. intros -> Hg.
    destruct (wauto_case _ _ _ _ _ _ _ Hn HW Hs) as (_ & _ & Hc). destruct (wcase_ret _ _ _ _ _ _ _ _ _ _ _ Hc Ees) as (_ & Ht & ->). exact (H2 _ Ht Hg).
Qed.

(** A step of post() that adds a post. *)
Lemma counted_nrel n w ths u p ch w' ths' e : Z.of_nat n <= 1022 -> WA n (w, ths) -> nth_error ths u = Some p -> inpost p = 1 ->
  wauto_step (w, ths) (WRun u ch) = Some ((w', ths'), e) -> newest w' <> newest w ->
  posts_of (newest w') = posts_of (newest w) + 1 /\ incl (wkn w u) (nrel w') /\ (forall t q, nth_error ths' t = Some q -> dtake q = 1 -> nth_error ths t = Some q).
Proof.
  intros Hn HW Hu Hp Hs Hne. unfold wauto_step in Hs. cbn [wstep] in Hs. rewrite Hu in Hs.
  assert (Hr : wauto_ret p = None) by (destruct p; try reflexivity; discriminate Hp). rewrite Hr in Hs.
  destruct (wauto_run u w ths p ch) as [c1|] eqn:E; [|discriminate Hs]. injection Hs as -> _.
  destruct (wauto_eff _ _ _ _ _ _ _ _ Hn HW Hu E) as (He & _).
  assert (Hk : forall t q, nth_error ths' t = Some q -> dtake q = 1 -> nth_error ths t = Some q).
  { intros t q Ht Hq. destruct (weff_new _ _ _ _ _ _ _ _ He Hu Ht Hq) as [(_ & F)|(_ & F & _)]; [exact F|lia]. }
  destruct He as [p' Eh _ _ _ _|v k Eh _ _ _|p' h m x E1 E2 _ _ Hr1 _ _ _ P]; try (destruct Hne; apply newest_same; exact Eh).
  rewrite two_end in E2. rewrite (newest_end _ _ _ E2), (newest_end _ _ _ E1), (nrel_end _ _ _ E2).
  destruct P as [(_ & P & _)|[(P1 & _ & _ & P2)|(_ & _ & P & _)]]; [lia|auto|lia].
Qed.

(** ** Absorbed posts *)
Lemma known_posts K h : (forall h1 a x h2, h = h1 ++ a :: x :: h2 -> posts_of (mval x) < posts_of (mval a) -> In (mid x) K) ->
  forall i m, nth_error h i = Some m -> readable K h i = true -> posts_of (mval m) <= posts_of (mval (last h (Msg 0 0 [] false))).
Proof.
  intros HK i m Hi Hr. destruct (nth_error_split _ _ Hi) as (l1 & l2 & E & <-). rewrite E in Hr.
  assert (Hun : forall x, In x l2 -> ~ In (mid x) K).
  { intros x Hx Hin. unfold readable in Hr. apply negb_true_iff in Hr. assert (F : existsb (known K) (skipn (S (length l1)) (l1 ++ m :: l2)) = true); [|congruence].
    apply existsb_exists. exists x. split; [|apply known_In; exact Hin]. replace (S (length l1)) with (length (l1 ++ [m])) by (rewrite app_length; cbn; lia).
    change (l1 ++ m :: l2) with (l1 ++ [m] ++ l2). rewrite app_assoc, skipn_app, skipn_all, Nat.sub_diag. exact Hx. }
  clear Hi Hr. revert l1 m E Hun. induction l2 as [|x l2 IH]; intros l1 m E Hun.
  - rewrite E, last_last. lia.
  - assert (posts_of (mval m) <= posts_of (mval x)).
    { destruct (Z_lt_ge_dec (posts_of (mval x)) (posts_of (mval m))) as [Hlt|]; [|lia]. destruct (Hun x (or_introl eq_refl)). eapply HK; eauto. }
    assert (posts_of (mval x) <= posts_of (mval (last h (Msg 0 0 [] false)))); [|lia].
    apply (IH (l1 ++ [m]) x); [rewrite E, <- app_assoc; reflexivity|]. intros y Hy. apply Hun. right. exact Hy.
Qed.

(** [u] knows all consumptions. *)
Definition knows_takes (w : wmem) (ths : list apc) (tr : list wev) (u : nat) : Prop :=
  (forall v q, nth_error ths v = Some q -> dtake q = 0) /\ forall v o r K, In (HEv (Ret v o r) K) tr -> took o r = 1 -> incl K (wkn w u).
Lemma knows_readable w ths tr u i m : WK (w, ths) tr -> knows_takes w ths tr u -> nth_error (hist w 0) i = Some m -> readable (wkn w u) (hist w 0) i = true ->
  posts_of (mval m) <= posts_of (newest w).
Proof.
  intros HK (H1 & H2) Hi Hr. eapply (known_posts (wkn w u)); [|exact Hi|exact Hr]. intros h1 a x h2 E Hlt.
  destruct (wk_drop _ _ HK _ _ _ _ E Hlt) as [(v & q & Hv & Hq & _)|(v & o & r & K & Hin & Ht & Hx)]; [cbn [snd] in Hv; rewrite (H1 _ _ Hv) in Hq; discriminate|].
  eapply H2; eauto.
Qed.

Lemma absorbed_signalled n w ths tr u p ch w' ths' e : Z.of_nat n <= 1022 -> WAK n (w, ths) tr -> nth_error ths u = Some p -> inpost p = 1 ->
  wauto_step (w, ths) (WRun u ch) = Some ((w', ths'), e) -> nth_error ths' u = Some (ADone EPost EOk) -> newest w' = newest w ->
  knows_takes w ths tr u -> 0 < posts_of (newest w).
Proof.
  intros Hn ((HW & _) & HK) Hu Hp Hs Hd Hne HT. unfold wauto_step in Hs. cbn [wstep] in Hs. rewrite Hu in Hs.
  assert (Hr : wauto_ret p = None) by (destruct p; try reflexivity; discriminate Hp). rewrite Hr in Hs.
  destruct (wauto_run u w ths p ch) as [c1|] eqn:E; [|discriminate Hs]. injection Hs as -> _.
  destruct (wauto_eff _ _ _ _ _ _ _ _ Hn HW Hu E) as (He & _).
  destruct He as [p' Eh -> _ _ P|v k Eh -> _ _|p' h m x E1 E2 _ _ _ _ _ _ P]; [|discriminate Hp|].
  - rewrite (nth_upd_eq _ _ _ _ Hu) in Hd. injection Hd as ->. destruct (P Hp) as [F|(i & m & H1 & H2 & H3)]; [discriminate F|].
    pose proof (knows_readable _ _ _ _ _ _ HK HT H1 H2). destruct (vok_posts _ (hist_nth _ _ _ _ _ HW H1)) as (_ & ? & _). lia.
  - rewrite two_end in E2. rewrite (newest_end _ _ _ E2), (newest_end _ _ _ E1) in Hne. rewrite Hne in P. lia.
Qed.

(** ** Hand-off *)
Definition nopost (b : list wev) : Prop := forall v L, ~ In (HEv (Call v EPost) L) b.
Definition HJ n (K : list nat) (u : nat) (c : wmem * list apc) (b : list wev) : Prop :=
  WA n c /\ (nopost b ->
  ((posts_of (newest (fst c)) = 0 /\ (forall v q, nth_error (snd c) v = Some q -> dtake q = 0) /\ (forall v q, nth_error (snd c) v = Some q -> inpost q = 1 -> v = u) /\
    incl K (wkn (fst c) u) /\ (exists p, nth_error (snd c) u = Some p /\ inpost p = 1) /\
    forall i m, nth_error (hist (fst c) 0) i = Some m -> readable (wkn (fst c) u) (hist (fst c) 0) i = true -> posts_of (mval m) = 0)
  \/ (incl K (nrel (fst c)) /\ forall v q, nth_error (snd c) v = Some q -> dtake q = 1 -> incl K (wkn (fst c) v)))).

Lemma readable_mono K K' h h2 i : incl K K' -> readable K' (h ++ h2) i = true -> readable K h i = true.
Proof.
  intros Hi Hr. unfold readable in *. apply negb_true_iff in Hr. apply negb_true_iff. apply not_true_iff_false. intros F. apply existsb_exists in F. destruct F as (x & Hx & Hk).
  apply not_true_iff_false in Hr. apply Hr. apply existsb_exists. exists x. split.
  - rewrite skipn_app. apply in_or_app. auto.
  - unfold known in *. apply existsb_exists in Hk. destruct Hk as (y & Hy & E). apply existsb_exists. exists y. auto.
Qed.

Lemma HJ_step n K u : Z.of_nat n <= 1022 -> forall c b a c' e, HJ n K u c b -> wauto_step c a = Some (c', e) -> HJ n K u c' (b ++ e).
Proof.
  intros Hn [w ths] b a [w' ths'] e (HW & HJ1) Hs. destruct (wauto_case _ _ _ _ _ _ _ Hn HW Hs) as (HW' & HM & Hc). split; [exact HW'|]. intros Hnp.
  assert (Hnb : nopost b) by (intros v L Hin; apply (Hnp v L); apply in_or_app; auto).
  assert (Hne : nopost e) by (intros v L Hin; apply (Hnp v L); apply in_or_app; auto). specialize (HJ1 Hnb). cbn [fst snd] in *.
  destruct HJ1 as [(A1 & A2 & A3 & A4 & (pu & Hu & Hpu) & A5)|(B1 & B2)].
  - assert (A4' : incl K (wkn w' u)) by (eapply incl_tran; [exact A4|apply HM]).
    assert (A5' : hist w' 0 = hist w 0 -> forall i m, nth_error (hist w' 0) i = Some m -> readable (wkn w' u) (hist w' 0) i = true -> posts_of (mval m) = 0).
    { intros Eh i m Hi Hr. rewrite Eh in *. apply (A5 i m Hi). apply (readable_mono _ (wkn w' u) _ []); [apply HM|]. rewrite app_nil_r. exact Hr. }
    destruct Hc as [t o Ht -> -> ->|t o r Ht -> -> ->|t p Ht Hd He ->|Eh -> Ee].
    + left. assert (o <> EPost) by (intros ->; apply (Hne t (wkn w t)); left; reflexivity).
      assert (Htu : t <> u) by (intros ->; rewrite Hu in Ht; injection Ht as ->; discriminate Hpu).
      split; [exact A1|]. split; [|split; [|split; [exact A4|split; [exists pu; rewrite nth_upd_neq by auto; auto|exact A5]]]].
      * intros v q Hv. destruct (nth_upd_inv _ _ _ _ _ Hv) as [(<- & -> & _)|(_ & Hv')]; [destruct o; reflexivity|eauto].
      * intros v q Hv Hq. destruct (nth_upd_inv _ _ _ _ _ Hv) as [(<- & -> & _)|(_ & Hv')]; [destruct o; try discriminate Hq; congruence|eauto].
    + left. assert (Htu : t <> u) by (intros ->; rewrite Hu in Ht; injection Ht as ->; discriminate Hpu).
      split; [exact A1|]. split; [|split; [|split; [exact A4|split; [exists pu; rewrite nth_upd_neq by auto; auto|exact A5]]]].
      * intros v q Hv. destruct (nth_upd_inv _ _ _ _ _ Hv) as [(<- & -> & _)|(_ & Hv')]; [reflexivity|eauto].
      * intros v q Hv Hq. destruct (nth_upd_inv _ _ _ _ _ Hv) as [(<- & -> & _)|(_ & Hv')]; [discriminate Hq|eauto].
    + pose proof (fun v q => weff_new _ _ _ _ _ _ v q He Ht) as Hnew. pose proof (fun v q => weff_inpost _ _ _ _ _ _ v q He Ht) as Hinp.
      assert (A3' : forall v q, nth_error ths' v = Some q -> inpost q = 1 -> v = u).
      { intros v q Hv Hq. destruct (Hinp _ _ Hv Hq) as (q0 & H1 & H2). eauto. }
      destruct He as [p' Eh Eths P1 P2 P3|v k Eh Ep Hv Eths|p' h m x E1 E2 _ _ Hr Hix Eths P0 P].
      * left. rewrite (newest_same _ _ Eh). subst ths'. split; [exact A1|]. split; [|split; [exact A3'|split; [exact A4'|split; [|exact (A5' Eh)]]]].
        -- intros v q Hv. destruct (nth_upd_inv _ _ _ _ _ Hv) as [(<- & -> & _)|(_ & Hv')]; [exact P2|eauto].
        -- destruct (Nat.eq_dec t u) as [->|Htu]; [|exists pu; rewrite nth_upd_neq by auto; auto].
           rewrite Hu in Ht. injection Ht as ->. exists p'. rewrite (nth_upd_eq _ _ _ _ Hu). split; [reflexivity|].
           destruct (P3 Hpu) as [|(i & m & H1 & H2 & H3)]; [assumption|]. rewrite (A5 _ _ H1 H2) in H3. destruct (vok_posts _ (hist_nth _ _ _ _ _ HW H1)) as (_ & ? & _). lia.
      * left. rewrite (newest_same _ _ Eh). subst p ths'.
        assert (Htu : t <> u) by (intros ->; rewrite Hu in Ht; injection Ht as ->; discriminate Hpu).
        assert (Hvu : v <> u) by (intros ->; rewrite Hu in Hv; injection Hv as ->; discriminate Hpu).
        split; [exact A1|]. split; [|split; [exact A3'|split; [exact A4'|split; [exists pu; rewrite !nth_upd_neq by auto; auto|exact (A5' Eh)]]]].
        intros v1 q Hv1. destruct (nth_upd_inv _ _ _ _ _ Hv1) as [(<- & -> & _)|(_ & Hv2)]; [reflexivity|]. destruct (nth_upd_inv _ _ _ _ _ Hv2) as [(<- & -> & _)|(_ & Hv3)]; [reflexivity|eauto].
      * rewrite (newest_end _ _ _ E1) in A1. pose proof E2 as E2'. rewrite two_end in E2'. destruct P as [(P1 & P2 & P3)|[(P1 & P2 & P3 & P4)|(_ & P2 & _)]]; [| |lia].
        -- left. rewrite (newest_end _ _ _ E2'). subst ths'. split; [lia|].
           assert (Htu : t <> u) by (intros ->; rewrite Hu in Ht; injection Ht as ->; lia).
           split; [|split; [exact A3'|split; [exact A4'|split; [exists pu; rewrite nth_upd_neq by auto; auto|]]]].
           ++ intros v q Hv. destruct (nth_upd_inv _ _ _ _ _ Hv) as [(<- & -> & _)|(_ & Hv')]; [exact P3|eauto].
           ++ intros i y Hi Hrd. rewrite E2', <- E1 in *. destruct (lt_dec i (length (hist w 0))) as [Hlt|Hge].
              ** rewrite nth_error_app1 in Hi by exact Hlt. apply (A5 i y Hi). eapply readable_mono; [apply HM|exact Hrd].
              ** rewrite nth_error_app2 in Hi by lia. destruct (i - length (hist w 0))%nat as [|[|]]; cbn in Hi; try discriminate Hi. injection Hi as <-. lia.
        -- right. rewrite (nrel_end _ _ _ E2'). assert (t = u) as -> by eauto. split; [exact (incl_tran A4 P4)|].
           intros v q Hv Hq. destruct (Hnew _ _ Hv Hq) as [(_ & Hv')|(_ & F & _)]; [rewrite (A2 _ _ Hv') in Hq; discriminate|lia].
    + left. rewrite (newest_same _ _ Eh). repeat split; eauto.
  - right. assert (B2' : forall v q, nth_error ths v = Some q -> dtake q = 1 -> incl K (wkn w' v)) by (intros v q Hv Hq; eapply incl_tran; [eapply B2; eauto|apply HM]).
    destruct Hc as [t o Ht -> -> ->|t o r Ht -> -> ->|t p Ht Hd He ->|Eh -> Ee].
    + split; [exact B1|]. intros v q Hv Hq. destruct (nth_upd_inv _ _ _ _ _ Hv) as [(<- & -> & _)|(_ & Hv')]; [destruct o; discriminate Hq|eauto].
    + split; [exact B1|]. intros v q Hv Hq. destruct (nth_upd_inv _ _ _ _ _ Hv) as [(<- & -> & _)|(_ & Hv')]; [discriminate Hq|eauto].
    + split.
      * destruct He as [p' Eh _ _ _ _|v k Eh _ _ _|p' h m x E1 E2 _ _ Hr _ _ _ _]; [rewrite (nrel_same _ _ Eh); exact B1|rewrite (nrel_same _ _ Eh); exact B1|].
        rewrite two_end in E2. rewrite (nrel_end _ _ _ E2). rewrite (nrel_end _ _ _ E1) in B1. eapply incl_tran; eauto.
      * intros v q Hv Hq. destruct (weff_new _ _ _ _ _ _ _ _ He Ht Hv Hq) as [(_ & Hv')|(-> & _ & h & m & x & E1 & _ & _ & _ & Hi & _)]; [eauto|].
        rewrite (nrel_end _ _ _ E1) in B1. eapply incl_tran; eauto.
    + split; [rewrite (nrel_same _ _ Eh); exact B1|eauto].
Qed.
