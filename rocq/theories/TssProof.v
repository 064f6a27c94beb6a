(** Thread-specific storage: the steps as relations, well-formedness. *)
From Coq Require Import List Bool Arith ZArith Lia.
From Verif Require Import ListSum Exec TssModel.
Import ListNotations.

Definition alive (s : tsh) (p : nat) (q : tptr) : Prop := nth_error (tptrs s) p = Some q /\ palive q = true.

(** What a step of thread [t] (in state [th]) can do. *)
Inductive tss_eff (pl : plat) (s : tsh) (t : nat) (th : thr) : tsh -> thr -> list tev -> Prop :=
| Eff_new cb flag : user th = true -> tss_eff pl s t th (new_key s cb flag) th [ENew t (length (tptrs s)) cb]
| Eff_del p q : user th = true -> alive s p q -> tss_eff pl s t th (fst (delete_key s p q)) (push th (snd (delete_key s p q))) [EDel t p]
| Eff_get p q : user th = true -> alive s p q -> tss_eff pl s t th s th [EGet t p (get s t (pkey q))]
| Eff_none : user th = true -> tss_eff pl s t th s th []
| Eff_rel p q v : user th = true -> alive s p q -> v = get s t (pkey q) -> v <> 0 -> tss_eff pl s t th (set_value s t (pkey q) 0) th [ERel t p (pcb q) v]
| Eff_set p q old v : user th = true -> alive s p q -> old = get s t (pkey q) -> old <> v ->
    tss_eff pl s t th (set_value s t (pkey q) v) (push th (match pcb q with Some cb => if old =? 0 then [] else [FRun cb [old]] | None => [] end)) [ESet t p (pcb q) v]
| Eff_fail e : user th = true -> (e = [] \/ exists m, e = [EUnlk t m]) -> tss_eff pl s t th s th e
| Eff_failc e : user th = true -> (e = [] \/ exists m, e = [EUnlk t m]) -> tss_eff pl s t th (fst (ensure s t)) th e
| Eff_reg c : user th = true -> ctx_of (fst (ensure s t)) (snd (ensure s t)) = Some c -> 
    tss_eff pl s t th (let s1 := set_ctx (fst (ensure s t)) (snd (ensure s t)) (Some (X (xown c) (storage c) (atexit c ++ [nreg s]) (notif c))) in
                       TS (keys s1) (freed s1) (ctxs s1) (tptrs s1) (slots s1) (S (nreg s))) th [EReg t (nreg s)]
| Eff_not c m : user th = true -> ctx_of (fst (ensure s t)) (snd (ensure s t)) = Some c -> 
    tss_eff pl s t th (set_ctx (fst (ensure s t)) (snd (ensure s t)) (Some (X (xown c) (storage c) (atexit c) (notif c ++ [m])))) th [ENot t m]
| Eff_ret r : stk th = FUser :: r -> tss_eff pl s t th s (Th r (est th)) []
| Eff_exit : stk th = [] -> est th = Running -> tss_eff pl s t th s
    (Th [] (match pl with Win => match slot s t with Some x => ExAt x 0 [] | None => Done end | Posix lim => Iter lim | PosixTls => Done end)) [EExit t]
| Eff_call cb v vs r : stk th = FRun cb (v :: vs) :: r -> tss_eff pl s t th s (Th (FUser :: FRun cb vs :: r) (est th)) [ECall t cb v]
| Eff_pop cb r : stk th = FRun cb [] :: r -> tss_eff pl s t th s (Th r (est th)) []
| Eff_done n : stk th = [] -> est th = Iter n -> n = 0 \/ slot s t = None -> tss_eff pl s t th s (Th [] Done) []
| Eff_take n x : stk th = [] -> est th = Iter (S n) -> slot s t = Some x -> tss_eff pl s t th (set_slot s t None) (Th [] (ExAt x n [])) [EDet t]
| Eff_atcall x n f fs : stk th = [] -> est th = ExAt x n (f :: fs) -> tss_eff pl s t th s (Th [FUser] (ExAt x n fs)) [ERun t f]
| Eff_tls x n c : stk th = [] -> est th = ExAt x n [] -> ctx_of s x = Some c -> atexit c = [] -> tss_eff pl s t th s (Th [] (ExTls x n 0 [])) []
| Eff_atswap x n c : stk th = [] -> est th = ExAt x n [] -> ctx_of s x = Some c -> atexit c <> [] ->
    tss_eff pl s t th (set_ctx s x (Some (X (xown c) (storage c) [] (notif c)))) (Th [] (ExAt x n (rev (atexit c)))) []
| Eff_skip x n k st v : stk th = [] -> est th = ExTls x n k st -> nth_error st k = Some v -> (v = 0 \/ forall cb fl, nth_error (keys s) k <> Some (Some cb, fl)) ->
    tss_eff pl s t th s (Th [] (ExTls x n (S k) st)) []
| Eff_clean x n k st v cb fl : stk th = [] -> est th = ExTls x n k st -> nth_error st k = Some v -> v <> 0 -> nth_error (keys s) k = Some (Some cb, fl) ->
    tss_eff pl s t th s (Th [FUser] (ExTls x n (S k) st)) [ECall t cb v]
| Eff_notify x n k st c : stk th = [] -> est th = ExTls x n k st -> nth_error st k = None -> ctx_of s x = Some c -> storage c = [] ->
    tss_eff pl s t th s (Th [] (ExNot x n (notif c))) []
| Eff_tlsswap x n k st c : stk th = [] -> est th = ExTls x n k st -> nth_error st k = None -> ctx_of s x = Some c -> storage c <> [] ->
    tss_eff pl s t th (set_ctx s x (Some (X (xown c) [] (atexit c) (notif c)))) (Th [] (ExTls x n 0 (storage c))) [ETls t]
| Eff_notified x n m ms : stk th = [] -> est th = ExNot x n (m :: ms) -> tss_eff pl s t th s (Th [] (ExNot x n ms)) [ENotified t m]
| Eff_erase x n : stk th = [] -> est th = ExNot x n [] ->
    tss_eff pl s t th (match pl with Win => set_slot (set_ctx s x None) t None | _ => set_ctx s x None end) (Th [] (match pl with Win => Done | _ => Iter n end)) [].

Lemma ensure_nreg s t : nreg (fst (ensure s t)) = nreg s /\ keys (fst (ensure s t)) = keys s /\ freed (fst (ensure s t)) = freed s /\ tptrs (fst (ensure s t)) = tptrs s.
Proof. unfold ensure. destruct (slot s t); repeat split. Qed.

Lemma tss_effects pl s ths a c' e : tss_step pl (s, ths) a = Some (c', e) ->
  exists th th', nth_error ths (thread_of a) = Some th /\ snd c' = upd ths (thread_of a) th' /\ tss_eff pl s (thread_of a) th (fst c') th' e.
Proof.
  cbn [tss_step]. intros H. destruct (nth_error ths (thread_of a)) as [th|] eqn:Ht; [|discriminate]. set (t := thread_of a) in *.
  destruct (match a with AStep _ => tss_run pl s t th | _ => if user th then tss_user pl s th a else None end) as [[[s' th'] e']|] eqn:Hr; [|discriminate].
  inversion H; subst c' e'. clear H. exists th, th'. split; [reflexivity|]. split; [reflexivity|]. cbn [fst].
  assert (Hu : forall x, a = x -> (match a with AStep _ => False | _ => True end) -> user th = true /\ tss_user pl s th a = Some (s', th', e)).
  { intros x -> Hx. destruct x; try contradiction; (destruct (user th); [split; [reflexivity|exact Hr]|discriminate]). }
  destruct a; try (destruct (Hu _ eq_refl I) as (Hus & Hs); clear Hr Hu; cbn [tss_user] in Hs; cbn [thread_of] in t; subst t; rename t0 into t).
  - inversion Hs; subst. constructor; assumption.
  - destruct (nth_error (tptrs s) p) as [q|] eqn:Hp; [|discriminate]. destruct (palive q) eqn:Hq; [|discriminate].
    destruct (delete_key s p q) as [s1 fr] eqn:E. inversion Hs; subst. rewrite <- (f_equal fst E), <- (f_equal snd E) at 1. cbn [fst snd].
    replace s' with (fst (delete_key s p q)) by (rewrite E; reflexivity). replace fr with (snd (delete_key s p q)) by (rewrite E; reflexivity). apply Eff_del; [assumption|split; assumption].
  - destruct (nth_error (tptrs s) p) as [q|] eqn:Hp; [|discriminate]. destruct (palive q) eqn:Hq; [|discriminate]. inversion Hs; subst. apply Eff_get; [assumption|split; assumption].
  - destruct (nth_error (tptrs s) p) as [q|] eqn:Hp; [|discriminate]. destruct (palive q) eqn:Hq; [|discriminate].
    destruct (Nat.eqb_spec (get s t (pkey q)) 0) as [Ev|Ev]; inversion Hs; subst; [apply Eff_none; assumption|]. eapply Eff_rel; [assumption|split; eassumption|reflexivity|assumption].
  - destruct (nth_error (tptrs s) p) as [q|] eqn:Hp; [|discriminate]. destruct (palive q) eqn:Hq; [|discriminate].
    destruct (Nat.eqb_spec (get s t (pkey q)) v) as [Ev|Ev]; [inversion Hs; subst; apply Eff_none; assumption|].
    destruct f.
    + inversion Hs; subst. apply Eff_set; [assumption|split; assumption|reflexivity|assumption].
    + destruct (can_fail s t FCtx); inversion Hs; subst. apply Eff_fail; auto.
    + destruct (can_fail s t FPush); inversion Hs; subst. apply Eff_failc; auto.
  - destruct f.
    + destruct (ensure s t) as [s1 x] eqn:E. destruct (ctx_of s1 x) as [c|] eqn:Ec; [|discriminate]. inversion Hs; subst.
      destruct (ensure_nreg s t) as (En & Ek & Ef & Ep). rewrite E in *. cbn [fst] in *. rewrite En.
      assert (G := Eff_reg pl s t th' c Hus). rewrite E in G. cbn [fst snd] in G. specialize (G Ec). exact G.
    + destruct (can_fail s t FCtx); inversion Hs; subst. apply Eff_fail; auto.
    + destruct (can_fail s t FPush); inversion Hs; subst. apply Eff_failc; auto.
  - destruct f.
    + destruct (ensure s t) as [s1 x] eqn:E. destruct (ctx_of s1 x) as [c|] eqn:Ec; [|discriminate]. inversion Hs; subst.
      assert (G := Eff_not pl s t th' c m Hus). rewrite E in G. cbn [fst snd] in G. exact (G Ec).
    + destruct (can_fail s t FCtx); inversion Hs; subst. apply Eff_fail; eauto.
    + destruct (can_fail s t FPush); inversion Hs; subst. apply Eff_failc; eauto.
  - destruct (stk th) as [|[] r] eqn:Es; inversion Hs; subst. eapply Eff_ret; eassumption.
  - destruct (stk th) as [|f r] eqn:Es; [|discriminate]. inversion Hs; subst. apply Eff_exit; [assumption|]. unfold user in Hus. rewrite Es in Hus. destruct (est th); try discriminate. reflexivity.
  - clear Hu. cbn [thread_of] in t. subst t. rename t0 into t. unfold tss_run in Hr. destruct (stk th) as [|[|cb [|v vs]] r] eqn:Es; try discriminate.
    + destruct (est th) as [|[|n]|x n [|f fs]|x n k st|x n [|m ms]|] eqn:Ee; try discriminate.
      * inversion Hr; subst. eapply Eff_done; eauto.
      * destruct (slot s t) as [x|] eqn:Ex; inversion Hr; subst; [eapply Eff_take; eauto|eapply Eff_done; eauto].
      * destruct (ctx_of s x) as [c|] eqn:Ec; [|discriminate]. destruct (atexit c) as [|f l] eqn:Ea; inversion Hr; subst; [eapply Eff_tls; eauto|].
        assert (Hne : atexit c <> []) by congruence. assert (G := Eff_atswap pl s t th x n c Es Ee Ec Hne). rewrite Ea in G. exact G.
      * inversion Hr; subst. eapply Eff_atcall; eauto.
      * destruct (nth_error st k) as [v|] eqn:Ek.
        -- destruct v as [|v].
           ++ inversion Hr; subst. eapply Eff_skip; eauto.
           ++ destruct (nth_error (keys s) k) as [[[cb|] fl]|] eqn:Eq; inversion Hr; subst.
              ** eapply Eff_clean; eauto.
              ** eapply Eff_skip; eauto. right. intros cb fl'. congruence.
              ** eapply Eff_skip; eauto. right. intros cb fl'. congruence.
        -- destruct (ctx_of s x) as [c|] eqn:Ec; [|discriminate]. destruct (storage c) as [|v l] eqn:Ea; inversion Hr; subst; [eapply Eff_notify; eauto|].
           rewrite <- Ea. eapply Eff_tlsswap; eauto. congruence.
      * pose proof (Eff_erase pl s t th x n Es Ee) as G. destruct pl; inversion Hr; subst; exact G.
      * inversion Hr; subst. eapply Eff_notified; eauto.
    + inversion Hr; subst. eapply Eff_pop; eauto.
    + inversion Hr; subst. eapply Eff_call; eauto.
Qed.

(** ** Basic facts *)
Lemma getv_setv l k v j : getv (setv l k v) j = if j =? k then v else getv l j.
Proof.
  revert l j. induction k as [|k IH]; intros [|x l] [|j]; cbn; try reflexivity.
  - destruct j; reflexivity.
  - unfold getv in IH. rewrite IH. destruct (j =? k); [reflexivity|]. destruct j; reflexivity.
  - apply IH.
Qed.
Lemma setv_nonempty l k v : setv l k v <> [].
Proof. destruct k, l; discriminate. Qed.

Lemma slot_set s t o u : t < length (slots s) -> slot (set_slot s t o) u = if u =? t then o else slot s u.
Proof.
  intros H. unfold slot, set_slot. cbn [slots]. destruct (nth_error (slots s) t) as [w|] eqn:E; [|apply nth_error_None in E; lia].
  destruct (Nat.eqb_spec u t) as [->|Hn]; [rewrite (nth_upd_eq _ _ _ _ E); destruct o; reflexivity|rewrite nth_upd_neq by congruence; reflexivity].
Qed.
Lemma ctx_len s x c : ctx_of s x = Some c -> x < length (ctxs s).
Proof. unfold ctx_of. intros H. apply nth_error_Some. destruct (nth_error (ctxs s) x); congruence. Qed.
Lemma ctx_set s x c o y : ctx_of s x = Some c -> ctx_of (set_ctx s x o) y = if y =? x then o else ctx_of s y.
Proof.
  intros H. apply ctx_len in H. unfold ctx_of, set_ctx. cbn [ctxs]. destruct (nth_error (ctxs s) x) as [w|] eqn:E; [|apply nth_error_None in E; lia].
  destruct (Nat.eqb_spec y x) as [->|Hn]; [rewrite (nth_upd_eq _ _ _ _ E); destruct o; reflexivity|rewrite nth_upd_neq by congruence; reflexivity].
Qed.

(** ** Contexts *)
Definition exof (e : estate) : option nat := match e with ExAt x _ _ | ExTls x _ _ _ | ExNot x _ _ => Some x | _ => None end.
Definition phase_ok (pl : plat) (e : estate) (c : ctx) : Prop :=
  match e with
  | ExNot _ _ _ => storage c = [] /\ (pl <> Win -> atexit c = [])
  | ExTls _ _ _ _ => pl <> Win -> atexit c = []
  | _ => True
  end.
Definition WFC (pl : plat) (s : tsh) (ths : list thr) : Prop :=
  length (slots s) = length ths /\
  (forall t x, slot s t = Some x -> exists c, ctx_of s x = Some c /\ xown c = t) /\
  (forall t th x, nth_error ths t = Some th -> exof (est th) = Some x -> exists c, ctx_of s x = Some c /\ xown c = t /\ (slot s t = Some x <-> pl = Win) /\ phase_ok pl (est th) c) /\
  (forall x c, ctx_of s x = Some c -> slot s (xown c) = Some x \/ exists th, nth_error ths (xown c) = Some th /\ exof (est th) = Some x) /\
  (forall t th, nth_error ths t = Some th ->
     match est th with ExNot _ _ _ => stk th = [] | Iter _ => stk th = [] /\ pl <> Win | Done => stk th = [] /\ (pl = Win -> slot s t = None) | _ => True end).

(** A thread moves within the same context. *)
Lemma WFC_thr pl s ths t th th' : WFC pl s ths -> nth_error ths t = Some th -> exof (est th') = exof (est th) ->
  (forall x c, exof (est th') = Some x -> ctx_of s x = Some c -> phase_ok pl (est th) c -> phase_ok pl (est th') c) ->
  match est th' with ExNot _ _ _ => stk th' = [] | Iter _ => stk th' = [] /\ pl <> Win | Done => stk th' = [] /\ (pl = Win -> slot s t = None) | _ => True end ->
  WFC pl s (upd ths t th').
Proof.
  intros (H1 & H2 & H3 & H4 & H5) Ht Ex Hph Hst. split; [rewrite upd_length; exact H1|]. split; [exact H2|]. split; [|split].
  - intros u x y Hu Hy. apply nth_upd_inv in Hu. destruct Hu as [(<- & <- & _)|(Hn & Hu)]; [|exact (H3 u x y Hu Hy)].
    pose proof Hy as Hy'. rewrite Ex in Hy'. destruct (H3 t th y Ht Hy') as (c & A & B & C & D). exists c. split; [exact A|]. split; [exact B|]. split; [exact C|]. eauto.
  - intros x c Hc. destruct (H4 x c Hc) as [G|(w & Hw & Hx)]; [left; exact G|right].
    destruct (Nat.eq_dec t (xown c)) as [E|Hn]; [rewrite <- E in *; exists th'; rewrite (nth_upd_eq _ _ _ _ Ht); split; [reflexivity|]; congruence|].
    exists w. rewrite nth_upd_neq by exact Hn. auto.
  - intros u x Hu. apply nth_upd_inv in Hu. destruct Hu as [(<- & <- & _)|(Hn & Hu)]; [exact Hst|exact (H5 u x Hu)].
Qed.

(** The contents of a context change. *)
Lemma WFC_ctx pl s ths x c c' : WFC pl s ths -> ctx_of s x = Some c -> xown c' = xown c ->
  (forall th, nth_error ths (xown c) = Some th -> exof (est th) = Some x -> phase_ok pl (est th) c -> phase_ok pl (est th) c') ->
  WFC pl (set_ctx s x (Some c')) ths.
Proof.
  intros (H1 & H2 & H3 & H4 & H5) Hc Ho Hph.
  assert (Hg : forall y, ctx_of (set_ctx s x (Some c')) y = if y =? x then Some c' else ctx_of s y) by (intros y; eapply ctx_set; eauto).
  assert (Hs : forall u, slot (set_ctx s x (Some c')) u = slot s u) by reflexivity.
  split; [exact H1|]. split; [|split; [|split]].
  - intros t y Hy. rewrite Hs in Hy. destruct (H2 t y Hy) as (d & A & B). rewrite Hg. destruct (Nat.eqb_spec y x) as [->|]; [exists c'; split; [reflexivity|]; congruence|eauto].
  - intros t th y Ht Hy. destruct (H3 t th y Ht Hy) as (d & A & B & C & D). rewrite Hg, Hs. destruct (Nat.eqb_spec y x) as [->|]; [|eauto].
    rewrite Hc in A. inversion A; subst d. exists c'. split; [reflexivity|]. split; [congruence|]. split; [exact C|]. apply Hph; auto. congruence.
  - intros y d. rewrite Hg, Hs. destruct (Nat.eqb_spec y x) as [->|]; [intros E; inversion E; subst d; rewrite Ho; apply H4; exact Hc|apply H4].
  - intros t th Ht. specialize (H5 t th Ht). destruct (est th); auto.
Qed.

Lemma ensure_ok pl s ths t th : WFC pl s ths -> nth_error ths t = Some th -> user th = true ->
  let s' := fst (ensure s t) in let x := snd (ensure s t) in
  WFC pl s' ths /\ slot s' t = Some x /\ (exists c, ctx_of s' x = Some c /\ xown c = t /\ (slot s t = None -> c = X t [] [] []) /\ (slot s t <> None -> ctx_of s x = Some c)) /\
  (forall y c, ctx_of s y = Some c -> ctx_of s' y = Some c) /\ (forall y c, ctx_of s' y = Some c -> ctx_of s y = Some c \/ (slot s t = None /\ y = x)) /\
  (forall u, u <> t -> slot s' u = slot s u).
Proof.
  intros (H1 & H2 & H3 & H4 & H5) Ht Hu. unfold ensure. destruct (slot s t) as [x|] eqn:Es; cbn [fst snd].
  - split; [repeat split; auto|]. split; [exact Es|]. destruct (H2 t x Es) as (c & A & B). split; [exists c; split; [exact A|]; split; [exact B|]; split; [discriminate|intros _; exact A]|].
    split; [auto|]. split; [auto|]. reflexivity.
  - set (x := length (ctxs s)). set (s' := TS _ _ _ _ _ _).
    assert (HL : t < length (slots s)) by (rewrite H1; apply nth_error_Some; congruence).
    assert (Hsl : forall u, slot s' u = if u =? t then Some x else slot s u) by (intros u; exact (slot_set s t (Some x) u HL)).
    assert (Hnone : ctx_of s x = None) by (unfold ctx_of, x; rewrite (proj2 (nth_error_None _ _)) by lia; reflexivity).
    assert (Hcx : forall y, ctx_of s' y = if y =? x then Some (X t [] [] []) else ctx_of s y).
    { intros y. unfold ctx_of, s'. cbn [ctxs]. destruct (Nat.eqb_spec y x) as [->|Hn].
      - rewrite nth_error_app2 by (unfold x; lia). unfold x. rewrite Nat.sub_diag. reflexivity.
      - destruct (le_lt_dec (length (ctxs s)) y) as [Hge|Hlt]; [|rewrite nth_error_app1 by exact Hlt; reflexivity].
        rewrite nth_error_app2 by exact Hge. rewrite (proj2 (nth_error_None (ctxs s) y)) by exact Hge. destruct (y - length (ctxs s)) as [|m] eqn:Em; [unfold x in Hn; lia|]. cbn. destruct m; reflexivity. }
    assert (Hnew : forall y c, ctx_of s y = Some c -> ctx_of s' y = Some c) by (intros y c Hy; rewrite Hcx; destruct (Nat.eqb_spec y x) as [->|]; congruence).
    assert (Hex : exof (est th) <> None -> pl <> Win).
    { intros He ->. destruct (exof (est th)) as [y|] eqn:Ey; [|congruence]. destruct (H3 t th y Ht Ey) as (c & _ & _ & C & _). rewrite (proj2 C eq_refl) in Es. discriminate. }
    split; [|split; [|split; [|split; [|split]]]].
    + split; [cbn; rewrite upd_length; exact H1|]. split; [|split; [|split]].
      * intros u y. rewrite Hsl. destruct (Nat.eqb_spec u t) as [->|Hn]; [intros E; inversion E; subst y; rewrite Hcx, Nat.eqb_refl; eauto|].
        intros E. destruct (H2 u y E) as (c & A & B). exists c. auto.
      * intros u w y Hw Hy. destruct (H3 u w y Hw Hy) as (c & A & B & C & D). exists c. split; [auto|]. split; [exact B|]. split; [|exact D].
        rewrite Hsl. destruct (Nat.eqb_spec u t) as [->|Hn]; [|exact C]. rewrite Ht in Hw. inversion Hw; subst w.
        split; [intros E; inversion E; subst y; congruence|]. intros ->. exfalso. apply Hex; [congruence|reflexivity].
      * intros y c. rewrite Hcx, Hsl. destruct (Nat.eqb_spec y x) as [->|Hn]; [intros E; inversion E; subst c; cbn [xown]; rewrite Nat.eqb_refl; left; reflexivity|].
        intros Hc. destruct (H4 y c Hc) as [G|G]; [|right; exact G]. left. destruct (Nat.eqb_spec (xown c) t) as [E|]; [rewrite E in G; congruence|exact G].
      * intros u w Hw. specialize (H5 u w Hw). destruct (est w) eqn:Ew; auto. destruct H5 as (A & B). split; [exact A|]. intros Hp. rewrite Hsl.
        destruct (Nat.eqb_spec u t) as [->|]; [|auto]. exfalso. rewrite Ht in Hw. inversion Hw; subst w. unfold user in Hu. rewrite A, Ew in Hu. discriminate.
    + rewrite Hsl, Nat.eqb_refl. reflexivity.
    + exists (X t [] [] []). rewrite Hcx, Nat.eqb_refl. repeat split; auto. congruence.
    + exact Hnew.
    + intros y c. rewrite Hcx. destruct (Nat.eqb_spec y x) as [->|]; auto.
    + intros u Hn. rewrite Hsl. destruct (Nat.eqb_spec u t); [congruence|reflexivity].
Qed.

(** User code may change its thread's context. *)
Lemma user_ctx pl s ths t th x c c' : WFC pl s ths -> nth_error ths t = Some th -> user th = true -> slot s t = Some x -> ctx_of s x = Some c ->
  xown c' = xown c -> WFC pl (set_ctx s x (Some c')) ths.
Proof.
  intros HW Ht Hu Hs Hc Ho. pose proof HW as (H1 & H2 & H3 & H4 & H5). apply (WFC_ctx pl s ths x c c' HW Hc Ho).
  intros w Hw Hx _. destruct (H2 t x Hs) as (d & Hd & Od). assert (d = c) as -> by congruence. rewrite Od, Ht in Hw. inversion Hw; subst w.
  destruct (H3 t th x Ht Hx) as (d & Ed & _ & C & _). assert (pl = Win) as -> by (apply C; exact Hs).
  specialize (H5 t th Ht). destruct (est th) eqn:Ee; cbn; try exact I; try congruence.
  exfalso. unfold user in Hu. rewrite H5, Ee in Hu. discriminate.
Qed.

Lemma WFC_ext pl s s' ths : slots s' = slots s -> ctxs s' = ctxs s -> WFC pl s ths -> WFC pl s' ths.
Proof.
  intros E1 E2 (H1 & H2 & H3 & H4 & H5). assert (Hs : forall u, slot s' u = slot s u) by (intros u; unfold slot; rewrite E1; reflexivity).
  assert (Hc : forall y, ctx_of s' y = ctx_of s y) by (intros y; unfold ctx_of; rewrite E2; reflexivity).
  split; [congruence|]. split; [intros t x; rewrite Hs, Hc; apply H2|]. split; [intros t th x; rewrite Hs, Hc; apply H3|].
  split; [intros x c; rewrite Hs, Hc; apply H4|]. intros t th Ht. rewrite Hs. apply H5. exact Ht.
Qed.

Lemma user_push th fr : user th = true -> exof (est (push th fr)) = exof (est th).
Proof. reflexivity. Qed.

Lemma user_stack pl s ths t th th' : WFC pl s ths -> nth_error ths t = Some th -> user th = true -> est th' = est th -> WFC pl s (upd ths t th').
Proof.
  intros HW Ht Hu He. eapply WFC_thr; eauto; [congruence|intros; congruence|]. rewrite He. pose proof HW as (_ & _ & _ & _ & H5). specialize (H5 t th Ht).
  unfold user in Hu. destruct (est th) eqn:Ee; auto; exfalso; destruct H5 as (H5 & _) || idtac; rewrite H5 in Hu; discriminate.
Qed.
Lemma stack_any pl s ths t th th' f r : WFC pl s ths -> nth_error ths t = Some th -> stk th = f :: r -> est th' = est th -> WFC pl s (upd ths t th').
Proof.
  intros HW Ht Hu He. eapply WFC_thr; eauto; [congruence|intros; congruence|]. rewrite He. pose proof HW as (_ & _ & _ & _ & H5). specialize (H5 t th Ht).
  destruct (est th) eqn:Ee; auto; exfalso; destruct H5 as (H5 & _) || idtac; rewrite H5 in Hu; discriminate.
Qed.

Definition clr (k : nat) (c : ctx) : ctx := if getv (storage c) k =? 0 then c else X (xown c) (setv (storage c) k 0) (atexit c) (notif c).
Lemma clr_own k c : xown (clr k c) = xown c. Proof. unfold clr. destruct (getv (storage c) k =? 0); reflexivity. Qed.
Lemma clr_atexit k c : atexit (clr k c) = atexit c. Proof. unfold clr. destruct (getv (storage c) k =? 0); reflexivity. Qed.
Lemma clr_notif k c : notif (clr k c) = notif c. Proof. unfold clr. destruct (getv (storage c) k =? 0); reflexivity. Qed.
Lemma clr_nil k c : storage c = [] -> storage (clr k c) = []. Proof. unfold clr. intros E. rewrite E. unfold getv. cbn. destruct k; cbn; exact E. Qed.
Lemma clr_get k c j : getv (storage (clr k c)) j = if j =? k then 0 else getv (storage c) j.
Proof.
  unfold clr. destruct (Nat.eqb_spec (getv (storage c) k) 0) as [E|E]; [destruct (Nat.eqb_spec j k) as [->|]; [exact E|reflexivity]|]. cbn [storage]. apply getv_setv.
Qed.
Lemma clear1_clr k c : clear1 k (Some c) = Some (clr k c). Proof. cbn. unfold clr. destruct (getv (storage c) k =? 0); reflexivity. Qed.

(** delete_key in terms of the accessors. *)
Lemma delete_facts s p q :
  let s' := fst (delete_key s p q) in
  slots s' = slots s /\ nreg s' = nreg s /\ tptrs s' = upd (tptrs s) p (TP (pkey q) (pcb q) false) /\
  ((exists cb, nth_error (keys s) (pkey q) = Some (cb, true) /\ keys s' = upd (keys s) (pkey q) (None, true) /\ freed s' = pkey q :: freed s /\
      ctxs s' = map (clear1 (pkey q)) (ctxs s) /\ (forall x, ctx_of s' x = match ctx_of s x with Some c => Some (clr (pkey q) c) | None => None end) /\
      snd (delete_key s p q) = match cb with Some f => [FRun f (concat (map (vals1 (pkey q)) (ctxs s)))] | None => [] end) \/
   ((forall cb, nth_error (keys s) (pkey q) <> Some (cb, true)) /\ keys s' = keys s /\ freed s' = freed s /\ ctxs s' = ctxs s /\ snd (delete_key s p q) = [])).
Proof.
  unfold delete_key. destruct (nth_error (keys s) (pkey q)) as [[cb [|]]|] eqn:E; cbn [fst snd]; (split; [reflexivity|]; split; [reflexivity|]; split; [reflexivity|]).
  - left. exists cb. repeat split. intros x. unfold ctx_of. cbn [ctxs]. rewrite nth_error_map. destruct (nth_error (ctxs s) x) as [[c|]|]; cbn [option_map]; try reflexivity. rewrite clear1_clr. reflexivity.
  - right. repeat split. intros cb'. congruence.
  - right. repeat split. intros cb'. congruence.
Qed.

Lemma WFC_delete pl s ths p q : WFC pl s ths -> WFC pl (fst (delete_key s p q)) ths.
Proof.
  intros HW. destruct (delete_facts s p q) as (Es & _ & _ & [(cb & _ & _ & _ & _ & Hc & _)|(_ & _ & _ & Hc & _)]); [|eapply WFC_ext; eauto].
  pose proof HW as (H1 & H2 & H3 & H4 & H5). set (s' := fst (delete_key s p q)) in *.
  assert (Hs : forall u, slot s' u = slot s u) by (intros u; unfold slot; rewrite Es; reflexivity).
  split; [congruence|]. split; [|split; [|split]].
  - intros t x Hx. rewrite Hs in Hx. destruct (H2 t x Hx) as (c & A & B). rewrite Hc, A. exists (clr (pkey q) c). rewrite clr_own. auto.
  - intros t th x Ht Hx. destruct (H3 t th x Ht Hx) as (c & A & B & C & D). rewrite Hc, A, Hs. exists (clr (pkey q) c). rewrite clr_own. split; [reflexivity|]. split; [exact B|]. split; [exact C|].
    destruct (est th); cbn in *; rewrite ?clr_atexit; auto. destruct D as (D1 & D2). split; [apply clr_nil; exact D1|exact D2].
  - intros x c. rewrite Hc. destruct (ctx_of s x) as [d|] eqn:Ed; [|discriminate]. intros E. inversion E; subst c. rewrite clr_own, Hs. apply H4. exact Ed.
  - intros t th Ht. rewrite Hs. apply H5. exact Ht.
Qed.

Lemma get_ext s s' t k : slots s' = slots s -> ctxs s' = ctxs s -> get s' t k = get s t k.
Proof. intros E1 E2. unfold get, slot, ctx_of. rewrite E1, E2. reflexivity. Qed.

Lemma set_value_ok pl s ths t th k v : WFC pl s ths -> nth_error ths t = Some th -> user th = true ->
  WFC pl (set_value s t k v) ths /\ (forall u j, get (set_value s t k v) u j = if (u =? t) && (j =? k) then v else get s u j) /\
  (exists x c, slot (set_value s t k v) t = Some x /\ ctx_of (fst (ensure s t)) x = Some c /\ set_value s t k v = set_ctx (fst (ensure s t)) x (Some (X (xown c) (setv (storage c) k v) (atexit c) (notif c))) /\ snd (ensure s t) = x).
Proof.
  intros HW Ht Hu. pose proof (ensure_ok pl s ths t th HW Ht Hu) as (HW' & Hs & (c & Hc & Ho & Hn1 & Hn2) & Hmono & Hback & Hoth).
  unfold set_value. destruct (ensure s t) as [s1 x] eqn:E. cbn [fst snd] in *. rewrite Hc.
  split; [eapply user_ctx; eauto|]. split.
  - intros u j. unfold get at 1.
    change (slot (set_ctx s1 x (Some (X (xown c) (setv (storage c) k v) (atexit c) (notif c)))) u) with (slot s1 u).
    destruct (Nat.eqb_spec u t) as [->|Hne]; cbn [andb].
    + rewrite Hs, (ctx_set _ _ _ _ _ Hc), Nat.eqb_refl. cbn [storage]. rewrite getv_setv. destruct (j =? k); [reflexivity|].
      unfold get. destruct (slot s t) as [y|] eqn:Ey.
      * assert (Hyx : y = x) by (unfold ensure in E; rewrite Ey in E; inversion E; reflexivity). subst y. rewrite Hn2 by congruence. reflexivity.
      * rewrite Hn1 by reflexivity. unfold getv. destruct j; reflexivity.
    + rewrite (Hoth u Hne). unfold get. destruct (slot s u) as [y|] eqn:Ey; [|reflexivity].
      destruct HW as (_ & H2 & _). destruct (H2 u y Ey) as (d & Hd & Od). assert (y <> x).
      { intros ->. specialize (Hmono x d Hd). rewrite Hc in Hmono. inversion Hmono; subst d. congruence. }
      rewrite (ctx_set _ _ _ _ _ Hc), (proj2 (Nat.eqb_neq y x)) by assumption. rewrite (Hmono y d Hd), Hd. reflexivity.
  - exists x, c. auto.
Qed.

Lemma ensure_get pl s ths t th : WFC pl s ths -> nth_error ths t = Some th -> user th = true -> forall u j, get (fst (ensure s t)) u j = get s u j.
Proof.
  intros HW Ht Hu u j. pose proof (ensure_ok pl s ths t th HW Ht Hu) as (HW' & Hs & (c & Hc & Ho & Hn1 & Hn2) & Hmono & Hback & Hoth).
  unfold get at 1. destruct (Nat.eq_dec u t) as [->|Hn].
  - rewrite Hs, Hc. unfold get. destruct (slot s t) as [y|] eqn:Ey.
    + assert (Hyx : y = snd (ensure s t)) by (unfold ensure; rewrite Ey; reflexivity). rewrite Hyx, Hn2 by congruence. reflexivity.
    + rewrite Hn1 by reflexivity. unfold getv. destruct j; reflexivity.
  - rewrite (Hoth u Hn). unfold get. destruct (slot s u) as [y|] eqn:Ey; [|reflexivity]. destruct HW as (_ & H2 & _). destruct (H2 u y Ey) as (d & Hd & _). rewrite (Hmono y d Hd), Hd. reflexivity.
Qed.

(** Changing fields of a context other than the storage does not change any value. *)
Lemma get_set_ctx s x c c' u j : ctx_of s x = Some c -> storage c' = storage c -> get (set_ctx s x (Some c')) u j = get s u j.
Proof.
  intros Hc Es. unfold get. change (slot (set_ctx s x (Some c')) u) with (slot s u). destruct (slot s u) as [y|]; [|reflexivity].
  rewrite (ctx_set _ _ _ _ _ Hc). destruct (Nat.eqb_spec y x) as [->|]; [rewrite Hc, Es; reflexivity|reflexivity].
Qed.

Lemma WFC_step pl s ths t th s' th' e : WFC pl s ths -> nth_error ths t = Some th -> tss_eff pl s t th s' th' e -> WFC pl s' (upd ths t th').
Proof.
  intros HW Ht He. pose proof HW as (H1 & H2 & H3 & H4 & H5).
  assert (HL : t < length (slots s)) by (rewrite H1; apply nth_error_Some; congruence).
  destruct He.
  - rewrite (upd_same _ _ _ Ht). eapply WFC_ext; [| |exact HW]; unfold new_key; destruct (freed s); reflexivity.
  - eapply user_stack; [apply WFC_delete; exact HW|exact Ht|assumption|reflexivity].
  - rewrite (upd_same _ _ _ Ht). exact HW.
  - rewrite (upd_same _ _ _ Ht). exact HW.
  - rewrite (upd_same _ _ _ Ht). eapply set_value_ok; eauto.
  - eapply user_stack; [eapply set_value_ok; eauto|exact Ht|assumption|reflexivity].
  - rewrite (upd_same _ _ _ Ht). exact HW.
  - rewrite (upd_same _ _ _ Ht). eapply ensure_ok; eauto.
  - rewrite (upd_same _ _ _ Ht). pose proof (ensure_ok pl s ths t th HW Ht H) as (HW' & Hs & _). cbv zeta.
    apply (WFC_ext pl (set_ctx (fst (ensure s t)) (snd (ensure s t)) (Some (X (xown c) (storage c) (atexit c ++ [nreg s]) (notif c))))); [reflexivity|reflexivity|]. eapply user_ctx; eauto.
  - rewrite (upd_same _ _ _ Ht). pose proof (ensure_ok pl s ths t th HW Ht H) as (HW' & Hs & _). eapply user_ctx; eauto.
  - eapply stack_any; eauto.
  - (* exit *)
    destruct pl.
    + destruct (slot s t) as [x|] eqn:Ex.
      * split; [rewrite upd_length; exact H1|]. split; [exact H2|]. split; [|split].
        -- intros u w y Hu Hy. apply nth_upd_inv in Hu. destruct Hu as [(<- & -> & _)|(Hn & Hu)]; [|exact (H3 u w y Hu Hy)]. cbn in Hy. inversion Hy; subst y.
           destruct (H2 t x Ex) as (c & A & B). exists c. repeat split; auto.
        -- intros y c Hc. destruct (H4 y c Hc) as [G|(w & Hw & Hx)]; [left; exact G|right]. destruct (Nat.eq_dec t (xown c)) as [E|Hn]; [|exists w; rewrite nth_upd_neq by exact Hn; auto].
           exfalso. rewrite <- E, Ht in Hw. inversion Hw; subst w. rewrite H0 in Hx. discriminate.
        -- intros u w Hu. apply nth_upd_inv in Hu. destruct Hu as [(<- & -> & _)|(Hn & Hu)]; [exact I|exact (H5 u w Hu)].
      * eapply WFC_thr; eauto; cbn; [rewrite H0; reflexivity|discriminate|auto].
    + eapply WFC_thr; eauto; cbn; [rewrite H0; reflexivity|discriminate|]. split; [reflexivity|discriminate].
    + eapply WFC_thr; eauto; cbn; [rewrite H0; reflexivity|discriminate|]. split; [reflexivity|discriminate].
  - eapply stack_any; eauto.
  - eapply stack_any; eauto.
  - specialize (H5 t th Ht). rewrite H0 in H5. eapply WFC_thr; eauto; cbn; [rewrite H0; reflexivity|discriminate|]. split; [reflexivity|]. intros ->. destruct H5. congruence.
  - (* the destructor loop takes the context *)
    specialize (H5 t th Ht) as H5t. rewrite H0 in H5t. destruct H5t as (_ & Hpl).
    assert (Hsl := fun u => slot_set s t None u HL). split; [cbn; rewrite !upd_length; exact H1|]. split; [|split; [|split]].
    + intros u y. rewrite Hsl. destruct (Nat.eqb_spec u t); [discriminate|]. exact (H2 u y).
    + intros u w y Hu Hy. rewrite Hsl. apply nth_upd_inv in Hu. destruct Hu as [(<- & -> & _)|(Hn & Hu)].
      * cbn in Hy. inversion Hy; subst y. destruct (H2 t x H6) as (c & A & B). exists c. rewrite Nat.eqb_refl. split; [exact A|]. split; [exact B|]. split; [|exact I]. split; [discriminate|intros E; contradiction].
      * rewrite (proj2 (Nat.eqb_neq u t)) by congruence. exact (H3 u w y Hu Hy).
    + intros y c Hc. change (ctx_of (set_slot s t None) y) with (ctx_of s y) in Hc. rewrite Hsl. destruct (H4 y c Hc) as [G|(w & Hw & Hx)].
      * destruct (Nat.eqb_spec (xown c) t) as [E|]; [right|left; exact G]. rewrite E in *. exists (Th [] (ExAt x n [])). rewrite (nth_upd_eq _ _ _ _ Ht). split; [reflexivity|]. cbn. congruence.
      * right. destruct (Nat.eq_dec t (xown c)) as [E|Hn]; [|exists w; rewrite nth_upd_neq by exact Hn; auto]. exfalso. rewrite <- E, Ht in Hw. inversion Hw; subst w. rewrite H0 in Hx. discriminate.
    + intros u w Hu. rewrite Hsl. apply nth_upd_inv in Hu. destruct Hu as [(<- & -> & _)|(Hn & Hu)]; [exact I|]. specialize (H5 u w Hu). destruct (est w); auto. destruct H5 as (A & B). split; [exact A|].
      intros E. destruct (u =? t); auto.
  - eapply WFC_thr; eauto; cbn; [rewrite H0; reflexivity|trivial|exact I].
  - eapply WFC_thr; eauto; cbn; [rewrite H0; reflexivity| |exact I]. intros y d Hy Hd _ _. inversion Hy; subst y. congruence.
  - (* round of exit functions *)
    assert (HW' : WFC pl (set_ctx s x (Some (X (xown c) (storage c) [] (notif c)))) ths).
    { eapply WFC_ctx; eauto. intros w Hw Hx Hp. destruct (est w); cbn in *; auto. destruct Hp. auto. }
    eapply WFC_thr; eauto; cbn; [rewrite H0; reflexivity|trivial|exact I].
  - eapply WFC_thr; eauto; cbn; [rewrite H0; reflexivity| |exact I]. intros y d Hy Hd. rewrite H0. cbn. auto.
  - eapply WFC_thr; eauto; cbn; [rewrite H0; reflexivity| |exact I]. intros y d Hy Hd. rewrite H0. cbn. auto.
  - eapply WFC_thr; eauto; cbn; [rewrite H0; reflexivity| |reflexivity]. intros y d Hy Hd. rewrite H0. cbn. inversion Hy; subst y. assert (d = c) as -> by congruence. auto.
  - assert (HW' : WFC pl (set_ctx s x (Some (X (xown c) [] (atexit c) (notif c)))) ths).
    { eapply WFC_ctx; eauto. intros w Hw Hx Hp. destruct (est w); cbn in *; auto. destruct Hp. auto. }
    eapply WFC_thr; eauto; cbn; [rewrite H0; reflexivity| |exact I]. intros y d Hy Hd. rewrite H0. cbn. auto.
  - eapply WFC_thr; eauto; cbn; [rewrite H0; reflexivity| |reflexivity]. intros y d Hy Hd. rewrite H0. cbn. auto.
  - (* the context is destroyed *)
    destruct (H3 t th x Ht ltac:(rewrite H0; reflexivity)) as (c & Hc & Ho & Hwin & _).
    set (s1 := match pl with Win => set_slot (set_ctx s x None) t None | _ => set_ctx s x None end).
    assert (Hcx : forall y, ctx_of s1 y = if y =? x then None else ctx_of s y) by (intros y; unfold s1; destruct pl; exact (ctx_set s x c None y Hc)).
    assert (HL' : length (slots s1) = length ths) by (unfold s1; destruct pl; cbn; rewrite ?upd_length; exact H1).
    assert (Hsl : forall u y, slot s1 u = Some y -> slot s u = Some y /\ y <> x).
    { intros u y Hy. unfold s1 in Hy. destruct pl.
      - rewrite (slot_set (set_ctx s x None) t None u HL) in Hy. destruct (Nat.eqb_spec u t) as [->|Hn]; [discriminate|]. change (slot (set_ctx s x None) u) with (slot s u) in Hy.
        split; [exact Hy|]. intros ->. destruct (H2 u x Hy) as (d & A & B). congruence.
      - change (slot (set_ctx s x None) u) with (slot s u) in Hy. split; [exact Hy|]. intros ->. destruct (H2 u x Hy) as (d & A & B). assert (E : u = t) by congruence. rewrite E in Hy. apply Hwin in Hy. discriminate.
      - change (slot (set_ctx s x None) u) with (slot s u) in Hy. split; [exact Hy|]. intros ->. destruct (H2 u x Hy) as (d & A & B). assert (E : u = t) by congruence. rewrite E in Hy. apply Hwin in Hy. discriminate. }
    assert (Hsl2 : forall u y, slot s u = Some y -> y <> x -> slot s1 u = Some y).
    { intros u y Hy Hn. unfold s1. destruct pl; try exact Hy. rewrite (slot_set (set_ctx s x None) t None u HL). destruct (Nat.eqb_spec u t) as [->|]; [|exact Hy].
      exfalso. apply Hn. rewrite (proj2 Hwin eq_refl) in Hy. congruence. }
    split; [rewrite upd_length; exact HL'|]. split; [|split; [|split]].
    + intros u y Hy. destruct (Hsl u y Hy) as (A & B). rewrite Hcx, (proj2 (Nat.eqb_neq y x) B). exact (H2 u y A).
    + intros u w y Hu Hy. apply nth_upd_inv in Hu. destruct Hu as [(<- & -> & _)|(Hn & Hu)]; [destruct pl; discriminate|].
      destruct (H3 u w y Hu Hy) as (d & A & B & C & D). assert (y <> x) by (intros ->; congruence). rewrite Hcx, (proj2 (Nat.eqb_neq y x)) by assumption.
      exists d. split; [exact A|]. split; [exact B|]. split; [|exact D]. split; [intros E; apply C; apply (Hsl u y E)|intros E; apply Hsl2; [apply C; exact E|assumption]].
    + intros y d. rewrite Hcx. destruct (Nat.eqb_spec y x) as [|Hn]; [discriminate|]. intros Hd. destruct (H4 y d Hd) as [G|(w & Hw & Hx)]; [left; apply Hsl2; assumption|right].
      destruct (Nat.eq_dec t (xown d)) as [E|Hne]; [|exists w; rewrite nth_upd_neq by exact Hne; auto]. exfalso. rewrite <- E, Ht in Hw. inversion Hw; subst w. rewrite H0 in Hx. cbn in Hx. congruence.
    + intros u w Hu. apply nth_upd_inv in Hu. destruct Hu as [(<- & -> & _)|(Hn & Hu)].
      * destruct pl; cbn; auto; try (split; [reflexivity|discriminate]). split; [reflexivity|]. intros _. unfold s1. rewrite (slot_set (set_ctx s x None) t None t HL), Nat.eqb_refl. reflexivity.
      * specialize (H5 u w Hu). destruct (est w); auto. destruct H5 as (A & B). split; [exact A|]. intros E. destruct (slot s1 u) as [y|] eqn:Ey; [|reflexivity]. apply Hsl in Ey. rewrite (B E) in Ey. destruct Ey; discriminate.
Qed.
