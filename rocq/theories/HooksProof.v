(** Proofs about HooksModel.v. *)
From Coq Require Import List Bool Arith ZArith Lia.
From Verif Require Import ListSum Exec TssModel TssExit ProcExit ProcExitProof PropsTss HooksModel.
Import ListNotations.

Inductive hk_eff (b : build) (ctls : bool) (c : hst) : hact -> hst -> list hevt -> Prop :=
| EfLib a l e : hfin c = None -> tss_step Win (hlib c) a = Some (l, e) -> may_run b c (thread_of a) = true -> hk_eff b ctls c (KLib a) (HS l (hq c) (hend c) None) (lib_evs e)
| EfNote t n he : hfin c = None -> nth_error (hq c) t = Some None -> (n = NThrOut /\ he = hend c /\ (hend c = None \/ runs_on b = true) \/ n = NProcOut /\ hend c = None /\ he = Some t) ->
    hk_eff b ctls c (KNote t n) (HS (hlib c) (upd (hq c) t (Some (hooks b n))) he None) [VNote t n]
| EfSkip t h r : hfin c = None -> nth_error (hq c) t = Some (Some (h :: r)) -> may_run b c t = true -> h <> HProcOut -> (h = HThrOut -> exists th, nth_error (snd (hlib c)) t = Some th /\ est th = Done) ->
    hk_eff b ctls c (KHook t) (HS (hlib c) (upd (hq c) t (Some r)) (hend c) None) [VHook t h]
| EfThr t r l e : hfin c = None -> nth_error (hq c) t = Some (Some (HThrOut :: r)) -> may_run b c t = true -> tss_step Win (hlib c) (AExit t) = Some (l, e) ->
    hk_eff b ctls c (KHook t) (HS l (upd (hq c) t (Some r)) (hend c) None) (VHook t HThrOut :: lib_evs e)
| EfProc t r : hfin c = None -> nth_error (hq c) t = Some (Some (HProcOut :: r)) -> may_run b c t = true ->
    hk_eff b ctls c (KHook t) (HS (hlib c) (upd (hq c) t (Some r)) (hend c) (Some (t, pe_start (fst (hlib c))))) [VHook t HProcOut]
| EfAgain t r q q' e : hfin c = Some (t, q) -> nth_error (hq c) t = Some (Some (HProcOut :: r)) -> may_run b c t = true -> pph q = PEnd -> pe_step ctls t q PAgain = Some (q', e) ->
    hk_eff b ctls c (KHook t) (HS (hlib c) (upd (hq c) t (Some r)) (hend c) (Some (t, q'))) (VHook t HProcOut :: lib_evs e)
| EfFin t q q' e a : hfin c = Some (t, q) -> pe_step ctls t q a = Some (q', e) -> hk_eff b ctls c (KFin a) (HS (hlib c) (hq c) (hend c) (Some (t, q'))) (lib_evs e)
| EfLate t t0 q q' e a : hfin c = Some (t0, q) -> runs_on b = true -> pe_user t q a = Some (q', e) -> hk_eff b ctls c (KLate t a) (HS (hlib c) (hq c) (hend c) (Some (t0, q'))) (lib_evs e)
| EfLateEnd t t0 q q' a hs : hfin c = Some (t0, q) -> runs_on b = true -> nth_error (hq c) t = Some None -> hs = hooks b NThrOut -> 
    hk_eff b ctls c (KLate t a) (HS (hlib c) (upd (hq c) t (Some [])) (hend c) (Some (t0, q'))) (VNote t NThrOut :: map (VHook t) hs).

Lemma hk_cases b ctls c a c' e : hk_step b ctls c a = Some (c', e) -> hk_eff b ctls c a c' e.
Proof.
  destruct c as [lib hqs he hf]. destruct a as [a|t n|t|a|t a]; cbn [hk_step hlib hq hend hfin].
  - destruct hf as [[? ?]|]; [discriminate|]. destruct (nth_error (snd lib) (thread_of a)) as [th|]; [|discriminate]. destruct (nth_error hqs (thread_of a)) as [q|]; [|discriminate].
    intros H. assert (G : may_run b (HS lib hqs he None) (thread_of a) = true /\ exists l e1, tss_step Win lib a = Some (l, e1) /\ c' = HS l hqs he None /\ e = lib_evs e1).
    { destruct a; try discriminate; (destruct (may_run b _ _); [|discriminate]; split; [reflexivity|]; cbn [andb] in H; destruct (negb _); [|discriminate]; destruct (tss_step Win lib _) as [[l e1]|]; [|discriminate]; injection H as <- <-; eauto). }
    destruct G as (M & l & e1 & E & -> & ->). eapply (EfLib b ctls (HS lib hqs he None)); eauto.
  - destruct (nth_error (snd lib) t) as [th|]; [|discriminate]. destruct (nth_error hqs t) as [[?|]|] eqn:Eq; try discriminate. destruct (at_rest th); [|discriminate]. destruct hf as [[? ?]|]; [discriminate|]. cbn [andb].
    destruct n; try discriminate.
    + destruct he as [t0|]; [destruct (runs_on b) eqn:R; [|discriminate]|]; intros H; injection H as <- <-; eapply (EfNote b ctls (HS lib hqs _ None)); auto; left; auto.
    + destruct he; [discriminate|]. intros H; injection H as <- <-. eapply (EfNote b ctls (HS lib hqs _ None)); auto; right; auto.
  - destruct (nth_error (snd lib) t) as [th|] eqn:Eth; [|discriminate]. destruct (nth_error hqs t) as [[[|h r]|]|] eqn:Eq; try discriminate. destruct (may_run _ _ _) eqn:M; [|discriminate].
    destruct h.
    + destruct hf; [discriminate|]. intros H; injection H as <- <-. eapply (EfSkip b ctls (HS lib hqs he None)); auto; try discriminate; intros _; exists th; auto.
    + intros H. assert (H' : match stk th, hf with [], None => Some (HS lib (upd hqs t (Some r)) he (Some (t, pe_start (fst lib))), [VHook t HProcOut])
                              | [], Some (t0, q) => if (t =? t0)%nat then match pph q, pe_step ctls t0 q PAgain with PEnd, Some (q', e) => Some (HS lib (upd hqs t (Some r)) he (Some (t0, q')), VHook t HProcOut :: lib_evs e) | _, _ => None end else None
                              | _, _ => None end = Some (c', e)).
      { destruct (est th); try discriminate; destruct (stk th); try discriminate; destruct hf as [[? ?]|]; try discriminate; exact H. }
      clear H. destruct (stk th); [|discriminate]. destruct hf as [[t0 q]|].
      * destruct (Nat.eqb_spec t t0) as [->|]; [|discriminate]. destruct (pph q) eqn:P; try discriminate. destruct (pe_step ctls t0 q PAgain) as [[q' e1]|] eqn:Ep; [|discriminate]. injection H' as <- <-. exact (EfAgain b ctls (HS lib hqs he (Some (t0, q))) t0 r q q' e1 eq_refl Eq M P Ep).
      * injection H' as <- <-. eapply (EfProc b ctls (HS lib hqs he None)); auto.
    + destruct hf; [discriminate|]. intros H; injection H as <- <-. eapply (EfSkip b ctls (HS lib hqs he None)); auto; try discriminate; intros _; exists th; auto.
    + destruct (est th) eqn:Eest; try discriminate; destruct (stk th); try discriminate; destruct hf as [[? ?]|]; try discriminate.
      * destruct (tss_step Win lib (AExit t)) as [[l e1]|] eqn:Et; [|discriminate]. intros H; injection H as <- <-. eapply (EfThr b ctls (HS lib hqs he None)); auto.
      * destruct (slot (fst lib) t); [discriminate|]. intros H; injection H as <- <-. eapply (EfSkip b ctls (HS lib hqs he None)); auto; try discriminate; intros _; exists th; auto.
  - destruct hf as [[t0 q]|]; [|discriminate]. intros H. assert (G : exists q' e1, pe_step ctls t0 q a = Some (q', e1) /\ c' = HS lib hqs he (Some (t0, q')) /\ e = lib_evs e1).
    { destruct (pph q); try discriminate; (destruct (pe_step ctls t0 q a) as [[q' e1]|]; [|discriminate]; injection H as <- <-; eauto). }
    destruct G as (q' & e1 & E & -> & ->). exact (EfFin b ctls (HS lib hqs he (Some (t0, q))) t0 q q' e1 a eq_refl E).
  - destruct hf as [[t0 q]|]; [|discriminate]. destruct (nth_error (snd lib) t) as [th|]; [|discriminate]. destruct (nth_error hqs t) as [o|] eqn:Eq; [|discriminate].
    destruct (negb (t =? t0)%nat); [|discriminate]. destruct (runs_on b) eqn:R; [|discriminate]. destruct (at_rest th); [|discriminate]. destruct (negb (crashed q)); [|discriminate]. cbn [andb].
    destruct a; try discriminate; destruct o; try discriminate; try (destruct (pe_user _ _ _) as [[q' e1]|] eqn:Eu; [|discriminate]; intros H; injection H as <- <-; exact (EfLate b ctls (HS lib hqs he (Some (t0, q))) t t0 q q' e1 _ eq_refl R Eu)).
    intros H. assert (HH : exists q', c' = HS lib (upd hqs t (Some [])) he (Some (t0, q')) /\ e = VNote t NThrOut :: map (VHook t) (hooks b NThrOut)).
    { destruct b; try discriminate; cbn [hooks map] in *; [destruct (access_of _ _)|]; injection H as <- <-; eauto. }
    destruct HH as (q' & -> & ->). exact (EfLateEnd b ctls (HS lib hqs he (Some (t0, q))) t t0 q q' PThreadExit _ eq_refl R Eq eq_refl).
Qed.

Lemma libs_app a b : libs (a ++ b) = libs a ++ libs b.
Proof. apply flat_map_app. Qed.
Lemma libs_evs e : libs (lib_evs e) = e.
Proof. induction e as [|x e IH]; [reflexivity|]. cbn. f_equal. exact IH. Qed.
Lemma libs_hook t h e : libs (VHook t h :: e) = libs e.
Proof. reflexivity. Qed.
Lemma libs_note t n e : libs (VNote t n :: e) = libs e.
Proof. reflexivity. Qed.
Lemma libs_hooks t l : libs (map (VHook t) l) = [].
Proof. induction l; [reflexivity|exact IHl]. Qed.

(** * What the library does is an execution of TssModel's machine, followed by one of ProcExit's *)
Definition nolate (a : hact) : Prop := match a with KLate _ _ => False | _ => True end.
Lemma exec_snoc {C A E} (step : C -> A -> option (C * list E)) c0 s c tr a c' e : exec step c0 s = Some (c, tr) -> step c a = Some (c', e) -> exec step c0 (s ++ [a]) = Some (c', tr ++ e).
Proof. intros H1 H2. rewrite exec_app, H1. cbn [exec]. rewrite H2, app_nil_r. reflexivity. Qed.
Lemma hk_project_from b ctls c0 sched c tr : hfin c0 = None -> Forall nolate sched -> exec (hk_step b ctls) c0 sched = Some (c, tr) ->
  exists s1 tr1, exec (tss_step Win) (hlib c0) s1 = Some (hlib c, tr1) /\
    match hfin c with
    | None => libs tr = tr1
    | Some (t0, q) => exists s2 tr2, exec (pe_step ctls t0) (pe_start (fst (hlib c))) s2 = Some (q, tr2) /\ libs tr = tr1 ++ tr2
    end.
Proof.
  intros F0. apply (exec_inv_acts (hk_step b ctls) nolate (fun c tr => exists s1 tr1, exec (tss_step Win) (hlib c0) s1 = Some (hlib c, tr1) /\ match hfin c with None => libs tr = tr1 | Some (t0, q) => exists s2 tr2, exec (pe_step ctls t0) (pe_start (fst (hlib c))) s2 = Some (q, tr2) /\ libs tr = tr1 ++ tr2 end)).
  - rewrite F0. exists [], []. split; reflexivity.
  - intros c1 t1 a c2 e (s1 & tr1 & H1 & H2) Ha Hs. apply hk_cases in Hs. rewrite libs_app. destruct Hs as [a l e1 F S M|t m he F S M|t h r F S M N D0|t r l e1 F S M St|t r F S M|t r q q' e1 F S M P St|t q q' e1 a F St|? ? ? ? ? ? F R|? ? ? ? ? ? F R]; try contradiction Ha; cbn [hlib hfin]; rewrite F in H2; rewrite ?libs_hook, ?libs_note, ?libs_evs.
    + exists (s1 ++ [a]), (tr1 ++ e1). split; [eapply exec_snoc; eauto|]. subst. reflexivity.
    + exists s1, tr1. split; [exact H1|]. cbn. rewrite app_nil_r. exact H2.
    + exists s1, tr1. split; [exact H1|]. cbn. rewrite app_nil_r. exact H2.
    + exists (s1 ++ [AExit t]), (tr1 ++ e1). split; [eapply exec_snoc; eauto|]. subst. reflexivity.
    + exists s1, tr1. split; [exact H1|]. exists [], []. split; [reflexivity|]. subst. reflexivity.
    + destruct H2 as (s2 & tr2 & H2 & H3). exists s1, tr1. split; [exact H1|]. exists (s2 ++ [PAgain]), (tr2 ++ e1). split; [eapply exec_snoc; eauto|]. rewrite H3, app_assoc. reflexivity.
    + destruct H2 as (s2 & tr2 & H2 & H3). exists s1, tr1. split; [exact H1|]. exists (s2 ++ [a]), (tr2 ++ e1). split; [eapply exec_snoc; eauto|]. rewrite H3, app_assoc. reflexivity.
Qed.
Lemma hk_project b ctls n sched c tr : Forall nolate sched -> exec (hk_step b ctls) (hk_init n) sched = Some (c, tr) ->
  exists s1 tr1, exec (tss_step Win) (tss_init n) s1 = Some (hlib c, tr1) /\
    match hfin c with
    | None => libs tr = tr1
    | Some (t0, q) => exists s2 tr2, exec (pe_step ctls t0) (pe_start (fst (hlib c))) s2 = Some (q, tr2) /\ libs tr = tr1 ++ tr2
    end.
Proof. intros Hl H. apply (hk_project_from b ctls (hk_init n) sched c tr eq_refl Hl H). Qed.

(** * The calls made on each thread *)
Definition calls (t : nat) (tr : list hevt) : list hook := flat_map (fun e => match e with VHook u h => if (u =? t)%nat then [h] else [] | _ => [] end) tr.
Lemma calls_app t a b : calls t (a ++ b) = calls t a ++ calls t b.
Proof. apply flat_map_app. Qed.
Lemma calls_evs t e : calls t (lib_evs e) = [].
Proof. induction e; [reflexivity|exact IHe]. Qed.
Lemma calls_hooks t l : calls t (map (VHook t) l) = l.
Proof. induction l as [|h l IH]; [reflexivity|]. cbn. rewrite Nat.eqb_refl. cbn. f_equal. exact IH. Qed.
Lemma calls_other t u l : t <> u -> calls t (map (VHook u) l) = [].
Proof. intros N. induction l as [|h l IH]; [reflexivity|]. cbn. destruct (Nat.eqb_spec u t); [congruence|]. exact IH. Qed.
Lemma calls_in t h tr : In h (calls t tr) -> In (VHook t h) tr.
Proof. unfold calls. rewrite in_flat_map. intros (e & He & Hi). destruct e as [| u h'|]; try destruct Hi. destruct (Nat.eqb_spec u t) as [->|]; [|destruct Hi]. destruct Hi as [->|[]]. exact He. Qed.

(** Hooks called so far and still to be called are the ones of the notification, in order. *)
Definition CI (b : build) (c : hst) (tr : list hevt) : Prop :=
  (forall t, nth_error (hq c) t = Some None -> calls t tr = [] /\ forall n, ~ In (VNote t n) tr) /\
  (forall t l, nth_error (hq c) t = Some (Some l) -> exists n, In (VNote t n) tr /\ (forall n', In (VNote t n') tr -> n' = n) /\ calls t tr ++ l = hooks b n /\ (n = NThrOut /\ hend c <> Some t \/ n = NProcOut /\ hend c = Some t)) /\
  (forall t, nth_error (hq c) t = None -> calls t tr = [] /\ forall n, ~ In (VNote t n) tr) /\
  (forall t, hend c = Some t -> exists l, nth_error (hq c) t = Some (Some l)).
Lemma notes_evs t n e : ~ In (VNote t n) (lib_evs e).
Proof. intros H. apply in_map_iff in H. destruct H as (x & E & _). discriminate. Qed.
Lemma CI_mono b c c' tr e : CI b c tr -> hq c' = hq c -> hend c' = hend c -> (forall t, calls t e = []) -> (forall t n, ~ In (VNote t n) e) -> CI b c' (tr ++ e).
Proof.
  intros (A & B & C & D) E1 E2 Hc Hn. unfold CI. rewrite E1, E2. split; [|split; [|split; [|exact D]]].
  - intros t Ht. destruct (A t Ht) as (A1 & A2). rewrite calls_app, A1, Hc. split; [reflexivity|]. intros n Hi. apply in_app_or in Hi. destruct Hi as [Hi|Hi]; [eapply A2; eauto|eapply Hn; eauto].
  - intros t l Ht. destruct (B t l Ht) as (n & B1 & B2 & B3 & B4). exists n. split; [apply in_or_app; auto|]. split; [|split; [|exact B4]].
    + intros n' Hi. apply in_app_or in Hi. destruct Hi as [Hi|Hi]; [auto|exfalso; eapply Hn; eauto].
    + rewrite calls_app, Hc, app_nil_r. exact B3.
  - intros t Ht. destruct (C t Ht) as (A1 & A2). rewrite calls_app, A1, Hc. split; [reflexivity|]. intros n Hi. apply in_app_or in Hi. destruct Hi as [Hi|Hi]; [eapply A2; eauto|eapply Hn; eauto].
Qed.
Lemma nth_upd_none {A} (l : list A) i j x : nth_error (upd l i x) j = None -> nth_error l j = None.
Proof. rewrite !nth_error_None, upd_length. auto. Qed.
(** A hook is called. *)
Lemma CI_hook b c c' tr e t h r : CI b c tr -> nth_error (hq c) t = Some (Some (h :: r)) -> hq c' = upd (hq c) t (Some r) -> hend c' = hend c -> calls t e = [h] -> (forall u, u <> t -> calls u e = []) -> (forall u n, ~ In (VNote u n) e) -> CI b c' (tr ++ e).
Proof.
  intros (A & B & C & D) Hq E1 E2 Hc Ho Hn. unfold CI. rewrite E1, E2. split; [|split; [|split]].
  - intros u Hu. destruct (nth_upd_inv _ _ _ _ _ Hu) as [(_ & ? & _)|(N & Hu')]; [discriminate|]. destruct (A u Hu') as (A1 & A2). rewrite calls_app, A1, Ho by congruence. split; [reflexivity|]. intros n Hi. apply in_app_or in Hi. destruct Hi as [Hi|Hi]; [eapply A2; eauto|eapply Hn; eauto].
  - intros u l Hu. destruct (nth_upd_inv _ _ _ _ _ Hu) as [(-> & El & _)|(N & Hu')].
    + injection El as ->. destruct (B _ _ Hq) as (n & B1 & B2 & B3 & B4). exists n. split; [apply in_or_app; auto|]. split; [|split; [|exact B4]].
      * intros n' Hi. apply in_app_or in Hi. destruct Hi as [Hi|Hi]; [auto|exfalso; eapply Hn; eauto].
      * rewrite calls_app, Hc, <- app_assoc. exact B3.
    + destruct (B _ _ Hu') as (n & B1 & B2 & B3 & B4). exists n. split; [apply in_or_app; auto|]. split; [|split; [|exact B4]].
      * intros n' Hi. apply in_app_or in Hi. destruct Hi as [Hi|Hi]; [auto|exfalso; eapply Hn; eauto].
      * rewrite calls_app, Ho, app_nil_r by congruence. exact B3.
  - intros u Hu. apply nth_upd_none in Hu. destruct (C u Hu) as (A1 & A2). rewrite calls_app, A1, Ho by congruence. split; [reflexivity|]. intros n Hi. apply in_app_or in Hi. destruct Hi as [Hi|Hi]; [eapply A2; eauto|eapply Hn; eauto].
  - intros u Hu. destruct (D u Hu) as (l & Hl). destruct (Nat.eq_dec t u) as [->|N]; [eexists; eapply nth_upd_eq; eauto|]. exists l. rewrite nth_upd_neq; assumption.
Qed.
Lemma CI_step b ctls c a c' e tr : CI b c tr -> hk_step b ctls c a = Some (c', e) -> CI b c' (tr ++ e).
Proof.
  intros HC Hs. apply hk_cases in Hs. destruct Hs as [a l e1 F S M|t m he F S M|t h r F S M N D0|t r l e1 F S M St|t r F S M|t r q q' e1 F S M P St|t q q' e1 a F St|t t0 q q' e1 a F R St|t t0 q q' a hs F R S ->].
  - eapply CI_mono; eauto; [intros; apply calls_evs|intros; apply notes_evs].
  - destruct HC as (A & B & C & D). unfold CI. cbn [hq hend]. destruct (A t S) as (At & An). split; [|split; [|split]].
    + intros u Hu. destruct (nth_upd_inv _ _ _ _ _ Hu) as [(_ & ? & _)|(N & Hu')]; [discriminate|]. destruct (A u Hu') as (A1 & A2). rewrite calls_app, A1. split; [reflexivity|]. intros n Hi. apply in_app_or in Hi. destruct Hi as [Hi|[Hi|[]]]; [eapply A2; eauto|congruence].
    + intros u l Hu. destruct (nth_upd_inv _ _ _ _ _ Hu) as [(-> & El & _)|(N & Hu')].
      * injection El as ->. exists m. split; [apply in_or_app; right; left; reflexivity|]. split; [|split].
        -- intros n' Hi. apply in_app_or in Hi. destruct Hi as [Hi|[Hi|[]]]; [exfalso; eapply An; eauto|congruence].
        -- rewrite calls_app, At. reflexivity.
        -- destruct M as [(-> & -> & _)|(-> & E & ->)]; [left; split; [reflexivity|]; intros E; destruct (D _ E); congruence|right; auto].
      * destruct (B _ _ Hu') as (n & B1 & B2 & B3 & B4). exists n. split; [apply in_or_app; auto|]. split; [|split].
        -- intros n' Hi. apply in_app_or in Hi. destruct Hi as [Hi|[Hi|[]]]; [auto|congruence].
        -- rewrite calls_app. cbn. rewrite app_nil_r. exact B3.
        -- destruct M as [(-> & -> & _)|(-> & E & ->)]; [exact B4|]. destruct B4 as [(-> & _)|(_ & E')]; [left; split; [reflexivity|congruence]|congruence].
    + intros u Hu. apply nth_upd_none in Hu. destruct (C u Hu) as (A1 & A2). rewrite calls_app, A1. split; [reflexivity|]. intros n Hi. apply in_app_or in Hi. destruct Hi as [Hi|[Hi|[]]]; [eapply A2; eauto|congruence].
    + intros u Hu. destruct M as [(-> & -> & _)|(-> & E & ->)].
      * destruct (D u Hu) as (l & Hl). exists l. rewrite nth_upd_neq; congruence.
      * injection Hu as <-. eexists. eapply nth_upd_eq; eauto.
  - eapply CI_hook; eauto; [cbn; rewrite Nat.eqb_refl; reflexivity|intros u Hu; cbn; destruct (Nat.eqb_spec t u); [congruence|reflexivity]|intros u n [Hi|[]]; discriminate].
  - eapply CI_hook; eauto; [|intros u Hu|intros u n [Hi|Hi]; [discriminate|eapply notes_evs; eauto]].
    + change (VHook t HThrOut :: lib_evs e1) with ([VHook t HThrOut] ++ lib_evs e1). rewrite calls_app, calls_evs. cbn. rewrite Nat.eqb_refl. reflexivity.
    + change (VHook t HThrOut :: lib_evs e1) with ([VHook t HThrOut] ++ lib_evs e1). rewrite calls_app, calls_evs. cbn. destruct (Nat.eqb_spec t u); [congruence|reflexivity].
  - eapply CI_hook; eauto; [cbn; rewrite Nat.eqb_refl; reflexivity|intros u Hu; cbn; destruct (Nat.eqb_spec t u); [congruence|reflexivity]|intros u n [Hi|[]]; discriminate].
  - eapply CI_hook; eauto; [|intros u Hu|intros u n [Hi|Hi]; [discriminate|eapply notes_evs; eauto]].
    + change (VHook t HProcOut :: lib_evs e1) with ([VHook t HProcOut] ++ lib_evs e1). rewrite calls_app, calls_evs. cbn. rewrite Nat.eqb_refl. reflexivity.
    + change (VHook t HProcOut :: lib_evs e1) with ([VHook t HProcOut] ++ lib_evs e1). rewrite calls_app, calls_evs. cbn. destruct (Nat.eqb_spec t u); [congruence|reflexivity].
  - eapply CI_mono; eauto; [intros; apply calls_evs|intros; apply notes_evs].
  - eapply CI_mono; eauto; [intros; apply calls_evs|intros; apply notes_evs].
  - destruct HC as (A & B & C & D). unfold CI. cbn [hq hend]. destruct (A t S) as (At & An).
    assert (K : forall u n, In (VNote u n) (VNote t NThrOut :: map (VHook t) (hooks b NThrOut)) -> u = t /\ n = NThrOut).
    { intros u n [Hi|Hi]; [split; congruence|]. apply in_map_iff in Hi. destruct Hi as (x & Ex & _). discriminate. }
    assert (K2 : forall u, calls u (VNote t NThrOut :: map (VHook t) (hooks b NThrOut)) = if (u =? t)%nat then hooks b NThrOut else []).
    { intros u. change (calls u (VNote t NThrOut :: map (VHook t) (hooks b NThrOut))) with (calls u (map (VHook t) (hooks b NThrOut))). destruct (Nat.eqb_spec u t) as [->|]; [apply calls_hooks|apply calls_other; assumption]. }
    split; [|split; [|split]].
    + intros u Hu. destruct (nth_upd_inv _ _ _ _ _ Hu) as [(_ & ? & _)|(N & Hu')]; [discriminate|]. destruct (A u Hu') as (A1 & A2). rewrite calls_app, A1, K2. destruct (Nat.eqb_spec u t); [congruence|]. split; [reflexivity|]. intros n0 Hi. apply in_app_or in Hi. destruct Hi as [Hi|Hi]; [eapply A2; eauto|]. destruct (K _ _ Hi); congruence.
    + intros u l Hu. destruct (nth_upd_inv _ _ _ _ _ Hu) as [(-> & El & _)|(N & Hu')].
      * injection El as ->. exists NThrOut. split; [apply in_or_app; right; left; reflexivity|]. split; [|split].
        -- intros n' Hi. apply in_app_or in Hi. destruct Hi as [Hi|Hi]; [exfalso; eapply An; eauto|]. destruct (K _ _ Hi); congruence.
        -- rewrite calls_app, At, K2, Nat.eqb_refl, app_nil_r. reflexivity.
        -- left. split; [reflexivity|]. intros E. destruct (D _ E). congruence.
      * destruct (B _ _ Hu') as (n0 & B1 & B2 & B3 & B4). exists n0. split; [apply in_or_app; auto|]. split; [|split; [|exact B4]].
        -- intros n' Hi. apply in_app_or in Hi. destruct Hi as [Hi|Hi]; [auto|]. destruct (K _ _ Hi); congruence.
        -- rewrite calls_app, K2. destruct (Nat.eqb_spec u t); [congruence|]. rewrite app_nil_r. exact B3.
    + intros u Hu. apply nth_upd_none in Hu. destruct (C u Hu) as (A1 & A2). rewrite calls_app, A1, K2. destruct (Nat.eqb_spec u t); [congruence|]. split; [reflexivity|]. intros n0 Hi. apply in_app_or in Hi. destruct Hi as [Hi|Hi]; [eapply A2; eauto|]. destruct (K _ _ Hi); congruence.
    + intros u Hu. destruct (D u Hu) as (l & Hl). exists l. rewrite nth_upd_neq; congruence.
Qed.
Lemma CI_exec b ctls n sched c tr : exec (hk_step b ctls) (hk_init n) sched = Some (c, tr) -> CI b c tr.
Proof.
  apply (exec_inv (hk_step b ctls) (CI b)).
  - split; [|split; [|split]]; cbn [hk_init hq hend].
    + intros t _. split; [reflexivity|]. intros ? [].
    + intros t l H. apply nth_error_In, repeat_spec in H. discriminate.
    + intros t _. split; [reflexivity|]. intros ? [].
    + discriminate.
  - intros. eapply CI_step; eauto.
Qed.

(** * on_process_exit is the last *)
Definition LI (c : hst) (tr : list hevt) : Prop :=
  (forall t h, In (VHook t h) tr -> h = HProcOut -> hfin c <> None) /\
  (forall t q, hfin c = Some (t, q) -> hend c = Some t /\ exists l, nth_error (hq c) t = Some (Some l) /\ ~ In HThrOut l) /\
  (forall a t d, tr = a ++ VHook t HProcOut :: d -> forall u, ~ In (VHook u HThrOut) d).
Lemma hooks_proc b n a l : a ++ HProcOut :: l = hooks b n -> n = NProcOut /\ ~ In HThrOut l.
Proof. intros H. destruct b, n; cbn [hooks] in H; destruct a as [|a1 [|a2 [|a3 [|a4 a]]]]; cbn [app] in H; inversion H; subst; (split; [reflexivity|]); cbn [In]; intuition discriminate. Qed.
Lemma snoc_proc (tr e a d : list hevt) t : tr ++ e = a ++ VHook t HProcOut :: d -> (exists d', tr = a ++ VHook t HProcOut :: d' /\ d = d' ++ e) \/ (exists a', e = a' ++ VHook t HProcOut :: d /\ a = tr ++ a').
Proof.
  revert a. induction tr as [|x tr IH]; intros a E; [right; exists a; split; [exact E|reflexivity]|]. destruct a as [|y a]; cbn [app] in E.
  - injection E as -> <-. left. exists tr. split; reflexivity.
  - injection E as -> E. destruct (IH a E) as [(d' & -> & ->)|(a' & -> & ->)]; [left; exists d'; split; reflexivity|right; exists a'; split; reflexivity].
Qed.
Lemma evs_hook t h e : ~ In (VHook t h) (lib_evs e).
Proof. intros H. apply in_map_iff in H. destruct H as (x & E & _). discriminate. Qed.
Lemma LI_step b ctls c a c' e tr : runs_on b = false -> CI b c tr -> LI c tr -> hk_step b ctls c a = Some (c', e) -> LI c' (tr ++ e).
Proof.
  intros R (_ & CB & _ & CD) (A & B & C) Hs. apply hk_cases in Hs.
  assert (U : forall t q u, hfin c = Some (t, q) -> may_run b c u = true -> u = t).
  { intros t q u F M. destruct (B _ _ F) as (E & _). unfold may_run in M. rewrite E, R, orb_false_r in M. apply Nat.eqb_eq in M. exact M. }
  assert (NP : hfin c = None -> forall t h, In (VHook t h) tr -> h <> HProcOut) by (intros F t h Hi E; exact (A t h Hi E F)).
  assert (O : forall tr' e', tr' = tr -> (forall t, ~ In (VHook t HProcOut) e') -> ((forall u, ~ In (VHook u HThrOut) e') \/ hfin c = None) -> forall a0 t d, tr ++ e' = a0 ++ VHook t HProcOut :: d -> forall u, ~ In (VHook u HThrOut) d).
  { intros _ e' _ N1 N2 a0 t d E u Hi. destruct (snoc_proc _ _ _ _ _ E) as [(d' & E1 & ->)|(a' & E1 & _)].
    - apply in_app_or in Hi. destruct Hi as [Hi|Hi]; [eapply C; eauto|]. destruct N2 as [N2|N2]; [eapply N2; eauto|]. eapply (NP N2 t HProcOut); [rewrite E1; apply in_or_app; right; left; reflexivity|reflexivity].
    - eapply N1. rewrite E1. apply in_or_app. right. left. reflexivity. }
  destruct Hs as [a l e1 F S M|t m he F S M|t h r F S M N D0|t r l e1 F S M St|t r F S M|t r q q' e1 F S M P St|t q q' e1 a F St|t t0 q q' e1 a F Rr St|t t0 q q' a hs F Rr S _]; try congruence.
  - split; [|split].
    + cbn [hfin]. intros t h Hi E. apply in_app_or in Hi. destruct Hi as [Hi|Hi]; [destruct (NP F _ _ Hi E)|destruct (evs_hook _ _ _ Hi)].
    + discriminate.
    + eapply O; eauto. intros t; apply evs_hook.
  - split; [|split].
    + cbn [hfin]. intros u h Hi E. apply in_app_or in Hi. destruct Hi as [Hi|[Hi|[]]]; [destruct (NP F _ _ Hi E)|discriminate].
    + discriminate.
    + eapply O; eauto. intros u [Hi|[]]. discriminate.
  - split; [|split].
    + cbn [hfin]. intros u h' Hi E. apply in_app_or in Hi. destruct Hi as [Hi|[Hi|[]]]; [destruct (NP F _ _ Hi E)|congruence].
    + discriminate.
    + eapply O; eauto. intros u [Hi|[]]. congruence.
  - split; [|split].
    + cbn [hfin]. intros u h' Hi E. apply in_app_or in Hi. destruct Hi as [Hi|[Hi|Hi]]; [destruct (NP F _ _ Hi E)|congruence|destruct (evs_hook _ _ _ Hi)].
    + discriminate.
    + eapply O; eauto. intros u [Hi|Hi]; [discriminate|destruct (evs_hook _ _ _ Hi)].
  - destruct (CB _ _ S) as (n & _ & _ & E & En). destruct (hooks_proc _ _ _ _ E) as (-> & Nl). destruct En as [(? & _)|(_ & Eh)]; [discriminate|]. split; [|split].
    + cbn [hfin]. discriminate.
    + cbn [hfin hend hq]. intros u q Eq. injection Eq as <- <-. split; [exact Eh|]. exists r. split; [eapply nth_upd_eq; eauto|exact Nl].
    + intros a0 u d Ed v Hi. destruct (snoc_proc _ _ _ _ _ Ed) as [(d' & E1 & ->)|(a' & E1 & _)].
      * eapply (NP F u HProcOut); [rewrite E1; apply in_or_app; right; left; reflexivity|reflexivity].
      * destruct a' as [|? [|]]; try discriminate. injection E1 as <- <-. destruct Hi.
  - destruct (B _ _ F) as (Eh & l & El & Nl). rewrite S in El. injection El as <-. split; [|split].
    + cbn [hfin]. discriminate.
    + cbn [hfin hend hq]. intros u q0 Eq. injection Eq as <- <-. split; [exact Eh|]. exists r. split; [eapply nth_upd_eq; eauto|]. intros Hi. apply Nl. right. exact Hi.
    + intros a0 u d Ed v Hi. destruct (snoc_proc _ _ _ _ _ Ed) as [(d' & E1 & ->)|(a' & E1 & _)].
      * apply in_app_or in Hi. destruct Hi as [Hi|[Hi|Hi]]; [eapply C; eauto|discriminate|destruct (evs_hook _ _ _ Hi)].
      * destruct a' as [|? a']; [injection E1 as <- <-; destruct (evs_hook _ _ _ Hi)|]. injection E1 as _ E1. apply (evs_hook u HProcOut e1). rewrite E1. apply in_or_app. right. left. reflexivity.
  - split; [|split].
    + cbn [hfin]. discriminate.
    + cbn [hfin hend hq]. intros u q0 Eq. injection Eq as <- <-. eapply B; eauto.
    + eapply O; eauto; [intros u; apply evs_hook|left; intros u; apply evs_hook].
Qed.
Lemma LI_exec b ctls n sched c tr : runs_on b = false -> exec (hk_step b ctls) (hk_init n) sched = Some (c, tr) -> LI c tr.
Proof.
  intros R H. enough (CI b c tr /\ LI c tr) by tauto. revert H. apply (exec_inv (hk_step b ctls) (fun c tr => CI b c tr /\ LI c tr)).
  - split; [apply (CI_exec b ctls n [] _ _ eq_refl)|]. split; [intros ? ? []|]. split; [discriminate|]. intros [|? ?] ? ? E; discriminate.
  - intros c1 t1 a c2 e (H1 & H2) Hs. split; [eapply CI_step; eauto|eapply LI_step; eauto].
Qed.
