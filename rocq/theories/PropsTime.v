(** Property theorems: time arithmetic and conversions (C34, C35, C36). *)
From Coq Require Import ZArith Bool Lia.
From Verif Require Import Word TimeModel.
Local Open Scope Z_scope.

Lemma sig_some x y : sig x = Some y -> y = x /\ - two63 <= x < two63.
Proof.
  unfold sig, in_i64. destruct (Z.leb_spec (- two63) x); cbn [andb]; [|discriminate].
  destruct (Z.ltb_spec x two63); [|discriminate]. intros E; inversion E; subst; lia.
Qed.
Lemma sig_ok x : - two63 <= x < two63 -> sig x = Some x.
Proof.
  intros H. unfold sig, in_i64. destruct (Z.leb_spec (- two63) x); [|lia]. destruct (Z.ltb_spec x two63); [reflexivity|lia].
Qed.
Lemma i64_cong x y : x mod two64 = y mod two64 -> i64 x = i64 y.
Proof. unfold i64. intros ->. reflexivity. Qed.
Lemma i64_u64 x : i64 (u64 x) = i64 x.
Proof. apply i64_cong. unfold u64. apply Z.mod_mod. discriminate. Qed.
Lemma u64_add x y : u64 (u64 x + u64 y) = u64 (x + y).
Proof. unfold u64. symmetry. apply Zplus_mod. Qed.
Lemma u64_addl x y : u64 (u64 x + y) = u64 (x + y).
Proof. unfold u64. apply Zplus_mod_idemp_l. Qed.
Lemma u64_mull x y : u64 (u64 x * y) = u64 (x * y).
Proof. unfold u64. apply Zmult_mod_idemp_l. Qed.

(** Value of [u64] on the 64-bit signed range. *)
Lemma u64_signed x : - two63 <= x < two63 -> u64 x = if x <? 0 then x + two64 else x.
Proof.
  intros H. unfold u64, two63, two64 in *. destruct (Z.ltb_spec x 0).
  - rewrite <- (Z_mod_plus_full x 1). rewrite Z.mod_small; lia.
  - apply Z.mod_small; lia.
Qed.

Lemma div_NS x : 0 <= x -> cdiv x NS = x / NS /\ crem x NS = x mod NS /\ x = NS * (x / NS) + x mod NS /\ 0 <= x mod NS < NS.
Proof.
  intros H. unfold cdiv, crem. rewrite Z.quot_div_nonneg, Z.rem_mod_nonneg by (unfold NS; lia).
  repeat split; try (apply Z.mod_pos_bound; unfold NS; lia). apply Z.div_mod. discriminate.
Qed.

(** ** C34: POSIX *)

(** What operator+= computes, for every valid time point and every duration: exact when tv_nsec + d >= 0, and exactly
    2^64 ns (about 584 years) too late when it is negative; the nanosecond field is always normalised. *)
Lemma px_add_general sec ns d : ts_ok (sec, ns) -> - two63 <= ns + d < two63 ->
  let x := ns + d + (if ns + d <? 0 then two64 else 0) in
  - two63 <= sec + x / NS < two63 ->
  exists tp, px_add (sec, ns) d = Some tp /\ ts_ok tp /\ ts_ns tp = ts_ns (sec, ns) + d + (if ns + d <? 0 then two64 else 0).
Proof.
  intros (Hn & Hs) Hr x Hsec. cbn [fst snd] in *. unfold px_add. rewrite sig_ok by exact Hr.
  assert (Hu : u64 (ns + d) = x).
  { rewrite u64_signed by exact Hr. unfold x. destruct (ns + d <? 0); lia. }
  rewrite Hu. assert (Hx : 0 <= x < two64) by (rewrite <- Hu; apply u64_range).
  destruct (div_NS x (proj1 Hx)) as (-> & -> & Hdm & Hm).
  assert (Him : i64 (x mod NS) = x mod NS) by (apply i64_id; unfold NS, two63 in *; lia).
  rewrite Him. destruct (Z.ltb_spec (x mod NS) 0); [lia|].
  eexists. split; [reflexivity|].
  assert (Hi : i64 (u64 sec + x / NS) = sec + x / NS).
  { rewrite <- (i64_id (sec + x / NS)) by exact Hsec. apply i64_cong.
    fold (u64 (u64 sec + x / NS)). rewrite u64_addl. reflexivity. }
  rewrite Hi. unfold ts_ok, ts_ns. cbn [fst snd].
  split; [split; [exact Hm|exact Hsec]|]. unfold x in *. unfold NS in *. lia.
Qed.

(** Adding a duration: exact with a normalised result, provided tv_nsec + d is not negative (always so for d >= 0) and
    does not overflow int64_t.  The excluded cases are [C34_add_negative_refuted] and [C34_add_overflow_refuted]. *)
Theorem C34_add_exact_partial : forall sec ns d, ts_ok (sec, ns) -> 0 <= ns + d < two63 ->
  - two63 <= (ts_ns (sec, ns) + d) / NS < two63 ->
  exists tp, px_add (sec, ns) d = Some tp /\ ts_ok tp /\ ts_ns tp = ts_ns (sec, ns) + d.
Proof.
  intros sec ns d Hok Hd Hr. pose proof (px_add_general sec ns d Hok) as H. cbv zeta in H.
  destruct (Z.ltb_spec (ns + d) 0); [lia|]. rewrite !Z.add_0_r in H.
  apply H; [unfold two63 in *; lia|]. unfold ts_ns in Hr. cbn [fst snd] in Hr.
  replace (sec * NS + ns + d) with ((ns + d) + sec * NS) in Hr by ring. rewrite Z.div_add in Hr by discriminate. lia.
Qed.
Print Assumptions C34_add_exact_partial.

(** Every addition that borrows from the seconds (tv_nsec + d < 0) is wrong by 2^64 ns: the point lands about 584 years
    later than asked for. *)
Theorem C34_add_borrow_wrong : forall sec ns d, ts_ok (sec, ns) -> - two63 <= ns + d < 0 -> sec < 2 ^ 62 ->
  exists tp, px_add (sec, ns) d = Some tp /\ ts_ns tp = ts_ns (sec, ns) + d + two64.
Proof.
  intros sec ns d Hok Hd Hs. pose proof (px_add_general sec ns d Hok) as H. cbv zeta in H.
  destruct (Z.ltb_spec (ns + d) 0); [|lia]. destruct Hok as (Hn & Hs'). cbn [fst snd] in *.
  destruct H as (tp & H1 & _ & H2); [unfold two63, NS in *; lia| |eauto].
  assert (0 <= (ns + d + two64) / NS < 2 ^ 62).
  { split; [apply Z.div_pos; unfold two63, two64, NS in *; lia|apply Z.div_lt_upper_bound; unfold two63, two64, NS in *; lia]. }
  unfold two63 in *. lia.
Qed.
Print Assumptions C34_add_borrow_wrong.

(** The property fails: half a second subtracted from 1000.1 s. *)
Theorem C34_add_negative_refuted : exists tp d, ts_ok tp /\ ts_ok (fst tp - 1, 600000000) /\
  ts_ns (fst tp - 1, 600000000) = ts_ns tp + d /\ px_add tp d <> Some (fst tp - 1, 600000000) /\
  px_add tp d = Some (18446745073, 309551616).
Proof.
  exists (1000, 100000000), (-500000000). unfold ts_ok, ts_ns, two63, NS. cbn [fst snd].
  split; [lia|]. split; [lia|]. split; [reflexivity|]. split; [intros H; vm_compute in H; discriminate|vm_compute; reflexivity].
Qed.
Print Assumptions C34_add_negative_refuted.

(** Signed overflow (undefined) although the exact result is representable. *)
Theorem C34_add_overflow_refuted : exists tp d r, ts_ok tp /\ - two63 <= d < two63 /\ ts_ok r /\ ts_ns r = ts_ns tp + d /\ px_add tp d = None.
Proof.
  exists (0, 999999999), (two63 - 1), (9223372037, 854775806). unfold ts_ok, ts_ns, two63, NS. cbn [fst snd].
  split; [lia|]. split; [lia|]. split; [lia|]. split; vm_compute; reflexivity.
Qed.
Print Assumptions C34_add_overflow_refuted.

(** Subtracting a duration, same exceptions. *)
Theorem C34_sub_exact_partial : forall sec ns d, ts_ok (sec, ns) -> - two63 < d -> 0 <= ns - d < two63 ->
  - two63 <= (ts_ns (sec, ns) - d) / NS < two63 ->
  exists tp, px_sub (sec, ns) d = Some tp /\ ts_ok tp /\ ts_ns tp = ts_ns (sec, ns) - d.
Proof.
  intros sec ns d Hok Hd0 Hd Hr. unfold px_sub. destruct Hok as (Hn & Hs). cbn [fst snd] in *.
  rewrite sig_ok by (unfold two63, NS in *; lia).
  replace (ts_ns (sec, ns) - d) with (ts_ns (sec, ns) + - d) in * by ring.
  apply C34_add_exact_partial; auto. split; auto.
Qed.
Print Assumptions C34_sub_exact_partial.

(** Any positive amount larger than tv_nsec is subtracted wrongly. *)
Theorem C34_sub_borrow_wrong : forall sec ns d, ts_ok (sec, ns) -> ns < d < two63 -> sec < 2 ^ 62 ->
  exists tp, px_sub (sec, ns) d = Some tp /\ ts_ns tp = ts_ns (sec, ns) - d + two64.
Proof.
  intros sec ns d Hok Hd Hs. pose proof Hok as (Hn & _). cbn [fst snd] in *. unfold px_sub.
  rewrite sig_ok by (unfold two63, NS in *; lia).
  replace (ts_ns (sec, ns) - d) with (ts_ns (sec, ns) + - d) by ring.
  apply C34_add_borrow_wrong; auto. unfold two63, NS in *; lia.
Qed.
Print Assumptions C34_sub_borrow_wrong.

(** Differences are exact whenever they fit int64_t. *)
Theorem C34_diff_exact : forall l r, ts_ok l -> ts_ok r -> - two63 <= ts_ns l - ts_ns r < two63 ->
  px_diff l r = Some (ts_ns l - ts_ns r).
Proof.
  intros [ls ln] [rs rn] (H1 & H2) (H3 & H4) H. unfold px_diff, ts_ns in *. cbn [fst snd] in *.
  rewrite !sig_ok by (unfold two63, NS in *; lia). f_equal.
  rewrite u64_mull, u64_add, i64_u64, i64_id; unfold NS, two63 in *; lia.
Qed.
Print Assumptions C34_diff_exact.

(** now() built from gettimeofday is exact. *)
Theorem C34_now_exact : forall sec usec, - two63 <= sec < two63 -> 0 <= usec < 1000000 ->
  ts_ok (px_of_timeval sec usec) /\ ts_ns (px_of_timeval sec usec) = sec * NS + usec * 1000.
Proof.
  intros sec usec Hs Hu. unfold px_of_timeval, px_make, ts_ok, ts_ns. cbn [fst snd]. change (NS / 1000000) with 1000.
  rewrite Z.mod_small by lia. unfold NS. lia.
Qed.
Print Assumptions C34_now_exact.

(** now() on a platform that only has ::time() is a valid time point, but lags behind the real time [real] (in ns) by up to a second, and so does
    the deadline now() + d of a relative wait: the wait can end that much too early. *)
Theorem C34_now_coarse_partial : forall real d, 0 <= real -> 0 <= d -> real + d < two63 ->
  let now := px_of_time (real / NS) in
  ts_ok now /\ ts_ns now = real - real mod NS /\ exists tp, px_add now d = Some tp /\ ts_ok tp /\ ts_ns tp = real + d - real mod NS.
Proof.
  intros real d H1 H2 H3 now. assert (Hq : 0 <= real / NS /\ real / NS < two63).
  { split; [apply Z.div_pos; [lia|reflexivity]|apply Z.div_lt_upper_bound; unfold NS, two63 in *; lia]. }
  pose proof (Z.div_mod real NS ltac:(discriminate)) as E. pose proof (Z.mod_pos_bound real NS ltac:(reflexivity)) as Hm.
  assert (Hok : ts_ok now) by (unfold now, px_of_time, px_make, ts_ok; cbn [fst snd]; unfold NS, two63 in *; lia).
  assert (Hv : ts_ns now = real - real mod NS) by (unfold now, px_of_time, px_make, ts_ns; cbn [fst snd]; lia).
  split; [exact Hok|]. split; [exact Hv|]. destruct (C34_add_exact_partial (real / NS) 0 d Hok) as (tp & G1 & G2 & G3); [unfold two63 in *; lia| |].
  - change (real / NS, 0) with now. rewrite Hv. split; [|apply Z.div_lt_upper_bound; unfold NS, two63 in *; lia].
    assert (0 <= (real - real mod NS + d) / NS) by (apply Z.div_pos; [unfold NS in *; lia|reflexivity]). unfold two63; lia.
  - exists tp. change (real / NS, 0) with now in *. rewrite Hv in G3. split; [exact G1|]. split; [exact G2|]. lia.
Qed.
Print Assumptions C34_now_coarse_partial.
Theorem C34_now_coarse_refuted : exists real d tp, 0 <= real /\ 0 <= d /\ px_add (px_of_time (real / NS)) d = Some tp /\ ts_ns tp < real.
Proof. exists 1999999999, 500000000, (1, 500000000). split; [lia|]. split; [lia|]. split; [vm_compute; reflexivity|]. vm_compute. reflexivity. Qed.
Print Assumptions C34_now_coarse_refuted.

Example C34_add_example : px_add (5, 999999999) 2000000001 = Some (8, 0) /\ px_add (5, 999999999) (-999999999) = Some (5, 0).
Proof. split; vm_compute; reflexivity. Qed.
Example C34_diff_example : px_diff (3, 5) (5, 4) = Some (-1999999999).
Proof. reflexivity. Qed.

(** ** C35: Windows *)

Definition ft_ok (x : Z) : Prop := 0 <= x < two64.

(** Exact for durations of any sign whose value in 100 ns units fits int64_t (29000 years). *)
Theorem C35_add_exact_partial : forall tp d, ft_ok tp -> - two63 <= d * 10000 < two63 -> ft_ok (tp + d * 10000) ->
  win_add tp d = Some (tp + d * 10000).
Proof.
  intros tp d H1 H2 H3. unfold win_add. rewrite sig_ok by exact H2. f_equal.
  rewrite Z.add_comm, u64_addl, Z.add_comm. apply u64_id. exact H3.
Qed.
Print Assumptions C35_add_exact_partial.

Theorem C35_sub_exact_partial : forall tp d, ft_ok tp -> - two63 <= d * 10000 < two63 -> ft_ok (tp - d * 10000) ->
  win_sub tp d = Some (tp - d * 10000).
Proof.
  intros tp d H1 H2 H3. unfold win_sub. rewrite sig_ok by exact H2. f_equal.
  unfold u64. rewrite Zminus_mod_idemp_r. apply Z.mod_small. exact H3.
Qed.
Print Assumptions C35_sub_exact_partial.

(** Differences are exact, truncated toward zero to milliseconds, when they fit int64_t in 100 ns units. *)
Theorem C35_diff_exact_partial : forall l r, ft_ok l -> ft_ok r -> - two63 <= l - r < two63 ->
  win_diff l r = Z.quot (l - r) 10000.
Proof. intros l r H1 H2 H3. unfold win_diff, cdiv. rewrite i64_u64, i64_id; auto. Qed.
Print Assumptions C35_diff_exact_partial.

Theorem C35_make_exact : forall t sub, 0 <= sub < 2 ^ 32 -> ft_ok (t * FT + sub + EPOCH) -> win_make t sub = t * FT + sub + EPOCH.
Proof.
  intros t sub H1 H2. unfold win_make. rewrite u64_mull, <- Z.add_assoc, u64_addl, Z.add_assoc. apply u64_id. exact H2.
Qed.
Print Assumptions C35_make_exact.

Theorem C35_of_dur_exact : forall d, - two63 <= d * 10000 < two63 -> ft_ok (d * 10000 + EPOCH) ->
  win_of_dur d = Some (d * 10000 + EPOCH).
Proof. intros d H1 H2. unfold win_of_dur. rewrite sig_ok by exact H1. f_equal. rewrite u64_addl. apply u64_id. exact H2. Qed.
Print Assumptions C35_of_dur_exact.

(** The offset between the epochs is right: [epoch_days y] days of the Gregorian calendar lie between 1 January of year 1 and 1 January of
    year [y]; 1 January 1970 is so many days after 1 January 1601, the zero of the Windows clock. *)
Definition epoch_days (y : Z) : Z := 365 * (y - 1) + (y - 1) / 4 - (y - 1) / 100 + (y - 1) / 400.
Theorem C35_epoch : win_make 0 0 = (epoch_days 1970 - epoch_days 1601) * (24 * 60 * 60) * FT /\ FT * 100 = NS.
Proof. split; vm_compute; reflexivity. Qed.
Print Assumptions C35_epoch.

(** The remaining representable cases overflow: signed overflow in dur * 10000u, and a difference above 2^63 that comes
    out negative. *)
Theorem C35_overflow_refuted : (exists tp d, ft_ok tp /\ - two63 <= d < two63 /\ ft_ok (tp + d * 10000) /\ win_add tp d = None) /\
  (exists l r, ft_ok l /\ ft_ok r /\ - two63 <= Z.quot (l - r) 10000 < two63 /\ win_diff l r <> Z.quot (l - r) 10000).
Proof.
  split.
  - exists 0, (10 ^ 15). unfold ft_ok, two63, two64. repeat split; try lia; vm_compute; congruence.
  - exists (2 ^ 64 - 1), 0. unfold ft_ok, two63, two64. repeat split; try (vm_compute; congruence).
Qed.
Print Assumptions C35_overflow_refuted.

Example C35_example : win_add 132000000000000000 (-1500) = Some 131999999985000000 /\ win_diff 5 20010 = -2.
Proof. split; vm_compute; reflexivity. Qed.

(** ** C36: conversions *)

(** [truncates r num den]: [r] is [num/den] truncated toward zero (error below one unit, never away from zero). *)
Definition truncates (r num den : Z) : Prop :=
  Z.abs r * den <= Z.abs num < (Z.abs r + 1) * den /\ 0 <= r * num.

Lemma quot_truncates n d : 0 < d -> truncates (Z.quot n d) n d.
Proof.
  intros Hd. unfold truncates.
  rewrite <- (Z.abs_eq d) at 2 4 by lia. 
  assert (Hq : Z.abs (Z.quot n d) = Z.abs n / d).
  { rewrite <- Z.quot_abs by lia. rewrite (Z.abs_eq d) by lia. apply Z.quot_div_nonneg; lia. }
  rewrite Hq. rewrite (Z.abs_eq d) by lia.
  pose proof (Z.div_mod (Z.abs n) d ltac:(lia)). pose proof (Z.mod_pos_bound (Z.abs n) d Hd).
  split; [split; nia|].
  destruct (Z_lt_le_dec n 0).
  - replace n with (- (- n)) by lia. rewrite Z.quot_opp_l by lia. pose proof (Z.quot_pos (- n) d). nia.
  - pose proof (Z.quot_pos n d). nia.
Qed.

(** Boost.Chrono / std::chrono durations, every tick period [pn]/[pd] and native unit 1/[sub] s: the result is the exact
    value in native units truncated toward zero; it is exact if a tick is a whole number of native units. *)
Theorem C36_chrono_duration : forall sub pn pd c, 0 < sub -> 0 < pn -> 0 < pd ->
  - two63 <= c * ((pn * sub) / Z.gcd (pn * sub) pd) < two63 ->
  exists r, chrono_cast sub pn pd c = Some r /\ truncates r (c * (pn * sub)) pd /\ ((pd | pn * sub) -> r * pd = c * (pn * sub)).
Proof.
  intros sub pn pd c Hs Hpn Hpd Hr. unfold chrono_cast. rewrite sig_ok by exact Hr.
  set (g := Z.gcd (pn * sub) pd) in *. set (N := pn * sub) in *. assert (HN : 0 < N) by (unfold N; nia).
  assert (Hg : 0 < g). { pose proof (Z.gcd_nonneg N pd). assert (g <> 0); [|unfold g in *; lia]. unfold g. intros E. apply Z.gcd_eq_0_r in E. lia. }
  destruct (Z.gcd_divide_l N pd) as (a & Ha). destruct (Z.gcd_divide_r N pd) as (b & Hb). fold g in Ha, Hb.
  assert (HNg : N / g = a) by (rewrite Ha; apply Z.div_mul; lia).
  assert (Hdg : pd / g = b) by (rewrite Hb; apply Z.div_mul; lia).
  rewrite HNg, Hdg. assert (0 < b) by nia. eexists. split; [reflexivity|]. unfold cdiv.
  pose proof (quot_truncates (c * a) b H) as (T1 & T2). split.
  - unfold truncates. rewrite Ha, Hb.
    replace (c * (a * g)) with (c * a * g) by ring. rewrite Z.abs_mul, (Z.abs_eq g) by lia. split; [|nia].
    set (q := Z.abs (c * a ÷ b)) in *. set (ca := Z.abs (c * a)) in *. nia.
  - intros (k & Hk). rewrite Ha, Hb in Hk. assert (a = k * b) by nia. rewrite Ha, Hb, H0.
    replace (c * (k * b)) with (c * k * b) by ring. rewrite Z.quot_mul by lia. ring.
Qed.
Print Assumptions C36_chrono_duration.

(** Boost.DateTime durations, tick rates that divide or are divided by the native one. *)
Theorem C36_date_time_duration : forall sub tps ticks, 0 < sub -> 0 < tps -> (sub | tps) \/ (tps | sub) ->
  (tps < sub -> - two63 <= ticks * (sub / tps) < two63) ->
  exists r, dt_cast sub tps ticks = Some r /\ truncates r (ticks * sub) tps /\ (tps <= sub -> r * tps = ticks * sub).
Proof.
  intros sub tps ticks Hs Ht Hd Hr. unfold dt_cast, cdiv. destruct (Z.leb_spec sub tps) as [L|L].
  - assert (Hd' : (sub | tps)). { destruct Hd as [?|Hd]; auto. pose proof (Z.divide_pos_le _ _ Hs Hd). replace tps with sub by lia. apply Z.divide_refl. }
    destruct Hd' as (k & Hk). assert (0 < k) by nia.
    assert (Hq : Z.quot tps sub = k) by (rewrite Hk; apply Z.quot_mul; lia). rewrite Hq.
    eexists. split; [reflexivity|]. destruct (quot_truncates ticks k H) as (T1 & T2). split.
    + unfold truncates. rewrite Hk, Z.abs_mul, (Z.abs_eq sub) by lia. split; [|nia].
      set (q := Z.abs (ticks ÷ k)) in *. set (ca := Z.abs ticks) in *. nia.
    + intros E. assert (k = 1) by nia. rewrite H0 in *. rewrite Z.quot_1_r. nia.
  - assert (Hd' : (tps | sub)). { destruct Hd as [Hd|?]; auto. pose proof (Z.divide_pos_le _ _ Ht Hd). lia. }
    destruct Hd' as (k & Hk). assert (0 < k) by nia.
    assert (Hq : Z.quot sub tps = k) by (rewrite Hk; apply Z.quot_mul; lia).
    assert (Hq' : sub / tps = k) by (rewrite Hk; apply Z.div_mul; lia). rewrite Hq, Hq' in *.
    rewrite sig_ok by auto. eexists. split; [reflexivity|]. split.
    + unfold truncates. rewrite Hk. rewrite !Z.abs_mul. rewrite (Z.abs_eq k), (Z.abs_eq tps) by lia. split; [nia|].
      replace (ticks * k * (ticks * (k * tps))) with ((ticks * k) * (ticks * k) * tps) by ring.
      pose proof (Z.square_nonneg (ticks * k)). nia.
    + intros _. rewrite Hk. ring.
Qed.
Print Assumptions C36_date_time_duration.

(** timespec: exact on POSIX; on Windows rounded down to 100 ns (toward the past, also before 1970), less than one unit. *)
Theorem C36_timespec : forall tp, ts_ok tp ->
  posix_to_px tp = tp /\
  (ft_ok (ts_ns tp / 100 + EPOCH) -> posix_to_win tp = ts_ns tp / 100 + EPOCH).
Proof.
  intros [s n] (H1 & H2). cbn [fst snd] in *. split.
  - unfold posix_to_px, px_make. cbn [fst snd]. change (cdiv NS NS) with 1. rewrite Z.mul_1_r, Z.mod_small; auto.
    unfold NS in *. lia.
  - intros H. unfold posix_to_win. cbn [fst snd]. change (cdiv NS FT) with 100. unfold cdiv. rewrite Z.quot_div_nonneg by lia.
    assert (0 <= n / 100 < 10000000) by (split; [apply Z.div_pos; lia|apply Z.div_lt_upper_bound; unfold NS in *; lia]).
    rewrite Z.mod_small by lia.
    assert (E : ts_ns (s, n) / 100 = s * FT + n / 100).
    { unfold ts_ns, NS, FT. cbn [fst snd]. replace (s * 1000000000 + n) with (n + s * 10000000 * 100) by ring. rewrite Z.div_add by discriminate. lia. }
    rewrite E in *. apply C35_make_exact; [lia|exact H].
Qed.
Print Assumptions C36_timespec.

(** system_clock and date_time points at or after 1970: exact composition of the duration conversion; on POSIX ... *)
Theorem C36_point_posix_partial : forall d, 0 <= d < two63 -> ts_ok (px_of_dur d) /\ ts_ns (px_of_dur d) = d.
Proof.
  intros d H. unfold px_of_dur, ts_ok, ts_ns. cbn [fst snd].
  rewrite u64_id by (unfold two63, two64 in *; lia). destruct (div_NS d) as (-> & -> & E & Hm); [lia|].
  assert (0 <= d / NS < two63).
  { split; [apply Z.div_pos; [lia|reflexivity]|apply Z.div_lt_upper_bound; unfold NS, two63 in *; lia]. }
  rewrite !i64_id by (unfold NS, two63 in *; lia). unfold two63, NS in *. lia.
Qed.
Print Assumptions C36_point_posix_partial.

(** ... but every point before 1970 is moved 2^64 ns into the future: a deadline in the past becomes one in the year 2554. *)
Theorem C36_point_before_1970_wrong : forall d, - two63 <= d < 0 -> ts_ns (px_of_dur d) = d + two64.
Proof.
  intros d H. unfold px_of_dur, ts_ns. cbn [fst snd].
  rewrite u64_signed by (unfold two63 in *; lia). destruct (Z.ltb_spec d 0); [|lia].
  destruct (div_NS (d + two64)) as (-> & -> & E & Hm); [unfold two63, two64 in *; lia|].
  assert (0 <= (d + two64) / NS < two63).
  { split; [apply Z.div_pos; [unfold two63, two64 in *; lia|reflexivity]|apply Z.div_lt_upper_bound; unfold NS, two63, two64 in *; lia]. }
  rewrite !i64_id by (unfold NS, two63 in *; lia). unfold two64, two63, NS in *. lia.
Qed.
Print Assumptions C36_point_before_1970_wrong.

Theorem C36_point_refuted : exists tick_ns, chrono_point_px 1 NS tick_ns = Some (18446744073, 709551615) /\ tick_ns = -1.
Proof. exists (-1). split; [vm_compute; reflexivity|reflexivity]. Qed.
Print Assumptions C36_point_refuted.

Theorem C36_point_windows : forall pn pd c d, chrono_cast MS pn pd c = Some d ->
  - two63 <= d * 10000 < two63 -> ft_ok (d * 10000 + EPOCH) -> chrono_point_win pn pd c = Some (d * 10000 + EPOCH).
Proof. intros pn pd c d H H1 H2. unfold chrono_point_win. rewrite H. apply C35_of_dur_exact; auto. Qed.
Print Assumptions C36_point_windows.

(** Time points of std::chrono::system_clock / boost::chrono::system_clock with ticks of [pn]/[pd] seconds and Boost.DateTime points with
    [tps] ticks per second, end to end.  POSIX, at or after 1970: a valid timespec whose value is the exact one truncated to nanoseconds;
    before 1970 (by at least one nanosecond): 2^64 ns too late. *)
Lemma px_point (r : Z) : - two63 <= r < two63 ->
  (0 <= r -> ts_ok (px_of_dur r) /\ ts_ns (px_of_dur r) = r) /\ (r < 0 -> ts_ns (px_of_dur r) = r + two64).
Proof. intros H. split; intros H0; [apply C36_point_posix_partial; lia|apply C36_point_before_1970_wrong; lia]. Qed.
Lemma truncates_range r n d : 0 < d -> - two63 <= n < two63 -> truncates r n d -> - two63 <= r < two63.
Proof.
  intros Hd Hn ((H1 & H2) & H3). assert (Z.abs r <= Z.abs n) by nia. destruct (Z_lt_le_dec r 0); [|unfold two63 in *; lia].
  destruct (Z_lt_le_dec n 0); [unfold two63 in *; lia|]. assert (n = 0) by nia. unfold two63 in *; lia.
Qed.
Theorem C36_chrono_point_posix_partial : forall pn pd c, 0 < pn -> 0 < pd -> - two63 <= c * ((pn * NS) / Z.gcd (pn * NS) pd) < two63 ->
  exists tp r, chrono_point_px pn pd c = Some tp /\ truncates r (c * (pn * NS)) pd /\
    (0 <= r -> ts_ok tp /\ ts_ns tp = r) /\ (r < 0 -> ts_ns tp = r + two64).
Proof.
  intros pn pd c Hn Hd Hr. destruct (C36_chrono_duration NS pn pd c ltac:(reflexivity) Hn Hd Hr) as (r & E & T & _).
  exists (px_of_dur r), r. unfold chrono_point_px. rewrite E. split; [reflexivity|]. split; [exact T|]. apply px_point.
  unfold chrono_cast in E. rewrite sig_ok in E by exact Hr. inversion E as [E']. clear E. unfold cdiv.
  assert (Hg : 0 < Z.gcd (pn * NS) pd). { pose proof (Z.gcd_nonneg (pn * NS) pd). assert (Z.gcd (pn * NS) pd <> 0); [|lia]. intros E. apply Z.gcd_eq_0_r in E. lia. }
  assert (Hb : 0 < pd / Z.gcd (pn * NS) pd). { apply Z.div_str_pos. split; [exact Hg|]. apply Z.divide_pos_le; [exact Hd|apply Z.gcd_divide_r]. }
  eapply truncates_range; [exact Hb|exact Hr|apply quot_truncates; exact Hb].
Qed.
Print Assumptions C36_chrono_point_posix_partial.
Theorem C36_date_time_point_posix_partial : forall tps ticks, 0 < tps -> (NS | tps) \/ (tps | NS) -> - two63 <= ticks < two63 ->
  (tps < NS -> - two63 <= ticks * (NS / tps) < two63) ->
  exists tp r, dt_point_px tps ticks = Some tp /\ truncates r (ticks * NS) tps /\
    (0 <= r -> ts_ok tp /\ ts_ns tp = r) /\ (r < 0 -> ts_ns tp = r + two64).
Proof.
  intros tps ticks Ht Hdiv H64 Hr. destruct (C36_date_time_duration NS tps ticks ltac:(reflexivity) Ht Hdiv Hr) as (r & E & T & _).
  exists (px_of_dur r), r. unfold dt_point_px. rewrite E. split; [reflexivity|]. split; [exact T|]. apply px_point.
  unfold dt_cast in E. destruct (Z.leb_spec NS tps).
  - inversion E as [E']. clear E. unfold cdiv. assert (0 < tps ÷ NS) by (rewrite Z.quot_div_nonneg by (unfold NS in *; lia); apply Z.div_str_pos; unfold NS in *; lia).
    eapply truncates_range; [|exact H64|apply quot_truncates]; assumption.
  - apply sig_some in E. destruct E as (-> & E). exact E.
Qed.
Print Assumptions C36_date_time_point_posix_partial.

(** Windows: the value in 100 ns units since 1601 of the point truncated to milliseconds since 1970. *)
Theorem C36_chrono_point_windows : forall pn pd c, 0 < pn -> 0 < pd -> - two63 <= c * ((pn * MS) / Z.gcd (pn * MS) pd) < two63 ->
  exists ms, truncates ms (c * (pn * MS)) pd /\
    (- two63 <= ms * 10000 < two63 -> ft_ok (ms * 10000 + EPOCH) -> chrono_point_win pn pd c = Some (ms * 10000 + EPOCH)).
Proof.
  intros pn pd c Hn Hd Hr. destruct (C36_chrono_duration MS pn pd c ltac:(reflexivity) Hn Hd Hr) as (r & E & T & _).
  exists r. split; [exact T|]. intros H1 H2. unfold chrono_point_win. rewrite E. apply C35_of_dur_exact; assumption.
Qed.
Print Assumptions C36_chrono_point_windows.
Theorem C36_date_time_point_windows : forall tps ticks, 0 < tps -> (MS | tps) \/ (tps | MS) -> (tps < MS -> - two63 <= ticks * (MS / tps) < two63) ->
  exists ms, truncates ms (ticks * MS) tps /\
    (- two63 <= ms * 10000 < two63 -> ft_ok (ms * 10000 + EPOCH) -> dt_point_win tps ticks = Some (ms * 10000 + EPOCH)).
Proof.
  intros tps ticks Ht Hdiv Hr. destruct (C36_date_time_duration MS tps ticks ltac:(reflexivity) Ht Hdiv Hr) as (r & E & T & _).
  exists r. split; [exact T|]. intros H1 H2. unfold dt_point_win. rewrite E. apply C35_of_dur_exact; assumption.
Qed.
Print Assumptions C36_date_time_point_windows.
(** Ten and a half milliseconds after 1970 in microsecond ticks, both platforms. *)
Example C36_point_example : chrono_point_px 1 1000000 10500 = Some (0, 10500000) /\ chrono_point_win 1 1000000 10500 = Some (100000 + EPOCH) /\
  dt_point_px 1000000 10500 = Some (0, 10500000) /\ dt_point_win 1000000 10500 = Some (100000 + EPOCH).
Proof. repeat split; vm_compute; reflexivity. Qed.

Example C36_example : chrono_cast MS 1 1000000 (-1999) = Some (-1) /\ chrono_cast NS 60 1 2 = Some 120000000000 /\
  chrono_cast MS 1 3 10 = Some 3333 /\ dt_cast MS 1000000 2999 = Some 2 /\ posix_to_win (0, 199) = EPOCH + 1.
Proof. repeat split; vm_compute; reflexivity. Qed.
