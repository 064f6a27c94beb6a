(** C91: the deadlines handed to the POSIX waits are the requested ones, whatever the width of time_t (Time32.v).
    True as long as the deadline can be represented; false otherwise (a 32-bit time_t: any deadline after January 2038). *)
From Coq Require Import ZArith Bool Lia.
From Verif Require Import Word TimeModel Time32.
Local Open Scope Z_scope.

(** The first second that does not fit a time_t; specification vocabulary, no counterpart in /repo. *)
Definition lim (wide : bool) : Z := if wide then 2 ^ 63 else 2 ^ 31.

Lemma wrap32 x : exists k, i32 x = x - k * 2 ^ 32 /\ - 2 ^ 31 <= i32 x < 2 ^ 31.
Proof.
  unfold i32, two32, two31. pose proof (Z.div_mod x (2 ^ 32) ltac:(lia)) as D. pose proof (Z.mod_pos_bound x (2 ^ 32) ltac:(lia)) as B.
  destruct (Z.ltb_spec (x mod 2 ^ 32) (2 ^ 31)); [exists (x / 2 ^ 32)|exists (x / 2 ^ 32 + 1)]; lia.
Qed.
Lemma wrap64 x : exists k, i64 x = x - k * 2 ^ 64 /\ - 2 ^ 63 <= i64 x < 2 ^ 63.
Proof.
  unfold i64, two64, two63. pose proof (Z.div_mod x (2 ^ 64) ltac:(lia)) as D. pose proof (Z.mod_pos_bound x (2 ^ 64) ltac:(lia)) as B.
  destruct (Z.ltb_spec (x mod 2 ^ 64) (2 ^ 63)); [exists (x / 2 ^ 64)|exists (x / 2 ^ 64 + 1)]; lia.
Qed.
Lemma to_sec_wrap w x : exists k, to_sec w x = x - k * (2 * lim w) /\ - lim w <= to_sec w x < lim w.
Proof.
  destruct w; cbn [to_sec lim]; [destruct (wrap64 x) as (k & E & R)|destruct (wrap32 x) as (k & E & R)]; exists k; split; try exact R; lia.
Qed.
Lemma to_long_small w x : 0 <= x < NS -> to_long w x = x.
Proof.
  unfold NS. intros H. destruct w; cbn [to_long]; [apply i64_id; unfold two63; lia|]. destruct (wrap32 x) as (k & E & R). nia.
Qed.
Lemma lim_pos w : 2 ^ 31 <= lim w <= 2 ^ 63.
Proof. destruct w; cbn [lim]; lia. Qed.

(** Adding any duration to any time point (no overflow of [tv_nsec + dur]): what comes out, exactly.  The value is right up to a whole number of wrap-arounds
    of tv_sec, tv_nsec is always valid; a negative sum counts as 2^64 ns more (C34). *)
Theorem C91_add : forall w sec ns d, - lim w <= sec < lim w -> 0 <= ns < NS -> - 2 ^ 63 <= ns + d < 2 ^ 63 ->
  exists sec' ns' k, w_add w (sec, ns) d = Some (sec', ns') /\ 0 <= ns' < NS /\ - lim w <= sec' < lim w /\
    sec' * NS + ns' = sec * NS + ns + d + (if ns + d <? 0 then 2 ^ 64 else 0) - k * (2 * lim w * NS).
Proof.
  intros w sec ns d Hs Hn Hr. unfold w_add, sig, in_i64, two63. pose proof (lim_pos w) as LP.
  replace ((- 2 ^ 63 <=? ns + d) && (ns + d <? 2 ^ 63)) with true by (symmetry; rewrite andb_true_iff, Z.leb_le, Z.ltb_lt; lia).
  set (x := u64 (ns + d)). assert (x = ns + d + (if ns + d <? 0 then 2 ^ 64 else 0)) as EX.
  { unfold x, u64, two64. destruct (Z.ltb_spec (ns + d) 0); [rewrite <- (Z_mod_plus_full _ 1)|]; rewrite Z.mod_small; lia. }
  assert (0 <= x < 2 ^ 64) as RX by (unfold x; apply u64_range). unfold cdiv, crem. rewrite Z.rem_mod_nonneg, Z.quot_div_nonneg by (unfold NS; lia).
  pose proof (Z.div_mod x NS ltac:(discriminate)) as DM. pose proof (Z.mod_pos_bound x NS ltac:(reflexivity)) as MB.
  assert (i64 (x mod NS) = x mod NS) as EI by (apply i64_id; unfold two63, NS in *; lia). cbv zeta. rewrite EI. destruct (Z.ltb_spec (x mod NS) 0); [lia|].
  rewrite (to_long_small w (x mod NS)) by exact MB.
  destruct (to_sec_wrap w (u64 sec + x / NS)) as (k & E & R).
  assert (exists j, u64 sec = sec + j * (2 * lim w)) as (j & EJ).
  { unfold u64, two64. pose proof (Z.div_mod sec (2 ^ 64) ltac:(lia)) as D2. destruct w; cbn [lim] in *.
    - exists (- (sec / 2 ^ 64)). lia.
    - exists (- (sec / 2 ^ 64) * 2 ^ 32). lia. }
  exists (to_sec w (u64 sec + x / NS)), (x mod NS), (k - j). split; [reflexivity|]. split; [exact MB|]. split; [exact R|]. rewrite E, EJ. rewrite EX in DM at 1. unfold NS in *. lia.
Qed.
Print Assumptions C91_add.

(** The deadline of a relative wait with a timeout that is not negative: exact if and only if it can be represented, and never later than requested. *)
Theorem C91_deadline_iff : forall w sec ns d, 0 <= sec < lim w -> 0 <= ns < NS -> 0 <= d -> ns + d < 2 ^ 63 ->
  exists sec' ns', w_add w (sec, ns) d = Some (sec', ns') /\ 0 <= ns' < NS /\ sec' * NS + ns' <= sec * NS + ns + d /\
    (sec' * NS + ns' = sec * NS + ns + d <-> sec * NS + ns + d < lim w * NS).
Proof.
  intros w sec ns d Hs Hn Hd Hr. destruct (C91_add w sec ns d) as (sec' & ns' & k & E & Rn & Rs & V); try lia. replace (ns + d <? 0) with false in V by (symmetry; apply Z.ltb_ge; lia).
  exists sec', ns'. split; [exact E|]. split; [exact Rn|]. pose proof (lim_pos w) as LP. set (L := lim w) in *. clearbody L.
  assert (0 <= k) as K0. { unfold NS in *. nia. }
  split; [unfold NS in *; nia|]. split.
  - intros Q. unfold NS in *. nia.
  - intros Q. assert (k = 0); [|subst k; lia]. unfold NS in *. nia.
Qed.
Print Assumptions C91_deadline_iff.

(** A relative wait is told that it timed out at the times at which it should be, and only then, as long as its deadline can be represented. *)
Theorem C91_relative_partial : forall w sec ns d c, 0 <= sec < lim w -> 0 <= ns < NS -> 0 <= d -> ns + d < 2 ^ 63 -> sec * NS + ns + d < lim w * NS ->
  rel_timed_out w (sec, ns) d c = Some (sec * NS + ns + d <=? c).
Proof.
  intros w sec ns d c Hs Hn Hd Hr HL. destruct (C91_deadline_iff w sec ns d Hs Hn Hd Hr) as (sec' & ns' & E & _ & _ & Q). unfold rel_timed_out. rewrite E. unfold ts_ns. cbn [fst snd].
  apply Q in HL. rewrite HL. reflexivity.
Qed.
Print Assumptions C91_relative_partial.

(** With a 64-bit time_t that is every wait, for clocks up to the year 146 billion. *)
Theorem C91_relative_64 : forall sec ns d c, 0 <= sec < 2 ^ 62 -> 0 <= ns < NS -> 0 <= d -> ns + d < 2 ^ 63 ->
  rel_timed_out true (sec, ns) d c = Some (sec * NS + ns + d <=? c).
Proof. intros sec ns d c Hs Hn Hd Hr. apply C91_relative_partial; cbn [lim]; unfold NS in *; lia. Qed.
Print Assumptions C91_relative_64.

(** If the deadline cannot be represented, the wait is told too early that it timed out (there is a time before the deadline when it is), never too late. *)
Theorem C91_relative_early : forall w sec ns d, 0 <= sec < lim w -> 0 <= ns < NS -> 0 <= d -> ns + d < 2 ^ 63 -> lim w * NS <= sec * NS + ns + d ->
  rel_timed_out w (sec, ns) d (sec * NS + ns + d - 1) = Some true.
Proof.
  intros w sec ns d Hs Hn Hd Hr HL. destruct (C91_deadline_iff w sec ns d Hs Hn Hd Hr) as (sec' & ns' & E & _ & LE & Q). unfold rel_timed_out. rewrite E. unfold ts_ns. cbn [fst snd]. f_equal. apply Z.leb_le. lia.
Qed.
Print Assumptions C91_relative_early.

(** With a 32-bit time_t, a deadline after the first overflow and within 2^32 seconds lies before 1970: the wait is told at once that it timed out. *)
Theorem C91_relative_at_once : forall sec ns d c, 0 <= sec < 2 ^ 31 -> 0 <= ns < NS -> 0 <= d -> ns + d < 2 ^ 63 ->
  2 ^ 31 * NS <= sec * NS + ns + d < 2 ^ 32 * NS -> sec * NS + ns <= c -> rel_timed_out false (sec, ns) d c = Some true.
Proof.
  intros sec ns d c Hs Hn Hd Hr HL Hc. destruct (C91_add false sec ns d) as (sec' & ns' & k & E & Rn & Rs & V); cbn [lim] in *; try lia. replace (ns + d <? 0) with false in V by (symmetry; apply Z.ltb_ge; lia).
  unfold rel_timed_out. rewrite E. unfold ts_ns. cbn [fst snd]. f_equal. apply Z.leb_le. unfold NS in *. nia.
Qed.
Print Assumptions C91_relative_at_once.

(** Time points made from a duration since 1970: the same. *)
Theorem C91_absolute_iff : forall w d, 0 <= d < 2 ^ 63 -> let tp := w_of_dur w d in
  0 <= snd tp < NS /\ ts_ns tp <= d /\ (ts_ns tp = d <-> d < lim w * NS).
Proof.
  intros w d Hd. cbv zeta. unfold w_of_dur, cdiv, crem. rewrite u64_id by (unfold two64; lia). rewrite Z.rem_mod_nonneg, Z.quot_div_nonneg by (unfold NS; lia).
  pose proof (Z.div_mod d NS ltac:(discriminate)) as DM. pose proof (Z.mod_pos_bound d NS ltac:(reflexivity)) as MB. rewrite (to_long_small w (d mod NS)) by exact MB.
  destruct (to_sec_wrap w (d / NS)) as (k & E & R). unfold ts_ns. cbn [fst snd]. rewrite E in *. pose proof (lim_pos w) as LP. set (L := lim w) in *. clearbody L.
  set (q := d / NS) in *. clearbody q. set (r := d mod NS) in *. clearbody r. assert (0 <= k) as K0 by (unfold NS in *; nia).
  split; [exact MB|]. split; [unfold NS in *; nia|]. split.
  - intros Q. unfold NS in *. assert (k = 0) by nia. nia.
  - intros Q. assert (k = 0); [|subst k; unfold NS in *; lia]. unfold NS in *. nia.
Qed.
Print Assumptions C91_absolute_iff.

(** ... and the waits until them. *)
Theorem C91_absolute_partial : forall w d c, 0 <= d < 2 ^ 63 -> d < lim w * NS -> abs_timed_out w d c = (d <=? c).
Proof. intros w d c Hd HL. unfold abs_timed_out. destruct (C91_absolute_iff w d Hd) as (_ & _ & Q). apply Q in HL. rewrite HL. reflexivity. Qed.
Print Assumptions C91_absolute_partial.

(** A time point given by seconds and nanoseconds is taken over unchanged. *)
Theorem C91_make : forall w t sub, 0 <= sub < NS -> w_make w t sub = (t, sub).
Proof. intros w t sub H. unfold w_make. rewrite to_long_small by exact H. reflexivity. Qed.
Print Assumptions C91_make.

(** The difference of two time points of a 32-bit time_t never overflows and is exact (the fields are widened first). *)
Theorem C91_difference_32 : forall l r, - 2 ^ 31 <= fst l < 2 ^ 31 -> - 2 ^ 31 <= fst r < 2 ^ 31 -> 0 <= snd l < NS -> 0 <= snd r < NS ->
  w_diff l r = Some (ts_ns l - ts_ns r).
Proof.
  intros [ls ln] [rs rn]. cbn [fst snd]. intros A B C D. unfold w_diff, px_diff, sig, in_i64, ts_ns, two63. cbn [fst snd]. unfold NS in *.
  replace ((- 2 ^ 63 <=? ls - rs) && (ls - rs <? 2 ^ 63)) with true by (symmetry; rewrite andb_true_iff, Z.leb_le, Z.ltb_lt; lia).
  replace ((- 2 ^ 63 <=? ln - rn) && (ln - rn <? 2 ^ 63)) with true by (symmetry; rewrite andb_true_iff, Z.leb_le, Z.ltb_lt; lia). f_equal.
  assert (u64 (u64 (u64 (ls - rs) * 1000000000) + u64 (ln - rn)) = u64 ((ls - rs) * 1000000000 + (ln - rn))) as ->.
  { unfold u64. rewrite <- Zplus_mod. rewrite Zplus_mod, Zmult_mod_idemp_l, <- Zplus_mod. reflexivity. }
  assert (forall z, i64 (u64 z) = i64 z) as II by (intros z; unfold i64, u64; rewrite Zmod_mod; reflexivity). rewrite II, i64_id; [lia|]. unfold two63. lia.
Qed.
Print Assumptions C91_difference_32.

(** The 64-bit case is the arithmetic of C34 to C36. *)
Theorem C91_same_as_64 : forall tp d, w_add true tp d = px_add tp d /\ w_of_dur true d = px_of_dur d.
Proof.
  intros [sec ns] d. split; [|reflexivity]. unfold w_add, px_add. destruct (sig (ns + d)) as [x|]; [|reflexivity]. cbv zeta.
  assert (forall z, i64 (i64 z) = i64 z) as II by (intros z; apply i64_id; apply i64_range). cbn [to_sec to_long].
  destruct (i64 (crem (u64 x) NS) <? 0); rewrite II; reflexivity.
Qed.
Print Assumptions C91_same_as_64.

(** A 32-bit time_t in November 2023: a wait for 20 years is told at once that it timed out; so is a wait until 2040. *)
Theorem C91_long_wait_refuted : exists sec d, 0 <= sec < 2 ^ 31 /\ d = 20 * 365 * 86400 * NS /\
  rel_timed_out false (sec, 0) d (sec * NS) = Some true /\ rel_timed_out true (sec, 0) d (sec * NS) = Some false /\
  abs_timed_out false (2208988800 * NS) (sec * NS) = true /\ sec * NS < 2208988800 * NS.
Proof. exists 1700000000, (20 * 365 * 86400 * NS). split; [lia|]. repeat split; vm_compute; reflexivity. Qed.
Print Assumptions C91_long_wait_refuted.

(** The hypotheses of [C91_relative_partial] are met on both widths by a wait of an hour and half a second that carries into the next second. *)
Example C91_example : forall w, 0 <= 1700000000 < lim w /\ 1700000000 * NS + 700000000 + 3600500000000 < lim w * NS /\
  w_add w (1700000000, 700000000) 3600500000000 = Some (1700003601, 200000000) /\
  rel_timed_out w (1700000000, 700000000) 3600500000000 (1700003601 * NS + 199999999) = Some false /\
  rel_timed_out w (1700000000, 700000000) 3600500000000 (1700003601 * NS + 200000000) = Some true.
Proof. intros [|]; vm_compute; repeat split; try reflexivity; discriminate. Qed.
