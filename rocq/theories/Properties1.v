(** * Properties C01-C07, C62: the block layer (src/storage.rs). *)
From Verif Require Import PBase PStorage SpecCfg.

(** ** C01 *)
Theorem C01_get_bits : forall c nb b start len,
  wf_cfg c -> wf_nb nb -> b < 2 ^ nb -> start + len <= nb ->
  blk_get_bits c nb b start len = Ok (int_of (sub start len (bits_of nb b))).
Proof. intros. rewrite blk_get_bits_ok by assumption. f_equal. now apply field_sub. Qed.

Theorem C01_with_bits : forall c nb b start len v,
  wf_cfg c -> wf_nb nb -> b < 2 ^ nb -> v < 2 ^ nb -> start + len <= nb ->
  exists b', blk_with_bits c nb b start len v = Ok b' /\ b' < 2 ^ nb /\
    forall i, N.testbit b' i =
      if (start <=? i) && (i <? start + len) then N.testbit v (i - start) else N.testbit b i.
Proof.
  intros. exists (with_field b start len v). rewrite blk_with_bits_ok by assumption.
  split; [reflexivity|]. split; [now apply with_field_lt|]. apply testbit_with_field.
Qed.

(** The same as a statement about bit sequences. *)
Theorem C01_with_bits_list : forall c nb b start len v,
  wf_cfg c -> wf_nb nb -> b < 2 ^ nb -> v < 2 ^ nb -> start + len <= nb ->
  exists b', blk_with_bits c nb b start len v = Ok b' /\ b' < 2 ^ nb /\
    bits_of nb b' = put start (bits_of len v) (bits_of nb b).
Proof.
  intros. exists (with_field b start len v). rewrite blk_with_bits_ok by assumption.
  split; [reflexivity|]. split; [now apply with_field_lt|]. now apply with_field_put.
Qed.

Theorem C01_out_of_bounds : forall c nb b start len v,
  wf_cfg c -> wf_nb nb -> nb < start + len -> start + len < 2 ^ ptr c ->
  panics (blk_get_bits c nb b start len) /\ panics (blk_with_bits c nb b start len v).
Proof.
  intros. rewrite blk_get_bits_oob, blk_with_bits_oob by assumption. auto.
Qed.

Example C01_ex :
  wf_cfg rel32 /\ wf_nb 8 /\ 181 < 2 ^ 8 /\ 2 + 4 <= 8 /\
  blk_get_bits rel32 8 181 2 4 = Ok 13 /\ blk_with_bits rel32 8 181 2 4 6 = Ok 153 /\
  blk_get_bits rel32 8 181 5 4 = Panic PAssert.
Proof. repeat split; auto with wf; vm_compute; congruence. Qed.

(** ** C62: when [start + len] does not fit in a usize.  With overflow checks the addition
    panics; without, it wraps and the bounds check can pass. *)
Theorem C62_wrapping_span_partial : forall c nb b start len v,
  debug c = true -> 2 ^ ptr c <= start + len ->
  panics (blk_get_bits c nb b start len) /\ panics (blk_with_bits c nb b start len v).
Proof.
  intros c nb b s n v Hd H. unfold blk_get_bits, blk_with_bits, wadd, wrap.
  destruct (s + n <? 2 ^ ptr c) eqn:E; [lia|]. rewrite Hd. cbn [bind]. auto.
Qed.
Example C62_ex : 2 ^ ptr dbg64 <= (2 ^ 64 - 1) + 1 /\
  blk_get_bits dbg64 8 181 (2 ^ 64 - 1) 1 = Panic POverflow.
Proof. split; vm_compute; congruence. Qed.
Theorem C62_wrapping_span_refuted : exists c nb b start len r,
  wf_cfg c /\ wf_nb nb /\ b < 2 ^ nb /\ start < 2 ^ ptr c /\ len < 2 ^ ptr c /\
  nb < start + len /\ blk_get_bits c nb b start len = Ok r.
Proof.
  exists rel64, 8, 181, (2 ^ 64 - 1), 1, 1.
  repeat split; auto with wf; vm_compute; congruence.
Qed.

(** ** C02 *)
Theorem C02_get_bit : forall c nb b i, i < nb -> blk_get_bit c nb b i = Ok (N.testbit b i).
Proof. exact blk_get_bit_ok. Qed.

Theorem C02_with_bit : forall c nb b i v, b < 2 ^ nb -> i < nb ->
  exists b', blk_with_bit c nb b i v = Ok b' /\ b' < 2 ^ nb /\
    forall j, N.testbit b' j = if j =? i then v else N.testbit b j.
Proof.
  intros. exists (setbit_ b i v). rewrite blk_with_bit_ok by assumption.
  split; [reflexivity|]. split; [now apply setbit_lt|]. apply testbit_setbit_.
Qed.

Theorem C02_out_of_bounds : forall c nb b i v, nb <= i ->
  panics (blk_get_bit c nb b i) /\ panics (blk_with_bit c nb b i v).
Proof. intros. rewrite blk_get_bit_oob, blk_with_bit_oob by assumption. auto. Qed.

Example C02_ex : 6 < 8 /\ blk_get_bit dbg64 8 181 5 = Ok true /\ blk_get_bit dbg64 8 181 6 = Ok false /\
  blk_with_bit dbg64 8 181 6 true = Ok 245 /\ blk_with_bit dbg64 8 181 5 false = Ok 149 /\
  blk_get_bit dbg64 8 181 8 = Panic PAssert.
Proof. repeat split; vm_compute; congruence. Qed.

(** ** C03 *)
Theorem C03_low_mask : forall c nb k, wf_cfg c -> wf_nb nb -> k <= nb ->
  low_mask c nb k = Ok (2 ^ k - 1) /\ default_low_mask c nb k = Ok (2 ^ k - 1).
Proof.
  intros. rewrite low_mask_ok, default_low_mask_ok by assumption. rewrite ones_eq. auto.
Qed.
Example C03_ex : 64 <= 64 /\ low_mask dbg32 64 64 = Ok 18446744073709551615 /\
  low_mask rel64 64 63 = Ok 9223372036854775807 /\ low_mask dbg64 8 0 = Ok 0.
Proof. repeat split; vm_compute; congruence. Qed.

(** ** C04 *)
Theorem C04_ceil_lg : forall c w x, x < 2 ^ w ->
  exists n, ceil_lg c w x = Ok n /\ x <= 2 ^ n /\ forall m, x <= 2 ^ m -> n <= m.
Proof.
  intros c w x H. exists (N.log2_up x). split; [now apply ceil_lg_ok|].
  destruct (N.le_gt_cases x 1) as [Hx|Hx].
  - rewrite N.log2_up_eqn0 by assumption. split; [change (2 ^ 0) with 1; lia|]. intros. lia.
  - split; [apply N.log2_up_spec; assumption|]. intros m Hm. apply N.log2_up_le_pow2; lia.
Qed.
Theorem C04_floor_lg : forall c w x, 1 <= x -> x < 2 ^ w ->
  exists n, floor_lg c w x = Ok n /\ 2 ^ n <= x /\ forall m, 2 ^ m <= x -> m <= n.
Proof.
  intros c w x H1 H2. exists (N.log2 x). split; [now apply floor_lg_ok|].
  split; [apply N.log2_spec; lia|]. intros m Hm. apply N.log2_le_pow2; lia.
Qed.
Example C04_ex : 200 < 2 ^ 8 /\ ceil_lg dbg64 8 200 = Ok 8 /\ floor_lg dbg64 8 200 = Ok 7 /\
  ceil_lg dbg64 8 128 = Ok 7 /\ floor_lg dbg64 8 128 = Ok 7 /\
  ceil_lg rel32 64 (2 ^ 64 - 1) = Ok 64 /\ ceil_lg rel32 64 0 = Ok 0 /\ floor_lg rel32 64 0 = Ok 0.
Proof. repeat split; vm_compute; congruence. Qed.

(** ** C05.  Full statement: for every [x < 2^w] and [0 < d < 2^w], [ceil_div c w x d = Ok n] with
    [n] least such that [x <= n * d].  Missing: pairs whose sum does not fit the type. *)
Theorem C05_ceil_div_partial : forall c w x d, 0 < d -> x + d < 2 ^ w ->
  exists n, ceil_div c w x d = Ok n /\ x <= n * d /\ forall m, x <= m * d -> n <= m.
Proof.
  intros c w x d Hd H. exists ((x + d - 1) / d). unfold ceil_div.
  rewrite wadd_ok by assumption. cbn [bind]. rewrite wsub_ok by lia. cbn [bind].
  rewrite wdiv_ok by lia. split; [reflexivity|].
  pose proof (N.div_mod (x + d - 1) d ltac:(lia)) as E. pose proof (N.mod_lt (x + d - 1) d ltac:(lia)).
  set (q := (x + d - 1) / d) in *. split; [lia|].
  intros m Hm. destruct (N.le_gt_cases q m) as [Hq|Hq]; [assumption|].
  assert (d * (m + 1) <= d * q) by (apply N.mul_le_mono_l; lia). lia.
Qed.
Theorem C05_zero_divisor : forall c w x, x < 2 ^ w -> panics (ceil_div c w x 0).
Proof.
  intros c w x H. unfold ceil_div. rewrite wadd_ok by lia. cbn [bind]. unfold wsub.
  destruct (1 <=? x + 0); cbn [bind]; [eexists; reflexivity|].
  destruct (debug c); cbn [bind]; eexists; reflexivity.
Qed.
Theorem C05_overflow_detected_with_checks : forall c w x d, debug c = true -> 2 ^ w <= x + d ->
  panics (ceil_div c w x d).
Proof.
  intros c w x d Hd H. unfold ceil_div, wadd, wrap. destruct (x + d <? 2 ^ w) eqn:E; [lia|].
  rewrite Hd. cbn [bind]. auto.
Qed.
Theorem C05_ceil_div_refuted : exists c w x d n,
  wf_cfg c /\ wf_nb w /\ x < 2 ^ w /\ 0 < d < 2 ^ w /\ ceil_div c w x d = Ok n /\ n * d < x.
Proof.
  exists rel64, 8, 250, 10, 0. repeat split; auto with wf; vm_compute; congruence.
Qed.
Example C05_ex : 0 < 10 /\ 241 + 10 < 2 ^ 8 /\ ceil_div dbg64 8 241 10 = Ok 25 /\
  ceil_div dbg64 8 240 10 = Ok 24 /\ ceil_div dbg64 8 0 10 = Ok 0 /\
  ceil_div dbg64 8 250 10 = Panic POverflow.
Proof. repeat split; vm_compute; congruence. Qed.

(** ** C06 *)
Theorem C06_address : forall c nb i, wf_cfg c -> wf_nb nb -> i < 2 ^ 64 ->
  (i / nb < 2 ^ ptr c ->
     exists a, address_new c nb i = Ok a /\ bit_offset a < nb /\
       i = block_index a * nb + bit_offset a /\ address_bit_index c nb a = Ok i) /\
  (2 ^ ptr c <= i / nb -> panics (address_new c nb i)).
Proof.
  intros c nb i Hc Hn Hi. pose proof (wf_nb_range _ Hn). split; intros H1.
  - eexists. rewrite address_new_ok by assumption. split; [reflexivity|]. cbn [bit_offset block_index].
    pose proof (N.div_mod i nb ltac:(lia)). pose proof (N.mod_lt i nb ltac:(lia)).
    split; [assumption|]. split; [lia|]. unfold address_bit_index. cbn [bit_offset block_index].
    rewrite mul_nbits_ok by (auto; lia). cbn [bind]. rewrite wadd_ok by lia. f_equal. lia.
  - rewrite address_new_panic by assumption. auto.
Qed.
Example C06_ex : 77 / 8 < 2 ^ ptr dbg32 /\
  address_new dbg32 8 77 = Ok {| block_index := 9; bit_offset := 5 |} /\
  address_bit_index dbg32 8 {| block_index := 9; bit_offset := 5 |} = Ok 77 /\
  address_new dbg32 8 (2 ^ 35) = Panic PExpect /\
  address_new dbg32 64 (2 ^ 35) = Ok {| block_index := 2 ^ 29; bit_offset := 0 |}.
Proof. repeat split; vm_compute; congruence. Qed.

(** ** C07.  Full statement: for every [i < 2^64] the unchecked functions give the mathematical
    quotient and the checked ones give it or [None].  Missing: [div_nbits] when the quotient does
    not fit a 32-bit usize, and the ceiling functions for the last [nb - 1] values of u64. *)
Theorem C07_sizes_partial : forall c nb i, wf_cfg c -> wf_nb nb -> i < 2 ^ 64 ->
  (i / nb < 2 ^ ptr c -> div_nbits c nb i = Ok (i / nb)) /\
  checked_div_nbits c nb i = Ok (if i / nb <? 2 ^ ptr c then Some (i / nb) else None) /\
  mod_nbits c nb i = Ok (i mod nb) /\
  (exists k, last_block_bits c nb i = Ok k /\ 1 <= k <= nb /\ (exists q, i + nb = q * nb + k)) /\
  (i + nb <= 2 ^ 64 -> forall n, (i <= n * nb /\ forall m, i <= m * nb -> n <= m) ->
     (n < 2 ^ ptr c -> ceil_div_nbits c nb i = Ok n) /\
     checked_ceil_div_nbits c nb i = Ok (if n <? 2 ^ ptr c then Some n else None)).
Proof.
  intros c nb i Hc Hn Hi. pose proof (wf_nb_range _ Hn).
  pose proof (N.div_mod i nb ltac:(lia)). pose proof (N.mod_lt i nb ltac:(lia)).
  repeat split.
  - intros. rewrite div_nbits_ok by assumption. now rewrite as_usize_small.
  - rewrite checked_div_nbits_ok by assumption. reflexivity.
  - now apply mod_nbits_ok.
  - rewrite last_block_bits_ok by assumption. eexists; split; [reflexivity|].
    destruct (i mod nb =? 0) eqn:E.
    + split; [lia|]. exists (i / nb). lia.
    + split; [lia|]. exists (i / nb + 1). lia.
  - intros Hn'. rewrite ceil_div_nbits_ok by (auto; lia).
    assert (E : blocks_for nb i = n); [|rewrite E, as_usize_small; auto].
    destruct H3 as [H3 H4]. unfold blocks_for.
    pose proof (N.div_mod (i + (nb - 1)) nb ltac:(lia)). pose proof (N.mod_lt (i + (nb - 1)) nb ltac:(lia)).
    set (q := (i + (nb - 1)) / nb) in *. apply N.le_antisymm; [|apply H4; lia].
    destruct (N.le_gt_cases q n) as [Hq|Hq]; [assumption|].
    assert (nb * (n + 1) <= nb * q) by (apply N.mul_le_mono_l; lia). lia.
  - rewrite checked_ceil_div_nbits_ok by (auto; lia). unfold to_usize.
    assert (E : blocks_for nb i = n); [|now rewrite E].
    destruct H3 as [H3 H4]. unfold blocks_for.
    pose proof (N.div_mod (i + (nb - 1)) nb ltac:(lia)). pose proof (N.mod_lt (i + (nb - 1)) nb ltac:(lia)).
    set (q := (i + (nb - 1)) / nb) in *. apply N.le_antisymm; [|apply H4; lia].
    destruct (N.le_gt_cases q n) as [Hq|Hq]; [assumption|].
    assert (nb * (n + 1) <= nb * q) by (apply N.mul_le_mono_l; lia). lia.
Qed.
Theorem C07_mul_nbits : forall c nb i, wf_cfg c -> wf_nb nb -> i * nb < 2 ^ 64 ->
  mul_nbits c nb i = Ok (i * nb).
Proof. exact mul_nbits_ok. Qed.
Theorem C07_checked_ceil_refuted : exists c nb i,
  wf_cfg c /\ wf_nb nb /\ i < 2 ^ 64 /\ checked_ceil_div_nbits c nb i = Ok (Some 0) /\ 0 < i.
Proof.
  exists rel64, 64, (2 ^ 64 - 1). repeat split; auto with wf; vm_compute; congruence.
Qed.
Theorem C07_div_nbits_refuted : exists c nb i n,
  wf_cfg c /\ wf_nb nb /\ i < 2 ^ 64 /\ div_nbits c nb i = Ok n /\ n <> i / nb.
Proof.
  exists dbg32, 8, (2 ^ 35), 0. repeat split; auto with wf; vm_compute; congruence.
Qed.
Example C07_ex : 77 + 8 <= 2 ^ 64 /\ div_nbits dbg64 8 77 = Ok 9 /\ mod_nbits dbg64 8 77 = Ok 5 /\
  ceil_div_nbits dbg64 8 77 = Ok 10 /\ ceil_div_nbits dbg64 8 72 = Ok 9 /\
  last_block_bits dbg64 8 77 = Ok 5 /\ last_block_bits dbg64 8 72 = Ok 8 /\
  checked_div_nbits dbg32 8 (2 ^ 35) = Ok None.
Proof. repeat split; vm_compute; congruence. Qed.

Print Assumptions C01_get_bits.
Print Assumptions C01_with_bits.
Print Assumptions C01_with_bits_list.
Print Assumptions C01_out_of_bounds.
Print Assumptions C62_wrapping_span_partial.
Print Assumptions C62_wrapping_span_refuted.
Print Assumptions C02_get_bit.
Print Assumptions C02_with_bit.
Print Assumptions C02_out_of_bounds.
Print Assumptions C03_low_mask.
Print Assumptions C04_ceil_lg.
Print Assumptions C04_floor_lg.
Print Assumptions C05_ceil_div_partial.
Print Assumptions C05_zero_divisor.
Print Assumptions C05_overflow_detected_with_checks.
Print Assumptions C05_ceil_div_refuted.
Print Assumptions C06_address.
Print Assumptions C07_sizes_partial.
Print Assumptions C07_mul_nbits.
Print Assumptions C07_checked_ceil_refuted.
Print Assumptions C07_div_nbits_refuted.
