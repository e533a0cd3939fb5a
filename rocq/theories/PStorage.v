(** * Lemmas about the [BlockType] operations (MStorage.v). *)
From Verif Require Export PBase MStorage.

Lemma size_log2 x : x <> 0 -> N.size x = N.succ (N.log2 x).
Proof. apply N.size_log2. Qed.

Lemma log2_lt_pow2 x w : 0 < x -> x < 2 ^ w -> N.log2 x < w.
Proof. intros H1 H2. apply N.log2_lt_pow2; assumption. Qed.

(** ** lg *)
Lemma floor_lg_ok c w x : 1 <= x -> x < 2 ^ w -> floor_lg c w x = Ok (N.log2 x).
Proof.
  intros H1 H2. unfold floor_lg. destruct (x <=? 1) eqn:E.
  - replace x with 1 by lia. reflexivity.
  - assert (Hl : N.log2 x < w) by (apply log2_lt_pow2; lia).
    rewrite wsub_ok by lia. cbn [bind]. unfold leading_zeros. rewrite size_log2 by lia.
    rewrite wsub_ok by lia. f_equal. lia.
Qed.

Lemma ceil_lg_ok c w x : x < 2 ^ w -> ceil_lg c w x = Ok (N.log2_up x).
Proof.
  intros H. unfold ceil_lg. destruct (x <=? 1) eqn:E.
  - assert (x = 0 \/ x = 1) as [-> | ->] by lia; reflexivity.
  - assert (Hl : N.log2 (x - 1) < w) by (apply log2_lt_pow2; lia).
    rewrite wsub_ok by lia. cbn [bind]. unfold leading_zeros. rewrite size_log2 by lia.
    rewrite wsub_ok by lia. f_equal. unfold N.log2_up.
    assert (E2 : (1 ?= x) = Lt) by (apply N.compare_lt_iff; lia). rewrite E2.
    replace (N.pred x) with (x - 1) by lia. lia.
Qed.

Lemma lg_nbits_ok c nb : wf_cfg c -> wf_nb nb -> lg_nbits c nb = Ok (N.log2 nb).
Proof.
  intros Hc Hn. pose proof (wf_nb_range _ Hn). pose proof (wf_ptr _ Hc).
  unfold lg_nbits. apply floor_lg_ok; lia.
Qed.
Lemma log2_nb nb : wf_nb nb -> nb = 2 ^ N.log2 nb /\ N.log2 nb <= 6.
Proof. intros [H|[H|[H|H]]]; subst; vm_compute; split; congruence. Qed.

Lemma shiftr_nb nb i : wf_nb nb -> N.shiftr i (N.log2 nb) = i / nb.
Proof. intros Hn. rewrite N.shiftr_div_pow2. f_equal. symmetry. apply log2_nb. exact Hn. Qed.

Lemma div_nbits_ok c nb i : wf_cfg c -> wf_nb nb -> div_nbits c nb i = Ok (as_usize c (i / nb)).
Proof.
  intros Hc Hn. unfold div_nbits. rewrite lg_nbits_ok by assumption. cbn [bind].
  destruct (log2_nb nb Hn) as [_ H]. rewrite wshr_ok by lia. cbn [bind]. now rewrite shiftr_nb.
Qed.
Lemma checked_div_nbits_ok c nb i : wf_cfg c -> wf_nb nb ->
  checked_div_nbits c nb i = Ok (to_usize c (i / nb)).
Proof.
  intros Hc Hn. unfold checked_div_nbits. rewrite lg_nbits_ok by assumption. cbn [bind].
  destruct (log2_nb nb Hn) as [_ H]. rewrite wshr_ok by lia. cbn [bind]. now rewrite shiftr_nb.
Qed.

Lemma low_mask_ok c nb k : wf_cfg c -> wf_nb nb -> k <= nb -> low_mask c nb k = Ok (N.ones k).
Proof.
  intros Hc Hn Hk. pose proof (wf_nb_range _ Hn). pose proof (wf_ptr _ Hc).
  unfold low_mask. rewrite debug_assert_true by lia. cbn [bind].
  replace (k mod 2 ^ 32) with k by (rewrite N.mod_small; lia).
  unfold wrapping_shl. rewrite div_nbits_ok by assumption.
  destruct (N.eq_dec k nb) as [E|E].
  - subst k. rewrite N.mod_same by lia. cbn [N.shiftl].
    rewrite N.mod_small by (apply (N.pow_lt_mono_r 2 0 nb); lia).
    rewrite wsub_ok by lia. cbn [bind].
    rewrite N.div_same by lia. rewrite as_usize_small by lia. cbn [bind].
    unfold wnot. rewrite N.lnot_0_l. change (N.land 1 1) with 1.
    rewrite wmul_ok by (rewrite N.mul_1_l; apply ones_lt; lia). cbn [bind].
    rewrite N.mul_1_l. reflexivity.
  - rewrite (N.mod_small k) by lia. rewrite N.shiftl_1_l.
    assert (2 ^ k < 2 ^ nb) by (apply N.pow_lt_mono_r; lia).
    pose proof (pow2_pos k).
    rewrite N.mod_small by assumption. rewrite wsub_ok by lia. cbn [bind].
    rewrite N.div_small by lia. rewrite as_usize_small by lia. cbn [bind].
    rewrite N.land_0_l. rewrite wmul_ok by lia. cbn [bind]. rewrite N.mul_0_l, N.lor_0_r.
    now rewrite ones_eq.
Qed.

Lemma default_low_mask_ok c nb k : k <= nb -> default_low_mask c nb k = Ok (N.ones k).
Proof.
  intros Hk. unfold default_low_mask. rewrite debug_assert_true by lia. cbn [bind].
  destruct (k =? nb) eqn:E.
  - apply N.eqb_eq in E. subst. unfold wnot. now rewrite N.lnot_0_l.
  - rewrite wshl_ok by lia. cbn [bind]. rewrite N.shiftl_1_l.
    assert (2 ^ k < 2 ^ nb) by (apply N.pow_lt_mono_r; lia). pose proof (pow2_pos k).
    rewrite N.mod_small by assumption. rewrite wsub_ok by lia. now rewrite ones_eq.
Qed.

Lemma wf_nb_64 : wf_nb 64.
Proof. right; right; right; reflexivity. Qed.

Lemma mod_nbits_ok c nb i : wf_cfg c -> wf_nb nb -> mod_nbits c nb i = Ok (i mod nb).
Proof.
  intros Hc Hn. pose proof (wf_nb_range _ Hn). pose proof (wf_ptr _ Hc).
  unfold mod_nbits. rewrite lg_nbits_ok by assumption. cbn [bind].
  destruct (log2_nb nb Hn) as [E1 E2].
  rewrite low_mask_ok by (auto using wf_nb_64; lia). cbn [bind].
  rewrite N.land_ones, <- E1. rewrite as_usize_small; [reflexivity|].
  pose proof (N.mod_lt i nb). lia.
Qed.

Lemma mul_nbits_ok c nb i : wf_cfg c -> wf_nb nb -> i * nb < 2 ^ 64 -> mul_nbits c nb i = Ok (i * nb).
Proof.
  intros Hc Hn Hi. unfold mul_nbits. rewrite lg_nbits_ok by assumption. cbn [bind].
  destruct (log2_nb nb Hn) as [E1 E2]. rewrite wshl_ok by lia.
  rewrite N.shiftl_mul_pow2, <- E1, N.mod_small by assumption. reflexivity.
Qed.

Lemma ceil_div_nbits_ok c nb i : wf_cfg c -> wf_nb nb -> i + (nb - 1) < 2 ^ 64 ->
  ceil_div_nbits c nb i = Ok (as_usize c (blocks_for nb i)).
Proof.
  intros Hc Hn Hi. pose proof (wf_nb_range _ Hn). unfold ceil_div_nbits.
  rewrite wsub_ok by lia. cbn [bind]. rewrite wadd_ok by lia. cbn [bind].
  now rewrite div_nbits_ok.
Qed.
Lemma checked_ceil_div_nbits_ok c nb i : wf_cfg c -> wf_nb nb -> i + (nb - 1) < 2 ^ 64 ->
  checked_ceil_div_nbits c nb i = Ok (to_usize c (blocks_for nb i)).
Proof.
  intros Hc Hn Hi. pose proof (wf_nb_range _ Hn). unfold checked_ceil_div_nbits.
  rewrite wsub_ok by lia. cbn [bind]. rewrite wadd_ok by lia. cbn [bind].
  now rewrite checked_div_nbits_ok.
Qed.

Lemma last_block_bits_ok c nb n : wf_cfg c -> wf_nb nb ->
  last_block_bits c nb n = Ok (if n mod nb =? 0 then nb else n mod nb).
Proof. intros Hc Hn. unfold last_block_bits. now rewrite mod_nbits_ok. Qed.

(** ** Single bits *)
Lemma testbit_1 i : N.testbit 1 i = (i =? 0).
Proof. destruct i; reflexivity. Qed.

Lemma nth_mask_ok c nb i : i < nb -> nth_mask c nb i = Ok (2 ^ i).
Proof.
  intros H. unfold nth_mask. rewrite wshl_ok by assumption. rewrite N.shiftl_1_l.
  rewrite N.mod_small; [reflexivity|]. apply N.pow_lt_mono_r; lia.
Qed.

Lemma land_pow2_eq0 b i : (N.land b (2 ^ i) =? 0) = negb (N.testbit b i).
Proof.
  destruct (N.testbit b i) eqn:E; cbn [negb].
  - apply N.eqb_neq. intros H. assert (H1 : N.testbit (N.land b (2 ^ i)) i = false) by now rewrite H, N.bits_0.
    rewrite N.land_spec, N.pow2_bits_true, E in H1. discriminate.
  - apply N.eqb_eq. apply N.bits_inj. intros j. rewrite N.land_spec, N.bits_0, N.pow2_bits_eqb.
    destruct (i =? j) eqn:Ej; [|apply andb_false_r]. apply N.eqb_eq in Ej. subst. now rewrite E.
Qed.

Lemma blk_get_bit_ok c nb b i : i < nb -> blk_get_bit c nb b i = Ok (N.testbit b i).
Proof.
  intros H. unfold blk_get_bit. rewrite assert_true by lia. cbn [bind].
  rewrite nth_mask_ok by assumption. cbn [bind]. now rewrite land_pow2_eq0, negb_involutive.
Qed.
Lemma blk_get_bit_oob c nb b i : nb <= i -> blk_get_bit c nb b i = Panic PAssert.
Proof. intros H. unfold blk_get_bit. now rewrite assert_false by lia. Qed.

Definition setbit_ (b i : N) (v : bool) : N := if v then N.setbit b i else N.clearbit b i.
Lemma testbit_setbit_ b i v j : N.testbit (setbit_ b i v) j = if j =? i then v else N.testbit b j.
Proof.
  unfold setbit_. destruct v.
  - rewrite N.setbit_eqb. rewrite N.eqb_sym. destruct (j =? i); reflexivity.
  - rewrite N.clearbit_eqb. rewrite N.eqb_sym. destruct (j =? i); [apply andb_false_r|apply andb_true_r].
Qed.

Lemma blk_with_bit_ok c nb b i v : b < 2 ^ nb -> i < nb -> blk_with_bit c nb b i v = Ok (setbit_ b i v).
Proof.
  intros Hb H. unfold blk_with_bit. rewrite assert_true by lia. cbn [bind].
  rewrite nth_mask_ok by assumption. cbn [bind]. f_equal. apply N.bits_inj. intros j.
  rewrite testbit_setbit_. destruct v.
  - rewrite N.lor_spec, N.pow2_bits_eqb, N.eqb_sym.
    destruct (j =? i); [apply orb_true_r|apply orb_false_r].
  - unfold wnot. rewrite N.land_spec, testbit_lnot, N.pow2_bits_eqb, (N.eqb_sym i j).
    destruct (j =? i) eqn:E, (j <? nb) eqn:E2; cbn [negb];
      rewrite ?andb_false_r, ?andb_true_r; try reflexivity; try lia.
    rewrite (testbit_small b nb j Hb) by lia. reflexivity.
Qed.
Lemma blk_with_bit_oob c nb b i v : nb <= i -> blk_with_bit c nb b i v = Panic PAssert.
Proof. intros H. unfold blk_with_bit. now rewrite assert_false by lia. Qed.
Lemma setbit_lt b i v nb : b < 2 ^ nb -> i < nb -> setbit_ b i v < 2 ^ nb.
Proof.
  intros Hb Hi. apply bits_lt. intros j Hj. rewrite testbit_setbit_.
  destruct (j =? i) eqn:E; [lia|]. now apply (testbit_small b nb).
Qed.

(** ** Bit fields *)

(** [len] bits of [b] from [start] / [b] with those bits replaced by the low bits of [v]. *)
Definition field (b start len : N) : N := N.land (N.shiftr b start) (N.ones len).
Definition with_field (b start len v : N) : N :=
  N.lor (N.ldiff b (N.shiftl (N.ones len) start)) (N.shiftl (N.land v (N.ones len)) start).

Lemma testbit_field b s n i : N.testbit (field b s n) i = (i <? n) && N.testbit b (s + i).
Proof.
  unfold field. rewrite N.land_spec, testbit_ones, N.shiftr_spec', andb_comm. f_equal. f_equal. lia.
Qed.
Lemma testbit_with_field b s n v i :
  N.testbit (with_field b s n v) i =
  if (s <=? i) && (i <? s + n) then N.testbit v (i - s) else N.testbit b i.
Proof.
  unfold with_field. rewrite N.lor_spec, N.ldiff_spec.
  destruct (s <=? i) eqn:E; cbn [andb].
  - rewrite !N.shiftl_spec_high' by lia. rewrite N.land_spec, testbit_ones.
    destruct (i - s <? n) eqn:E1, (i <? s + n) eqn:E2; try lia; cbn [negb].
    + rewrite andb_false_r, andb_true_r. reflexivity.
    + rewrite andb_true_r, andb_false_r, orb_false_r. reflexivity.
  - rewrite !N.shiftl_spec_low by lia. cbn [negb]. rewrite andb_true_r, orb_false_r. reflexivity.
Qed.
Lemma field_lt b s n : field b s n < 2 ^ n.
Proof. apply bits_lt. intros i Hi. rewrite testbit_field. destruct (i <? n) eqn:E; [lia|reflexivity]. Qed.
Lemma with_field_lt b s n v nb : b < 2 ^ nb -> s + n <= nb -> with_field b s n v < 2 ^ nb.
Proof.
  intros Hb H. apply bits_lt. intros i Hi. rewrite testbit_with_field.
  destruct ((s <=? i) && (i <? s + n)) eqn:E; [lia|]. now apply (testbit_small b nb).
Qed.

Lemma blk_get_bits_ok c nb b s n : wf_cfg c -> wf_nb nb -> s + n <= nb ->
  blk_get_bits c nb b s n = Ok (field b s n).
Proof.
  intros Hc Hn H. pose proof (wf_nb_range _ Hn). pose proof (wf_ptr _ Hc).
  unfold blk_get_bits. rewrite wadd_ok by lia. cbn [bind]. rewrite assert_true by lia. cbn [bind].
  destruct (n =? 0) eqn:E.
  - apply N.eqb_eq in E. subst. unfold field. now rewrite N.land_0_r.
  - rewrite wshr_ok by lia. cbn [bind]. rewrite low_mask_ok by (auto; lia). reflexivity.
Qed.
Lemma blk_get_bits_oob c nb b s n : wf_cfg c -> wf_nb nb -> nb < s + n -> s + n < 2 ^ ptr c ->
  blk_get_bits c nb b s n = Panic PAssert.
Proof.
  intros Hc Hn H1 H2. unfold blk_get_bits. rewrite wadd_ok by lia. cbn [bind].
  now rewrite assert_false by lia.
Qed.

Lemma blk_with_bits_ok c nb b s n v : wf_cfg c -> wf_nb nb -> b < 2 ^ nb -> s + n <= nb ->
  blk_with_bits c nb b s n v = Ok (with_field b s n v).
Proof.
  intros Hc Hn Hb H. pose proof (wf_nb_range _ Hn). pose proof (wf_ptr _ Hc).
  unfold blk_with_bits. rewrite wadd_ok by lia. cbn [bind]. rewrite assert_true by lia. cbn [bind].
  destruct (n =? 0) eqn:E.
  - apply N.eqb_eq in E. subst. f_equal. apply N.bits_inj. intros i. rewrite testbit_with_field.
    destruct ((s <=? i) && (i <? s + 0)) eqn:E; [lia|reflexivity].
  - rewrite low_mask_ok by (auto; lia). cbn [bind]. rewrite !wshl_ok by lia. cbn [bind].
    f_equal. apply N.bits_inj. intros i. rewrite testbit_with_field.
    unfold wnot. rewrite N.lor_spec, !N.land_spec, testbit_lnot, !testbit_shiftl_mod, testbit_ones.
    destruct (i <? nb) eqn:E1, (s <=? i) eqn:E2, (i - s <? n) eqn:E3, (i <? s + n) eqn:E4;
      try lia; cbn [andb negb];
      rewrite ?andb_false_r, ?andb_true_r, ?orb_false_r, ?orb_false_l; try reflexivity;
      rewrite (testbit_small b nb i Hb) by lia; reflexivity.
Qed.
Lemma blk_with_bits_oob c nb b s n v : wf_cfg c -> wf_nb nb -> nb < s + n -> s + n < 2 ^ ptr c ->
  blk_with_bits c nb b s n v = Panic PAssert.
Proof.
  intros Hc Hn H1 H2. unfold blk_with_bits. rewrite wadd_ok by lia. cbn [bind].
  now rewrite assert_false by lia.
Qed.

(** In terms of bit lists. *)
Lemma field_sub b s n nb : s + n <= nb -> field b s n = int_of (sub s n (bits_of nb b)).
Proof.
  intros H. apply N.bits_inj. intros i. rewrite testbit_field, testbit_int_of. unfold bit_at.
  rewrite nthN_sub, nthN_bits_of. destruct (i <? n) eqn:E; [|reflexivity].
  destruct (s + i <? nb) eqn:E2; [reflexivity|lia].
Qed.
Lemma with_field_put b s n v nb : s + n <= nb ->
  bits_of nb (with_field b s n v) = put s (bits_of n v) (bits_of nb b).
Proof.
  intros H. apply nthN_ext. intros i.
  rewrite nthN_put by (rewrite !lengthN_bits_of; lia). rewrite lengthN_bits_of, !nthN_bits_of.
  rewrite testbit_with_field.
  destruct ((s <=? i) && (i <? s + n)) eqn:E; destruct (i <? nb) eqn:E2; try lia; try reflexivity.
  destruct (i - s <? n) eqn:E3; [reflexivity|lia].
Qed.

(** ** Addresses *)
Lemma address_new_ok c nb i : wf_cfg c -> wf_nb nb -> i / nb < 2 ^ ptr c ->
  address_new c nb i = Ok {| block_index := i / nb; bit_offset := i mod nb |}.
Proof.
  intros Hc Hn H. unfold address_new. rewrite checked_div_nbits_ok by assumption. cbn [bind].
  rewrite to_usize_small by assumption. cbn [expect bind]. now rewrite mod_nbits_ok.
Qed.
Lemma address_new_panic c nb i : wf_cfg c -> wf_nb nb -> 2 ^ ptr c <= i / nb ->
  address_new c nb i = Panic PExpect.
Proof.
  intros Hc Hn H. unfold address_new. rewrite checked_div_nbits_ok by assumption. cbn [bind].
  rewrite to_usize_big by assumption. reflexivity.
Qed.
