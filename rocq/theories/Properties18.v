(** * What the code does where a claim fails.
    The theorems named [.._partial] cover the inputs for which a claim holds; those here cover the remaining inputs, so
    that together they determine the behaviour for all. *)
From Verif Require Import Machine MStorage MTraits MVectorBase MBitVector MIntVector MBitSlice MRank MStream MCoding MCapacity
  SpecBits SpecCfg SpecLaws SpecOps SpecRank SpecStream PBase PStorage PBits PBlocks PVectorBase PVectorBase2 PBitVector PRun PIntVector PIntRun PSlice PRank PDefaults PCapacity PStream PCoding.

(** ** C05: without overflow checks [ceil_div] is wrong exactly when the sum exceeds [2^w]. *)
Lemma ceil_least x d : 0 < d -> x <= (x + d - 1) / d * d /\ forall m, x <= m * d -> (x + d - 1) / d <= m.
Proof.
  intros Hd. pose proof (N.div_mod (x + d - 1) d ltac:(lia)). pose proof (N.mod_lt (x + d - 1) d ltac:(lia)).
  set (q := (x + d - 1) / d) in *. clearbody q. split; [lia|]. intros m Hm. destruct (N.le_gt_cases q m); [assumption|].
  assert ((m + 1) * d <= q * d) by (apply N.mul_le_mono_r; lia). lia.
Qed.
Theorem C05_without_checks : forall c w x d, debug c = false -> 0 < d < 2 ^ w -> x < 2 ^ w ->
  exists n, ceil_div c w x d = Ok n /\
    (x + d <= 2 ^ w -> x <= n * d /\ forall m, x <= m * d -> n <= m) /\
    (2 ^ w < x + d -> n = (x + d - 1 - 2 ^ w) / d /\ n * d < x).
Proof.
  intros c w x d Hd Hd0 Hx. unfold ceil_div, wadd, wsub, wrap, wdiv. rewrite Hd. generalize dependent (2 ^ w). intros W Hd0 Hx.
  assert (Hd1 : d =? 0 = false) by (apply N.eqb_neq; lia).
  destruct (N.lt_trichotomy (x + d) W) as [H|[H|H]].
  - rewrite (proj2 (N.ltb_lt _ _) H). cbn [bind]. rewrite (proj2 (N.leb_le 1 (x + d))) by lia. cbn [bind]. rewrite Hd1.
    eexists; split; [reflexivity|]. split; [intros _; apply ceil_least; lia|lia].
  - rewrite (proj2 (N.ltb_ge (x + d) W)) by lia. rewrite H. rewrite N.mod_same by lia. cbn [bind].
    change (1 <=? 0) with false. cbv iota. rewrite N.mod_small by lia. cbn [bind]. rewrite Hd1.
    eexists; split; [reflexivity|]. replace (0 + W - 1) with (x + d - 1) by lia. split; [intros _; apply ceil_least; lia|lia].
  - rewrite (proj2 (N.ltb_ge (x + d) W)) by lia. cbn [bind].
    assert (Em : (x + d) mod W = x + d - W) by (symmetry; apply (N.mod_unique _ _ 1); lia). rewrite Em.
    rewrite (proj2 (N.leb_le 1 (x + d - W))) by lia. cbn [bind]. rewrite Hd1. eexists; split; [reflexivity|].
    split; [lia|]. intros _. replace (x + d - W - 1) with (x + d - 1 - W) by lia. split; [reflexivity|].
    pose proof (N.mul_div_le (x + d - 1 - W) d ltac:(lia)) as L. rewrite N.mul_comm. lia.
Qed.
Example C05_without_checks_ex : debug rel64 = false /\ 0 < 3 < 2 ^ 8 /\ 254 < 2 ^ 8 /\
  ceil_div rel64 8 254 3 = Ok 0 /\ ceil_div rel64 8 253 3 = Ok 85 /\ ceil_div rel64 8 200 250 = Ok 0.
Proof. vm_compute. intuition congruence. Qed.

(** ** C07: in the last block of the 64-bit range; on all indices for [div_nbits], [mul_nbits]. *)
Theorem C07_top : forall c nb i, wf_cfg c -> wf_nb nb -> i < 2 ^ 64 -> 2 ^ 64 < i + nb ->
  if debug c then panics (ceil_div_nbits c nb i) /\ panics (checked_ceil_div_nbits c nb i)
  else ceil_div_nbits c nb i = Ok 0 /\ checked_ceil_div_nbits c nb i = Ok (Some 0).
Proof.
  intros c nb i Hc Hnb Hi H. rewrite checked_ceil_div_nbits_wrap by auto. pose proof (wf_nb_range nb Hnb).
  unfold ceil_div_nbits. rewrite wsub_ok by lia. cbn [bind]. unfold wadd, wrap. replace (i + (nb - 1) <? 2 ^ 64) with false by lia.
  destruct (debug c); [cbn [bind]; auto|]. cbn [bind]. rewrite div_nbits_ok by auto.
  assert (Em : (i + (nb - 1)) mod 2 ^ 64 = i + (nb - 1) - 2 ^ 64) by (symmetry; apply (N.mod_unique _ _ 1); lia).
  rewrite Em, N.div_small by lia. unfold as_usize. rewrite N.mod_0_l by (apply N.pow_nonzero; lia). auto.
Qed.
Theorem C07_wrapped : forall c nb i, wf_cfg c -> wf_nb nb -> i < 2 ^ 64 ->
  div_nbits c nb i = Ok ((i / nb) mod 2 ^ ptr c) /\ mul_nbits c nb i = Ok ((i * nb) mod 2 ^ 64).
Proof.
  intros c nb i Hc Hnb Hi. split; [rewrite div_nbits_ok by auto; reflexivity|].
  unfold mul_nbits. rewrite lg_nbits_ok by assumption. cbn [bind]. destruct (log2_nb nb Hnb) as [E1 E2].
  rewrite wshl_ok by lia. rewrite N.shiftl_mul_pow2. now rewrite <- E1.
Qed.
Example C07_top_ex : wf_cfg rel64 /\ wf_cfg dbg32 /\ wf_nb 32 /\ 2 ^ 64 < 2 ^ 64 - 31 + 32 /\
  ceil_div_nbits rel64 32 (2 ^ 64 - 31) = Ok 0 /\ ceil_div_nbits dbg32 32 (2 ^ 64 - 31) = Panic POverflow /\
  div_nbits rel32 8 (2 ^ 35 + 17) = Ok 2 /\ mul_nbits dbg64 8 (2 ^ 61 + 3) = Ok 24.
Proof. repeat (split; [solve [auto with wf]|]). vm_compute. auto. Qed.

(** ** C11: at the end of the blocks an empty span is rejected. *)
Theorem C11_at_the_end : forall c nb v x,
  wf_cfg c -> wf_nb nb -> valid_blocks c nb v ->
  panics (blocks_get_bits c nb v (lengthN (bits_of_blocks nb v)) 0) /\
  panics (blocks_set_bits c nb v (lengthN (bits_of_blocks nb v)) 0 x).
Proof.
  intros c nb v x Hc Hnb [_ Hl]. pose proof (wf_nb_range nb Hnb). pose proof (wf_ptr c Hc).
  assert (Hm : lengthN v * nb <= 2 ^ 63 /\ lengthN v < 2 ^ ptr c).
  { assert (Ev : blocks_for nb (lengthN v * nb) = lengthN v).
    { unfold blocks_for. rewrite N.add_comm, N.div_add by lia. rewrite N.div_small by lia. lia. }
    assert (Hf : fits c nb (lengthN v * nb)) by (unfold fits; now rewrite Ev).
    split; [apply (fits_lt64 c nb); [lia|exact Hf]|]. rewrite <- Ev. now apply fits_ptr. }
  rewrite lengthN_bits_of_blocks.
  destruct Hm as [Hm Hp]. assert (2 ^ 63 < 2 ^ 64) by reflexivity.
  unfold blocks_get_bits, blocks_set_bits, default_get_bits, default_set_bits, blocks_bit_len.
  rewrite wadd_ok, wmul_ok by lia. cbn [bind]. rewrite assert_true by lia. cbn [bind].
  rewrite address_new_ok by (auto; rewrite N.div_mul by lia; exact Hp). rewrite N.div_mul, N.mod_mul by lia.
  cbn [bind block_index bit_offset]. rewrite wsub_ok by lia. cbn [bind]. replace (0 <=? nb - 0) with true by lia.
  unfold blocks_get_block. rewrite index_None by lia. cbn [bind]. auto.
Qed.
Example C11_at_the_end_ex : valid_blocks rel32 16 [7; 9] /\ lengthN (bits_of_blocks 16 [7; 9]) = 32 /\
  blocks_get_bits rel32 16 [7; 9] 32 0 = Panic PIndex.
Proof. split; [split; [repeat constructor|vm_compute; congruence]|]. split; vm_compute; reflexivity. Qed.

(** ** C15: without overflow checks, sizes within a block of [2^64] give an empty vector. *)
Lemma resize_to_nothing c nb v x : wf_cfg c -> wf_nb nb -> vb_block_resize c nb 1 v 0 x = Ok {| vb_len := 0; vb_vec := [] |}.
Proof.
  intros Hc Hnb. unfold vb_block_resize, vec_resize. replace (0 <=? lengthN (vb_vec v)) with true by lia. cbn [bind].
  unfold set_len_from_blocks. cbn [vb_vec]. rewrite firstnN_0, lengthN_nil, mul_nbits_ok by (auto; lia). cbn [bind].
  rewrite N.mul_0_l. reflexivity.
Qed.
Theorem C15_wrapped : forall c nb t ops v n b,
  wf_cfg c -> wf_nb nb -> debug c = false -> n < 2 ^ 64 -> 2 ^ 64 < n + nb ->
  bprogram_ok c nb t ops -> bvec_ends c nb t ops v ->
  (exists w, bvec_with_fill c nb n b = Ok w /\ bvec_bit_len w = Ok 0) /\
  (exists w, bvec_resize c nb v n b = Ok w /\ bvec_bit_len w = Ok 0).
Proof.
  intros c nb t ops v n b Hc Hnb Hd Hn Hw O E. pose proof (wf_nb_range nb Hnb). pose proof (wf_ptr c Hc).
  destruct (bvec_ends_R c nb t ops v Hc Hnb O E) as [l [_ R]].
  assert (Et : vb_truncate c nb 1 {| vb_len := 0; vb_vec := [] |} n = Ok {| vb_len := 0; vb_vec := [] |}).
  { unfold vb_truncate. cbn [vb_len]. now replace (n <? 0) with false by lia. }
  split; exists {| vb_len := 0; vb_vec := [] |}; (split; [|reflexivity]).
  - unfold bvec_with_fill. rewrite checked_ceil_div_nbits_wrap, Hd by auto. cbn [bind expect].
    unfold bvec_block_with_fill, vb_block_with_fill, vec_fill, alloc. rewrite N.mul_0_l.
    replace (0 <=? max_bits c) with true by lia. cbn [bind]. unfold set_len_from_blocks. cbn [vb_vec].
    change (repeatN (if b then wnot nb 0 else 0) 0) with (@nil N). rewrite lengthN_nil, mul_nbits_ok by (auto; lia). cbn [bind].
    rewrite N.mul_0_l. exact Et.
  - unfold bvec_resize, bvec_block_resize. rewrite checked_ceil_div_nbits_wrap, Hd by auto. cbn [bind expect].
    pose proof (R_bv_fits c nb v l R) as Hf. pose proof (bvec_bit_len_ok c nb Hc Hnb v l R) as Hl. injection Hl as Hl.
    rewrite Hl. pose proof (fits_lt64 c nb (lengthN l) ltac:(lia) Hf). assert (2 ^ 63 < 2 ^ 64 - 64) by reflexivity.
    replace (n <? lengthN l) with false by lia. destruct b; cbn [orb negb].
    + rewrite last_block_bits_ok by auto. cbn [bind].
      assert (Hlb : (if lengthN l mod nb =? 0 then nb else lengthN l mod nb) <= nb).
      { destruct (lengthN l mod nb =? 0); [lia|]. pose proof (N.mod_lt (lengthN l) nb). lia. }
      rewrite wsub_ok by exact Hlb. cbn [bind].
      destruct (push_loop c nb Hc Hnb v l (nb - (if lengthN l mod nb =? 0 then nb else lengthN l mod nb)) R) as [v' [Hpl _]].
      * assert (nb - (if lengthN l mod nb =? 0 then nb else lengthN l mod nb) = padding nb (lengthN l)) as ->.
        { unfold padding. destruct (lengthN l mod nb =? 0) eqn:E2.
          - apply N.eqb_eq in E2. rewrite E2, N.sub_0_r, N.mod_same by lia. lia.
          - apply N.eqb_neq in E2. pose proof (N.mod_lt (lengthN l) nb). symmetry. apply N.mod_small. lia. }
        unfold fits in *. rewrite padding_spec, blocks_for_mul by lia. exact Hf.
      * rewrite Hpl. cbn [bind]. rewrite resize_to_nothing by auto. cbn [bind]. exact Et.
    + rewrite resize_to_nothing by auto. cbn [bind]. exact Et.
Qed.
Example C15_wrapped_ex : exists w, 2 ^ 64 < 2 ^ 64 - 5 + 8 /\ bvec_ends rel64 8 BNew [BPushBit true] w /\
  bprogram_ok rel64 8 BNew [BPushBit true] /\ vb_len w = 1 /\
  bvec_resize rel64 8 w (2 ^ 64 - 5) true = Ok {| vb_len := 0; vb_vec := [] |}.
Proof.
  exists {| vb_len := 1; vb_vec := [1] |}. split; [lia|]. split; [exists 0%nat; intros; vm_compute; reflexivity|].
  split; [vm_compute; auto|]. split; vm_compute; reflexivity.
Qed.

(** ** C20: elements as wide as the blocks are addressed by the index modulo the number of addresses. *)
Theorem C20_alias : forall c nb t ops v i x,
  wf_cfg c -> wf_nb nb -> iprogram_ok c nb nb t ops -> iv_ends c nb nb t ops v ->
  iv_get c nb v i = iv_get c nb v (i mod 2 ^ ptr c) /\ iv_set c nb v i x = iv_set c nb v (i mod 2 ^ ptr c) x.
Proof.
  intros c nb t ops v i x Hc Hnb O E. pose proof (wf_nb_range nb Hnb).
  destruct (iv_ends_R c nb nb Hc Hnb ltac:(lia) t ops v O E) as [xs [_ [HB _]]].
  unfold iv_get, iv_set, iv_is_block_sized. rewrite HB, N.eqb_refl. unfold as_usize.
  rewrite N.mod_mod by (apply N.pow_nonzero; lia). auto.
Qed.
Example C20_alias_ex : exists v, iv_ends dbg32 8 8 INew [IPush 5; IPush 6] v /\ iprogram_ok dbg32 8 8 INew [IPush 5; IPush 6] /\
  iv_get dbg32 8 v (2 ^ 33 + 1) = Ok 6 /\ panics (iv_get dbg32 8 v (2 ^ 33 + 2)).
Proof.
  exists {| iv_bits := 8; iv_base := {| vb_len := 2; vb_vec := [5; 6] |} |}.
  split; [exists 0%nat; intros; vm_compute; reflexivity|]. split; [vm_compute; auto|].
  split; [vm_compute; reflexivity|]. eexists. vm_compute. reflexivity.
Qed.

(** ** C24: without overflow checks, a request within a block of [2^64] bits allocates nothing. *)
Theorem C24_wrapped : forall c nb k p n,
  wf_cfg c -> wf_nb nb -> 1 <= k <= nb -> debug c = false -> n * k < 2 ^ 64 -> 2 ^ 64 < n * k + nb ->
  civ_with_capacity c nb p k n = civ_with_capacity c nb p k 0 /\
  (k = 1 -> cbv_with_capacity c nb p n = cbv_with_capacity c nb p 0).
Proof.
  intros c nb k p n Hc Hnb Hk Hd Hn Hw. pose proof (wf_nb_range nb Hnb).
  assert (E : cv_with_capacity c nb p k n = cv_with_capacity c nb p k 0).
  { unfold cv_with_capacity, len_to_block_len, checked_mul. rewrite N.mul_0_l. change (0 <? 2 ^ 64) with true.
    rewrite (proj2 (N.ltb_lt _ _) Hn). rewrite checked_ceil_div_nbits_wrap, Hd by auto.
    rewrite checked_ceil_div_nbits_ok by (auto; lia). unfold to_usize, blocks_for.
    rewrite N.div_small by lia. pose proof (pow2_pos (ptr c)). now replace (0 <? 2 ^ ptr c) with true by lia. }
  split; [unfold civ_with_capacity; now rewrite E|]. intros ->. exact E.
Qed.
Example C24_wrapped_ex : 21 * ((2 ^ 64 - 1) / 21) < 2 ^ 64 /\ 2 ^ 64 < 21 * ((2 ^ 64 - 1) / 21) + 64 /\
  exists v, civ_with_capacity rel64 64 std_policy 21 ((2 ^ 64 - 1) / 21) = Ok v /\ civ_block_capacity v = 0.
Proof. split; [vm_compute; reflexivity|]. split; [vm_compute; reflexivity|]. eexists. split; vm_compute; reflexivity. Qed.

(** ** C28: a partial last block of a slice can be neither read nor written. *)
Theorem C28_ragged : forall T c (M : bitvecmut T) (R : T -> list bool -> Prop) sl l j v,
  wf_cfg c -> lawful_bits c (bm_bv M) R ->
  R (sl_data sl) l -> sl_start sl + sl_len sl <= lengthN l ->
  let nb := bv_nb (bm_bv M) in
  j * nb < sl_len sl -> sl_len sl < (j + 1) * nb ->
  panics (slice_get_block c (bm_bv M) sl j) /\ panics (slice_set_block c M sl j v).
Proof.
  intros T c M R sl l j v Hc LB HR Hl nb H1 H2. pose proof (lb_nb _ _ _ LB) as Hnb. fold nb in Hnb. pose proof (wf_nb_range _ Hnb).
  pose proof (base_63 c (bm_bv M) R Hc LB _ _ HR) as H63. split.
  - unfold slice_get_block. fold nb. rewrite mul_nbits_ok by (auto; lia). cbn [bind]. apply slice_get_bits_oob. lia.
  - unfold slice_set_block. fold nb. rewrite mul_nbits_ok by (auto; lia). cbn [bind]. apply slice_set_bits_oob. lia.
Qed.
Example C28_ragged_ex : lawful_bits rel64 (blocks_bitvec rel64 16) (R_blocks rel64 16) /\ R_blocks rel64 16 [1; 2; 3] (bits_of_blocks 16 [1; 2; 3]) /\
  3 + 37 <= lengthN (bits_of_blocks 16 [1; 2; 3]) /\ 2 * 16 < 37 < (2 + 1) * 16 /\
  slice_get_block rel64 (blocks_bitvec rel64 16) {| sl_data := [1; 2; 3]; sl_start := 3; sl_len := 37 |} 2 = Panic PAssert /\
  slice_get_block rel64 (blocks_bitvec rel64 16) {| sl_data := [1; 2; 3]; sl_start := 3; sl_len := 37 |} 1 = Ok 24576.
Proof.
  split; [apply blocks_lawful_bits; auto with wf|]. split; [apply R_blocks_valid; [lia|split; [repeat constructor|vm_compute; congruence]]|].
  split; [vm_compute; congruence|]. split; [lia|]. split; vm_compute; reflexivity.
Qed.

(** ** C33: the rank of a primitive integer past its end, without overflow checks. *)
Definition wrapped_mask (nb k : N) : N := if N.odd (k / nb) then N.ones nb else N.ones (k mod nb).
Lemma low_mask_release c nb k : wf_cfg c -> wf_nb nb -> debug c = false -> k < 2 ^ ptr c ->
  low_mask c nb k = Ok (wrapped_mask nb k).
Proof.
  intros Hc Hnb Hd Hk. pose proof (wf_nb_range nb Hnb). pose proof (wf_ptr c Hc).
  assert (H64 : k < 2 ^ 64) by (destruct Hc as [E|E]; rewrite E in Hk; lia).
  unfold low_mask, debug_assert. rewrite Hd. cbn [bind]. rewrite div_nbits_ok by auto. unfold wrapping_shl.
  assert (Em : (k mod 2 ^ 32) mod nb = k mod nb).
  { destruct Hnb as [E|[E|[E|E]]]; subst nb; match goal with |- _ mod ?m = _ =>
      change (2 ^ 32) with (m * (2 ^ 32 / m)) end; rewrite N.mod_mul_r by (vm_compute; congruence);
      rewrite N.mul_comm, N.mod_add by (vm_compute; congruence); now rewrite N.mod_mod by (vm_compute; congruence). }
  rewrite Em. pose proof (N.mod_lt k nb ltac:(lia)). rewrite N.shiftl_1_l.
  assert (2 ^ (k mod nb) < 2 ^ nb) by (apply N.pow_lt_mono_r; lia). pose proof (pow2_pos (k mod nb)).
  rewrite N.mod_small by assumption. rewrite wsub_ok by lia. cbn [bind]. rewrite <- ones_eq.
  rewrite as_usize_small by (apply N.le_lt_trans with k; [apply N.div_le_upper_bound; nia|exact Hk]). cbn [bind].
  unfold wrapped_mask, wnot. rewrite N.lnot_0_l. change 1 with (N.ones 1) at 1. rewrite N.land_ones. change (2 ^ 1) with 2.
  rewrite <- (N.bit0_mod (k / nb)), N.bit0_odd.
  destruct (N.odd (k / nb)); cbn [N.b2n].
  - rewrite wmul_ok by (rewrite N.mul_1_l; apply ones_lt; lia). cbn [bind]. rewrite N.mul_1_l. f_equal.
    apply N.bits_inj. intros i. rewrite N.lor_spec, !testbit_ones. destruct (i <? k mod nb) eqn:E1, (i <? nb) eqn:E2; lia || reflexivity.
  - rewrite wmul_ok by lia. cbn [bind]. now rewrite N.mul_0_l, N.lor_0_r.
Qed.
Theorem C33_prim_wrapped : forall c nb x p, wf_cfg c -> wf_nb nb -> debug c = false -> x < 2 ^ nb -> p < 2 ^ 64 ->
  let k := (p + 1) mod 2 ^ ptr c in
  br_rank1 (prim_bitrank c nb) x p =
    Ok (if N.odd (k / nb) then count true (bits_of nb x) else count true (firstnN (k mod nb) (bits_of nb x))).
Proof.
  intros c nb x p Hc Hnb Hd Hx Hp k. pose proof (wf_nb_range nb Hnb). pose proof (wf_ptr c Hc).
  change (prim_rank1 c nb x p = Ok (if N.odd (k / nb) then count true (bits_of nb x) else count true (firstnN (k mod nb) (bits_of nb x)))).
  unfold prim_rank1, debug_assert. rewrite Hd. cbn [bind]. unfold wadd, wrap. rewrite Hd.
  assert (E : (if p + 1 <? 2 ^ 64 then Ok (p + 1) else Ok ((p + 1) mod 2 ^ 64)) = Ok ((p + 1) mod 2 ^ 64)).
  { destruct (p + 1 <? 2 ^ 64) eqn:E; [|reflexivity]. rewrite N.mod_small by lia. reflexivity. }
  rewrite E. cbn [bind]. unfold as_usize.
  assert (Ek : ((p + 1) mod 2 ^ 64) mod 2 ^ ptr c = k).
  { unfold k. destruct Hc as [E1|E1]; rewrite E1; [|now rewrite N.mod_mod by (vm_compute; congruence)].
    change (2 ^ 64) with (2 ^ 32 * 2 ^ 32). rewrite N.mod_mul_r by (vm_compute; congruence).
    rewrite N.mul_comm, N.mod_add by (vm_compute; congruence). now rewrite N.mod_mod by (vm_compute; congruence). }
  rewrite Ek. rewrite low_mask_release by (auto; apply N.mod_lt, N.pow_nonzero; lia). cbn [bind]. f_equal.
  assert (Ex : x = int_of (bits_of nb x)) by (rewrite int_of_bits_of; symmetry; now apply N.mod_small).
  rewrite Ex at 1. unfold wrapped_mask. destruct (N.odd (k / nb)).
  - rewrite land_ones_int_of, count_ones_int_of, firstnN_all by (rewrite lengthN_bits_of; lia). reflexivity.
  - rewrite land_ones_int_of, count_ones_int_of. reflexivity.
Qed.
Example C33_prim_wrapped_ex : 20 < 2 ^ 64 /\ 0xb5 < 2 ^ 8 /\
  br_rank1 (prim_bitrank rel64 8) 0xb5 20 = Ok 3 /\ br_rank1 (prim_bitrank rel64 8) 0xb5 10 = Ok 5 /\
  br_rank1 (prim_bitrank rel32 8) 0xb5 (2 ^ 64 - 1) = Ok 0.
Proof. vm_compute. auto. Qed.

(** ** C42: with overflow checks [write_int_be] cannot write zero bits. *)
Theorem C42_zero_width_checked : forall S c (snk : sink S) w v s, debug c = true -> panics (write_int_be c snk w 0 v s).
Proof. intros S c snk w v s Hd. unfold write_int_be, wsub. rewrite Hd. exists POverflow. reflexivity. Qed.
Example C42_zero_width_checked_ex : write_int_be dbg32 deque_sink 8 0 7 [true] = Panic POverflow.
Proof. reflexivity. Qed.

(** ** C52: the comma code to base one never ends. *)
Theorem C52_base_one : forall c n v, 0 < v -> (if debug c then n = 1 else n mod 64 = 1) ->
  forall fuel S (snk : sink S) s, encode (comma c n) snk fuel v s = OutOfFuel.
Proof.
  intros c n v Hv Hn fuel S snk s. cbn. unfold comma_encode.
  rewrite (try_lift _ 1).
  2:{ unfold comma_base, wshl. destruct (debug c) eqn:Hd.
      - subst n. change (1 <? 64) with true. reflexivity.
      - destruct (n <? 64) eqn:E; [rewrite N.mod_small in Hn by lia; subst n|rewrite Hn]; reflexivity. }
  unfold try_ at 1, lift. replace (comma_stack fuel 1 v) with (@OutOfFuel (list N)); [reflexivity|].
  unfold comma_stack. generalize (@nil N). induction fuel as [|fuel IH]; intros acc; [reflexivity|]. cbn [loop_fuel].
  rewrite (proj2 (N.ltb_lt _ _) Hv). change (wmod v 1) with (Ok (v mod 1)). change (wdiv v 1) with (Ok (v / 1)).
  cbn [bind]. rewrite N.div_1_r. apply IH.
Qed.
Example C52_base_one_ex : 129 mod 64 = 1 /\ encode (comma rel32 129) deque_sink 500 3 [true] = OutOfFuel /\
  encode (comma rel32 129) deque_sink 500 0 [true] = Ok (IOk tt, [true; true] ++ repeatN false 128).
Proof. vm_compute. auto. Qed.

(** ** C62: spans that wrap around the address range, without overflow checks. *)
Lemma testbit_wrapped_mask nb k j : 0 < nb -> N.testbit (wrapped_mask nb k) j = (j <? nb) && (N.odd (k / nb) || (j <? k mod nb)).
Proof.
  intros Hnb. pose proof (N.mod_lt k nb ltac:(lia)). unfold wrapped_mask. destruct (N.odd (k / nb)); rewrite testbit_ones; cbn [orb].
  - now rewrite andb_true_r. - destruct (j <? k mod nb) eqn:E1, (j <? nb) eqn:E2; lia || reflexivity.
Qed.
Theorem C62_wrapped : forall c nb b start len v,
  wf_cfg c -> wf_nb nb -> debug c = false -> b < 2 ^ nb -> v < 2 ^ nb ->
  start < 2 ^ ptr c -> len < 2 ^ ptr c -> 2 ^ ptr c <= start + len ->
  (2 ^ ptr c + nb < start + len -> panics (blk_get_bits c nb b start len) /\ panics (blk_with_bits c nb b start len v)) /\
  (start + len <= 2 ^ ptr c + nb ->
    (exists r, blk_get_bits c nb b start len = Ok r /\
       forall j, N.testbit r j = (N.odd (len / nb) || (j <? len mod nb)) && N.testbit b (j + start mod nb)) /\
    (exists r, blk_with_bits c nb b start len v = Ok r /\ forall j, N.testbit r j =
       if (start mod nb <=? j) && (j <? nb) && (N.odd (len / nb) || (j - start mod nb <? len mod nb))
       then N.testbit v (j - start mod nb) else N.testbit b j)).
Proof.
  intros c nb b s n v Hc Hnb Hd Hb Hv Hs Hn Hw. pose proof (wf_nb_range nb Hnb). pose proof (wf_ptr c Hc) as Hptr.
  pose proof (low_mask_release c nb n Hc Hnb Hd Hn) as LM.
  assert (Hpow : 2 ^ nb <> 0) by (apply N.pow_nonzero; lia).
  assert (Hsh : forall a, wshl c nb a s = Ok (N.shiftl a (s mod nb) mod 2 ^ nb)).
  { intros a. unfold wshl. rewrite Hd. destruct (s <? nb) eqn:E; [|reflexivity]. now rewrite (N.mod_small s) by lia. }
  assert (Hsr : wshr c nb b s = Ok (N.shiftr b (s mod nb))).
  { unfold wshr. rewrite Hd. destruct (s <? nb) eqn:E; [|reflexivity]. now rewrite (N.mod_small s) by lia. }
  unfold blk_get_bits, blk_with_bits, wadd, wrap. rewrite Hd.
  generalize dependent (2 ^ ptr c). intros W Hs Hn Hw. rewrite (proj2 (N.ltb_ge (s + n) W)) by exact Hw. cbn [bind].
  assert (Em : (s + n) mod W = s + n - W) by (symmetry; apply (N.mod_unique _ _ 1); lia). rewrite Em.
  rewrite (proj2 (N.eqb_neq n 0)) by lia. split; intros Hc2.
  - rewrite assert_false by (apply N.leb_gt; lia). cbn [bind]. auto.
  - rewrite assert_true by (apply N.leb_le; lia). cbn [bind]. rewrite LM, Hsr, !Hsh. cbn [bind]. rewrite !Hsh. cbn [bind].
    assert (Hbit : forall a i, a < 2 ^ nb -> nb <= i -> N.testbit a i = false).
    { intros a i Ha Hi. destruct (N.eq_dec a 0) as [->|Ha0]; [apply N.bits_0|]. apply N.bits_above_log2.
      apply N.lt_le_trans with nb; [apply N.log2_lt_pow2; [clear - Ha0; lia|exact Ha]|exact Hi]. }
    split; (eexists; split; [reflexivity|]); intros j.
    + rewrite N.land_spec, N.shiftr_spec', testbit_wrapped_mask by lia. destruct (j <? nb) eqn:E; cbn [andb].
      * apply andb_comm.
      * rewrite (Hbit b (j + s mod nb)) by (auto; lia). now rewrite !andb_false_r.
    + rewrite N.lor_spec, !N.land_spec. unfold wnot. destruct (N.lt_ge_cases j nb) as [Hj|Hj].
      * rewrite N.lnot_spec_low by exact Hj. rewrite !N.mod_pow2_bits_low by exact Hj.
        rewrite (proj2 (N.ltb_lt _ _) Hj), andb_true_r.
        destruct (N.leb_spec (s mod nb) j) as [H1|H1].
        -- rewrite !N.shiftl_spec_high' by exact H1. rewrite testbit_wrapped_mask by lia.
           rewrite (proj2 (N.ltb_lt (j - s mod nb) nb)) by lia. cbn [andb].
           destruct (N.odd (n / nb) || (j - s mod nb <? n mod nb)); cbn [negb]; rewrite ?andb_true_r, ?andb_false_r; cbn [orb]; auto using orb_false_r.
        -- rewrite !N.shiftl_spec_low by exact H1. cbn [negb andb]. now rewrite andb_true_r, orb_false_r.
      * rewrite !N.mod_pow2_bits_high by exact Hj. rewrite (proj2 (N.ltb_ge _ _) Hj). rewrite (Hbit b) by auto.
        now rewrite !andb_false_r.
Qed.
Example C62_wrapped_ex : 2 ^ 64 <= (2 ^ 64 - 6) + 9 /\ (2 ^ 64 - 6) + 9 <= 2 ^ 64 + 8 /\
  blk_get_bits rel64 8 0xb5 (2 ^ 64 - 6) 9 = Ok 45 /\ blk_with_bits rel64 8 0xb5 (2 ^ 64 - 6) 14 0 = Ok 1.
Proof. repeat (split; [vm_compute; congruence|]). vm_compute. reflexivity. Qed.

(** ** C63: block indices of a slice count modulo [2^64 / nb]. *)
Theorem C63_slice_alias : forall T c (M : bitvecmut T) sl j v,
  wf_cfg c -> wf_nb (bv_nb (bm_bv M)) -> j < 2 ^ 64 ->
  let j' := j mod (2 ^ 64 / bv_nb (bm_bv M)) in
  slice_get_block c (bm_bv M) sl j = slice_get_block c (bm_bv M) sl j' /\
  slice_set_block c M sl j v = slice_set_block c M sl j' v.
Proof.
  intros T c M sl j v Hc Hnb Hj j'. set (nb := bv_nb (bm_bv M)) in *.
  assert (E : mul_nbits c nb j = mul_nbits c nb j').
  { assert (Hj' : j' <= j) by (apply N.mod_le; destruct Hnb as [E|[E|[E|E]]]; rewrite E; vm_compute; congruence).
    rewrite (proj2 (C07_wrapped c nb j Hc Hnb Hj)), (proj2 (C07_wrapped c nb j' Hc Hnb (N.le_lt_trans _ _ _ Hj' Hj))). f_equal.
    assert (E64 : 2 ^ 64 = 2 ^ 64 / nb * nb) by (destruct Hnb as [E|[E|[E|E]]]; rewrite E; reflexivity).
    assert (Hq : 2 ^ 64 / nb <> 0) by (destruct Hnb as [E|[E|[E|E]]]; rewrite E; vm_compute; congruence).
    pose proof (N.mod_lt j (2 ^ 64 / nb) Hq) as Hlt. fold j' in Hlt.
    assert (nb <> 0) by (destruct Hnb as [E|[E|[E|E]]]; rewrite E; vm_compute; congruence).
    rewrite E64, !N.mul_mod_distr_r by assumption. fold j'. now rewrite (N.mod_small j') by exact Hlt. }
  unfold slice_get_block, slice_set_block. fold nb. now rewrite E.
Qed.
Example C63_slice_alias_ex : (2 ^ 58 + 1) mod (2 ^ 64 / 64) = 1 /\
  slice_get_block dbg64 (blocks_bitvec dbg64 64) {| sl_data := [7; 9; 11]; sl_start := 0; sl_len := 150 |} (2 ^ 58 + 1) = Ok 9.
Proof. split; vm_compute; reflexivity. Qed.

(** Those of a [Vec<bool>] on a 64-bit target count modulo [2^61] when they are written, and then a partial last block
    cannot be. *)
Lemma set_bits_past_end c start len n : forall a l v, lengthN l = len -> start < 2 ^ 64 ->
  start + a + N.of_nat n < 2 ^ 64 -> start + a <= len -> len < start + a + N.of_nat n ->
  panics (for_loop n a (fun i (st : list bool * N) =>
    let (t, value) := st in
    p <- wadd c 64 start i ;;
    t' <- vb8_set_bit c t p (negb (N.land value 1 =? 0)) ;;
    v' <- wshr c 8 value 1 ;;
    Ok (t', v')) (l, v)).
Proof.
  induction n as [|n IH]; intros a l v Hl Hs H64 Ha Hn; [lia|]. cbn [for_loop]. rewrite wadd_ok by lia. cbn [bind].
  unfold vb8_set_bit at 1. destruct (to_usize c (start + a)) as [p|] eqn:Ep; cbn [expect bind]; [|auto].
  assert (p = start + a) as -> by (unfold to_usize in Ep; destruct (start + a <? 2 ^ ptr c); congruence).
  destruct (N.eq_dec (start + a) len) as [E|E].
  - rewrite index_set_oob by lia. cbn [bind]. auto.
  - rewrite index_set_ok by lia. cbn [bind]. rewrite wshr_ok by lia. cbn [bind]. apply IH; rewrite ?lengthN_updN; lia.
Qed.
Theorem C63_vec_bool_alias : forall c (l : list bool) i x,
  wf_cfg c -> ptr c = 64 -> lengthN l * 8 <= max_bits c -> 2 ^ 61 <= i -> i + 1 < 2 ^ 64 ->
  let j := i mod 2 ^ 61 in
  (lengthN l < (j + 1) * 8 -> panics (vb8_set_block c l i x)) /\
  ((j + 1) * 8 <= lengthN l -> vb8_set_block c l i x = Ok (put (j * 8) (bits_of 8 x) l)).
Proof.
  intros c l i x Hc Hp Hl Hi H64 j. assert (HR : R_bools c l l) by now split.
  pose proof (bools_fits c l Hl) as Hf. pose proof (fits_lt64 c 8 _ ltac:(lia) Hf) as H63.
  pose proof (blocks_for_spec 8 (lengthN l) ltac:(lia)) as Hb. assert (2 ^ 63 + 8 < 2 ^ 61 * 8 * 2) by reflexivity.
  assert (Ej : (i * 8) mod 2 ^ 64 = j * 8).
  { change (2 ^ 64) with (2 ^ 61 * 8). now rewrite N.mul_mod_distr_r by (vm_compute; congruence). }
  assert (Hj : j < 2 ^ 61) by (apply N.mod_lt; vm_compute; congruence).
  assert (Hn : blocks_for 8 (lengthN l) < 2 ^ 61) by (change (2 ^ 63) with (2 ^ 60 * 8) in H63; change (2 ^ 61) with (2 ^ 60 * 2); lia).
  assert (EL : forall k, k + 1 < 2 ^ 64 -> k < 2 ^ 64 -> (if k + 1 =? blocks_for 8 (lengthN l) then (lengthN l <? 8 * (k + 1)) else false) = false ->
    vb8_set_block c l k x = (tv <- for_loop 8 0 (fun i (st : list bool * N) =>
    let (t, value) := st in
    p <- wadd c 64 ((k * 8) mod 2 ^ 64) i ;;
    t' <- vb8_set_bit c t p (negb (N.land value 1 =? 0)) ;;
    v' <- wshr c 8 value 1 ;;
    Ok (t', v')) (l, x) ;; Ok (fst tv))).
  { intros k Hk Hk2 Hk3. unfold vb8_set_block, default_set_block. rewrite Hp. rewrite wadd_ok by lia. cbn [bind].
    rewrite (vb8_block_len_ok c Hc l l HR). cbn [bind]. change (vb8_bit_len l) with (Ok (lengthN l)). cbn [bind].
    rewrite last_block_bits_ok by (auto with wf; lia).
    rewrite (proj2 (C07_wrapped c 8 k Hc ltac:(auto with wf) Hk2)).
    assert (E : (if k + 1 =? blocks_for 8 (lengthN l) then Ok (if lengthN l mod 8 =? 0 then 8 else lengthN l mod 8) else Ok 8) = Ok 8).
    { destruct (k + 1 =? blocks_for 8 (lengthN l)) eqn:E1; [|reflexivity]. assert (Em : lengthN l = 8 * (k + 1)) by lia.
      rewrite Em, N.mul_comm, N.mod_mul by lia. reflexivity. }
    rewrite E. reflexivity. }
  assert (Ei : vb8_set_block c l i x = (tv <- for_loop 8 0 (fun i (st : list bool * N) =>
    let (t, value) := st in
    p <- wadd c 64 (j * 8) i ;;
    t' <- vb8_set_bit c t p (negb (N.land value 1 =? 0)) ;;
    v' <- wshr c 8 value 1 ;;
    Ok (t', v')) (l, x) ;; Ok (fst tv))).
  { rewrite EL; [now rewrite Ej|exact H64|lia|]. now replace (i + 1 =? blocks_for 8 (lengthN l)) with false by lia. }
  split; intros Hc2.
  - rewrite Ei. destruct (N.le_gt_cases (j * 8) (lengthN l)) as [H1|H1].
    + destruct (set_bits_past_end c (j * 8) (lengthN l) 8 0 l x eq_refl) as [q Hq]; try lia. rewrite Hq. cbn [bind]. auto.
    + cbn [for_loop]. rewrite wadd_ok by lia. cbn [bind].
      destruct (vb8_set_bit_oob c l l (j * 8 + 0) (negb (N.land x 1 =? 0)) HR ltac:(lia)) as [q Hq]. rewrite Hq. cbn [bind]. auto.
  - destruct (vb8_set_block_ok c Hc l l j x HR ltac:(lia)) as [v' [E1 [E2 _]]].
    pose proof (EL j ltac:(lia) ltac:(lia)) as EJ. rewrite (N.mod_small (j * 8)) in EJ by lia.
    rewrite Ei, <- EJ by (destruct (j + 1 =? blocks_for 8 (lengthN l)); lia).
    rewrite E1, E2. unfold set_block_of. now rewrite firstnN_all by (rewrite lengthN_bits_of; lia).
Qed.
Example C63_vec_bool_alias_ex : ptr dbg64 = 64 /\ 2 ^ 61 <= 2 ^ 62 + 1 /\ (2 ^ 62 + 1) mod 2 ^ 61 = 1 /\
  vb8_set_block dbg64 (repeatN false 16) (2 ^ 62 + 1) 129 = Ok (repeatN false 8 ++ [true; false; false; false; false; false; false; true]) /\
  vb8_set_block dbg64 (repeatN false 15) (2 ^ 62 + 1) 129 = Panic PIndex.
Proof. repeat (split; [vm_compute; congruence|]). split; vm_compute; reflexivity. Qed.

Print Assumptions C05_without_checks.
Print Assumptions C07_top.
Print Assumptions C07_wrapped.
Print Assumptions C11_at_the_end.
Print Assumptions C15_wrapped.
Print Assumptions C20_alias.
Print Assumptions C24_wrapped.
Print Assumptions C28_ragged.
Print Assumptions C33_prim_wrapped.
Print Assumptions C42_zero_width_checked.
Print Assumptions C52_base_one.
Print Assumptions C62_wrapped.
Print Assumptions C63_slice_alias.
Print Assumptions C63_vec_bool_alias.
