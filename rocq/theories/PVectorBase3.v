(** * [VectorBase], continued: filling loops and the single-bit operations. *)
From Verif Require Export PVectorBase2.

Lemma for_range_panics {S} (body : N -> S -> res S) a b s : a < b -> panics (body a s) ->
  panics (for_range a b body s).
Proof.
  intros H Hp. unfold for_range. replace (N.to_nat (b - a)) with (Datatypes.S (N.to_nat (b - a - 1))) by lia.
  cbn [for_loop]. now apply bind_panics.
Qed.
Lemma bits_of_blocks_snoc k v x : bits_of_blocks k (v ++ [x]) = bits_of_blocks k v ++ bits_of k x.
Proof. rewrite bits_of_blocks_app. unfold bits_of_blocks at 2. cbn [flat_map]. now rewrite app_nil_r. Qed.
Lemma blocks_set_bits_nil c nb s n x : wf_cfg c -> wf_nb nb -> 1 <= n -> s + n < 2 ^ 64 ->
  panics (blocks_set_bits c nb [] s n x).
Proof.
  intros Hc Hnb Hn Hs. pose proof (wf_nb_range nb Hnb). unfold blocks_set_bits, default_set_bits.
  rewrite wadd_ok by lia. cbn [bind]. unfold blocks_bit_len. rewrite lengthN_nil, wmul_ok by lia. cbn [bind].
  rewrite assert_false by lia. cbn [bind]. auto.
Qed.

Section VectorBase.
  Variables (c : cfg) (nb k : N).
  Hypothesis Hc : wf_cfg c.
  Hypothesis Hnb : wf_nb nb.
  Hypothesis Hk : 1 <= k <= nb.
  Let nb_range := wf_nb_range nb Hnb.
  Let ptr_range := wf_ptr c Hc.
  Let nb_pos := wf_nb_pos nb Hnb.
  Let V := Vrep c nb k.

  Lemma fill_loop l a n x v : a * k = lengthN l -> a <= n -> x < 2 ^ nb ->
    V v (l ++ repeatN false ((n - a) * k)) ->
    exists v', for_range a n (fun i v => p <- wmul c 64 i k ;; vb_set_bits c nb k v p k x) v = Ok v' /\
      V v' (l ++ bits_of_blocks k (repeatN x (n - a))).
  Proof.
    intros Ha Hn Hx HV.
    destruct (for_range_ind
      (fun i v => V v (l ++ bits_of_blocks k (repeatN x (i - a)) ++ repeatN false ((n - i) * k)))
      (fun i v => p <- wmul c 64 i k ;; vb_set_bits c nb k v p k x) a n v) as [v' [H1 H2]].
    - assumption.
    - rewrite N.sub_diag, repeatN_0. exact HV.
    - intros i t Hi1 Hi2 Ht. pose proof Ht as [_ [_ Hf]].
      apply fits_lt64 in Hf; [|assumption].
      rewrite !lengthN_app, lengthN_bits_of_blocks, !lengthN_repeatN in Hf.
      assert (Hik : i * k = lengthN l + (i - a) * k) by (rewrite N.mul_sub_distr_r; nia).
      assert (Hnk : (n - i) * k = k + (n - (i + 1)) * k) by (rewrite !N.mul_sub_distr_r; nia).
      rewrite wmul_ok by (rewrite Hik; revert Hf; generalize ((i - a) * k) ((n - i) * k); clear; lia). cbn [bind].
      destruct (vb_set_bits_ok c nb k Hc Hnb Hk t _ (i * k) k x Ht) as [t' [H3 [H4 _]]];
        rewrite ?lengthN_app, ?lengthN_bits_of_blocks, ?lengthN_repeatN; try lia.
      exists t'. split; [exact H3|].
      replace (i * k) with (lengthN (l ++ bits_of_blocks k (repeatN x (i - a)))) in H4
        by (rewrite lengthN_app, lengthN_bits_of_blocks, lengthN_repeatN; lia).
      rewrite Hnk, repeatN_app, app_assoc in H4. rewrite put_at_end in H4
        by (rewrite lengthN_bits_of, lengthN_repeatN; reflexivity).
      replace (i + 1 - a) with (i - a + 1) by lia.
      rewrite repeatN_app. change (repeatN x 1) with [x]. rewrite bits_of_blocks_snoc.
      rewrite <- !app_assoc in *. exact H4.
    - exists v'. split; [exact H1|]. cbn beta in H2. rewrite N.sub_diag, N.mul_0_l, repeatN_0, app_nil_r in H2. exact H2.
  Qed.

  Lemma pack_zeros n : pack nb (repeatN false n) = repeatN 0 (blocks_for nb n).
  Proof.
    symmetry. apply pack_unique; [lia|now rewrite !lengthN_repeatN|].
    intros i b. rewrite nthN_repeatN. dif E; [|discriminate]. intros [= <-]. split; [apply pow2_pos|].
    intros j Hj. now rewrite N.bits_0, bit_at_repeatN, andb_false_r.
  Qed.
  Lemma pack_app_zeros l n : blocks_for nb (lengthN l) <= blocks_for nb (lengthN l + n) ->
    pack nb (l ++ repeatN false n) =
    pack nb l ++ repeatN 0 (blocks_for nb (lengthN l + n) - blocks_for nb (lengthN l)).
  Proof.
    intros H. symmetry. pose proof (blocks_for_spec nb (lengthN l) nb_pos) as H1.
    apply pack_unique; [lia| |].
    - rewrite !lengthN_app, !lengthN_repeatN, lengthN_pack. lia.
    - intros i b. rewrite nthN_app, lengthN_pack.
      assert (Hbit : forall i, bit_at (l ++ repeatN false n) i = bit_at l i).
      { intros j. rewrite bit_at_app, bit_at_repeatN, andb_false_r.
        destruct (j <? lengthN l) eqn:E; [reflexivity|]. symmetry. apply bit_at_oob. lia. }
      destruct (i <? blocks_for nb (lengthN l)) eqn:E.
      + rewrite nthN_pack, E. intros [= <-]. split; [apply block_of_lt|]. intros j Hj.
        rewrite testbit_block_of, Hbit. destruct (j <? nb) eqn:E2; [reflexivity|lia].
      + rewrite nthN_repeatN. dif E2; [|discriminate]. intros [= <-]. split; [apply pow2_pos|].
        intros j Hj. rewrite N.bits_0, Hbit, bit_at_oob; [reflexivity|]. nia.
  Qed.

  Lemma fits_sum n : fits c nb n -> n + nb <= 2 ^ 64.
  Proof. intros H. apply fits_lt64 in H; lia. Qed.

  Lemma vb_with_fill_ok n x : x < 2 ^ nb -> fits c nb (n * k) ->
    exists v, vb_with_fill c nb k n x = Ok v /\ V v (bits_of_blocks k (repeatN x n)).
  Proof.
    intros Hx Hf. unfold vb_with_fill. rewrite len_to_block_len_ok by (auto using fits_sum). cbn [bind].
    rewrite to_usize_small by now apply fits_ptr. cbn [expect bind]. unfold vec_fill.
    rewrite alloc_ok by exact Hf. cbn [bind].
    destruct (fill_loop [] 0 n x {| vb_len := n; vb_vec := repeatN 0 (blocks_for nb (n * k)) |}) as [v [H1 H2]];
      auto; try lia.
    - rewrite N.sub_0_r. cbn [app]. split; [cbn [vb_vec]; now rewrite pack_zeros|].
      rewrite lengthN_repeatN. auto.
    - rewrite N.sub_0_r in H2. exists v. auto.
  Qed.
  Lemma len_to_block_len_cases n : n < 2 ^ 64 -> ~ fits c nb (n * k) ->
    panics (len_to_block_len c nb k n) \/
    len_to_block_len c nb k n = Ok None \/
    (exists m, len_to_block_len c nb k n = Ok (Some m) /\ max_bits c < m * nb /\ m = blocks_for nb (n * k)) \/
    (len_to_block_len c nb k n = Ok (Some 0) /\ n * k < 2 ^ 64 < n * k + nb).
  Proof.
    intros Hn Hf. destruct (N.le_gt_cases (2 ^ 64) (n * k)) as [H|H].
    - rewrite len_to_block_len_big by assumption. auto.
    - destruct (N.le_gt_cases (n * k + nb) (2 ^ 64)) as [H1|H1].
      + rewrite len_to_block_len_ok by auto. unfold to_usize.
        dif E; [|auto]. right; right; left. eexists; split; [reflexivity|]. unfold fits in Hf. lia.
      + unfold len_to_block_len, checked_mul. destruct (n * k <? 2 ^ 64) eqn:E; [|lia].
        rewrite checked_ceil_div_nbits_wrap by auto. destruct (debug c); auto. right; right; right. auto.
  Qed.
  Lemma vb_set_bits_nil len s x : s + k <= len * k -> len * k < 2 ^ 64 ->
    panics (vb_set_bits c nb k {| vb_len := len; vb_vec := [] |} s k x).
  Proof.
    intros H1 H2. unfold vb_set_bits. rewrite wadd_ok by lia. cbn [bind vb_len vb_vec].
    rewrite wmul_ok by lia. cbn [bind]. rewrite assert_true by lia. cbn [bind].
    apply bind_panics. apply blocks_set_bits_nil; auto; lia.
  Qed.
  Lemma vb_with_fill_full n x : n < 2 ^ 64 -> ~ fits c nb (n * k) -> panics (vb_with_fill c nb k n x).
  Proof.
    intros Hn Hf. unfold vb_with_fill.
    destruct (len_to_block_len_cases n Hn Hf) as [H|[H|[[m [H [Hm _]]]|[H Hw]]]]; [now apply bind_panics| | |];
      rewrite H; cbn [bind expect]; auto.
    - unfold vec_fill. rewrite alloc_fail by assumption. cbn [bind]. auto.
    - unfold vec_fill. pose proof (max_bits_lt c). rewrite alloc_ok by lia. cbn [bind].
      rewrite repeatN_0. apply for_range_panics; [nia|]. rewrite wmul_ok by lia. cbn [bind].
      apply vb_set_bits_nil; nia.
  Qed.

  Lemma vb_resize_ok v l n x : V v l -> x < 2 ^ nb -> fits c nb (n * k) ->
    exists v', vb_resize c nb k v n x = Ok v' /\
      V v' (firstnN (n * k) (l ++ bits_of_blocks k (repeatN x (n - vb_len v)))).
  Proof.
    intros HV Hx Hf. pose proof HV as [E [El Hf0]]. unfold vb_resize.
    rewrite len_to_block_len_ok by (auto using fits_sum). cbn [bind].
    rewrite to_usize_small by now apply fits_ptr. cbn [expect bind]. unfold vec_resize.
    rewrite E, lengthN_pack.
    destruct (n <=? vb_len v) eqn:En.
    - assert (n * k <= lengthN l) by nia.
      pose proof (blocks_for_mono nb (n * k) (lengthN l) nb_pos ltac:(lia)).
      destruct (blocks_for nb (n * k) <=? blocks_for nb (lengthN l)) eqn:E2; [|lia]. cbn [bind].
      assert (Hlen : lengthN (firstnN (blocks_for nb (n * k)) (pack nb l)) = blocks_for nb (n * k)).
      { rewrite lengthN_firstnN, lengthN_pack. lia. }
      rewrite clear_extra_bits_ok; auto.
      + replace (n - vb_len v) with 0 by lia. rewrite repeatN_0. change (bits_of_blocks k []) with (@nil bool).
        rewrite app_nil_r.
        eexists; split; [reflexivity|]. unfold V, Vrep. cbn [vb_len vb_vec].
        pose proof (blocks_for_spec nb (n * k) nb_pos) as Hb.
        rewrite lengthN_firstnN, N.min_l by lia. split; [|auto].
        rewrite bits_of_blocks_firstn, firstnN_firstnN by lia. rewrite bits_of_blocks_pack by lia.
        change (fit (blocks_for nb (lengthN l) * nb) false l) with (full nb l).
        now rewrite firstnN_full by lia.
      + apply Forall_firstnN, pack_lt.
      + rewrite Hlen. exact Hf.
    - assert (lengthN l <= n * k) by nia.
      pose proof (blocks_for_mono nb (lengthN l) (n * k) nb_pos ltac:(lia)).
      assert (Hvec : (if blocks_for nb (n * k) <=? blocks_for nb (lengthN l)
          then Ok (firstnN (blocks_for nb (n * k)) (pack nb l))
          else alloc c nb (blocks_for nb (n * k)) ;;;
               Ok (pack nb l ++ repeatN 0 (blocks_for nb (n * k) - blocks_for nb (lengthN l))))
        = Ok (pack nb (l ++ repeatN false ((n - vb_len v) * k)))).
      { assert (Hs : n * k = lengthN l + (n - vb_len v) * k) by (rewrite N.mul_sub_distr_r; nia).
        rewrite pack_app_zeros by (rewrite <- Hs; lia). rewrite <- Hs.
        dif E2.
        - replace (blocks_for nb (n * k) - blocks_for nb (lengthN l)) with 0 by lia.
          rewrite repeatN_0, app_nil_r, firstnN_all by (rewrite lengthN_pack; lia). reflexivity.
        - now rewrite alloc_ok by exact Hf. }
      rewrite Hvec. cbn [bind].
      destruct (fill_loop l (vb_len v) n x {| vb_len := n; vb_vec := pack nb (l ++ repeatN false ((n - vb_len v) * k)) |})
        as [v' [H1 H2]]; auto; try lia.
      + split; [reflexivity|]. rewrite lengthN_app, lengthN_repeatN. cbn [vb_len].
        replace (lengthN l + (n - vb_len v) * k) with (n * k) by (rewrite N.mul_sub_distr_r; nia). auto.
      + exists v'. split; [exact H1|]. rewrite firstnN_all; [exact H2|].
        rewrite lengthN_app, lengthN_bits_of_blocks, lengthN_repeatN, N.mul_sub_distr_r. nia.
  Qed.
  Lemma vb_resize_full v l n x : V v l -> n < 2 ^ 64 -> ~ fits c nb (n * k) -> panics (vb_resize c nb k v n x).
  Proof.
    intros HV Hn Hf. pose proof HV as [E [El Hf0]]. unfold vb_resize.
    pose proof (fits_lt64 c nb _ nb_pos Hf0) as H63.
    destruct (len_to_block_len_cases n Hn Hf) as [H|[H|[[m [H [Hm Em]]]|[H Hw]]]]; [now apply bind_panics| | |];
      rewrite H; cbn [bind expect]; auto; unfold vec_resize; rewrite E, lengthN_pack.
    - unfold fits in Hf0. destruct (m <=? blocks_for nb (lengthN l)) eqn:E2; [nia|].
      rewrite alloc_fail by assumption. cbn [bind]. auto.
    - destruct (0 <=? blocks_for nb (lengthN l)) eqn:E2; [|lia]. cbn [bind]. rewrite firstnN_0.
      assert (vb_len v < n) by nia. destruct (n <=? vb_len v) eqn:E3; [lia|].
      apply for_range_panics; [lia|]. rewrite wmul_ok by lia. cbn [bind].
      apply vb_set_bits_nil; nia.
  Qed.

  Lemma vb_with_capacity_ok n : fits c nb (n * k) ->
    exists v, vb_with_capacity c nb k n = Ok v /\ V v [].
  Proof.
    intros Hf. unfold vb_with_capacity. rewrite len_to_block_len_ok by (auto using fits_sum). cbn [bind].
    rewrite to_usize_small by now apply fits_ptr. cbn [expect bind].
    now apply (vb_block_with_capacity_ok c nb k Hnb).
  Qed.
  Lemma vb_with_capacity_full n : n * k + nb <= 2 ^ 64 \/ debug c = true \/ 2 ^ 64 <= n * k -> n < 2 ^ 64 ->
    ~ fits c nb (n * k) -> panics (vb_with_capacity c nb k n).
  Proof.
    intros Hov Hn Hf. unfold vb_with_capacity.
    destruct (len_to_block_len_cases n Hn Hf) as [H|[H|[[m [H [Hm Em]]]|[H Hw]]]]; [now apply bind_panics| | |];
      try (rewrite H; cbn [bind expect]; auto).
    - now apply vb_block_with_capacity_full.
    - destruct Hov as [Ho|[Ho|Ho]]; [lia| |lia]. exfalso. revert H. unfold len_to_block_len, checked_mul.
      destruct (n * k <? 2 ^ 64) eqn:E; [|lia]. rewrite checked_ceil_div_nbits_wrap, Ho by (auto; lia). discriminate.
  Qed.

  (** *** Popping a block *)
  Lemma vb_pop_block_ok v l : V v l -> lengthN l <> 0 ->
    exists v', vb_pop_block c nb k v = Ok (Some (block_of nb (blocks_for nb (lengthN l) - 1) l), v') /\
      V v' (firstnN ((blocks_for nb (lengthN l) - 1) * nb / k * k) l).
  Proof.
    intros HV Hl. pose proof HV as [E [El Hf]]. unfold vb_pop_block. rewrite E.
    pose proof (blocks_for_spec nb (lengthN l) nb_pos) as Hb.
    destruct (vec_pop (pack nb l)) as [r vec] eqn:Ep.
    assert (Hne : pack nb l <> []).
    { intros H0. apply (f_equal lengthN) in H0. rewrite lengthN_pack, lengthN_nil in H0. nia. }
    destruct (app_snoc_inv _ Hne) as [v0 [x Ev]]. rewrite Ev, vec_pop_snoc in Ep. injection Ep as <- <-.
    assert (Hlen : lengthN v0 = blocks_for nb (lengthN l) - 1).
    { apply (f_equal lengthN) in Ev. rewrite lengthN_pack, lengthN_snoc in Ev. lia. }
    assert (Hx : x = block_of nb (blocks_for nb (lengthN l) - 1) l).
    { apply (f_equal (fun v => nthN v (lengthN v0))) in Ev. rewrite nthN_snoc, N.ltb_irrefl, N.eqb_refl, nthN_pack in Ev.
      rewrite Hlen in Ev. destruct (_ <? _) eqn:E1 in Ev; [|nia]. now injection Ev as <-. }
    assert (Hv0 : v0 = firstnN (blocks_for nb (lengthN l) - 1) (pack nb l)).
    { rewrite Ev, firstnN_app by lia. rewrite <- Hlen. symmetry. apply firstnN_all. lia. }
    destruct (set_len_from_blocks_ok c nb k Hc Hnb Hk (vb_len v) v0) as [v' [H1 H2]].
    - rewrite Hv0. apply Forall_firstnN, pack_lt.
    - rewrite Hlen. unfold fits in Hf. nia.
    - rewrite H1. cbn [bind]. rewrite Hx. eexists; split; [reflexivity|].
      rewrite Hlen, Hv0, bits_of_blocks_firstn, (bits_of_blocks_pack nb l nb_pos) in H2.
      change (fit (blocks_for nb (lengthN l) * nb) false l) with (full nb l) in H2.
      set (m := blocks_for nb (lengthN l) - 1) in *.
      assert (m * nb <= lengthN l) by (unfold m; rewrite N.mul_sub_distr_r; lia).
      assert (m * nb / k * k <= m * nb) by (pose proof (N.div_mod (m * nb) k ltac:(lia)); lia).
      rewrite firstnN_firstnN, firstnN_full in H2 by lia. exact H2.
  Qed.
  Lemma vb_pop_block_empty v : V v [] -> vb_pop_block c nb k v = Ok (None, v).
  Proof.
    intros [E [El _]]. unfold vb_pop_block. rewrite pack_nil in E by lia. rewrite lengthN_nil in El.
    rewrite E. cbn [vec_pop rev]. unfold set_len_from_blocks. cbn [vb_vec vb_len].
    rewrite lengthN_nil, mul_nbits_ok by (auto; lia). cbn [bind]. rewrite wdiv_ok by lia. cbn [bind].
    rewrite N.mul_0_l, N.div_0_l by lia. unfold clear_extra_bits. cbn [vb_vec vb_len]. rewrite wmul_ok by lia. cbn [bind].
    destruct v as [a b]. cbn in *. subst. repeat f_equal. nia.
  Qed.
End VectorBase.

(** ** Single bits ([k = 1]) *)
Section Bits.
  Variables (c : cfg) (nb : N).
  Hypothesis Hc : wf_cfg c.
  Hypothesis Hnb : wf_nb nb.
  Let nb_range := wf_nb_range nb Hnb.
  Let ptr_range := wf_ptr c Hc.
  Let nb_pos := wf_nb_pos nb Hnb.
  Let V := Vrep c nb 1.
  Let Hk : 1 <= 1 <= nb. Proof. lia. Qed.

  Lemma V1_len v l : V v l -> vb_len v = lengthN l.
  Proof. intros [_ [H _]]. lia. Qed.

  Lemma vb_get_bit_ok v l i b : V v l -> nthN l i = Some b -> vb_get_bit c nb v i = Ok b.
  Proof.
    intros HV Hb. pose proof HV as [E [El Hf]]. pose proof (nthN_lt _ _ _ Hb) as Hi. unfold vb_get_bit.
    rewrite assert_true by lia. cbn [bind]. rewrite E.
    pose proof (blocks_for_spec nb (lengthN l) nb_pos).
    apply (blocks_get_bit_ok c nb Hc Hnb _ (full nb l)); [now apply R_blocks_pack|].
    rewrite nthN_bit_at by (rewrite lengthN_full; lia). rewrite bit_at_full by assumption.
    now rewrite (bit_at_Some _ _ _ Hb).
  Qed.
  Lemma vb_get_bit_oob v l i : V v l -> lengthN l <= i -> panics (vb_get_bit c nb v i).
  Proof.
    intros [_ [El _]] H. unfold vb_get_bit. rewrite assert_false by lia. cbn [bind]. auto.
  Qed.
  Lemma vb_set_bit_ok v l i b : V v l -> i < lengthN l ->
    exists v', vb_set_bit c nb v i b = Ok v' /\ V v' (updN l i b) /\ vb_len v' = vb_len v.
  Proof.
    intros HV Hi. pose proof HV as [E [El Hf]]. unfold vb_set_bit.
    rewrite assert_true by lia. cbn [bind]. rewrite E.
    pose proof (blocks_for_spec nb (lengthN l) nb_pos).
    destruct (blocks_set_bit_ok c nb Hc Hnb (pack nb l) (full nb l) i b) as [v' [H4 [H5 _]]];
      [now apply R_blocks_pack|rewrite lengthN_full; lia|].
    rewrite H4. cbn [bind]. eexists; split; [reflexivity|]. unfold V, Vrep. cbn [vb_vec vb_len].
    rewrite lengthN_updN. repeat split; auto. rewrite H5.
    apply pack_ext; [lia| |].
    - rewrite !lengthN_updN, lengthN_full. apply blocks_for_mul. lia.
    - intros j. rewrite !bit_at_updN by (rewrite ?lengthN_full; lia). now rewrite bit_at_full by lia.
  Qed.
  Lemma vb_set_bit_oob v l i b : V v l -> lengthN l <= i -> panics (vb_set_bit c nb v i b).
  Proof.
    intros [_ [El _]] H. unfold vb_set_bit. rewrite assert_false by lia. cbn [bind]. auto.
  Qed.
  Lemma updN_last {A} (l : list A) x y : updN (l ++ [x]) (lengthN l) y = l ++ [y].
  Proof.
    apply nthN_ext. intros i. rewrite nthN_updN, !nthN_snoc, lengthN_snoc.
    destruct (i =? lengthN l) eqn:E1.
    - destruct (lengthN l <? lengthN l + 1) eqn:E2; [|lia].
      replace i with (lengthN l) by lia. rewrite N.ltb_irrefl. destruct (lengthN l <? _) eqn:E3; [reflexivity|lia].
    - reflexivity.
  Qed.
  Lemma vb_push_bit_ok v l b : V v l -> fits c nb (lengthN l + 1) ->
    exists v', vb_push_bit c nb v b = Ok v' /\ V v' (l ++ [b]).
  Proof.
    intros HV Hf. pose proof HV as [E [El Hf0]]. pose proof (fits_lt64 c nb _ nb_pos Hf) as H63.
    assert (Hlen : vb_len v = lengthN l) by lia.
    unfold vb_push_bit. rewrite Hlen, wadd_ok by lia. cbn [bind].
    rewrite (vb_have c nb 1 Hc Hnb Hk v l HV). cbn [bind]. rewrite E.
    rewrite (grow_ok c nb 1 Hc Hnb Hk l 1) by (auto; lia). cbn [bind]. change (repeatN false 1) with [false].
    set (v1 := {| vb_len := lengthN l + 1; vb_vec := pack nb (l ++ [false]) |}).
    assert (HV1 : V v1 (l ++ [false])).
    { split; [reflexivity|]. rewrite lengthN_snoc. cbn [vb_len v1]. split; [lia|assumption]. }
    destruct (vb_set_bit_ok v1 _ (lengthN l) b HV1) as [v' [H1 [H2 _]]]; [rewrite lengthN_snoc; lia|].
    exists v'. split; [exact H1|]. now rewrite updN_last in H2.
  Qed.
  Lemma vb_push_bit_full v l b : V v l -> ~ fits c nb (lengthN l + 1) -> panics (vb_push_bit c nb v b).
  Proof.
    intros HV Hf. pose proof HV as [E [El Hf0]]. pose proof (fits_lt64 c nb _ nb_pos Hf0) as H63.
    assert (Hlen : vb_len v = lengthN l) by lia.
    unfold vb_push_bit. rewrite Hlen, wadd_ok by lia. cbn [bind].
    rewrite (vb_have c nb 1 Hc Hnb Hk v l HV). cbn [bind]. rewrite E.
    destruct (grow_full c nb 1 Hc Hnb Hk l 1 ltac:(lia) Hf0 Hf) as [-> [p Hp]]. rewrite Hp. cbn [bind]. auto.
  Qed.
  Lemma vb_pop_bit_ok v l b : V v (l ++ [b]) ->
    exists v', vb_pop_bit c nb v = Ok (Some b, v') /\ V v' l.
  Proof.
    intros HV. pose proof HV as [E [El Hf]]. rewrite lengthN_snoc in El, Hf.
    pose proof (fits_lt64 c nb _ nb_pos Hf) as H63. unfold vb_pop_bit.
    assert (Hlen : vb_len v = lengthN l + 1) by lia. rewrite Hlen.
    destruct (lengthN l + 1 =? 0) eqn:E0; [lia|]. rewrite wsub_ok by lia. cbn [bind].
    replace (lengthN l + 1 - 1) with (lengthN l) by lia.
    rewrite (vb_get_bit_ok v _ (lengthN l) b HV)
      by (rewrite nthN_snoc, N.ltb_irrefl, N.eqb_refl; reflexivity). cbn [bind].
    destruct (vb_set_bit_ok v _ (lengthN l) false HV) as [v1 [H1 [H2 H3]]]; [rewrite lengthN_snoc; lia|].
    rewrite H1. cbn [bind]. rewrite ceil_div_nbits_ok by (auto; lia). cbn [bind].
    assert (Hf0 : fits c nb (lengthN l)) by (eapply fits_mono; [lia| |exact Hf]; lia).
    rewrite as_usize_small by now apply fits_ptr. eexists; split; [reflexivity|].
    rewrite updN_last in H2. destruct H2 as [E2 _]. split; [|split; [cbn [vb_len]; lia|exact Hf0]]. cbn [vb_vec].
    rewrite E2. change [false] with (repeatN false 1). apply (shrink_pack c nb 1 Hc Hnb Hk); [lia|exact Hf].
  Qed.
  Lemma vb_pop_bit_empty v : V v [] -> vb_pop_bit c nb v = Ok (None, v).
  Proof.
    intros [_ [El _]]. rewrite lengthN_nil in El. unfold vb_pop_bit.
    assert (vb_len v = 0) as -> by lia. reflexivity.
  Qed.
End Bits.
