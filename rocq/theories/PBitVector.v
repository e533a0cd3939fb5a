(** * [BitVector] as a bit sequence. *)
From Verif Require Export PVectorBase3 PDefaults MBitVector.

Lemma bits_of_blocks_ones nb n : 0 < nb -> bits_of_blocks nb (repeatN (N.ones nb) n) = repeatN true (n * nb).
Proof.
  intros Hnb.
  apply list_bit_ext; [rewrite lengthN_bits_of_blocks, !lengthN_repeatN; reflexivity|].
  intros i Hi. rewrite bit_at_repeatN, andb_true_r.
  rewrite lengthN_bits_of_blocks, lengthN_repeatN in Hi.
  pose proof (N.div_mod i nb ltac:(lia)) as E. pose proof (N.mod_lt i nb ltac:(lia)) as Hr.
  set (q := i / nb) in *. set (r := i mod nb) in *. clearbody q r. subst i. rewrite (N.mul_comm nb).
  rewrite (bit_at_bits_of_blocks nb _ q r (N.ones nb)); [|lia|lia|].
  - rewrite testbit_ones. lia.
  - rewrite nthN_repeatN. destruct (q <? n) eqn:E2; [reflexivity|]. nia.
Qed.
Lemma wnot_0 nb : wnot nb 0 = N.ones nb.
Proof.
  unfold wnot. apply N.bits_inj. intros i. rewrite testbit_lnot, testbit_ones, N.bits_0. now destruct (i <? nb).
Qed.
Lemma lengthN_block_fit nb n x l : 0 < nb -> lengthN (block_fit nb n x l) = n * nb.
Proof.
  intros H. unfold block_fit. destruct (n <=? _) eqn:E.
  - rewrite lengthN_firstnN, lengthN_full. nia.
  - rewrite lengthN_app, lengthN_full, lengthN_bits_of_blocks, lengthN_repeatN, N.mul_sub_distr_r. nia.
Qed.
Lemma bit_at_block_fit_0 nb n l i : 0 < nb -> bit_at (block_fit nb n 0 l) i = (i <? n * nb) && bit_at l i.
Proof.
  intros H. unfold block_fit. pose proof (blocks_for_spec nb (lengthN l) H).
  destruct (n <=? _) eqn:E.
  - now rewrite bit_at_firstnN, bit_at_full.
  - rewrite bits_of_blocks_zero, bit_at_app, bit_at_repeatN, andb_false_r, bit_at_full, lengthN_full by assumption.
    destruct (i <? n * nb) eqn:E1; cbn [andb].
    + dif E2; [reflexivity|]. symmetry. apply bit_at_oob. lia.
    + dif E2; [nia|reflexivity].
Qed.
Lemma firstnN_block_fit_0 nb n l : 0 < nb -> firstnN n (block_fit nb (blocks_for nb n) 0 l) = fit n false l.
Proof.
  intros H. pose proof (blocks_for_spec nb n H) as H1. apply list_bit_ext.
  - rewrite lengthN_firstnN, lengthN_block_fit, lengthN_fit by assumption. lia.
  - intros i _. rewrite bit_at_firstnN, bit_at_block_fit_0, bit_at_fit by assumption.
    destruct (i <? n) eqn:E; cbn [andb]; [|reflexivity].
    destruct (i <? blocks_for nb n * nb) eqn:E2; [cbn [andb]|lia].
    destruct (i <? lengthN l) eqn:E3; [reflexivity|]. apply bit_at_oob. lia.
Qed.
Lemma fit_cut {A} n (b : A) l : n <= lengthN l -> fit n b l = firstnN n l.
Proof. intros H. unfold fit. replace (n - lengthN l) with 0 by lia. now rewrite repeatN_0, app_nil_r. Qed.
Lemma full_aligned nb l : 0 < nb -> lengthN l = blocks_for nb (lengthN l) * nb -> full nb l = l.
Proof. intros H E. unfold full. rewrite <- E. apply fit_exact. Qed.
Lemma firstnN_block_fit_1 nb n l : 0 < nb -> lengthN l <= n ->
  firstnN n (block_fit nb (blocks_for nb n) (N.ones nb) (l ++ repeatN true (padding nb (lengthN l)))) = fit n true l.
Proof.
  intros H Hn. pose proof (blocks_for_spec nb n H) as H1. pose proof (padding_spec nb (lengthN l) H) as H2.
  set (l1 := l ++ repeatN true (padding nb (lengthN l))).
  assert (Hl1 : lengthN l1 = blocks_for nb (lengthN l) * nb).
  { unfold l1. rewrite lengthN_app, lengthN_repeatN. lia. }
  assert (Hb1 : blocks_for nb (lengthN l1) = blocks_for nb (lengthN l)).
  { rewrite Hl1. now apply blocks_for_mul. }
  pose proof (blocks_for_mono nb (lengthN l) n H Hn) as Hm.
  assert (E : block_fit nb (blocks_for nb n) (N.ones nb) l1 =
     l1 ++ repeatN true ((blocks_for nb n - blocks_for nb (lengthN l)) * nb)).
  { unfold block_fit. rewrite Hb1, full_aligned by (rewrite ?Hb1; lia). dif E.
    - replace (blocks_for nb n - blocks_for nb (lengthN l)) with 0 by lia.
      rewrite N.mul_0_l, repeatN_0, app_nil_r. apply firstnN_all. nia.
    - now rewrite bits_of_blocks_ones. }
  rewrite E. clear E. unfold l1. rewrite <- app_assoc, <- repeatN_app.
  assert (Hs : n - lengthN l <= padding nb (lengthN l) + (blocks_for nb n - blocks_for nb (lengthN l)) * nb).
  { rewrite N.mul_sub_distr_r. nia. }
  generalize dependent (padding nb (lengthN l) + (blocks_for nb n - blocks_for nb (lengthN l)) * nb).
  intros m Hs. apply list_bit_ext.
  - rewrite lengthN_firstnN, lengthN_app, lengthN_repeatN, lengthN_fit. lia.
  - intros i _. rewrite bit_at_firstnN, bit_at_app, bit_at_repeatN, bit_at_fit, andb_true_r.
    destruct (i <? n) eqn:E1; cbn [andb]; [|reflexivity].
    destruct (i <? lengthN l) eqn:E2; [reflexivity|]. lia.
Qed.

Section BitVector.
  Variables (c : cfg) (nb : N).
  Hypothesis Hc : wf_cfg c.
  Hypothesis Hnb : wf_nb nb.
  Let nb_range := wf_nb_range nb Hnb.
  Let ptr_range := wf_ptr c Hc.
  Let nb_pos := wf_nb_pos nb Hnb.
  Let Hk : 1 <= 1 <= nb. Proof. lia. Qed.

  (** The bit vector [v] holds the bits [l]. *)
  Definition R_bv (v : vbase) (l : list bool) : Prop := Vrep c nb 1 v l.

  Lemma R_bv_fits v l : R_bv v l -> fits c nb (lengthN l).
  Proof. now intros [_ [_ H]]. Qed.
  Lemma bvec_bit_len_ok v l : R_bv v l -> bvec_bit_len v = Ok (lengthN l).
  Proof. intros H. unfold bvec_bit_len. now rewrite (V1_len c nb Hc Hnb v l H). Qed.
  Lemma bvec_block_len_ok v l : R_bv v l -> bvec_block_len c nb v = Ok (blocks_for nb (lengthN l)).
  Proof. intros H. apply def_block_len; auto; [now apply bvec_bit_len_ok|eapply R_bv_fits; eauto]. Qed.
  Lemma bvec_get_bits_ok v l s n : R_bv v l -> s + n <= lengthN l -> n <= nb ->
    (1 <= n \/ s < lengthN l \/ s mod nb <> 0) ->
    bvec_get_bits c nb v s n = Ok (int_of (sub s n l)).
  Proof.
    intros HV H1 H2 H3. apply def_get_bits; auto; [now apply bvec_bit_len_ok|eapply R_bv_fits; eauto|].
    intros i Hi. eapply vb_get_block_ok; eauto.
  Qed.
  Lemma bvec_get_bits_oob v l s n : R_bv v l -> lengthN l < s + n -> s < 2 ^ 64 -> n < 2 ^ ptr c ->
    panics (bvec_get_bits c nb v s n).
  Proof.
    intros HV H1 H2 H3. eapply def_get_bits_oob_all; eauto; [now apply bvec_bit_len_ok|eapply R_bv_fits; eauto| |].
    - intros i Hi. eapply vb_get_block_ok; eauto.
    - intros i Hi _. eapply vb_get_block_oob; eauto.
  Qed.
  Lemma bvec_set_bits_ok v l s n x : R_bv v l -> s + n <= lengthN l -> n <= nb -> x < 2 ^ nb ->
    (1 <= n \/ s < lengthN l \/ s mod nb <> 0) ->
    exists v', bvec_set_bits c nb v s n x = Ok v' /\ R_bv v' (put s (bits_of n x) l).
  Proof.
    intros HV H1 H2 Hx H3.
    destruct (def_set_bits c nb bvec_bit_len bvec_get_block (bvec_set_block c nb) v l R_bv s n x) as [v' H];
      auto; [now apply bvec_bit_len_ok|eapply R_bv_fits; eauto| | |].
    - intros i Hi. eapply vb_get_block_ok; eauto.
    - intros t' l' i y Ht' El Hi Hy. apply (vb_set_block_ok c nb 1); auto. lia.
    - exists v'. exact H.
  Qed.
  Lemma bvec_set_bits_oob v l s n x : R_bv v l -> lengthN l < s + n -> s < 2 ^ 64 -> n < 2 ^ ptr c ->
    panics (bvec_set_bits c nb v s n x).
  Proof.
    intros HV H1 H2 H3. eapply def_set_bits_oob_all; eauto; [now apply bvec_bit_len_ok|eapply R_bv_fits; eauto| |].
    - intros i Hi. eapply vb_get_block_ok; eauto.
    - intros i Hi _. eapply vb_get_block_oob; eauto.
  Qed.

  Lemma fits_dec n : fits c nb n \/ ~ fits c nb n.
  Proof. unfold fits. lia. Qed.

  Lemma bvec_align_block_ok fuel v l b : R_bv v l -> (N.to_nat (padding nb (lengthN l)) < fuel)%nat ->
    exists v', bvec_align_block c nb fuel v b = Ok v' /\ R_bv v' (l ++ repeatN b (padding nb (lengthN l))).
  Proof.
    intros HV Hf. pose proof (R_bv_fits v l HV) as Hfits.
    apply (def_align_block c nb Hc Hnb _ _ R_bv (fits c nb)); auto.
    - intros; now apply bvec_bit_len_ok.
    - intros; now apply vb_push_bit_ok.
    - intros m n H. apply fits_mono; [lia|exact H].
    - unfold fits. rewrite padding_spec, blocks_for_mul by assumption. exact Hfits.
  Qed.

  Lemma bvec_push_block_ok v l x : R_bv v l -> x < 2 ^ nb -> (blocks_for nb (lengthN l) + 1) * nb <= max_bits c ->
    exists v', bvec_push_block c nb v x = Ok v' /\
      R_bv v' (l ++ repeatN false (padding nb (lengthN l)) ++ bits_of nb x).
  Proof.
    intros HV Hx Hm. destruct (vb_push_block_ok c nb 1 Hc Hnb Hk v l x HV Hx Hm) as [v' [H1 H2]].
    exists v'. split; [exact H1|]. rewrite N.div_1_r, N.mul_1_r, firstnN_all, full_app, <- app_assoc in H2; auto.
    rewrite lengthN_app, lengthN_full, lengthN_bits_of. lia.
  Qed.

  Lemma bvec_block_with_fill_ok n x : x < 2 ^ nb -> n * nb <= max_bits c ->
    exists v, bvec_block_with_fill c nb n x = Ok v /\ R_bv v (bits_of_blocks nb (repeatN x n)).
  Proof.
    intros Hx Hn. destruct (vb_block_with_fill_ok c nb 1 Hc Hnb Hk n x Hx Hn) as [v [H1 H2]].
    exists v. split; [exact H1|]. rewrite N.div_1_r, N.mul_1_r, firstnN_all in H2; auto.
    rewrite lengthN_bits_of_blocks, lengthN_repeatN. lia.
  Qed.
  Lemma bvec_block_resize_ok v l n x : R_bv v l -> x < 2 ^ nb -> n * nb <= max_bits c ->
    exists v', bvec_block_resize c nb v n x = Ok v' /\ R_bv v' (block_fit nb n x l).
  Proof.
    intros HV Hx Hn. destruct (vb_block_resize_ok c nb 1 Hc Hnb Hk v l n x HV Hx Hn) as [v' [H1 H2]].
    exists v'. split; [exact H1|]. rewrite N.div_1_r, N.mul_1_r, firstnN_all in H2; auto.
    rewrite lengthN_block_fit; lia.
  Qed.
  Lemma bvec_truncate_ok v l n : R_bv v l ->
    exists v', bvec_truncate c nb v n = Ok v' /\ R_bv v' (firstnN n l).
  Proof.
    intros HV. destruct (vb_truncate_ok c nb 1 Hc Hnb Hk v l n HV) as [v' [H1 H2]].
    rewrite N.mul_1_r in H2. exists v'. auto.
  Qed.
  Lemma bvec_block_truncate_ok v l n : R_bv v l -> n < 2 ^ ptr c ->
    exists v', bvec_block_truncate c nb v n = Ok v' /\ R_bv v' (firstnN (n * nb) l).
  Proof.
    intros HV Hn. destruct (vb_block_truncate_ok c nb 1 Hc Hnb Hk v l n HV Hn) as [v' [H1 H2]].
    rewrite N.div_1_r, N.mul_1_r in H2. exists v'. split; [exact H1|].
    destruct (n <? blocks_for nb (lengthN l)) eqn:E; [exact H2|].
    rewrite firstnN_all; [exact H2|]. pose proof (blocks_for_spec nb (lengthN l) nb_pos). nia.
  Qed.

  Lemma ceil_blocks n : n + nb <= 2 ^ 64 -> checked_ceil_div_nbits c nb n = Ok (to_usize c (blocks_for nb n)).
  Proof. intros H. rewrite checked_ceil_div_nbits_ok; auto. lia. Qed.

  Lemma bvec_with_fill_ok n b : fits c nb n ->
    exists v, bvec_with_fill c nb n b = Ok v /\ R_bv v (repeatN b n).
  Proof.
    intros Hf. unfold bvec_with_fill. rewrite ceil_blocks by now apply (fits_sum c nb 1 Hc Hnb Hk). cbn [bind].
    rewrite to_usize_small by now apply fits_ptr. cbn [expect bind].
    pose proof (blocks_for_spec nb n nb_pos).
    destruct (bvec_block_with_fill_ok (blocks_for nb n) (if b then wnot nb 0 else 0)) as [v [H1 H2]].
    - rewrite wnot_0. destruct b; [apply ones_lt; lia|apply pow2_pos].
    - exact Hf.
    - rewrite H1. cbn [bind].
      destruct (bvec_truncate_ok v _ n H2) as [v' [H3 H4]]. exists v'. split; [exact H3|].
      replace (firstnN n _) with (repeatN b n) in H4; [exact H4|].
      replace (bits_of_blocks nb (repeatN (if b then wnot nb 0 else 0) (blocks_for nb n)))
        with (repeatN b (blocks_for nb n * nb)).
      + apply nthN_ext. intros i. rewrite nthN_firstnN, !nthN_repeatN.
        destruct (i <? n) eqn:E; [|reflexivity]. dif E2; [reflexivity|lia].
      + destruct b; [rewrite wnot_0, bits_of_blocks_ones by lia|rewrite bits_of_blocks_zero]; reflexivity.
  Qed.
  Lemma bvec_with_fill_full n b : n < 2 ^ 64 -> n + nb <= 2 ^ 64 \/ debug c = true -> ~ fits c nb n ->
    panics (bvec_with_fill c nb n b).
  Proof.
    intros Hn Hov Hf. unfold bvec_with_fill. destruct (N.le_gt_cases (n + nb) (2 ^ 64)) as [H|H].
    - rewrite ceil_blocks by assumption. cbn [bind]. unfold to_usize. dif E; cbn [expect bind]; [|auto].
      apply bind_panics. apply vb_block_with_fill_full. unfold fits in Hf. lia.
    - destruct Hov as [H1|H1]; [lia|]. rewrite checked_ceil_div_nbits_wrap, H1 by auto. cbn [bind]. auto.
  Qed.

  Lemma push_loop v l n : R_bv v l -> fits c nb (lengthN l + n) ->
    exists v', for_range 0 n (fun _ v => vb_push_bit c nb v true) v = Ok v' /\ R_bv v' (l ++ repeatN true n).
  Proof.
    intros HV Hf.
    destruct (for_range_ind (fun i v => R_bv v (l ++ repeatN true i)) (fun _ v => vb_push_bit c nb v true) 0 n v)
      as [v' H].
    - lia.
    - rewrite repeatN_0, app_nil_r. exact HV.
    - intros j t _ Hj Ht.
      destruct (vb_push_bit_ok c nb Hc Hnb t _ true Ht) as [t' [H1 H2]].
      + rewrite lengthN_app, lengthN_repeatN. eapply fits_mono; [lia| |exact Hf]. lia.
      + exists t'. split; [exact H1|]. rewrite repeatN_app, app_assoc. exact H2.
    - exists v'. exact H.
  Qed.

  Lemma resize_blocks v l n b m : R_bv v l -> m = blocks_for nb n -> m * nb <= max_bits c ->
    exists v1, (if (n <? vb_len v) || negb b then bvec_block_resize c nb v m 0
     else trailing <- last_block_bits c nb (vb_len v) ;;
          remaining <- wsub c (ptr c) nb trailing ;;
          v' <- for_range 0 remaining (fun _ v => vb_push_bit c nb v true) v ;;
          bvec_block_resize c nb v' m (wnot nb 0)) = Ok v1 /\
      exists l1, R_bv v1 l1 /\ firstnN n l1 = fit n b l.
  Proof.
    intros HV Em Hm. rewrite (V1_len c nb Hc Hnb v l HV). pose proof (pow2_pos nb).
    destruct ((n <? lengthN l) || negb b) eqn:E.
    - destruct (bvec_block_resize_ok v l m 0 HV) as [v1 [H1 H2]]; auto.
      exists v1. split; [exact H1|]. eexists; split; [exact H2|]. subst m. rewrite firstnN_block_fit_0 by assumption.
      destruct b; cbn in E; [|reflexivity]. now rewrite !fit_cut by lia.
    - assert (Hn : lengthN l <= n) by lia. assert (b = true) as -> by (destruct b; cbn in E; [reflexivity|lia]).
      rewrite last_block_bits_ok by assumption. cbn [bind].
      assert (Hlb : (if lengthN l mod nb =? 0 then nb else lengthN l mod nb) <= nb).
      { dif E2; [lia|]. pose proof (N.mod_lt (lengthN l) nb). lia. }
      rewrite wsub_ok by assumption. cbn [bind].
      replace (nb - _) with (padding nb (lengthN l)).
      2:{ unfold padding. dif E2.
          - replace (lengthN l mod nb) with 0 by lia. rewrite N.sub_0_r, N.mod_same by lia. lia.
          - pose proof (N.mod_lt (lengthN l) nb). apply N.mod_small. lia. }
      assert (Hf : fits c nb (lengthN l + padding nb (lengthN l))).
      { unfold fits. rewrite padding_spec, blocks_for_mul by assumption. now apply (R_bv_fits v). }
      destruct (push_loop v l _ HV Hf) as [v' [H1 H2]]. rewrite H1. cbn [bind].
      destruct (bvec_block_resize_ok v' _ m (wnot nb 0) H2) as [v1 [H3 H4]]; auto.
      { rewrite wnot_0. apply ones_lt. lia. }
      exists v1. split; [exact H3|]. eexists; split; [exact H4|]. subst m. rewrite wnot_0.
      now apply firstnN_block_fit_1.
  Qed.
  Lemma bvec_resize_ok v l n b : R_bv v l -> fits c nb n ->
    exists v', bvec_resize c nb v n b = Ok v' /\ R_bv v' (fit n b l).
  Proof.
    intros HV Hf. unfold bvec_resize. rewrite ceil_blocks by now apply (fits_sum c nb 1 Hc Hnb Hk). cbn [bind].
    rewrite to_usize_small by now apply fits_ptr. cbn [expect bind].
    destruct (resize_blocks v l n b (blocks_for nb n) HV eq_refl Hf) as [v1 [H1 [l1 [H2 H3]]]].
    rewrite H1. cbn [bind]. destruct (bvec_truncate_ok v1 l1 n H2) as [v' [H4 H5]].
    exists v'. split; [exact H4|]. now rewrite H3 in H5.
  Qed.
  Lemma bvec_resize_full v l n b : R_bv v l -> n < 2 ^ 64 -> n + nb <= 2 ^ 64 \/ debug c = true -> ~ fits c nb n ->
    panics (bvec_resize c nb v n b).
  Proof.
    intros HV Hn Hov Hf. unfold bvec_resize. destruct (N.le_gt_cases (n + nb) (2 ^ 64)) as [H|H].
    - rewrite ceil_blocks by assumption. cbn [bind]. unfold to_usize. dif E; cbn [expect bind]; [|auto].
      apply bind_panics. rewrite (V1_len c nb Hc Hnb v l HV). unfold fits in Hf.
      dif E1; [eapply vb_block_resize_full; eauto; lia|].
      rewrite last_block_bits_ok by assumption. cbn [bind].
      assert (Hlb : (if lengthN l mod nb =? 0 then nb else lengthN l mod nb) <= nb).
      { dif E2; [lia|]. pose proof (N.mod_lt (lengthN l) nb). lia. }
      rewrite wsub_ok by assumption. cbn [bind].
      destruct (push_loop v l (nb - (if lengthN l mod nb =? 0 then nb else lengthN l mod nb)) HV) as [v' [H1 H2]].
      + pose proof (R_bv_fits v l HV) as Hfl. unfold fits in *.
        assert (nb - (if lengthN l mod nb =? 0 then nb else lengthN l mod nb) = padding nb (lengthN l)) as ->.
        { unfold padding. dif E2.
          - replace (lengthN l mod nb) with 0 by lia. rewrite N.sub_0_r, N.mod_same by lia. lia.
          - pose proof (N.mod_lt (lengthN l) nb). symmetry. apply N.mod_small. lia. }
        rewrite padding_spec, blocks_for_mul by assumption. exact Hfl.
      + rewrite H1. cbn [bind]. eapply vb_block_resize_full; eauto; lia.
    - destruct Hov as [H1|H1]; [lia|]. rewrite checked_ceil_div_nbits_wrap, H1 by auto. cbn [bind]. auto.
  Qed.

  (** ** Lawful instances *)
  Theorem bvec_lawful_bits : lawful_bits c (bvec_bitvec c nb) R_bv.
  Proof.
    constructor; cbn.
    - exact Hnb.
    - exact R_bv_fits.
    - exact bvec_bit_len_ok.
    - exact (vb_get_bit_ok c nb Hc Hnb).
    - intros t l i HR Hi _. eapply vb_get_bit_oob; eauto.
    - intros t l s n HR H1 H2 H3. apply bvec_get_bits_ok; auto. tauto.
    - intros t l s n HR H1 H2 H3. eapply bvec_get_bits_oob; eauto. lia.
  Qed.
  Theorem bvec_lawful_blocks : lawful_blocks c (bvec_bitvec c nb) R_bv.
  Proof.
    constructor; cbn.
    - exact bvec_block_len_ok.
    - intros. eapply vb_get_block_ok; eauto.
    - intros. eapply vb_get_block_oob; eauto.
  Qed.
  Theorem bvec_lawful_mut : lawful_mut c (bvec_bitvecmut c nb) R_bv.
  Proof.
    constructor; cbn.
    - intros t l i b HR Hi. destruct (vb_set_bit_ok c nb Hc Hnb t l i b HR Hi) as [t' [H1 [H2 _]]]. exists t'. auto.
    - intros t l i b HR Hi _. eapply vb_set_bit_oob; eauto.
    - intros t l s n v HR H1 H2 H3 H4. apply bvec_set_bits_ok; auto. tauto.
    - intros t l s n v HR H1 H2 H3. eapply bvec_set_bits_oob; eauto. lia.
  Qed.
  Theorem bvec_lawful_mutblocks : lawful_mutblocks c (bvec_bitvecmut c nb) R_bv.
  Proof.
    constructor; cbn.
    - intros. now apply vb_set_block_ok.
    - intros. eapply vb_set_block_oob; eauto.
  Qed.
  Theorem bvec_lawful_push : lawful_push c (bvec_bitvecpush c nb) R_bv (fits c nb).
  Proof.
    constructor; cbn.
    - intros. now apply vb_push_bit_ok.
    - intros. eapply vb_push_bit_full; eauto.
    - intros. now apply vb_pop_bit_ok.
    - intros. now apply (vb_pop_bit_empty c nb).
  Qed.
End BitVector.
