(** * Spans longer than a block that stay within two blocks (C64). *)
From Verif Require Import Machine MStorage MTraits MVectorBase MBitVector SpecBits SpecCfg SpecOps PBase PStorage PBits PVectorBase PBitVector PRun PLong.

Section LongOk.
  Context {T : Type} (c : cfg) (nb : N).
  Variables (bit_len : T -> res N) (get_block : T -> N -> res N) (set_block : T -> N -> N -> res T).
  Variables (t : T) (l : list bool).
  Hypothesis Hc : wf_cfg c.
  Hypothesis Hnb : wf_nb nb.
  Hypothesis Hlen : bit_len t = Ok (lengthN l).
  Hypothesis Hfits : fits c nb (lengthN l).
  Hypothesis Hblk : forall i, i * nb < lengthN l -> get_block t i = Ok (block_of nb i l).

  Lemma long_get_ok s n : s + n <= lengthN l -> n < 2 ^ ptr c -> nb < n -> s mod nb + n <= 2 * nb ->
    s mod nb <> 0 \/ debug c = false ->
    default_get_bits c nb bit_len get_block t s n =
      Ok (if s mod nb =? 0 then N.lor (int_of (sub s nb l)) (int_of (sub (s + nb) (n - nb) l)) else int_of (sub s nb l)).
  Proof.
    intros H1 H2 H3 H4 H5. pose proof (wf_nb_range nb Hnb) as nb_range. pose proof (wf_ptr c Hc) as Hp.
    pose proof (fits_lt64 c nb (lengthN l) (wf_nb_pos nb Hnb) Hfits) as len63.
    destruct (long_address c nb get_block set_block t l Hc Hnb Hfits Hblk s n H1) as [Ea [Hq [Es [Hr Hq1]]]]; [lia|].
    unfold default_get_bits. rewrite wadd_ok by lia. cbn [bind].
    rewrite Hlen. cbn [bind]. rewrite assert_true by lia. cbn [bind].
    rewrite Ea. cbn [bind block_index bit_offset]. set (q := s / nb) in *. set (r := s mod nb) in *. clearbody q r.
    rewrite wsub_ok by lia. cbn [bind]. destruct (n <=? nb - r) eqn:E; [lia|].
    rewrite wsub_ok by lia. cbn [bind]. rewrite Hblk by assumption. cbn [bind].
    rewrite wadd_ok by lia. cbn [bind]. rewrite Hblk by lia. cbn [bind].
    rewrite !blk_get_bits_ok by (auto; lia). cbn [bind]. destruct (r =? 0) eqn:E0.
    - assert (Hd : debug c = false) by (destruct H5; [lia|assumption]). apply N.eqb_eq in E0. subst r.
      unfold wshl. rewrite Hd. destruct (nb - 0 <? nb) eqn:E1; [lia|]. cbn [bind]. replace ((nb - 0) mod nb) with 0 by (rewrite N.sub_0_r, N.mod_same by lia; reflexivity).
      rewrite N.lor_comm. f_equal. f_equal.
      + apply N.bits_inj. intros i. rewrite testbit_field, testbit_int_of, bit_at_sub, testbit_block_of.
        replace (nb - 0) with nb by lia. destruct (i <? nb) eqn:Ei; cbn [andb]; [|reflexivity]. rewrite N.add_0_l, Ei. cbn [andb]. f_equal. lia.
      + apply N.bits_inj. intros i. rewrite testbit_shiftl_mod, testbit_field, testbit_int_of, bit_at_sub, testbit_block_of.
        rewrite N.sub_0_r. replace (n - (nb - 0)) with (n - nb) by lia. destruct (i <? n - nb) eqn:Ei; cbn [andb]; [|now rewrite andb_false_r].
        destruct (i <? nb) eqn:E2; [|lia]. destruct (0 <=? i) eqn:E3; [|lia]. cbn [andb]. rewrite N.add_0_l, E2. cbn [andb]. f_equal. lia.
    - rewrite wshl_ok by lia. cbn [bind]. f_equal. apply N.bits_inj. intros i.
      rewrite N.lor_spec, testbit_shiftl_mod, !testbit_field, testbit_int_of, bit_at_sub, !testbit_block_of.
      destruct (i <? nb) eqn:E1; cbn [andb].
      + destruct (nb - r <=? i) eqn:E2; cbn [andb].
        * destruct (i - (nb - r) <? n - (nb - r)) eqn:E3; [|lia].
          destruct (i <? nb - r) eqn:E4; [lia|]. destruct (0 + (i - (nb - r)) <? nb) eqn:E5; [|lia].
          cbn [andb]. rewrite orb_false_r. f_equal. lia.
        * destruct (i <? nb - r) eqn:E4; [|lia]. destruct (r + i <? nb) eqn:E5; [|lia]. cbn [andb orb]. f_equal. lia.
      + destruct (i <? nb - r) eqn:E4; [lia|]. reflexivity.
  Qed.
  Variable R : T -> list bool -> Prop.
  Hypothesis Ht : R t l.
  Hypothesis Hset : forall t' l' i v, R t' l' -> lengthN l' = lengthN l -> i * nb < lengthN l -> v < 2 ^ nb ->
    exists t'', set_block t' i v = Ok t'' /\ R t'' (set_block_of nb i v l').
  Lemma long_set_ok s n v : s + n <= lengthN l -> n < 2 ^ ptr c -> nb < n -> s mod nb + n <= 2 * nb ->
    s mod nb <> 0 \/ debug c = false -> v < 2 ^ nb ->
    exists t', default_set_bits c nb bit_len get_block set_block t s n v = Ok t' /\
      R t' (put s (if s mod nb =? 0 then bits_of nb v ++ bits_of (n - nb) v else bits_of n v) l).
  Proof.
    intros H1 H2 H3 H4 H5 Hv. pose proof (wf_nb_range nb Hnb) as nb_range. pose proof (wf_ptr c Hc) as Hp.
    pose proof (fits_lt64 c nb (lengthN l) (wf_nb_pos nb Hnb) Hfits) as len63.
    destruct (long_address c nb get_block set_block t l Hc Hnb Hfits Hblk s n H1) as [Ea [Hq [Es [Hr Hq1]]]]; [lia|].
    unfold default_set_bits. rewrite wadd_ok by lia. cbn [bind].
    rewrite Hlen. cbn [bind]. rewrite assert_true by lia. cbn [bind].
    rewrite Ea. cbn [bind block_index bit_offset]. set (q := s / nb) in *. set (r := s mod nb) in *. clearbody q r.
    rewrite wsub_ok by lia. cbn [bind]. destruct (n <=? nb - r) eqn:E; [lia|].
    rewrite wsub_ok by lia. cbn [bind]. rewrite Hblk by assumption. cbn [bind].
    rewrite wadd_ok by lia. cbn [bind]. rewrite Hblk by lia. cbn [bind].
    set (k := if r =? 0 then 0 else nb - r).
    assert (Ek : wshr c nb v (nb - r) = Ok (N.shiftr v k)).
    { unfold k. destruct (r =? 0) eqn:E0.
      - assert (Hd : debug c = false) by (destruct H5; [lia|assumption]). unfold wshr. rewrite Hd. destruct (nb - r <? nb) eqn:E1; [lia|].
        replace (nb - r) with nb by lia. now rewrite N.mod_same by lia.
      - apply wshr_ok. lia. }
    rewrite Ek. cbn [bind]. rewrite !blk_with_bits_ok by (auto using block_of_lt; lia). cbn [bind].
    set (w := if r =? 0 then bits_of nb v ++ bits_of (n - nb) v else bits_of n v).
    assert (Hw : lengthN w = n) by (unfold w; destruct (r =? 0); rewrite ?lengthN_app, !lengthN_bits_of; lia).
    assert (Hwb : forall j, bit_at w j = (j <? n) && N.testbit v (if j <? nb - r then j else j - (nb - r) + k)).
    { intros j. unfold w, k. destruct (r =? 0) eqn:E0.
      - unfold bit_at. rewrite nthN_app, lengthN_bits_of, !nthN_bits_of. replace (nb - r) with nb by lia. destruct (j <? nb) eqn:Ej.
        + destruct (j <? n) eqn:Ej2; [reflexivity|lia].
        + destruct (j - nb <? n - nb) eqn:Ej3, (j <? n) eqn:Ej4; try lia. cbn [andb]. f_equal. lia.
      - rewrite bit_at_bits_of. destruct (j <? n); [|reflexivity]. cbn [andb]. destruct (j <? nb - r) eqn:Ej; f_equal; lia. }
    clearbody w k.
    set (n1 := with_field (block_of nb q l) r (nb - r) v).
    set (n2 := with_field (block_of nb (q + 1) l) 0 (n - (nb - r)) (N.shiftr v k)).
    destruct (Hset t l q n1) as [t1 [G1 G2]]; auto.
    { apply with_field_lt; [apply block_of_lt|lia]. }
    rewrite G1. cbn [bind].
    destruct (Hset t1 _ (q + 1) n2 G2) as [t2 [G3 G4]]; auto.
    { rewrite lengthN_set_block_of by lia. reflexivity. } { lia. }
    { apply with_field_lt; [apply block_of_lt|lia]. }
    exists t2. split; [exact G3|].
    replace (put s w l) with (set_block_of nb (q + 1) n2 (set_block_of nb q n1 l)); [exact G4|].
    assert (El : lengthN (set_block_of nb q n1 l) = lengthN l) by (apply lengthN_set_block_of; lia).
    apply list_bit_ext.
    + rewrite lengthN_set_block_of, El, lengthN_put by lia. reflexivity.
    + intros j Hj. rewrite lengthN_set_block_of, El in Hj by lia.
      rewrite bit_at_set_block_of by lia. rewrite El. rewrite bit_at_set_block_of, bit_at_put by lia.
      rewrite Hw, Hwb. unfold n1, n2.
      rewrite !testbit_with_field, !testbit_block_of.
      destruct (j <? lengthN l) eqn:E2; [|lia]. cbn [andb].
      destruct (((q + 1) * nb <=? j) && (j <? (q + 1) * nb + nb)) eqn:Eb.
      * destruct ((s <=? j) && (j <? s + n)) eqn:E4.
        -- destruct ((0 <=? j - (q + 1) * nb) && (j - (q + 1) * nb <? 0 + (n - (nb - r)))) eqn:E5; [|lia].
           destruct (j - s <? n) eqn:E6; [|lia]. destruct (j - s <? nb - r) eqn:E7; [lia|]. cbn [andb]. rewrite N.shiftr_spec'. f_equal. lia.
        -- destruct ((0 <=? j - (q + 1) * nb) && (j - (q + 1) * nb <? 0 + (n - (nb - r)))) eqn:E5; [lia|].
           destruct (j - (q + 1) * nb <? nb) eqn:E6; [|lia]. cbn [andb]. f_equal. lia.
      * destruct ((q * nb <=? j) && (j <? q * nb + nb)) eqn:Ec.
        -- destruct ((s <=? j) && (j <? s + n)) eqn:E4.
           ++ destruct ((r <=? j - q * nb) && (j - q * nb <? r + (nb - r))) eqn:E5; [|lia].
              destruct (j - s <? n) eqn:E6; [|lia]. destruct (j - s <? nb - r) eqn:E7; [|lia]. cbn [andb]. f_equal. lia.
           ++ destruct ((r <=? j - q * nb) && (j - q * nb <? r + (nb - r))) eqn:E5; [lia|].
              destruct (j - q * nb <? nb) eqn:E6; [|lia]. cbn [andb]. f_equal. lia.
        -- destruct ((s <=? j) && (j <? s + n)) eqn:E4; [lia|reflexivity].
  Qed.
End LongOk.

(** Spans of more than a block within two blocks.  Reading from the middle of a block delivers the first block full of
    bits; writing there extends the value with zeros.  Without overflow checks a span that starts at a block boundary reads
    the two blocks on top of each other and writes the value into both. *)
Theorem C64_two_blocks : forall c nb t ops v l s n x,
  wf_cfg c -> wf_nb nb -> bprogram_ok c nb t ops -> bvec_ends c nb t ops v ->
  snd (spec_bprogram c nb t ops) = Some l ->
  s + n <= lengthN l -> nb < n -> n < 2 ^ ptr c -> s mod nb + n <= 2 * nb ->
  s mod nb <> 0 \/ debug c = false -> x < 2 ^ nb ->
  bvec_get_bits c nb v s n =
    Ok (if s mod nb =? 0 then N.lor (int_of (sub s nb l)) (int_of (sub (s + nb) (n - nb) l)) else int_of (sub s nb l)) /\
  exists v', bvec_set_bits c nb v s n x = Ok v' /\ bvec_bit_len v' = Ok (lengthN l) /\
    forall i b, nthN (put s (if s mod nb =? 0 then bits_of nb x ++ bits_of (n - nb) x else bits_of n x) l) i = Some b ->
      bvec_get_bit c nb v' i = Ok b.
Proof.
  intros c nb t ops v l s n x Hc Hnb O E S H1 H2 H3 H4 H5 Hx.
  destruct (bvec_ends_R c nb t ops v Hc Hnb O E) as [l0 [S' HR]]. rewrite S in S'. injection S' as <-.
  assert (Hblk : forall i, i * nb < lengthN l -> bvec_get_block v i = Ok (block_of nb i l))
    by (intros i Hi; eapply vb_get_block_ok; eauto).
  pose proof (bvec_bit_len_ok c nb Hc Hnb v l HR) as Hl. pose proof (R_bv_fits c nb v l HR) as Hf. pose proof (wf_nb_range nb Hnb). split.
  - apply (long_get_ok c nb bvec_bit_len bvec_get_block (bvec_set_block c nb) v l); auto.
  - destruct (long_set_ok c nb bvec_bit_len bvec_get_block (bvec_set_block c nb) v l Hc Hnb Hl Hf Hblk (R_bv c nb) HR) with (s := s) (n := n) (v := x) as (v' & Ev & HR'); auto;
      [intros t' l' i y Ht' El Hi Hy; apply (vb_set_block_ok c nb 1); auto; lia|].
    exists v'. split; [exact Ev|]. split.
    + rewrite (bvec_bit_len_ok c nb Hc Hnb v' _ HR'). f_equal. rewrite lengthN_put; [reflexivity|].
      destruct (s mod nb =? 0); rewrite ?lengthN_app, !lengthN_bits_of; lia.
    + intros i b Hi. eapply vb_get_bit_ok; eauto.
Qed.
Example C64_two_blocks_ex : exists v,
  snd (bvec_program rel64 8 100 (BBlockWithFill 3 165) []) = Ok v /\ wf_cfg rel64 /\ wf_nb 8 /\ 3 mod 8 + 12 <= 2 * 8 /\ 8 < 12 /\
  bvec_get_bits rel64 8 v 3 12 = Ok 180 /\ bvec_get_bits rel64 8 v 8 12 = Ok 165 /\
  (exists v', bvec_set_bits rel64 8 v 3 12 255 = Ok v' /\ vb_vec v' = [253; 135; 165]) /\
  (exists v', bvec_set_bits rel64 8 v 0 12 60 = Ok v' /\ vb_vec v' = [60; 172; 165]).
Proof.
  eexists. split; [vm_compute; reflexivity|]. split; [auto with wf|]. split; [auto with wf|]. split; [vm_compute; congruence|]. split; [lia|].
  split; [vm_compute; reflexivity|]. split; [vm_compute; reflexivity|]. split; eexists; split; vm_compute; reflexivity.
Qed.
Print Assumptions C64_two_blocks.
