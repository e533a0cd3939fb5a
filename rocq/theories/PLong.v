(** * The default [get_bits]/[set_bits] on in-bounds spans longer than a block. *)
From Verif Require Export PBitVector.

Section Long.
  Context {T : Type} (c : cfg) (nb : N).
  Variables (bit_len : T -> res N) (get_block : T -> N -> res N) (set_block : T -> N -> N -> res T).
  Variables (t : T) (l : list bool).
  Hypothesis Hc : wf_cfg c.
  Hypothesis Hnb : wf_nb nb.
  Hypothesis Hlen : bit_len t = Ok (lengthN l).
  Hypothesis Hfits : fits c nb (lengthN l).
  Hypothesis Hblk : forall i, i * nb < lengthN l -> get_block t i = Ok (block_of nb i l).

  Lemma long_address s n : s + n <= lengthN l -> 1 <= n ->
    address_new c nb s = Ok {| block_index := s / nb; bit_offset := s mod nb |} /\ s / nb * nb < lengthN l /\
    s = s / nb * nb + s mod nb /\ s mod nb < nb /\ s / nb + 1 < 2 ^ ptr c.
  Proof.
    intros H1 H2. pose proof (wf_nb_range nb Hnb) as nb_range.
    pose proof (N.div_mod s nb ltac:(lia)) as Ediv. pose proof (N.mod_lt s nb ltac:(lia)) as Hr.
    assert (Hq : s / nb * nb < lengthN l) by lia.
    pose proof (fits_ptr c nb (lengthN l) Hc Hnb Hfits).
    pose proof Hq as Hb. apply (blocks_for_lt nb) in Hb; [|lia].
    split; [apply address_new_ok; auto; lia|]. repeat split; auto; try lia.
  Qed.

  Lemma long_get s n : s + n <= lengthN l -> n < 2 ^ ptr c ->
    2 * nb < s mod nb + n \/ (nb < n /\ s mod nb = 0 /\ debug c = true) ->
    panics (default_get_bits c nb bit_len get_block t s n).
  Proof.
    intros H1 H2 H3. pose proof (wf_nb_range nb Hnb) as nb_range. pose proof (wf_ptr c Hc) as Hp.
    pose proof (fits_lt64 c nb (lengthN l) (wf_nb_pos nb Hnb) Hfits) as len63.
    destruct (long_address s n H1) as [Ea [Hq [Es [Hr Hq1]]]]; [pose proof (N.mod_lt s nb); lia|].
    unfold default_get_bits. rewrite wadd_ok by lia. cbn [bind].
    rewrite Hlen. cbn [bind]. rewrite assert_true by lia. cbn [bind].
    rewrite Ea. cbn [bind block_index bit_offset]. set (q := s / nb) in *. set (r := s mod nb) in *. clearbody q r.
    rewrite wsub_ok by lia. cbn [bind]. destruct (n <=? nb - r) eqn:E; [lia|].
    rewrite wsub_ok by lia. cbn [bind]. rewrite Hblk by assumption. cbn [bind].
    rewrite wadd_ok by lia. cbn [bind]. rewrite Hblk by lia. cbn [bind].
    rewrite blk_get_bits_ok by (auto; lia). cbn [bind].
    destruct (N.lt_ge_cases nb (n - (nb - r))) as [H4|H4].
    - rewrite blk_get_bits_oob by (auto; lia). cbn [bind]. auto.
    - rewrite blk_get_bits_ok by (auto; lia). cbn [bind]. destruct H3 as [H3|[_ [H3 Hd]]]; [lia|]. subst r.
      unfold wshl. rewrite Hd. rewrite N.sub_0_r. destruct (nb <? nb) eqn:E1; [lia|]. cbn [bind]. auto.
  Qed.
  Lemma long_set s n x : s + n <= lengthN l -> n < 2 ^ ptr c ->
    2 * nb < s mod nb + n \/ (nb < n /\ s mod nb = 0 /\ debug c = true) ->
    panics (default_set_bits c nb bit_len get_block set_block t s n x).
  Proof.
    intros H1 H2 H3. pose proof (wf_nb_range nb Hnb) as nb_range. pose proof (wf_ptr c Hc) as Hp.
    pose proof (fits_lt64 c nb (lengthN l) (wf_nb_pos nb Hnb) Hfits) as len63.
    destruct (long_address s n H1) as [Ea [Hq [Es [Hr Hq1]]]]; [pose proof (N.mod_lt s nb); lia|].
    unfold default_set_bits. rewrite wadd_ok by lia. cbn [bind].
    rewrite Hlen. cbn [bind]. rewrite assert_true by lia. cbn [bind].
    rewrite Ea. cbn [bind block_index bit_offset]. set (q := s / nb) in *. set (r := s mod nb) in *. clearbody q r.
    rewrite wsub_ok by lia. cbn [bind]. destruct (n <=? nb - r) eqn:E; [lia|].
    rewrite wsub_ok by lia. cbn [bind]. rewrite Hblk by assumption. cbn [bind].
    rewrite wadd_ok by lia. cbn [bind]. rewrite Hblk by lia. cbn [bind].
    destruct (wshr c nb x (nb - r)) as [h|p|] eqn:Eh; cbn [bind].
    - rewrite blk_with_bits_ok by (auto; try lia; apply block_of_lt). cbn [bind].
      destruct (N.lt_ge_cases nb (n - (nb - r))) as [H4|H4].
      + rewrite blk_with_bits_oob by (auto; lia). cbn [bind]. auto.
      + destruct H3 as [H3|[_ [H3 Hd]]]; [lia|]. subst r. unfold wshr in Eh. rewrite Hd, N.sub_0_r in Eh.
        destruct (nb <? nb) eqn:E1; [lia|]. discriminate.
    - eauto.
    - unfold wshr in Eh. destruct (_ <? _); [discriminate|]. destruct (debug c); discriminate.
  Qed.
End Long.
