(** * Packed bit sequences and the default methods of the bit-vector traits. *)
From Verif Require Export PStorage MTraits.

(** ** blocks_for, fits *)
Lemma blocks_for_spec nb n : 0 < nb -> n <= blocks_for nb n * nb < n + nb.
Proof. intros H. unfold blocks_for. split; nia. Qed.
Lemma blocks_for_lt nb n i : 0 < nb -> (i < blocks_for nb n <-> i * nb < n).
Proof. intros H. unfold blocks_for. split; intros; nia. Qed.
Lemma blocks_for_mul nb n : 0 < nb -> blocks_for nb (n * nb) = n.
Proof. intros H. unfold blocks_for. nia. Qed.
Lemma blocks_for_mono nb m n : 0 < nb -> m <= n -> blocks_for nb m <= blocks_for nb n.
Proof. intros H Hmn. unfold blocks_for. apply N.div_le_mono; lia. Qed.
Lemma blocks_for_0 nb : 0 < nb -> blocks_for nb 0 = 0.
Proof. intros H. unfold blocks_for. apply N.div_small. lia. Qed.
Lemma fits_mono c nb m n : 0 < nb -> m <= n -> fits c nb n -> fits c nb m.
Proof. intros H Hmn Hf. unfold fits in *. pose proof (blocks_for_mono nb m n H Hmn). nia. Qed.
Lemma fits_le c nb n : 0 < nb -> fits c nb n -> n <= max_bits c.
Proof. intros H Hf. unfold fits in *. pose proof (blocks_for_spec nb n H). lia. Qed.
Lemma fits_lt64 c nb n : 0 < nb -> fits c nb n -> n <= 2 ^ 63.
Proof. intros H Hf. pose proof (fits_le c nb n H Hf). pose proof (max_bits_lt c). lia. Qed.
Lemma fits_ptr c nb n : wf_cfg c -> wf_nb nb -> fits c nb n -> blocks_for nb n < 2 ^ ptr c.
Proof. intros. eapply blocks_fit; eauto. Qed.
Lemma fits_0 c nb : 0 < nb -> fits c nb 0.
Proof. intros. unfold fits. rewrite blocks_for_0 by assumption. lia. Qed.

(** ** block_of, pack *)
Lemma testbit_block_of nb i l j :
  N.testbit (block_of nb i l) j = (j <? nb) && bit_at l (i * nb + j).
Proof.
  unfold block_of. rewrite testbit_int_of. unfold bit_at. rewrite nthN_sub.
  destruct (j <? nb); reflexivity.
Qed.
Lemma block_of_lt nb i l : block_of nb i l < 2 ^ nb.
Proof. apply bits_lt. intros j Hj. rewrite testbit_block_of. destruct (j <? nb) eqn:E; [lia|reflexivity]. Qed.
Lemma lengthN_pack nb l : lengthN (pack nb l) = blocks_for nb (lengthN l).
Proof. unfold pack. rewrite lengthN_map. unfold lengthN at 1. rewrite seq_length. lia. Qed.
Lemma nthN_pack nb l i :
  nthN (pack nb l) i = if i <? blocks_for nb (lengthN l) then Some (block_of nb i l) else None.
Proof.
  unfold pack. rewrite nthN_map, nthN_seq.
  destruct (i <? N.of_nat (N.to_nat (blocks_for nb (lengthN l)))) eqn:E,
    (i <? blocks_for nb (lengthN l)) eqn:E2; try lia; [|reflexivity].
  f_equal. f_equal. lia.
Qed.
Lemma pack_lt nb l : Forall (fun b => b < 2 ^ nb) (pack nb l).
Proof.
  apply Forall_nthN. intros i a. rewrite nthN_pack. destruct (i <? _); [|discriminate].
  intros [= <-]. apply block_of_lt.
Qed.
Lemma pack_nil nb : 0 < nb -> pack nb [] = [].
Proof. intros H. unfold pack. rewrite lengthN_nil, blocks_for_0 by assumption. reflexivity. Qed.

Lemma bit_at_oob l i : lengthN l <= i -> bit_at l i = false.
Proof. intros H. apply nthN_None in H. unfold bit_at. now rewrite H. Qed.
Lemma bit_at_Some l i b : nthN l i = Some b -> bit_at l i = b.
Proof. intros H. unfold bit_at. now rewrite H. Qed.
Lemma nthN_bit_at l i : i < lengthN l -> nthN l i = Some (bit_at l i).
Proof. intros H. destruct (nthN_Some l i H) as [b Hb]. unfold bit_at. now rewrite Hb. Qed.
Lemma list_bit_ext l l' : lengthN l = lengthN l' ->
  (forall i, i < lengthN l -> bit_at l i = bit_at l' i) -> l = l'.
Proof.
  intros Hl H. apply nthN_ext. intros i. destruct (N.lt_ge_cases i (lengthN l)) as [Hi|Hi].
  - rewrite (nthN_bit_at l), (nthN_bit_at l') by lia. f_equal. now apply H.
  - transitivity (@None bool); [now apply nthN_None|symmetry; apply nthN_None; lia].
Qed.

(** A block vector is determined by its length and its bits. *)
Lemma pack_unique nb l v : 0 < nb ->
  lengthN v = blocks_for nb (lengthN l) ->
  (forall i b, nthN v i = Some b -> b < 2 ^ nb /\ forall j, j < nb -> N.testbit b j = bit_at l (i * nb + j)) ->
  v = pack nb l.
Proof.
  intros Hnb Hlen H. apply nthN_ext. intros i. rewrite nthN_pack.
  destruct (i <? blocks_for nb (lengthN l)) eqn:E.
  - destruct (nthN_Some v i) as [b Hb]; [lia|]. rewrite Hb. f_equal.
    destruct (H i b Hb) as [H1 H2]. apply (bits_eq_below _ _ nb); [assumption|apply block_of_lt|].
    intros j Hj. rewrite H2, testbit_block_of by assumption.
    destruct (j <? nb) eqn:E2; [reflexivity|lia].
  - apply nthN_None. lia.
Qed.

(** ** Bits of a vector of blocks *)
Lemma lengthN_bits_of_blocks nb v : lengthN (bits_of_blocks nb v) = lengthN v * nb.
Proof.
  unfold bits_of_blocks. induction v as [|b t IH]; cbn [flat_map]; [reflexivity|].
  rewrite lengthN_app, lengthN_bits_of, lengthN_cons, IH. lia.
Qed.
Lemma nthN_bits_of_blocks nb v i j : 0 < nb -> j < nb ->
  nthN (bits_of_blocks nb v) (i * nb + j) =
  match nthN v i with Some b => Some (N.testbit b j) | None => None end.
Proof.
  intros Hnb Hj. revert i. unfold bits_of_blocks. induction v as [|b t IH]; intros i; cbn [flat_map].
  - rewrite !nthN_nil. reflexivity.
  - rewrite nthN_app, lengthN_bits_of, nthN_bits_of, nthN_cons.
    destruct (i =? 0) eqn:E.
    + apply N.eqb_eq in E. subst. rewrite N.mul_0_l, N.add_0_l.
      destruct (j <? nb) eqn:E2; [reflexivity|lia].
    + apply N.eqb_neq in E.
      assert (nb <= i * nb) by nia.
      destruct (i * nb + j <? nb) eqn:E2; [lia|].
      rewrite <- IH. f_equal. rewrite N.mul_sub_distr_r. lia.
Qed.
Lemma bit_at_bits_of_blocks nb v i j b : 0 < nb -> j < nb -> nthN v i = Some b ->
  bit_at (bits_of_blocks nb v) (i * nb + j) = N.testbit b j.
Proof. intros H1 H2 H3. apply bit_at_Some. rewrite nthN_bits_of_blocks, H3 by assumption. reflexivity. Qed.

Lemma pack_bits_of_blocks nb v : 0 < nb -> Forall (fun b => b < 2 ^ nb) v ->
  pack nb (bits_of_blocks nb v) = v.
Proof.
  intros Hnb Hv. symmetry. apply pack_unique; [assumption| |].
  - rewrite lengthN_bits_of_blocks, blocks_for_mul by assumption. reflexivity.
  - intros i b Hb. split.
    + rewrite Forall_nthN in Hv. eapply Hv; eauto.
    + intros j Hj. symmetry. now apply bit_at_bits_of_blocks.
Qed.
Lemma bits_of_blocks_pack nb l : 0 < nb ->
  bits_of_blocks nb (pack nb l) = fit (blocks_for nb (lengthN l) * nb) false l.
Proof.
  intros Hnb. apply nthN_ext. intros i. rewrite nthN_fit.
  rewrite (N.div_mod i nb) by lia. rewrite (N.mul_comm nb (i / nb)).
  set (q := i / nb). set (r := i mod nb). assert (r < nb) by (apply N.mod_lt; lia).
  rewrite nthN_bits_of_blocks by assumption. rewrite nthN_pack.
  destruct (q <? blocks_for nb (lengthN l)) eqn:E,
    (q * nb + r <? blocks_for nb (lengthN l) * nb) eqn:E2; try nia; [|reflexivity].
  rewrite testbit_block_of. destruct (r <? nb) eqn:E3; [reflexivity|lia].
Qed.

Lemma fit_exact {A} (b : A) l : fit (lengthN l) b l = l.
Proof.
  unfold fit. rewrite firstnN_all by lia. rewrite N.sub_diag. unfold repeatN. cbn. apply app_nil_r.
Qed.

(** ** sub/put at the level of bits *)
Lemma bit_at_sub l s n i : bit_at (sub s n l) i = (i <? n) && bit_at l (s + i).
Proof. unfold bit_at. rewrite nthN_sub. destruct (i <? n); reflexivity. Qed.
Lemma bit_at_put l s x i : s + lengthN x <= lengthN l ->
  bit_at (put s x l) i = if (s <=? i) && (i <? s + lengthN x) then bit_at x (i - s) else bit_at l i.
Proof. intros H. unfold bit_at. rewrite nthN_put by assumption. destruct (_ && _); reflexivity. Qed.
Lemma bit_at_updN l i b j : i < lengthN l -> bit_at (updN l i b) j = if j =? i then b else bit_at l j.
Proof.
  intros H. unfold bit_at. rewrite nthN_updN. destruct (j =? i); [|reflexivity].
  destruct (i <? lengthN l) eqn:E; [reflexivity|lia].
Qed.
Lemma bit_at_bits_of w x i : bit_at (bits_of w x) i = (i <? w) && N.testbit x i.
Proof. unfold bit_at. rewrite nthN_bits_of. destruct (i <? w); reflexivity. Qed.
Lemma bit_at_firstnN n l i : bit_at (firstnN n l) i = (i <? n) && bit_at l i.
Proof. unfold bit_at. rewrite nthN_firstnN. destruct (i <? n); reflexivity. Qed.
Lemma bit_at_app l l' i : bit_at (l ++ l') i = if i <? lengthN l then bit_at l i else bit_at l' (i - lengthN l).
Proof. unfold bit_at. rewrite nthN_app. destruct (i <? lengthN l); reflexivity. Qed.
Lemma bit_at_repeatN b n i : bit_at (repeatN b n) i = (i <? n) && b.
Proof. unfold bit_at. rewrite nthN_repeatN. destruct (i <? n); reflexivity. Qed.
Lemma bit_at_fit n b l i : bit_at (fit n b l) i = (i <? n) && (if i <? lengthN l then bit_at l i else b).
Proof.
  unfold bit_at. rewrite nthN_fit. destruct (i <? n); cbn [andb]; [|reflexivity].
  destruct (i <? lengthN l) eqn:E.
  - destruct (nthN_Some l i) as [x Hx]; [lia|]. now rewrite Hx.
  - assert (H : nthN l i = None) by (apply nthN_None; lia). now rewrite H.
Qed.

Lemma lengthN_set_block_of nb i v l : i * nb <= lengthN l ->
  lengthN (set_block_of nb i v l) = lengthN l.
Proof.
  intros H. unfold set_block_of. rewrite lengthN_put; [reflexivity|].
  rewrite lengthN_firstnN, lengthN_bits_of. lia.
Qed.
Lemma bit_at_set_block_of nb i v l j : i * nb <= lengthN l ->
  bit_at (set_block_of nb i v l) j =
  if (i * nb <=? j) && (j <? i * nb + nb) then (j <? lengthN l) && N.testbit v (j - i * nb) else bit_at l j.
Proof.
  intros H. unfold set_block_of. rewrite bit_at_put by (rewrite lengthN_firstnN, lengthN_bits_of; lia).
  rewrite lengthN_firstnN, lengthN_bits_of, bit_at_firstnN, bit_at_bits_of.
  destruct (i * nb <=? j) eqn:E1, (j <? i * nb + nb) eqn:E2,
    (j <? i * nb + N.min (lengthN l - i * nb) nb) eqn:E3, (j <? lengthN l) eqn:E4; cbn [andb]; try lia; try reflexivity.
  - destruct (j - i * nb <? lengthN l - i * nb) eqn:E5, (j - i * nb <? nb) eqn:E6; try lia. reflexivity.
  - apply bit_at_oob. lia.
Qed.

Lemma address_in c nb n i : wf_cfg c -> wf_nb nb -> fits c nb n -> i < n ->
  address_new c nb i = Ok {| block_index := i / nb; bit_offset := i mod nb |}.
Proof.
  intros Hc Hnb Hf Hi. pose proof (wf_nb_range nb Hnb). apply address_new_ok; try assumption.
  pose proof (fits_ptr c nb n Hc Hnb Hf).
  assert (i / nb < blocks_for nb n); [|lia].
  apply blocks_for_lt; [lia|]. nia.
Qed.

(** ** The default methods of BitVec / BitVecMut over a correct [get_block] and [set_block] *)
Lemma wadd_cases cc w a b : a < 2 ^ w -> b < 2 ^ w ->
  wadd cc w a b = Ok ((a + b) mod 2 ^ w) \/ (exists p, wadd cc w a b = Panic p).
Proof.
  intros Ha Hb. unfold wadd, wrap. destruct (a + b <? 2 ^ w) eqn:E.
  - left. rewrite N.mod_small by lia. reflexivity.
  - destruct (debug cc); [right; eauto|now left].
Qed.

Lemma def_get_bit_oob {T} c nb (bit_len : T -> res N) (get_block : T -> N -> res N) (t : T) (l : list bool) i :
  bit_len t = Ok (lengthN l) ->
  lengthN l <= i -> panics (default_get_bit c nb bit_len get_block t i).
Proof.
  intros Hlen.   intros Hi. unfold default_get_bit. rewrite Hlen. cbn [bind]. rewrite assert_false by lia. cbn [bind]. auto.
Qed.

Lemma def_get_bits_oob {T} c nb (bit_len : T -> res N) (get_block : T -> N -> res N) (t : T) (l : list bool) s n :
  bit_len t = Ok (lengthN l) ->
  lengthN l < s + n -> s + n < 2 ^ 64 ->
  panics (default_get_bits c nb bit_len get_block t s n).
Proof.
  intros Hlen.   intros H1 H2. unfold default_get_bits. rewrite wadd_ok by lia. cbn [bind].
  rewrite Hlen. cbn [bind]. rewrite assert_false by lia. cbn [bind]. auto.
Qed.

Lemma def_set_bit_oob {T} c nb (bit_len : T -> res N) (get_block : T -> N -> res N) (set_block : T -> N -> N -> res T) (t : T) (l : list bool) i b :
  bit_len t = Ok (lengthN l) ->
  lengthN l <= i ->
  panics (default_set_bit c nb bit_len get_block set_block t i b).
Proof.
  intros Hlen.   intros Hi. unfold default_set_bit. rewrite Hlen. cbn [bind]. rewrite assert_false by lia. cbn [bind]. auto.
Qed.

Lemma def_set_bits_oob {T} c nb (bit_len : T -> res N) (get_block : T -> N -> res N) (set_block : T -> N -> N -> res T) (t : T) (l : list bool) s n v :
  bit_len t = Ok (lengthN l) ->
  lengthN l < s + n -> s + n < 2 ^ 64 ->
  panics (default_set_bits c nb bit_len get_block set_block t s n v).
Proof.
  intros Hlen.   intros H1 H2. unfold default_set_bits. rewrite wadd_ok by lia. cbn [bind].
  rewrite Hlen. cbn [bind]. rewrite assert_false by lia. cbn [bind]. auto.
Qed.

Lemma def_block_len {T} c nb (bit_len : T -> res N) (t : T) (l : list bool) :
  bit_len t = Ok (lengthN l) ->
  wf_cfg c -> wf_nb nb -> fits c nb (lengthN l) ->
  default_block_len c nb bit_len t = Ok (blocks_for nb (lengthN l)).
Proof.
  intros Hlen Hc Hnb Hfits. pose proof (wf_nb_range nb Hnb) as nb_range. pose proof (fits_lt64 c nb (lengthN l) (wf_nb_pos nb Hnb) Hfits) as len63.
    unfold default_block_len. rewrite Hlen. cbn [bind]. unfold ceil_div.
  rewrite wadd_ok by lia. cbn [bind]. rewrite wsub_ok by lia. cbn [bind].
  rewrite wdiv_ok by lia. cbn [bind].
  replace (lengthN l + nb - 1) with (lengthN l + (nb - 1)) by lia.
  rewrite as_usize_small; [reflexivity|]. now apply fits_ptr.
Qed.

Lemma def_get_bit {T} c nb (bit_len : T -> res N) (get_block : T -> N -> res N) (t : T) (l : list bool) i b :
  bit_len t = Ok (lengthN l) ->
  wf_cfg c -> wf_nb nb -> fits c nb (lengthN l) ->
  (forall i, i * nb < lengthN l -> get_block t i = Ok (block_of nb i l)) ->
  nthN l i = Some b -> default_get_bit c nb bit_len get_block t i = Ok b.
Proof.
  intros Hlen Hc Hnb Hfits Hblk. pose proof (wf_nb_range nb Hnb) as nb_range. pose proof (fits_lt64 c nb (lengthN l) (wf_nb_pos nb Hnb) Hfits) as len63.
    intros Hi. pose proof (nthN_lt _ _ _ Hi). unfold default_get_bit.
  rewrite Hlen. cbn [bind]. rewrite assert_true by lia. cbn [bind].
  rewrite (address_in c nb (lengthN l)) by assumption. cbn [bind block_index bit_offset].
  pose proof (N.div_mod i nb ltac:(lia)). pose proof (N.mod_lt i nb ltac:(lia)).
  rewrite Hblk by lia. cbn [bind]. rewrite blk_get_bit_ok by assumption.
  f_equal. rewrite testbit_block_of. destruct (i mod nb <? nb) eqn:E; [|lia]. cbn [andb].
  replace (i / nb * nb + i mod nb) with i by lia. now apply bit_at_Some.
Qed.

Lemma def_get_bits {T} c nb (bit_len : T -> res N) (get_block : T -> N -> res N) (t : T) (l : list bool) s n :
  bit_len t = Ok (lengthN l) ->
  wf_cfg c -> wf_nb nb -> fits c nb (lengthN l) ->
  (forall i, i * nb < lengthN l -> get_block t i = Ok (block_of nb i l)) ->
  s + n <= lengthN l -> n <= nb ->
  (1 <= n \/ s < lengthN l \/ s mod nb <> 0) ->
  default_get_bits c nb bit_len get_block t s n = Ok (int_of (sub s n l)).
Proof.
  intros Hlen Hc Hnb Hfits Hblk. pose proof (wf_nb_range nb Hnb) as nb_range. pose proof (fits_lt64 c nb (lengthN l) (wf_nb_pos nb Hnb) Hfits) as len63.
    intros Hs Hn Hne. unfold default_get_bits. rewrite wadd_ok by lia. cbn [bind].
  rewrite Hlen. cbn [bind]. rewrite assert_true by lia. cbn [bind].
  pose proof (N.div_mod s nb ltac:(lia)) as Ediv. pose proof (N.mod_lt s nb ltac:(lia)) as Hr.
  set (q := s / nb) in *. set (r := s mod nb) in *.
  assert (Hq : q * nb < lengthN l) by lia.
  assert (Ha : address_new c nb s = Ok {| block_index := q; bit_offset := r |}).
  { unfold q, r. apply address_new_ok; try assumption. fold q.
    pose proof (fits_ptr c nb (lengthN l) Hc Hnb Hfits).
    apply (blocks_for_lt nb) in Hq; [|lia]. lia. }
  rewrite Ha. cbn [bind block_index bit_offset]. clear Ha. clearbody q r.
  rewrite wsub_ok by lia. cbn [bind].
  destruct (n <=? nb - r) eqn:E.
  - rewrite Hblk by assumption. cbn [bind]. rewrite blk_get_bits_ok by (auto; lia). f_equal.
    apply N.bits_inj. intros i. rewrite testbit_field, testbit_int_of, bit_at_sub, testbit_block_of.
    destruct (i <? n) eqn:Ei; cbn [andb]; [|reflexivity].
    destruct (r + i <? nb) eqn:E2; [|lia]. cbn [andb]. f_equal. lia.
  - rewrite wsub_ok by lia. cbn [bind]. rewrite Hblk by assumption. cbn [bind].
    assert (Hq1 : (q + 1) * nb < lengthN l) by lia.
    pose proof (fits_ptr c nb (lengthN l) Hc Hnb Hfits).
    pose proof Hq1 as Hq1'. apply (blocks_for_lt nb) in Hq1'; [|lia].
    rewrite wadd_ok by lia. cbn [bind]. rewrite Hblk by assumption. cbn [bind].
    rewrite !blk_get_bits_ok by (auto; lia). cbn [bind]. rewrite wshl_ok by lia. cbn [bind].
    f_equal. apply N.bits_inj. intros i.
    rewrite N.lor_spec, testbit_shiftl_mod, !testbit_field, testbit_int_of, bit_at_sub, !testbit_block_of.
    destruct (i <? n) eqn:Ei; cbn [andb].
    + destruct (i <? nb) eqn:E1; [|lia]. cbn [andb].
      destruct (nb - r <=? i) eqn:E2; cbn [andb].
      * destruct (i - (nb - r) <? n - (nb - r)) eqn:E3; [|lia].
        destruct (i <? nb - r) eqn:E4; [lia|]. destruct (0 + (i - (nb - r)) <? nb) eqn:E5; [|lia].
        cbn [andb]. rewrite orb_false_r. f_equal. lia.
      * destruct (i <? nb - r) eqn:E4; [|lia]. destruct (r + i <? nb) eqn:E5; [|lia].
        cbn [andb orb]. f_equal. lia.
    + destruct (i - (nb - r) <? n - (nb - r)) eqn:E3; [lia|].
      destruct (i <? nb - r) eqn:E4; [lia|]. cbn [andb]. rewrite andb_false_r. reflexivity.
Qed.

Lemma def_get_bits_oob_all {T} c nb (bit_len : T -> res N) (get_block : T -> N -> res N) (t : T) (l : list bool) s n :
  bit_len t = Ok (lengthN l) ->
  wf_cfg c -> wf_nb nb -> fits c nb (lengthN l) ->
  (forall i, i * nb < lengthN l -> get_block t i = Ok (block_of nb i l)) ->
  (forall i, lengthN l <= i * nb -> i < 2 ^ ptr c -> panics (get_block t i)) ->
  lengthN l < s + n -> s < 2 ^ 64 -> n < 2 ^ ptr c ->
  panics (default_get_bits c nb bit_len get_block t s n).
Proof.
  intros Hlen Hc Hnb Hfits Hblk Hblk_oob. pose proof (wf_nb_range nb Hnb) as nb_range. pose proof (fits_lt64 c nb (lengthN l) (wf_nb_pos nb Hnb) Hfits) as len63.
    intros H1 H2 H3. pose proof (wf_ptr _ Hc) as Hp.
  destruct (N.lt_ge_cases (s + n) (2 ^ 64)) as [H4|H4]; [now apply (def_get_bits_oob c nb bit_len get_block t l)|].
  unfold default_get_bits.
  destruct (wadd_cases c 64 s n ltac:(lia) ltac:(lia)) as [E|[p E]]; rewrite E; cbn [bind];
    [|auto]. clear E.
  rewrite Hlen. cbn [bind]. destruct (_ <=? lengthN l); cbn [assert_ bind]; [|auto].
  pose proof (N.div_mod s nb ltac:(lia)) as Ediv. pose proof (N.mod_lt s nb ltac:(lia)) as Hr.
  destruct (N.lt_ge_cases (s / nb) (2 ^ ptr c)) as [H5|H5].
  2: { rewrite address_new_panic by assumption. cbn [bind]. auto. }
  rewrite address_new_ok by assumption. cbn [bind block_index bit_offset].
  set (q := s / nb) in *. set (r := s mod nb) in *. clearbody q r.
  rewrite wsub_ok by lia. cbn [bind].
  destruct (N.lt_ge_cases (q * nb) (lengthN l)) as [H6|H6].
  2: { destruct (n <=? nb - r) eqn:E.
       - apply bind_panics. now apply Hblk_oob.
       - rewrite wsub_ok by lia. cbn [bind]. apply bind_panics. now apply Hblk_oob. }
  destruct (n <=? nb - r) eqn:E; [lia|].
  rewrite wsub_ok by lia. cbn [bind]. rewrite Hblk by assumption. cbn [bind].
  destruct (wadd_cases c (ptr c) q 1 ltac:(lia) ltac:(lia)) as [E1|[p E1]]; rewrite E1; cbn [bind]; [|auto].
  clear E1. set (q1 := (q + 1) mod 2 ^ ptr c).
  destruct (N.lt_ge_cases (q1 * nb) (lengthN l)) as [H7|H7].
  2: { apply bind_panics. apply Hblk_oob; [assumption|]. unfold q1. apply N.mod_lt. lia. }
  rewrite Hblk by assumption. cbn [bind]. rewrite blk_get_bits_ok by (auto; lia). cbn [bind].
  rewrite blk_get_bits_oob by (auto; lia). cbn [bind]. auto.
Qed.

Lemma def_set_bits_oob_all {T} c nb (bit_len : T -> res N) (get_block : T -> N -> res N) (set_block : T -> N -> N -> res T) (t : T) (l : list bool) s n v :
  bit_len t = Ok (lengthN l) ->
  wf_cfg c -> wf_nb nb -> fits c nb (lengthN l) ->
  (forall i, i * nb < lengthN l -> get_block t i = Ok (block_of nb i l)) ->
  (forall i, lengthN l <= i * nb -> i < 2 ^ ptr c -> panics (get_block t i)) ->
  lengthN l < s + n -> s < 2 ^ 64 -> n < 2 ^ ptr c ->
  panics (default_set_bits c nb bit_len get_block set_block t s n v).
Proof.
  intros Hlen Hc Hnb Hfits Hblk Hblk_oob. pose proof (wf_nb_range nb Hnb) as nb_range. pose proof (fits_lt64 c nb (lengthN l) (wf_nb_pos nb Hnb) Hfits) as len63.
    intros H1 H2 H3. pose proof (wf_ptr _ Hc) as Hp.
  destruct (N.lt_ge_cases (s + n) (2 ^ 64)) as [H4|H4]; [now apply (def_set_bits_oob c nb bit_len get_block set_block t l)|].
  unfold default_set_bits.
  destruct (wadd_cases c 64 s n ltac:(lia) ltac:(lia)) as [E|[p E]]; rewrite E; cbn [bind];
    [|auto]. clear E.
  rewrite Hlen. cbn [bind]. destruct (_ <=? lengthN l); cbn [assert_ bind]; [|auto].
  pose proof (N.div_mod s nb ltac:(lia)) as Ediv. pose proof (N.mod_lt s nb ltac:(lia)) as Hr.
  destruct (N.lt_ge_cases (s / nb) (2 ^ ptr c)) as [H5|H5].
  2: { rewrite address_new_panic by assumption. cbn [bind]. auto. }
  rewrite address_new_ok by assumption. cbn [bind block_index bit_offset].
  set (q := s / nb) in *. set (r := s mod nb) in *. clearbody q r.
  rewrite wsub_ok by lia. cbn [bind].
  destruct (N.lt_ge_cases (q * nb) (lengthN l)) as [H6|H6].
  2: { destruct (n <=? nb - r) eqn:E.
       - apply bind_panics. now apply Hblk_oob.
       - rewrite wsub_ok by lia. cbn [bind]. apply bind_panics. now apply Hblk_oob. }
  destruct (n <=? nb - r) eqn:E; [lia|].
  rewrite wsub_ok by lia. cbn [bind]. rewrite Hblk by assumption. cbn [bind].
  destruct (wadd_cases c (ptr c) q 1 ltac:(lia) ltac:(lia)) as [E1|[p E1]]; rewrite E1; cbn [bind]; [|auto].
  clear E1. set (q1 := (q + 1) mod 2 ^ ptr c).
  destruct (N.lt_ge_cases (q1 * nb) (lengthN l)) as [H7|H7].
  2: { apply bind_panics. apply Hblk_oob; [assumption|]. unfold q1. apply N.mod_lt. lia. }
  rewrite Hblk by assumption. cbn [bind].
  destruct (wshr c nb v (nb - r)) as [h|p|] eqn:Esh; cbn [bind]; [|auto|].
  - rewrite blk_with_bits_ok by (auto using block_of_lt; lia). cbn [bind].
    rewrite blk_with_bits_oob by (auto; lia). cbn [bind]. auto.
  - unfold wshr in Esh. destruct (_ <? _), (debug c); discriminate.
Qed.

Lemma def_set_bit {T} c nb (bit_len : T -> res N) (get_block : T -> N -> res N) (set_block : T -> N -> N -> res T) (t : T) (l : list bool) (R : T -> list bool -> Prop) i b :
  bit_len t = Ok (lengthN l) ->
  wf_cfg c -> wf_nb nb -> fits c nb (lengthN l) ->
  (forall i, i * nb < lengthN l -> get_block t i = Ok (block_of nb i l)) ->
  R t l ->
  (forall t' l' i v, R t' l' -> lengthN l' = lengthN l -> i * nb < lengthN l -> v < 2 ^ nb ->
    exists t'', set_block t' i v = Ok t'' /\ R t'' (set_block_of nb i v l')) ->
  i < lengthN l ->
  exists t', default_set_bit c nb bit_len get_block set_block t i b = Ok t' /\ R t' (updN l i b).
Proof.
  intros Hlen Hc Hnb Hfits Hblk Ht Hset. pose proof (wf_nb_range nb Hnb) as nb_range. pose proof (fits_lt64 c nb (lengthN l) (wf_nb_pos nb Hnb) Hfits) as len63.
    intros Hi. unfold default_set_bit. rewrite Hlen. cbn [bind]. rewrite assert_true by lia. cbn [bind].
  rewrite (address_in c nb (lengthN l)) by assumption. cbn [bind block_index bit_offset].
  pose proof (N.div_mod i nb ltac:(lia)) as E. pose proof (N.mod_lt i nb ltac:(lia)) as Hr.
  set (q := i / nb) in *. set (r := i mod nb) in *. clearbody q r.
  rewrite Hblk by lia. cbn [bind]. rewrite blk_with_bit_ok by (auto using block_of_lt). cbn [bind].
  destruct (Hset t l q (setbit_ (block_of nb q l) r b)) as [t' [H1 H2]]; auto; [lia|apply setbit_lt; [apply block_of_lt|lia]|].
  exists t'. split; [exact H1|].
  replace (updN l i b) with (set_block_of nb q (setbit_ (block_of nb q l) r b) l); [exact H2|].
  apply list_bit_ext.
  - rewrite lengthN_set_block_of, lengthN_updN by lia. reflexivity.
  - intros j Hj. rewrite lengthN_set_block_of in Hj by lia.
    rewrite bit_at_set_block_of, bit_at_updN by lia.
    rewrite testbit_setbit_, testbit_block_of.
    destruct ((q * nb <=? j) && (j <? q * nb + nb)) eqn:Eb.
    + destruct (j <? lengthN l) eqn:E2; [|lia]. cbn [andb].
      destruct (j - q * nb =? r) eqn:E3, (j =? i) eqn:E4; try lia; [reflexivity|].
      destruct (j - q * nb <? nb) eqn:E5; [|lia]. cbn [andb]. f_equal. lia.
    + destruct (j =? i) eqn:E4; [lia|reflexivity].
Qed.

Lemma def_set_bits {T} c nb (bit_len : T -> res N) (get_block : T -> N -> res N) (set_block : T -> N -> N -> res T) (t : T) (l : list bool) (R : T -> list bool -> Prop) s n v :
  bit_len t = Ok (lengthN l) ->
  wf_cfg c -> wf_nb nb -> fits c nb (lengthN l) ->
  (forall i, i * nb < lengthN l -> get_block t i = Ok (block_of nb i l)) ->
  R t l ->
  (forall t' l' i v, R t' l' -> lengthN l' = lengthN l -> i * nb < lengthN l -> v < 2 ^ nb ->
    exists t'', set_block t' i v = Ok t'' /\ R t'' (set_block_of nb i v l')) ->
  s + n <= lengthN l -> n <= nb -> v < 2 ^ nb ->
  (1 <= n \/ s < lengthN l \/ s mod nb <> 0) ->
  exists t', default_set_bits c nb bit_len get_block set_block t s n v = Ok t' /\
    R t' (put s (bits_of n v) l).
Proof.
  intros Hlen Hc Hnb Hfits Hblk Ht Hset. pose proof (wf_nb_range nb Hnb) as nb_range. pose proof (fits_lt64 c nb (lengthN l) (wf_nb_pos nb Hnb) Hfits) as len63.
    intros Hs Hn Hv Hne. unfold default_set_bits. rewrite wadd_ok by lia. cbn [bind].
  rewrite Hlen. cbn [bind]. rewrite assert_true by lia. cbn [bind].
  pose proof (N.div_mod s nb ltac:(lia)) as Ediv. pose proof (N.mod_lt s nb ltac:(lia)) as Hr.
  set (q := s / nb) in *. set (r := s mod nb) in *.
  assert (Hq : q * nb < lengthN l) by lia.
  pose proof (fits_ptr c nb (lengthN l) Hc Hnb Hfits) as Hfp.
  assert (Ha : address_new c nb s = Ok {| block_index := q; bit_offset := r |}).
  { unfold q, r. apply address_new_ok; try assumption. fold q.
    pose proof Hq as Hq'. apply (blocks_for_lt nb) in Hq'; [|lia]. lia. }
  rewrite Ha. cbn [bind block_index bit_offset]. clear Ha. clearbody q r.
  rewrite wsub_ok by lia. cbn [bind].
  assert (Hpl : s + lengthN (bits_of n v) <= lengthN l) by (rewrite lengthN_bits_of; lia).
  destruct (n <=? nb - r) eqn:E.
  - rewrite Hblk by assumption. cbn [bind].
    rewrite blk_with_bits_ok by (auto using block_of_lt; lia). cbn [bind].
    destruct (Hset t l q (with_field (block_of nb q l) r n v)) as [t' [H1 H2]]; auto.
    { apply with_field_lt; [apply block_of_lt|lia]. }
    exists t'. split; [exact H1|].
    replace (put s (bits_of n v) l) with (set_block_of nb q (with_field (block_of nb q l) r n v) l); [exact H2|].
    apply list_bit_ext.
    + rewrite lengthN_set_block_of, lengthN_put by lia. reflexivity.
    + intros j Hj. rewrite lengthN_set_block_of in Hj by lia.
      rewrite bit_at_set_block_of, bit_at_put by lia. rewrite lengthN_bits_of, bit_at_bits_of.
      rewrite testbit_with_field, testbit_block_of.
      destruct ((q * nb <=? j) && (j <? q * nb + nb)) eqn:Eb.
      * destruct (j <? lengthN l) eqn:E2; [|lia]. cbn [andb].
        destruct ((r <=? j - q * nb) && (j - q * nb <? r + n)) eqn:E3,
          ((s <=? j) && (j <? s + n)) eqn:E4; try lia.
        -- destruct (j - s <? n) eqn:E5; [|lia]. cbn [andb]. f_equal. lia.
        -- destruct (j - q * nb <? nb) eqn:E5; [|lia]. cbn [andb]. f_equal. lia.
      * destruct ((s <=? j) && (j <? s + n)) eqn:E4; [lia|reflexivity].
  - rewrite wsub_ok by lia. cbn [bind]. rewrite Hblk by assumption. cbn [bind].
    assert (Hq1 : (q + 1) * nb < lengthN l) by lia.
    pose proof Hq1 as Hq1'. apply (blocks_for_lt nb) in Hq1'; [|lia].
    rewrite wadd_ok by lia. cbn [bind]. rewrite Hblk by assumption. cbn [bind].
    rewrite wshr_ok by lia. cbn [bind].
    rewrite !blk_with_bits_ok by (auto using block_of_lt; lia). cbn [bind].
    set (n1 := with_field (block_of nb q l) r (nb - r) v).
    set (n2 := with_field (block_of nb (q + 1) l) 0 (n - (nb - r)) (N.shiftr v (nb - r))).
    destruct (Hset t l q n1) as [t1 [H1 H2]]; auto.
    { apply with_field_lt; [apply block_of_lt|lia]. }
    rewrite H1. cbn [bind].
    destruct (Hset t1 _ (q + 1) n2 H2) as [t2 [H3 H4]]; auto.
    { rewrite lengthN_set_block_of by lia. reflexivity. }
    { apply with_field_lt; [apply block_of_lt|lia]. }
    exists t2. split; [exact H3|].
    replace (put s (bits_of n v) l) with (set_block_of nb (q + 1) n2 (set_block_of nb q n1 l)); [exact H4|].
    assert (El : lengthN (set_block_of nb q n1 l) = lengthN l) by (apply lengthN_set_block_of; lia).
    apply list_bit_ext.
    + rewrite lengthN_set_block_of, El, lengthN_put by lia. reflexivity.
    + intros j Hj. rewrite lengthN_set_block_of, El in Hj by lia.
      rewrite bit_at_set_block_of by lia. rewrite El. rewrite bit_at_set_block_of, bit_at_put by lia.
      rewrite lengthN_bits_of, bit_at_bits_of. unfold n1, n2.
      rewrite !testbit_with_field, !testbit_block_of.
      destruct (j <? lengthN l) eqn:E2; [|lia]. cbn [andb].
      destruct (((q + 1) * nb <=? j) && (j <? (q + 1) * nb + nb)) eqn:Eb.
      * destruct ((s <=? j) && (j <? s + n)) eqn:E4.
        -- destruct ((0 <=? j - (q + 1) * nb) && (j - (q + 1) * nb <? 0 + (n - (nb - r)))) eqn:E5; [|lia].
           destruct (j - s <? n) eqn:E6; [|lia]. cbn [andb]. rewrite N.shiftr_spec'. f_equal. lia.
        -- destruct ((0 <=? j - (q + 1) * nb) && (j - (q + 1) * nb <? 0 + (n - (nb - r)))) eqn:E5; [lia|].
           destruct (j - (q + 1) * nb <? nb) eqn:E6; [|lia]. cbn [andb]. f_equal. lia.
      * destruct ((q * nb <=? j) && (j <? q * nb + nb)) eqn:Ec.
        -- destruct ((s <=? j) && (j <? s + n)) eqn:E4.
           ++ destruct ((r <=? j - q * nb) && (j - q * nb <? r + (nb - r))) eqn:E5; [|lia].
              destruct (j - s <? n) eqn:E6; [|lia]. cbn [andb]. f_equal. lia.
           ++ destruct ((r <=? j - q * nb) && (j - q * nb <? r + (nb - r))) eqn:E5; [lia|].
              destruct (j - q * nb <? nb) eqn:E6; [|lia]. cbn [andb]. f_equal. lia.
        -- destruct ((s <=? j) && (j <? s + n)) eqn:E4; [lia|reflexivity].
Qed.

