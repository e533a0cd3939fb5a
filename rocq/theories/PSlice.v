(** * Slices as bit sequences. *)
From Verif Require Export MBitSlice SpecLaws PBase PStorage PBits PBlocks.

Lemma sub_updN {A} (L : list A) s n i b : i < n -> s + n <= lengthN L -> sub s n (updN L (s + i) b) = updN (sub s n L) i b.
Proof.
  intros Hi Hl. apply nthN_ext. intros j. rewrite nthN_updN, !nthN_sub, nthN_updN, lengthN_sub, N.min_l by lia.
  destruct (j =? i) eqn:E1, (s + j =? s + i) eqn:E2; cbn [andb]; try lia.
  - replace (s + i <? lengthN L) with true by lia. replace (i <? n) with true by lia. replace (j <? n) with true by lia. reflexivity.
  - destruct (j <? n); reflexivity.
Qed.
Lemma sub_put {A} (L x : list A) s n p : p + lengthN x <= n -> s + n <= lengthN L ->
  sub s n (put (s + p) x L) = put p x (sub s n L).
Proof.
  intros Hp Hl. apply nthN_ext. intros j. rewrite nthN_sub, !nthN_put, nthN_sub by (rewrite ?lengthN_sub; lia).
  replace (s + p <=? s + j) with (p <=? j) by (destruct (p <=? j) eqn:?, (s + p <=? s + j) eqn:?; lia).
  replace (s + j <? s + p + lengthN x) with (j <? p + lengthN x)
    by (destruct (j <? p + lengthN x) eqn:?, (s + j <? s + p + lengthN x) eqn:?; lia).
  destruct (p <=? j) eqn:E1, (j <? p + lengthN x) eqn:E2; cbn [andb]; destruct (j <? n) eqn:E; try reflexivity; try lia.
  f_equal. lia.
Qed.
Lemma sub_sub {A} (L : list A) s n p m : p + m <= n -> sub p m (sub s n L) = sub (s + p) m L.
Proof.
  intros H. apply nthN_ext. intros j. rewrite !nthN_sub.
  destruct (j <? m) eqn:E; [|reflexivity]. destruct (p + j <? n) eqn:E1; [|lia]. f_equal. lia.
Qed.

Lemma slice_get_bit_oob {T} c (B : bitvec T) sl i : sl_len sl <= i -> panics (slice_get_bit c B sl i).
Proof. intros H. unfold slice_get_bit. rewrite assert_false by lia. cbn. auto. Qed.
Lemma slice_get_bits_oob {T} c (B : bitvec T) sl s n : sl_len sl < s + n -> panics (slice_get_bits c B sl s n).
Proof.
  intros H. unfold slice_get_bits, checked_add. destruct (s + n <? 2 ^ 64); cbn [expect bind]; [|auto].
  rewrite assert_false by lia. cbn. auto.
Qed.
Lemma slice_set_bit_oob {T} c (M : bitvecmut T) sl i b : sl_len sl <= i -> panics (slice_set_bit c M sl i b).
Proof. intros H. unfold slice_set_bit. rewrite assert_false by lia. cbn. auto. Qed.
Lemma slice_set_bits_oob {T} c (M : bitvecmut T) sl s n v : sl_len sl < s + n -> panics (slice_set_bits c M sl s n v).
Proof.
  intros H. unfold slice_set_bits, checked_add. destruct (s + n <? 2 ^ 64); cbn [expect bind]; [|auto].
  rewrite assert_false by lia. cbn. auto.
Qed.

Section Slices.
  Context {T : Type} (c : cfg) (B : bitvec T) (R : T -> list bool -> Prop).
  Hypothesis Hc : wf_cfg c.
  Hypothesis LB : lawful_bits c B R.
  Let nb := bv_nb B.
  Let Hnb : wf_nb nb := lb_nb _ _ _ LB.
  Let nb_range := wf_nb_range nb Hnb.
  Let ptr_range := wf_ptr c Hc.

  (** [l] is the part of the base the slice selects. *)
  Definition R_slice (sl : slice T) (l : list bool) : Prop :=
    (exists L, R (sl_data sl) L /\ sl_start sl + sl_len sl <= lengthN L /\ l = sub (sl_start sl) (sl_len sl) L) \/
    (sl_len sl = 0 /\ l = []).

  Lemma base_63 t L : R t L -> lengthN L <= 2 ^ 63.
  Proof. intros H. apply (fits_lt64 c nb); [lia|]. exact (lb_fits _ _ _ LB t L H). Qed.
  Lemma R_slice_len sl l : R_slice sl l -> lengthN l = sl_len sl.
  Proof. intros [[L [H1 [H2 ->]]]|[H ->]]; [rewrite lengthN_sub; lia|]. rewrite H. reflexivity. Qed.
  Lemma R_slice_fits sl l : R_slice sl l -> fits c nb (lengthN l).
  Proof.
    intros HR. pose proof (R_slice_len sl l HR) as El. destruct HR as [[L [H1 [H2 _]]]|[_ ->]].
    - apply (fits_mono c nb _ (lengthN L)); [lia|lia|]. exact (lb_fits _ _ _ LB _ L H1).
    - unfold fits. rewrite lengthN_nil. unfold blocks_for. rewrite N.div_small by lia. lia.
  Qed.
  Lemma slice_get_bit_ok sl l i b : R_slice sl l -> nthN l i = Some b -> slice_get_bit c B sl i = Ok b.
  Proof.
    intros HR Hi. pose proof (R_slice_len sl l HR) as El. pose proof (nthN_lt _ _ _ Hi) as Hlt.
    destruct HR as [[L [H1 [H2 ->]]]|[H ->]]; [|rewrite lengthN_nil in Hlt; lia].
    unfold slice_get_bit. rewrite assert_true by lia. cbn [bind]. pose proof (base_63 _ _ H1).
    rewrite wadd_ok by lia. cbn [bind]. eapply (lb_get_bit _ _ _ LB); eauto.
    rewrite nthN_sub in Hi. destruct (i <? sl_len sl); [exact Hi|discriminate].
  Qed.
  Lemma slice_get_bits_ok sl l s n : R_slice sl l -> s + n <= lengthN l -> n <= nb -> 1 <= n \/ s < lengthN l ->
    slice_get_bits c B sl s n = Ok (int_of (sub s n l)).
  Proof.
    intros HR Hs Hn Hp. pose proof (R_slice_len sl l HR) as El. 
    destruct HR as [[L [H1 [H2 ->]]]|[H ->]]; [|rewrite lengthN_nil in *; lia].
    pose proof (base_63 _ _ H1). unfold slice_get_bits, checked_add.
    destruct (s + n <? 2 ^ 64) eqn:E; [|lia]. cbn [expect bind]. rewrite assert_true by lia. cbn [bind].
    rewrite wadd_ok by lia. cbn [bind]. rewrite (lb_get_bits _ _ _ LB _ L); auto; try lia.
    rewrite sub_sub by lia. reflexivity.
  Qed.
  Lemma slice_lawful_bits : lawful_bits c (slice_bitvec c B) R_slice.
  Proof.
    constructor; cbn [slice_bitvec bv_nb bv_bit_len bv_get_bit bv_get_bits]; fold nb.
    - exact Hnb.
    - exact R_slice_fits.
    - intros sl l HR. unfold slice_bit_len. now rewrite (R_slice_len sl l HR).
    - exact slice_get_bit_ok.
    - intros sl l i HR Hi _. apply slice_get_bit_oob. rewrite <- (R_slice_len sl l HR). lia.
    - exact slice_get_bits_ok.
    - intros sl l s n HR Hs _ _. apply slice_get_bits_oob. rewrite <- (R_slice_len sl l HR). lia.
  Qed.
  Lemma slice_block_len_ok sl l : R_slice sl l -> slice_block_len c B sl = Ok (blocks_for nb (lengthN l)).
  Proof.
    intros HR. apply (def_block_len c nb slice_bit_len sl l); auto.
    - unfold slice_bit_len. now rewrite (R_slice_len sl l HR).
    - exact (R_slice_fits sl l HR).
  Qed.
  Lemma slice_get_block_ok sl l i : R_slice sl l -> (i + 1) * nb <= lengthN l ->
    slice_get_block c B sl i = Ok (block_of nb i l).
  Proof.
    intros HR Hi. pose proof (R_slice_fits sl l HR) as Hf. apply fits_lt64 in Hf; [|lia].
    unfold slice_get_block. fold nb. rewrite mul_nbits_ok by (auto; lia). cbn [bind].
    rewrite (slice_get_bits_ok sl l); auto; lia.
  Qed.
  Lemma slice_get_block_oob sl l i : R_slice sl l -> lengthN l < (i + 1) * nb -> i * nb < 2 ^ 64 ->
    panics (slice_get_block c B sl i).
  Proof.
    intros HR Hi H64. unfold slice_get_block. fold nb. rewrite mul_nbits_ok by auto. cbn [bind].
    apply slice_get_bits_oob. rewrite <- (R_slice_len sl l HR). lia.
  Qed.
End Slices.

Section SliceMuts.
  Context {T : Type} (c : cfg) (M : bitvecmut T) (R : T -> list bool -> Prop).
  Hypothesis Hc : wf_cfg c.
  Let B := bm_bv M.
  Hypothesis LB : lawful_bits c B R.
  Hypothesis LM : lawful_mut c M R.
  Let nb := bv_nb B.
  Let Hnb : wf_nb nb := lb_nb _ _ _ LB.
  Let nb_range := wf_nb_range nb Hnb.
  Let ptr_range := wf_ptr c Hc.

  (** Writes through the slice update the base. *)
  Lemma slice_set_bit_base sl L i b : R (sl_data sl) L -> sl_start sl + sl_len sl <= lengthN L -> i < sl_len sl ->
    exists sl', slice_set_bit c M sl i b = Ok sl' /\ sl_start sl' = sl_start sl /\ sl_len sl' = sl_len sl /\
      R (sl_data sl') (updN L (sl_start sl + i) b).
  Proof.
    intros HR Hl Hi. unfold slice_set_bit. rewrite assert_true by lia. cbn [bind].
    pose proof (base_63 c B R Hc LB _ _ HR). rewrite wadd_ok by lia. cbn [bind].
    destruct (lm_set_bit _ _ _ LM (sl_data sl) L (sl_start sl + i) b HR) as [d [E HR']]; [lia|].
    rewrite E. cbn [bind]. eexists; split; [reflexivity|]. cbn. auto.
  Qed.
  Lemma slice_set_bits_base sl L s n v : R (sl_data sl) L -> sl_start sl + sl_len sl <= lengthN L ->
    s + n <= sl_len sl -> n <= nb -> v < 2 ^ nb -> 1 <= n \/ s < sl_len sl ->
    exists sl', slice_set_bits c M sl s n v = Ok sl' /\ sl_start sl' = sl_start sl /\ sl_len sl' = sl_len sl /\
      R (sl_data sl') (put (sl_start sl + s) (bits_of n v) L).
  Proof.
    intros HR Hl Hs Hn Hv Hp. pose proof (base_63 c B R Hc LB _ _ HR). unfold slice_set_bits, checked_add.
    destruct (s + n <? 2 ^ 64) eqn:E0; [|lia]. cbn [expect bind]. rewrite assert_true by lia. cbn [bind].
    rewrite wadd_ok by lia. cbn [bind].
    destruct (lm_set_bits _ _ _ LM (sl_data sl) L (sl_start sl + s) n v HR) as [d [E HR']]; fold B; fold nb; auto; try lia.
    rewrite E. cbn [bind]. eexists; split; [reflexivity|]. cbn. auto.
  Qed.
  Lemma slice_lawful_mut : lawful_mut c (slicemut_bitvecmut c M) (R_slice R).
  Proof.
    constructor; cbn [slicemut_bitvecmut bm_bv bm_set_bit bm_set_bits slice_bitvec bv_nb]; fold B; fold nb.
    - intros sl l i b HR Hi. pose proof (R_slice_len c B R Hc LB sl l HR) as El.
      destruct HR as [[L [H1 [H2 ->]]]|[H ->]]; [|rewrite lengthN_nil in *; lia].
      destruct (slice_set_bit_base sl L i b H1 H2) as [sl' [E [Es [En HR']]]]; [lia|].
      exists sl'. split; [exact E|]. left. exists (updN L (sl_start sl + i) b).
      rewrite Es, En, lengthN_updN. repeat split; auto. now rewrite sub_updN by lia.
    - intros sl l i b HR Hi _. apply slice_set_bit_oob. rewrite <- (R_slice_len c B R Hc LB sl l HR). lia.
    - intros sl l s n v HR Hs Hn Hv Hp. pose proof (R_slice_len c B R Hc LB sl l HR) as El.
      destruct HR as [[L [H1 [H2 ->]]]|[H ->]]; [|rewrite lengthN_nil in *; lia].
      destruct (slice_set_bits_base sl L s n v H1 H2) as [sl' [E [Es [En HR']]]]; auto; try lia.
      exists sl'. split; [exact E|]. left. exists (put (sl_start sl + s) (bits_of n v) L).
      rewrite Es, En, lengthN_put by (rewrite lengthN_bits_of; lia). repeat split; auto.
      now rewrite sub_put by (rewrite ?lengthN_bits_of; lia).
    - intros sl l s n v HR Hs _ _. apply slice_set_bits_oob. rewrite <- (R_slice_len c B R Hc LB sl l HR). lia.
  Qed.
End SliceMuts.
