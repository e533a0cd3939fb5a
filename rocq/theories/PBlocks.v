(** * Slices/vectors of blocks, [Vec<bool>] and primitive integers are lawful. *)
From Verif Require Export PBits SpecLaws.

(** ** Vectors of blocks *)
Definition R_blocks (c : cfg) (nb : N) (v : list N) (l : list bool) : Prop :=
  v = pack nb l /\ lengthN l mod nb = 0 /\ fits c nb (lengthN l).

Lemma R_blocks_valid c nb v : 0 < nb -> valid_blocks c nb v -> R_blocks c nb v (bits_of_blocks nb v).
Proof.
  intros Hnb [H1 H2]. unfold R_blocks. rewrite pack_bits_of_blocks by assumption.
  rewrite lengthN_bits_of_blocks. repeat split.
  - apply N.mod_mul. lia.
  - unfold fits. rewrite blocks_for_mul by assumption. exact H2.
Qed.
Lemma mod0_blocks nb n : 0 < nb -> n mod nb = 0 -> blocks_for nb n * nb = n.
Proof.
  intros Hnb H. pose proof (N.div_mod n nb ltac:(lia)).
  assert (E : n = n / nb * nb) by lia. rewrite E at 1. rewrite blocks_for_mul by assumption. lia.
Qed.
Lemma R_blocks_inv c nb v l : 0 < nb -> R_blocks c nb v l -> valid_blocks c nb v /\ l = bits_of_blocks nb v.
Proof.
  intros Hnb [-> [H1 H2]]. split.
  - split; [apply pack_lt|]. rewrite lengthN_pack. exact H2.
  - rewrite bits_of_blocks_pack, mod0_blocks by assumption. now rewrite fit_exact.
Qed.

Section Blocks.
  Variables (c : cfg) (nb : N).
  Hypothesis Hc : wf_cfg c.
  Hypothesis Hnb : wf_nb nb.
  Let nb_range := wf_nb_range nb Hnb.

  Lemma blocks_bit_len_ok v l : R_blocks c nb v l -> blocks_bit_len c nb v = Ok (lengthN l).
  Proof.
    intros [-> [H1 H2]]. unfold blocks_bit_len. rewrite lengthN_pack.
    pose proof (fits_lt64 c nb (lengthN l) ltac:(lia) H2).
    rewrite wmul_ok; rewrite mod0_blocks by (auto; lia); [reflexivity|lia].
  Qed.
  Lemma pack_get_block l i : i * nb < lengthN l -> index (pack nb l) i = Ok (block_of nb i l).
  Proof.
    intros H. apply index_Some. rewrite nthN_pack.
    apply (blocks_for_lt nb) in H; [|lia]. destruct (i <? blocks_for nb (lengthN l)) eqn:E; [reflexivity|lia].
  Qed.
  Lemma pack_get_block_oob l i : lengthN l <= i * nb -> index (pack nb l) i = Panic PIndex.
  Proof.
    intros H. apply index_None. rewrite lengthN_pack.
    destruct (N.le_gt_cases (blocks_for nb (lengthN l)) i) as [E|E]; [exact E|].
    apply blocks_for_lt in E; lia.
  Qed.
  (** Overwriting one block of packed bits. *)
  Lemma pack_upd l i v : i * nb < lengthN l -> v < 2 ^ nb ->
    (lengthN l < i * nb + nb -> forall j, lengthN l - i * nb <= j -> N.testbit v j = false) ->
    updN (pack nb l) i v = pack nb (set_block_of nb i v l).
  Proof.
    intros Hi Hv Hext. apply pack_unique; [lia| |].
    - rewrite lengthN_updN, lengthN_pack, lengthN_set_block_of by lia. reflexivity.
    - intros k b. rewrite nthN_updN, lengthN_pack.
      assert (Hi' : i < blocks_for nb (lengthN l)) by (apply blocks_for_lt; lia).
      destruct (k =? i) eqn:E.
      + apply N.eqb_eq in E. subst k. destruct (i <? blocks_for nb (lengthN l)) eqn:E2; [|lia].
        intros [= <-]. split; [assumption|]. intros j Hj.
        rewrite bit_at_set_block_of by lia.
        destruct ((i * nb <=? i * nb + j) && (i * nb + j <? i * nb + nb)) eqn:E3; [|lia].
        replace (i * nb + j - i * nb) with j by lia.
        destruct (i * nb + j <? lengthN l) eqn:E4; cbn [andb]; [reflexivity|].
        apply Hext; lia.
      + rewrite nthN_pack. destruct (k <? blocks_for nb (lengthN l)) eqn:E2; [|discriminate].
        intros [= <-]. split; [apply block_of_lt|]. intros j Hj.
        rewrite testbit_block_of, bit_at_set_block_of by lia.
        destruct (j <? nb) eqn:E3; [|lia]. cbn [andb].
        destruct ((i * nb <=? k * nb + j) && (k * nb + j <? i * nb + nb)) eqn:E4; [nia|reflexivity].
  Qed.

  Lemma blocks_set_block_ok v l i x : R_blocks c nb v l -> i * nb < lengthN l -> x < 2 ^ nb ->
    exists v', blocks_set_block v i x = Ok v' /\ R_blocks c nb v' (set_block_of nb i x l).
  Proof.
    intros [-> [H1 H2]] Hi Hx. exists (updN (pack nb l) i x).
    assert (Hi' : i < blocks_for nb (lengthN l)) by (apply blocks_for_lt; lia).
    split.
    - unfold blocks_set_block. apply index_set_ok. now rewrite lengthN_pack.
    - unfold R_blocks. rewrite lengthN_set_block_of by lia. repeat split; auto.
      apply pack_upd; auto. intros Hl. exfalso.
      pose proof (mod0_blocks nb (lengthN l) ltac:(lia) H1). nia.
  Qed.

  Theorem blocks_lawful_blocks : lawful_blocks c (blocks_bitvec c nb) (R_blocks c nb).
  Proof.
    constructor; cbn.
    - intros t l [-> _]. unfold blocks_block_len. now rewrite lengthN_pack.
    - intros t l i [-> _] H. now apply pack_get_block.
    - intros t l i [-> _] H _. unfold blocks_get_block. rewrite pack_get_block_oob by assumption. auto.
  Qed.

  Lemma blocks_get_bits_ok v l s n : R_blocks c nb v l -> s + n <= lengthN l -> n <= nb ->
    (1 <= n \/ s < lengthN l \/ s mod nb <> 0) ->
    blocks_get_bits c nb v s n = Ok (int_of (sub s n l)).
  Proof.
    intros H. pose proof H as [-> [H1 H2]]. unfold blocks_get_bits. apply def_get_bits; auto.
    - now apply blocks_bit_len_ok. - intros. now apply pack_get_block.
  Qed.
  Lemma blocks_get_bits_oob v l s n : R_blocks c nb v l -> lengthN l < s + n -> s < 2 ^ 64 -> n < 2 ^ ptr c ->
    panics (blocks_get_bits c nb v s n).
  Proof.
    intros H. pose proof H as [-> [H1 H2]]. unfold blocks_get_bits. apply def_get_bits_oob_all with (l := l); auto.
    - now apply blocks_bit_len_ok. - intros. now apply pack_get_block.
    - intros. unfold blocks_get_block. rewrite pack_get_block_oob by assumption. auto.
  Qed.
  Lemma blocks_get_bit_ok v l i b : R_blocks c nb v l -> nthN l i = Some b ->
    blocks_get_bit c nb v i = Ok b.
  Proof.
    intros H. pose proof H as [-> [H1 H2]]. unfold blocks_get_bit. apply def_get_bit; auto.
    - now apply blocks_bit_len_ok. - intros. now apply pack_get_block.
  Qed.
  Lemma blocks_get_bit_oob v l i : R_blocks c nb v l -> lengthN l <= i ->
    panics (blocks_get_bit c nb v i).
  Proof.
    intros H. pose proof H as [-> [H1 H2]]. unfold blocks_get_bit. apply def_get_bit_oob with (l := l); auto.
    now apply blocks_bit_len_ok.
  Qed.
  Lemma blocks_set_bit_ok v l i b : R_blocks c nb v l -> i < lengthN l ->
    exists v', blocks_set_bit c nb v i b = Ok v' /\ R_blocks c nb v' (updN l i b).
  Proof.
    intros H. pose proof H as [_ [H1 H2]]. unfold blocks_set_bit.
    apply def_set_bit with (R := R_blocks c nb); auto.
    - now apply blocks_bit_len_ok.
    - destruct H as [-> _]. intros. now apply pack_get_block.
    - intros t' l' i' x Ht El Hi Hx. apply blocks_set_block_ok; auto. lia.
  Qed.
  Lemma blocks_set_bit_oob v l i b : R_blocks c nb v l -> lengthN l <= i ->
    panics (blocks_set_bit c nb v i b).
  Proof.
    intros H. unfold blocks_set_bit. apply def_set_bit_oob with (l := l); auto. now apply blocks_bit_len_ok.
  Qed.
  Lemma blocks_set_bits_ok v l s n x : R_blocks c nb v l -> s + n <= lengthN l -> n <= nb -> x < 2 ^ nb ->
    (1 <= n \/ s < lengthN l \/ s mod nb <> 0) ->
    exists v', blocks_set_bits c nb v s n x = Ok v' /\ R_blocks c nb v' (put s (bits_of n x) l).
  Proof.
    intros H. pose proof H as [_ [H1 H2]]. unfold blocks_set_bits.
    apply def_set_bits with (R := R_blocks c nb); auto.
    - now apply blocks_bit_len_ok.
    - destruct H as [-> _]. intros. now apply pack_get_block.
    - intros t' l' i' y Ht El Hi Hx. apply blocks_set_block_ok; auto. lia.
  Qed.
  Lemma blocks_set_bits_oob v l s n x : R_blocks c nb v l -> lengthN l < s + n -> s < 2 ^ 64 -> n < 2 ^ ptr c ->
    panics (blocks_set_bits c nb v s n x).
  Proof.
    intros H. pose proof H as [-> [H1 H2]]. unfold blocks_set_bits. apply def_set_bits_oob_all with (l := l); auto.
    - now apply blocks_bit_len_ok. - intros. now apply pack_get_block.
    - intros. unfold blocks_get_block. rewrite pack_get_block_oob by assumption. auto.
  Qed.

  Theorem blocks_lawful_bits : lawful_bits c (blocks_bitvec c nb) (R_blocks c nb).
  Proof.
    constructor; cbn.
    - exact Hnb.
    - intros t l [_ [_ H]]. exact H.
    - exact blocks_bit_len_ok.
    - exact blocks_get_bit_ok.
    - intros t l i H Hi _. eapply blocks_get_bit_oob; eauto.
    - intros t l s n H H1 H2 H3. apply blocks_get_bits_ok; auto. tauto.
    - intros t l s n H H1 H2 H3. eapply blocks_get_bits_oob; eauto. lia.
  Qed.
  Theorem blocks_lawful_mut : lawful_mut c (blocks_bitvecmut c nb) (R_blocks c nb).
  Proof.
    constructor; cbn.
    - intros. now apply blocks_set_bit_ok.
    - intros. eapply blocks_set_bit_oob; eauto.
    - intros t l s n v H H1 H2 H3 H4. apply blocks_set_bits_ok; auto. tauto.
    - intros t l s n v H H1 H2 H3. eapply blocks_set_bits_oob; eauto. lia.
  Qed.
  Theorem blocks_lawful_mutblocks : lawful_mutblocks c (blocks_bitvecmut c nb) (R_blocks c nb).
  Proof.
    constructor; cbn.
    - intros. now apply blocks_set_block_ok.
    - intros t l i v [-> _] H _. unfold blocks_set_block. rewrite index_set_oob; [auto|].
      rewrite lengthN_pack. destruct (N.le_gt_cases (blocks_for nb (lengthN l)) i) as [E|E]; [exact E|].
      apply blocks_for_lt in E; lia.
  Qed.
End Blocks.
