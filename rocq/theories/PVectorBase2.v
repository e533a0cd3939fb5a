(** * [VectorBase], continued: growing and shrinking. *)
From Verif Require Export PVectorBase.

Ltac dif E := match goal with |- context [if ?x then _ else _] => destruct x eqn:E end.

Lemma Forall_firstnN {A} (P : A -> Prop) n l : Forall P l -> Forall P (firstnN n l).
Proof.
  intros H. apply Forall_nthN. intros i a. rewrite nthN_firstnN. dif E; [|discriminate].
  intros Ha. exact (proj1 (Forall_nthN _ _) H i a Ha).
Qed.
Lemma Forall_repeatN {A} (P : A -> Prop) n a : P a -> Forall P (repeatN a n).
Proof.
  intros H. apply Forall_nthN. intros i b. rewrite nthN_repeatN. dif E; [|discriminate]. now intros [= <-].
Qed.
Lemma bits_of_blocks_app nb v v' : bits_of_blocks nb (v ++ v') = bits_of_blocks nb v ++ bits_of_blocks nb v'.
Proof. apply flat_map_app. Qed.
Lemma bits_of_blocks_firstn nb n v : bits_of_blocks nb (firstnN n v) = firstnN (n * nb) (bits_of_blocks nb v).
Proof.
  unfold firstnN. rewrite N2Nat.inj_mul. generalize (N.to_nat n). clear n. intros n. revert n.
  induction v as [|x v IH]; intros n; [now rewrite !firstn_nil|].
  destruct n as [|n]; [reflexivity|]. cbn [firstn bits_of_blocks flat_map].
  change (flat_map (bits_of nb) (firstn n v)) with (bits_of_blocks nb (firstn n v)). rewrite IH.
  change (flat_map (bits_of nb) v) with (bits_of_blocks nb v).
  assert (L : length (bits_of nb x) = N.to_nat nb).
  { pose proof (lengthN_bits_of nb x) as H. unfold lengthN in H. lia. }
  rewrite firstn_app, (firstn_all2 (bits_of nb x)) by (rewrite L; lia). rewrite L.
  f_equal. f_equal. lia.
Qed.
Lemma bits_of_blocks_zero nb n : bits_of_blocks nb (repeatN 0 n) = repeatN false (n * nb).
Proof.
  apply list_bit_ext; [rewrite lengthN_bits_of_blocks, !lengthN_repeatN; reflexivity|].
  intros i Hi. rewrite bit_at_repeatN, andb_false_r.
  rewrite lengthN_bits_of_blocks, lengthN_repeatN in Hi.
  assert (nb <> 0) by nia.
  rewrite (N.div_mod i nb) by assumption. rewrite (N.mul_comm nb). pose proof (N.mod_lt i nb).
  rewrite (bit_at_bits_of_blocks nb _ _ _ 0); [now apply N.bits_0|lia|lia|].
  rewrite nthN_repeatN. destruct (_ <? n) eqn:E; [reflexivity|]. pose proof (N.div_mod i nb). nia.
Qed.
Lemma put_at_end {A} (l x z t : list A) : lengthN x = lengthN z -> put (lengthN l) x (l ++ z ++ t) = l ++ x ++ t.
Proof.
  intros H. apply nthN_ext. intros i. rewrite nthN_put by (rewrite !lengthN_app; lia).
  rewrite !nthN_app.
  destruct (i <? lengthN l) eqn:E1.
  - destruct ((lengthN l <=? i) && (i <? lengthN l + lengthN x)) eqn:E2; [lia|reflexivity].
  - destruct ((lengthN l <=? i) && (i <? lengthN l + lengthN x)) eqn:E2.
    + destruct (i - lengthN l <? lengthN x) eqn:E3; [reflexivity|lia].
    + destruct (i - lengthN l <? lengthN x) eqn:E3; [lia|].
      destruct (i - lengthN l <? lengthN z) eqn:E4; [lia|]. now rewrite H.
Qed.
Lemma repeatN_app {A} (a : A) m n : repeatN a (m + n) = repeatN a m ++ repeatN a n.
Proof. unfold repeatN. rewrite N2Nat.inj_add. apply repeat_app. Qed.
Lemma repeatN_0 {A} (a : A) : repeatN a 0 = [].
Proof. reflexivity. Qed.
Lemma int_of_zeros n : bits_of n 0 = repeatN false n.
Proof.
  apply list_bit_ext; [now rewrite lengthN_bits_of, lengthN_repeatN|].
  intros i _. now rewrite bit_at_bits_of, bit_at_repeatN, N.bits_0.
Qed.
Lemma sub_app_r {A} (l b : list A) : sub (lengthN l) (lengthN b) (l ++ b) = b.
Proof.
  apply nthN_ext. intros i. rewrite nthN_sub, nthN_app.
  destruct (lengthN l + i <? lengthN l) eqn:E; [lia|]. replace (lengthN l + i - lengthN l) with i by lia.
  destruct (i <? lengthN b) eqn:E2; [reflexivity|]. symmetry. apply nthN_None. lia.
Qed.
Lemma firstnN_firstnN {A} m n (l : list A) : m <= n -> firstnN m (firstnN n l) = firstnN m l.
Proof.
  intros H. apply nthN_ext. intros i. rewrite !nthN_firstnN. destruct (i <? m) eqn:E1, (i <? n) eqn:E2; try lia; reflexivity.
Qed.
Lemma firstnN_app {A} (l t : list A) n : n <= lengthN l -> firstnN n (l ++ t) = firstnN n l.
Proof.
  intros H. apply nthN_ext. intros i. rewrite !nthN_firstnN, nthN_app.
  destruct (i <? n) eqn:E, (i <? lengthN l) eqn:E2; try lia; reflexivity.
Qed.
Lemma firstnN_app_exact {A} (l t : list A) : firstnN (lengthN l) (l ++ t) = l.
Proof. rewrite firstnN_app by lia. apply firstnN_all. lia. Qed.
Lemma firstnN_full nb l n : 0 < nb -> n <= lengthN l -> firstnN n (full nb l) = firstnN n l.
Proof.
  intros H Hn. pose proof (blocks_for_spec nb (lengthN l) H).
  apply list_bit_ext; [rewrite !lengthN_firstnN, lengthN_full; lia|].
  intros i _. rewrite !bit_at_firstnN, bit_at_full by assumption. reflexivity.
Qed.
Lemma full_app nb l : 0 < nb -> full nb l = l ++ repeatN false (padding nb (lengthN l)).
Proof.
  intros H. apply list_bit_ext.
  - rewrite lengthN_full, lengthN_app, lengthN_repeatN. symmetry. now apply padding_spec.
  - intros i _. rewrite bit_at_full, bit_at_app, bit_at_repeatN, andb_false_r by assumption.
    destruct (i <? lengthN l) eqn:E; [reflexivity|]. apply bit_at_oob. lia.
Qed.

Section VectorBase.
  Variables (c : cfg) (nb k : N).
  Hypothesis Hc : wf_cfg c.
  Hypothesis Hnb : wf_nb nb.
  Hypothesis Hk : 1 <= k <= nb.
  Let nb_range := wf_nb_range nb Hnb.
  Let ptr_range := wf_ptr c Hc.
  Let nb_pos := wf_nb_pos nb Hnb.
  Let V := Vrep c nb k.

  Lemma grow_ok l n : n <= nb -> fits c nb (lengthN l + n) ->
    (if lengthN (pack nb l) * nb <? lengthN l + n then vec_push c nb (pack nb l) 0 else Ok (pack nb l))
    = Ok (pack nb (l ++ repeatN false n)).
  Proof.
    intros Hn Hf. rewrite lengthN_pack.
    pose proof (blocks_for_spec nb (lengthN l) nb_pos) as H1.
    pose proof (blocks_for_spec nb (lengthN l + n) nb_pos) as H2. unfold fits in Hf.
    assert (Hbit : forall i, bit_at (l ++ repeatN false n) i = bit_at l i).
    { intros i. rewrite bit_at_app, bit_at_repeatN, andb_false_r.
      destruct (i <? lengthN l) eqn:E; [reflexivity|]. symmetry. apply bit_at_oob. lia. }
    destruct (_ <? _) eqn:E.
    - assert (Eb : blocks_for nb (lengthN l + n) = blocks_for nb (lengthN l) + 1) by nia.
      unfold vec_push. rewrite lengthN_pack, alloc_ok by (rewrite <- Eb; exact Hf). cbn [bind]. f_equal.
      apply pack_unique; [lia| |].
      + rewrite lengthN_snoc, lengthN_pack, lengthN_app, lengthN_repeatN. now symmetry.
      + intros i b. rewrite nthN_snoc, nthN_pack, lengthN_pack.
        destruct (i <? blocks_for nb (lengthN l)) eqn:E1.
        * intros [= <-]. split; [apply block_of_lt|]. intros j Hj. rewrite testbit_block_of, Hbit.
          destruct (j <? nb) eqn:E2; [reflexivity|lia].
        * destruct (i =? _) eqn:E2; [|discriminate]. intros [= <-]. split; [apply pow2_pos|].
          intros j Hj. rewrite Hbit, N.bits_0, bit_at_oob; [reflexivity|]. nia.
    - f_equal. apply pack_ext; [lia| |intros; now rewrite Hbit].
      rewrite lengthN_app, lengthN_repeatN. nia.
  Qed.
  Lemma grow_full l n : n <= nb -> fits c nb (lengthN l) -> ~ fits c nb (lengthN l + n) ->
    lengthN (pack nb l) * nb <? lengthN l + n = true /\ panics (vec_push c nb (pack nb l) 0).
  Proof.
    intros Hn Hf Hnf. rewrite lengthN_pack. unfold fits in *.
    pose proof (blocks_for_spec nb (lengthN l) nb_pos) as H1.
    pose proof (blocks_for_spec nb (lengthN l + n) nb_pos) as H2.
    assert (blocks_for nb (lengthN l) < blocks_for nb (lengthN l + n)) by nia.
    assert (Eb : blocks_for nb (lengthN l + n) = blocks_for nb (lengthN l) + 1) by nia.
    split; [nia|]. unfold vec_push. rewrite lengthN_pack, alloc_fail; [cbn [bind]; auto|]. rewrite <- Eb. lia.
  Qed.

  Lemma vb_have v l : V v l -> mul_nbits c nb (lengthN (vb_vec v)) = Ok (lengthN (pack nb l) * nb).
  Proof.
    intros [E [_ Hf]]. rewrite E. rewrite mul_nbits_ok; auto.
    rewrite lengthN_pack. unfold fits in Hf. pose proof (max_bits_lt c). lia.
  Qed.

  Lemma vb_push_bits_ok v l x : V v l -> x < 2 ^ nb -> fits c nb (lengthN l + k) ->
    exists v', vb_push_bits c nb k v x = Ok v' /\ V v' (l ++ bits_of k x).
  Proof.
    intros HV Hx Hf. pose proof HV as [E [El Hf0]]. pose proof (fits_lt64 c nb _ nb_pos Hf) as H63.
    unfold vb_push_bits. rewrite wadd_ok by nia. cbn [bind]. rewrite wmul_ok by nia. cbn [bind].
    rewrite (vb_have v l HV). cbn [bind]. rewrite E.
    replace (k * (vb_len v + 1)) with (lengthN l + k) by lia. rewrite grow_ok by (auto; lia). cbn [bind].
    rewrite wmul_ok by lia. cbn [bind]. rewrite El.
    set (v1 := {| vb_len := vb_len v + 1; vb_vec := pack nb (l ++ repeatN false k) |}).
    assert (HV1 : V v1 (l ++ repeatN false k)).
    { split; [reflexivity|]. rewrite lengthN_app, lengthN_repeatN. cbn [vb_len v1]. split; [lia|assumption]. }
    destruct (vb_set_bits_ok c nb k Hc Hnb Hk v1 _ (lengthN l) k x HV1) as [v' [H1 [H2 _]]];
      rewrite ?lengthN_app, ?lengthN_repeatN; try lia.
    exists v'. split; [exact H1|].
    rewrite <- (app_nil_r (repeatN false k)) in H2. rewrite put_at_end, app_nil_r in H2; [exact H2|].
    now rewrite lengthN_bits_of, lengthN_repeatN.
  Qed.
  Lemma vb_push_bits_full v l x : V v l -> ~ fits c nb (lengthN l + k) ->
    panics (vb_push_bits c nb k v x).
  Proof.
    intros HV Hf. pose proof HV as [E [El Hf0]]. pose proof (fits_lt64 c nb _ nb_pos Hf0) as H63.
    unfold vb_push_bits. rewrite wadd_ok by nia. cbn [bind]. rewrite wmul_ok by nia. cbn [bind].
    rewrite (vb_have v l HV). cbn [bind]. rewrite E.
    replace (k * (vb_len v + 1)) with (lengthN l + k) by lia.
    destruct (grow_full l k ltac:(lia) Hf0 Hf) as [-> [p Hp]]. rewrite Hp. cbn [bind]. auto.
  Qed.

  Lemma shrink_pack l n : n <= nb -> fits c nb (lengthN l + n) ->
    (if blocks_for nb (lengthN l) <? lengthN (pack nb (l ++ repeatN false n))
     then snd (vec_pop (pack nb (l ++ repeatN false n))) else pack nb (l ++ repeatN false n)) = pack nb l.
  Proof.
    intros Hn Hf. rewrite lengthN_pack, lengthN_app, lengthN_repeatN.
    pose proof (blocks_for_spec nb (lengthN l) nb_pos) as H1.
    pose proof (blocks_for_spec nb (lengthN l + n) nb_pos) as H2.
    assert (Hbit : forall i, bit_at (l ++ repeatN false n) i = bit_at l i).
    { intros i. rewrite bit_at_app, bit_at_repeatN, andb_false_r.
      destruct (i <? lengthN l) eqn:E; [reflexivity|]. symmetry. apply bit_at_oob. lia. }
    destruct (_ <? _) eqn:E.
    - assert (Eb : blocks_for nb (lengthN l + n) = blocks_for nb (lengthN l) + 1) by nia.
      rewrite snd_vec_pop, lengthN_pack, lengthN_app, lengthN_repeatN, Eb.
      replace (blocks_for nb (lengthN l) + 1 - 1) with (blocks_for nb (lengthN l)) by lia.
      apply pack_unique; [lia| |].
      + rewrite lengthN_firstnN, lengthN_pack, lengthN_app, lengthN_repeatN. lia.
      + intros i b. rewrite nthN_firstnN. destruct (i <? _) eqn:E1; [|discriminate].
        rewrite nthN_pack. match goal with |- context [if ?x then _ else _] => destruct x; [|discriminate] end. intros Hb. injection Hb as Hb. rewrite <- Hb. clear Hb b.
        split; [apply block_of_lt|]. intros j Hj. rewrite testbit_block_of, Hbit.
        destruct (j <? nb) eqn:E3; [reflexivity|lia].
    - apply pack_ext; [lia| |assumption]. rewrite lengthN_app, lengthN_repeatN.
      pose proof (blocks_for_mono nb (lengthN l) (lengthN l + n) nb_pos ltac:(lia)). lia.
  Qed.

  Lemma vb_pop_bits_ok v l b : V v (l ++ b) -> lengthN b = k ->
    exists v', vb_pop_bits c nb k v = Ok (Some (int_of b), v') /\ V v' l.
  Proof.
    intros HV Hb. pose proof HV as [E [El Hf]]. rewrite lengthN_app, Hb in El, Hf.
    pose proof (fits_lt64 c nb _ nb_pos Hf) as H63. unfold vb_pop_bits.
    assert (Hl : vb_len v = lengthN l / k + 1 /\ (lengthN l / k) * k = lengthN l).
    { assert (lengthN l = (vb_len v - 1) * k) by nia. rewrite H, N.div_mul by lia. nia. }
    destruct Hl as [Hl1 Hl2]. set (m := lengthN l / k) in *. clearbody m. rewrite Hl1.
    destruct (m + 1 =? 0) eqn:E0; [lia|]. rewrite wsub_ok by lia. cbn [bind].
    replace (m + 1 - 1) with m by lia. rewrite wmul_ok by lia. cbn [bind].
    replace (k * m) with (lengthN l) by lia. rewrite ceil_div_nbits_ok by (auto; lia). cbn [bind].
    assert (Hf0 : fits c nb (lengthN l)) by (eapply fits_mono; [lia| |exact Hf]; lia).
    rewrite as_usize_small by now apply fits_ptr.
    rewrite (vb_get_bits_ok c nb k Hc Hnb Hk v (l ++ b)); rewrite ?lengthN_app; auto; try lia. cbn [bind].
    pose proof (pow2_pos nb).
    destruct (vb_set_bits_ok c nb k Hc Hnb Hk v (l ++ b) (lengthN l) k 0 HV) as [v1 [H1 [H2 H3]]];
      rewrite ?lengthN_app; try lia.
    rewrite H1. cbn [bind]. rewrite H3, Hl1, wsub_ok by lia. cbn [bind].
    replace (m + 1 - 1) with m by lia. replace (sub (lengthN l) k (l ++ b)) with b by (rewrite <- Hb; symmetry; apply sub_app_r).
    eexists; split; [reflexivity|].
    rewrite int_of_zeros, <- (app_nil_r b), put_at_end, app_nil_r in H2 by now rewrite lengthN_repeatN.
    destruct H2 as [E2 _]. split; [|split; [exact Hl2|exact Hf0]]. cbn [vb_vec].
    rewrite E2. apply shrink_pack; [lia|exact Hf].
  Qed.
  Lemma vb_pop_bits_empty v : V v [] -> vb_pop_bits c nb k v = Ok (None, v).
  Proof.
    intros [_ [El _]]. rewrite lengthN_nil in El. unfold vb_pop_bits.
    assert (vb_len v = 0) as -> by nia. reflexivity.
  Qed.

  (** *** Shrinking *)
  Lemma vb_truncate_ok v l n : V v l ->
    exists v', vb_truncate c nb k v n = Ok v' /\ V v' (firstnN (n * k) l).
  Proof.
    intros HV. pose proof HV as [E [El Hf]]. pose proof (fits_lt64 c nb _ nb_pos Hf) as H63.
    unfold vb_truncate. destruct (n <? vb_len v) eqn:En.
    - assert (Hn : n * k < lengthN l) by nia.
      rewrite wmul_ok by lia. cbn [bind]. rewrite ceil_div_nbits_ok by (auto; lia). cbn [bind].
      assert (Hf0 : fits c nb (n * k)) by (eapply fits_mono; [lia| |exact Hf]; lia).
      rewrite as_usize_small by now apply fits_ptr.
      assert (Ev : vec_truncate (vb_vec v) (blocks_for nb (n * k)) = firstnN (blocks_for nb (n * k)) (pack nb l)).
      { unfold vec_truncate. rewrite E. destruct (blocks_for nb (n * k) <? lengthN (pack nb l)) eqn:E1; [reflexivity|].
        symmetry. apply firstnN_all. lia. }
      rewrite Ev. clear Ev.
      pose proof (blocks_for_mono nb (n * k) (lengthN l) nb_pos ltac:(lia)) as Hmono.
      assert (Hlen : lengthN (firstnN (blocks_for nb (n * k)) (pack nb l)) = blocks_for nb (n * k)).
      { rewrite lengthN_firstnN, lengthN_pack. lia. }
      rewrite clear_extra_bits_ok; auto.
      + eexists; split; [reflexivity|]. unfold V, Vrep. cbn [vb_len vb_vec].
        pose proof (blocks_for_spec nb (n * k) nb_pos) as Hb.
        rewrite lengthN_firstnN, N.min_l by lia. split; [|auto].
        rewrite bits_of_blocks_firstn, firstnN_firstnN by lia. rewrite bits_of_blocks_pack by lia.
        change (fit (blocks_for nb (lengthN l) * nb) false l) with (full nb l).
        now rewrite firstnN_full by lia.
      + apply Forall_firstnN, pack_lt.
      + rewrite Hlen. exact Hf0.
    - exists v. split; [reflexivity|]. rewrite firstnN_all by nia. exact HV.
  Qed.

  Lemma vb_clear_ok v l : V v l -> exists v', vb_clear v = Ok v' /\ V v' [].
  Proof.
    intros HV. eexists; split; [reflexivity|]. split; [cbn; now rewrite pack_nil|].
    split; [reflexivity|]. now apply fits_0.
  Qed.

  (** *** Whole blocks *)
  (** The bits of [n] blocks made from [l]: cut, or padded with zeros to a block boundary and
      then with copies of [x]. *)
  Definition block_fit (n x : N) (l : list bool) : list bool :=
    if n <=? blocks_for nb (lengthN l) then firstnN (n * nb) (full nb l)
    else full nb l ++ bits_of_blocks nb (repeatN x (n - blocks_for nb (lengthN l))).

  Lemma bits_of_blocks_pack_full l : bits_of_blocks nb (pack nb l) = full nb l.
  Proof. now apply bits_of_blocks_pack. Qed.

  Lemma vb_block_resize_ok v l n x : V v l -> x < 2 ^ nb -> n * nb <= max_bits c ->
    exists v', vb_block_resize c nb k v n x = Ok v' /\ V v' (firstnN (n * nb / k * k) (block_fit n x l)).
  Proof.
    intros HV Hx Hn. pose proof HV as [E [El Hf]]. unfold vb_block_resize, vec_resize, block_fit.
    rewrite E, lengthN_pack. destruct (n <=? blocks_for nb (lengthN l)) eqn:En.
    - cbn [bind].
      assert (Hlen : lengthN (firstnN n (pack nb l)) = n) by (rewrite lengthN_firstnN, lengthN_pack; lia).
      destruct (set_len_from_blocks_ok c nb k Hc Hnb Hk (vb_len v) (firstnN n (pack nb l))) as [v' [H1 H2]].
      + apply Forall_firstnN, pack_lt.
      + now rewrite Hlen.
      + exists v'. split; [exact H1|]. rewrite Hlen, bits_of_blocks_firstn, bits_of_blocks_pack_full in H2. exact H2.
    - rewrite alloc_ok by exact Hn. cbn [bind].
      assert (Hlen : lengthN (pack nb l ++ repeatN x (n - blocks_for nb (lengthN l))) = n).
      { rewrite lengthN_app, lengthN_pack, lengthN_repeatN. lia. }
      destruct (set_len_from_blocks_ok c nb k Hc Hnb Hk (vb_len v)
         (pack nb l ++ repeatN x (n - blocks_for nb (lengthN l)))) as [v' [H1 H2]].
      + apply Forall_app. split; [apply pack_lt|]. now apply Forall_repeatN.
      + now rewrite Hlen.
      + exists v'. split; [exact H1|]. rewrite Hlen, bits_of_blocks_app, bits_of_blocks_pack_full in H2. exact H2.
  Qed.
  Lemma vb_block_resize_full v l n x : V v l -> max_bits c < n * nb ->
    panics (vb_block_resize c nb k v n x).
  Proof.
    intros HV Hn. pose proof HV as [E [El Hf]]. unfold vb_block_resize, vec_resize.
    rewrite E, lengthN_pack. unfold fits in Hf.
    destruct (n <=? blocks_for nb (lengthN l)) eqn:En; [nia|].
    rewrite alloc_fail by exact Hn. cbn [bind]. auto.
  Qed.

  Lemma vb_block_truncate_ok v l n : V v l -> n < 2 ^ ptr c ->
    exists v', vb_block_truncate c nb k v n = Ok v' /\
      V v' (if n <? blocks_for nb (lengthN l) then firstnN (n * nb / k * k) l else l).
  Proof.
    intros HV Hn. pose proof HV as [E [El Hf]]. unfold vb_block_truncate. rewrite E, lengthN_pack.
    destruct (n <? blocks_for nb (lengthN l)) eqn:En; [|exists v; auto].
    unfold vec_truncate. rewrite lengthN_pack, En.
    assert (Hlen : lengthN (firstnN n (pack nb l)) = n) by (rewrite lengthN_firstnN, lengthN_pack; lia).
    destruct (set_len_from_blocks_ok c nb k Hc Hnb Hk (vb_len v) (firstnN n (pack nb l))) as [v' [H1 H2]].
    - apply Forall_firstnN, pack_lt.
    - rewrite Hlen. unfold fits in Hf. nia.
    - exists v'. split; [exact H1|]. rewrite Hlen, bits_of_blocks_firstn, bits_of_blocks_pack_full in H2.
      assert (n * nb < lengthN l) by (apply blocks_for_lt; lia).
      assert (n * nb / k * k <= n * nb) by (pose proof (N.div_mod (n * nb) k ltac:(lia)); lia).
      rewrite firstnN_firstnN, firstnN_full in H2 by lia. exact H2.
  Qed.

  Lemma vb_push_block_ok v l x : V v l -> x < 2 ^ nb -> (blocks_for nb (lengthN l) + 1) * nb <= max_bits c ->
    exists v', vb_push_block c nb k v x = Ok v' /\
      V v' (firstnN ((blocks_for nb (lengthN l) + 1) * nb / k * k) (full nb l ++ bits_of nb x)).
  Proof.
    intros HV Hx Hn. pose proof HV as [E [El Hf]]. unfold vb_push_block, vec_push.
    rewrite E, lengthN_pack, alloc_ok by exact Hn. cbn [bind].
    destruct (set_len_from_blocks_ok c nb k Hc Hnb Hk (vb_len v) (pack nb l ++ [x])) as [v' [H1 H2]].
    - apply Forall_app. split; [apply pack_lt|]. constructor; auto.
    - now rewrite lengthN_snoc, lengthN_pack.
    - exists v'. split; [exact H1|].
      rewrite lengthN_snoc, lengthN_pack, bits_of_blocks_app, bits_of_blocks_pack_full in H2.
      unfold bits_of_blocks in H2. cbn [flat_map] in H2. rewrite app_nil_r in H2. exact H2.
  Qed.
  Lemma vb_push_block_full v l x : V v l -> max_bits c < (blocks_for nb (lengthN l) + 1) * nb ->
    panics (vb_push_block c nb k v x).
  Proof.
    intros HV Hn. pose proof HV as [E [El Hf]]. unfold vb_push_block, vec_push.
    rewrite E, lengthN_pack, alloc_fail by exact Hn. cbn [bind]. auto.
  Qed.

  (** *** Constructors *)
  Lemma V_empty : V {| vb_len := 0; vb_vec := [] |} [].
  Proof. split; [cbn; now rewrite pack_nil|]. split; [reflexivity|]. now apply fits_0. Qed.
  Lemma vb_block_with_capacity_ok n : n * nb <= max_bits c ->
    exists v, vb_block_with_capacity c nb n = Ok v /\ V v [].
  Proof.
    intros H. unfold vb_block_with_capacity. rewrite alloc_ok by exact H. cbn [bind].
    eexists; split; [reflexivity|apply V_empty].
  Qed.
  Lemma vb_block_with_capacity_full n : max_bits c < n * nb -> panics (vb_block_with_capacity c nb n).
  Proof. intros H. unfold vb_block_with_capacity. rewrite alloc_fail by exact H. cbn [bind]. auto. Qed.
  Lemma vb_block_with_fill_ok n x : x < 2 ^ nb -> n * nb <= max_bits c ->
    exists v, vb_block_with_fill c nb k n x = Ok v /\
      V v (firstnN (n * nb / k * k) (bits_of_blocks nb (repeatN x n))).
  Proof.
    intros Hx Hn. unfold vb_block_with_fill, vec_fill. rewrite alloc_ok by exact Hn. cbn [bind].
    destruct (set_len_from_blocks_ok c nb k Hc Hnb Hk 0 (repeatN x n)) as [v' [H1 H2]].
    - now apply Forall_repeatN.
    - now rewrite lengthN_repeatN.
    - exists v'. split; [exact H1|]. now rewrite lengthN_repeatN in H2.
  Qed.
  Lemma vb_block_with_fill_full n x : max_bits c < n * nb -> panics (vb_block_with_fill c nb k n x).
  Proof.
    intros H. unfold vb_block_with_fill, vec_fill. rewrite alloc_fail by exact H. cbn [bind]. auto.
  Qed.

  (** The number of blocks for [n] elements: representable or not; in the last [nb - 1] values it
      wraps to zero without overflow checks. *)
  Lemma len_to_block_len_ok n : n * k + nb <= 2 ^ 64 ->
    len_to_block_len c nb k n = Ok (to_usize c (blocks_for nb (n * k))).
  Proof.
    intros H. unfold len_to_block_len, checked_mul.
    destruct (n * k <? 2 ^ 64) eqn:E; [|lia]. rewrite checked_ceil_div_nbits_ok; auto. lia.
  Qed.
  Lemma len_to_block_len_big n : 2 ^ 64 <= n * k -> len_to_block_len c nb k n = Ok None.
  Proof.
    intros H. unfold len_to_block_len, checked_mul. destruct (n * k <? 2 ^ 64) eqn:E; [lia|]. reflexivity.
  Qed.
End VectorBase.

Lemma checked_ceil_div_nbits_wrap c nb i : wf_cfg c -> wf_nb nb -> i < 2 ^ 64 -> 2 ^ 64 < i + nb ->
  checked_ceil_div_nbits c nb i = if debug c then Panic POverflow else Ok (Some 0).
Proof.
  intros Hc Hnb Hi H. pose proof (wf_nb_range nb Hnb). unfold checked_ceil_div_nbits.
  rewrite wsub_ok by lia. cbn [bind]. unfold wadd, wrap.
  destruct (i + (nb - 1) <? 2 ^ 64) eqn:E; [lia|]. destruct (debug c); [reflexivity|]. cbn [bind].
  replace ((i + (nb - 1)) mod 2 ^ 64) with (i + (nb - 1) - 2 ^ 64).
  - rewrite checked_div_nbits_ok by assumption. rewrite N.div_small by lia.
    unfold to_usize. pose proof (wf_ptr c Hc). destruct (0 <? 2 ^ ptr c) eqn:E2; [reflexivity|lia].
  - replace (i + (nb - 1)) with (i + (nb - 1) - 2 ^ 64 + 1 * 2 ^ 64) at 2 by lia.
    rewrite N.mod_add, N.mod_small; lia.
Qed.
