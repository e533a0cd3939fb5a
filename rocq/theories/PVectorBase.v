(** * [VectorBase]: every operation as an operation on the sequence of bits.
    The representation is a function of the bits: [vb_vec] is the packed sequence. *)
From Verif Require Export PBits PBlocks PDefaults MVectorBase.

(** [l] padded with zeros to a whole number of blocks. *)
Definition full (nb : N) (l : list bool) : list bool := fit (blocks_for nb (lengthN l) * nb) false l.

Lemma lengthN_full nb l : lengthN (full nb l) = blocks_for nb (lengthN l) * nb.
Proof. apply lengthN_fit. Qed.
Lemma bit_at_full nb l i : 0 < nb -> bit_at (full nb l) i = bit_at l i.
Proof.
  intros H. unfold full. rewrite bit_at_fit. pose proof (blocks_for_spec nb (lengthN l) H).
  destruct (i <? lengthN l) eqn:E1.
  - destruct (i <? blocks_for nb (lengthN l) * nb) eqn:E2; [reflexivity|lia].
  - rewrite bit_at_oob by lia. apply andb_false_r.
Qed.
Lemma pack_ext nb l l' : 0 < nb -> blocks_for nb (lengthN l) = blocks_for nb (lengthN l') ->
  (forall i, bit_at l i = bit_at l' i) -> pack nb l = pack nb l'.
Proof.
  intros Hnb Hl H. apply pack_unique; [assumption|now rewrite lengthN_pack|].
  intros i b. rewrite nthN_pack. destruct (_ <? _); [|discriminate]. intros [= <-].
  split; [apply block_of_lt|]. intros j Hj. rewrite testbit_block_of.
  destruct (j <? nb) eqn:E; [apply H|lia].
Qed.
Lemma pack_full nb l : 0 < nb -> pack nb (full nb l) = pack nb l.
Proof.
  intros H. apply pack_ext; [assumption| |intros; now apply bit_at_full].
  rewrite lengthN_full. now apply blocks_for_mul.
Qed.
Lemma R_blocks_pack c nb l : 0 < nb -> fits c nb (lengthN l) -> R_blocks c nb (pack nb l) (full nb l).
Proof.
  intros H Hf. unfold R_blocks. rewrite pack_full, lengthN_full by assumption. repeat split.
  - apply N.mod_mul. lia.
  - unfold fits. rewrite blocks_for_mul by assumption. exact Hf.
Qed.
Lemma sub_full nb l s n : 0 < nb -> s + n <= lengthN l -> sub s n (full nb l) = sub s n l.
Proof.
  intros H Hn. pose proof (blocks_for_spec nb (lengthN l) H).
  apply list_bit_ext; [rewrite !lengthN_sub, lengthN_full; lia|].
  intros i _. rewrite !bit_at_sub, bit_at_full by assumption. reflexivity.
Qed.
Lemma pack_inj nb l l' : 0 < nb -> lengthN l = lengthN l' -> pack nb l = pack nb l' -> l = l'.
Proof.
  intros Hnb Hl E. assert (E2 : full nb l = full nb l').
  { unfold full. rewrite <- !bits_of_blocks_pack by assumption. now rewrite E. }
  apply list_bit_ext; [assumption|]. intros i _. rewrite <- (bit_at_full nb l), <- (bit_at_full nb l') by assumption.
  now rewrite E2.
Qed.

Lemma map_last_snoc l x f : map_last (l ++ [x]) f = l ++ [f x].
Proof. unfold map_last. rewrite rev_app_distr. cbn [rev app]. now rewrite rev_involutive. Qed.
Lemma lengthN_snoc {A} (l : list A) x : lengthN (l ++ [x]) = lengthN l + 1.
Proof. now rewrite lengthN_app, lengthN_cons, lengthN_nil. Qed.
Lemma nthN_snoc {A} (l : list A) x i :
  nthN (l ++ [x]) i = if i <? lengthN l then nthN l i else if i =? lengthN l then Some x else None.
Proof.
  rewrite nthN_app, nthN_cons, nthN_nil. destruct (i <? lengthN l) eqn:E; [reflexivity|].
  destruct (i - lengthN l =? 0) eqn:E1, (i =? lengthN l) eqn:E2; try reflexivity; lia.
Qed.
Lemma last_bits nb n : 0 < nb -> 0 < n ->
  (blocks_for nb n - 1) * nb + (if n mod nb =? 0 then nb else n mod nb) = n.
Proof.
  intros H Hn. unfold blocks_for. pose proof (N.div_mod n nb ltac:(lia)) as E. pose proof (N.mod_lt n nb ltac:(lia)) as Hr.
  set (q := n / nb) in *. set (r := n mod nb) in *. clearbody q r.
  destruct (r =? 0) eqn:Er.
  - assert (r = 0) as -> by lia. subst n. replace (nb * q + 0 + (nb - 1)) with (nb - 1 + q * nb) by lia.
    rewrite N.div_add, N.div_small by lia. assert (0 < q) by nia.
    replace (0 + q - 1) with (q - 1) by lia. rewrite N.mul_sub_distr_r. nia.
  - subst n. replace (nb * q + r + (nb - 1)) with (r - 1 + (q + 1) * nb) by lia.
    rewrite N.div_add, N.div_small by lia. replace (0 + (q + 1) - 1) with q by lia. lia.
Qed.
Lemma lengthN_bits_of_blocks_firstn nb n v : lengthN (firstnN n (bits_of_blocks nb v)) = N.min n (lengthN v * nb).
Proof. now rewrite lengthN_firstnN, lengthN_bits_of_blocks. Qed.

Lemma wf_k_lt nb k : wf_nb nb -> k <= nb -> k < 2 ^ 32.
Proof. intros H H1. pose proof (wf_nb_range nb H). lia. Qed.

Section VectorBase.
  Variables (c : cfg) (nb k : N).
  Hypothesis Hc : wf_cfg c.
  Hypothesis Hnb : wf_nb nb.
  Hypothesis Hk : 1 <= k <= nb.
  Let nb_range := wf_nb_range nb Hnb.
  Let ptr_range := wf_ptr c Hc.
  Let nb_pos := wf_nb_pos nb Hnb.

  (** [v] holds the bits [l]. *)
  Definition Vrep (v : vbase) (l : list bool) : Prop :=
    vb_vec v = pack nb l /\ vb_len v * k = lengthN l /\ fits c nb (lengthN l).

  Lemma Vrep_inj v l l' : Vrep v l -> Vrep v l' -> l = l'.
  Proof. intros [H1 [H2 _]] [H3 [H4 _]]. apply (pack_inj nb); [lia|lia|congruence]. Qed.
  Lemma Vrep_fun v v' l : Vrep v l -> Vrep v' l -> v = v'.
  Proof.
    intros [H1 [H2 _]] [H3 [H4 _]]. destruct v, v'. cbn in *. f_equal; [nia|congruence].
  Qed.
  Lemma Vrep_len v l : Vrep v l -> vb_len v = lengthN l / k.
  Proof. intros [_ [H _]]. rewrite <- H. now rewrite N.div_mul by lia. Qed.
  Lemma fits63 (l : list bool) : fits c nb (lengthN l) -> lengthN l <= 2 ^ 63.
  Proof. apply fits_lt64. lia. Qed.
  Lemma fitsp (l : list bool) : fits c nb (lengthN l) -> blocks_for nb (lengthN l) < 2 ^ ptr c.
  Proof. now apply fits_ptr. Qed.

  (** *** clear_extra_bits, set_len_from_blocks *)
  Lemma clear_extra_bits_ok len v : Forall (fun b => b < 2 ^ nb) v ->
    lengthN v = blocks_for nb (len * k) -> lengthN v * nb <= max_bits c ->
    clear_extra_bits c nb k {| vb_len := len; vb_vec := v |} =
      Ok {| vb_len := len; vb_vec := pack nb (firstnN (len * k) (bits_of_blocks nb v)) |}.
  Proof.
    intros Hv Hl Hm. unfold clear_extra_bits. cbn [vb_len vb_vec].
    pose proof (max_bits_lt c). pose proof (blocks_for_spec nb (len * k) nb_pos) as Hb. rewrite <- Hl in Hb.
    rewrite wmul_ok by lia. cbn [bind].
    destruct (list_eq_dec N.eq_dec v []) as [E|E].
    - subst v. change (bits_of_blocks nb []) with (@nil bool).
      unfold firstnN. rewrite firstn_nil, pack_nil by assumption. reflexivity.
    - destruct (app_snoc_inv v E) as [v0 [x Ev]]. destruct v as [|y v1]; [contradiction|].
      rewrite last_block_bits_ok by assumption. cbn [bind].
      assert (Hlb : (if (len * k) mod nb =? 0 then nb else (len * k) mod nb) <= nb).
      { destruct (_ =? 0); [lia|]. pose proof (N.mod_lt (len * k) nb). lia. }
      rewrite low_mask_ok by assumption. cbn [bind]. do 2 f_equal.
      rewrite Ev in *. rewrite lengthN_snoc in *. rewrite map_last_snoc.
      apply pack_unique; [assumption| |].
      + rewrite lengthN_snoc, lengthN_bits_of_blocks_firstn, lengthN_snoc.
        rewrite N.min_l by lia. exact Hl.
      + assert (Hpos : 0 < len * k).
        { destruct (N.eq_dec (len * k) 0) as [E0|E0]; [|lia]. rewrite E0, blocks_for_0 in Hl by lia. lia. }
        pose proof (last_bits nb (len * k) nb_pos Hpos) as Hlast. rewrite <- Hl in Hlast.
        replace (lengthN v0 + 1 - 1) with (lengthN v0) in Hlast by lia.
        set (lb := if (len * k) mod nb =? 0 then nb else (len * k) mod nb) in *. clearbody lb.
        intros i b. rewrite nthN_snoc. rewrite Forall_nthN in Hv.
        assert (Hx : x < 2 ^ nb).
        { apply (Hv (lengthN v0)). rewrite nthN_snoc, N.ltb_irrefl, N.eqb_refl. reflexivity. }
        destruct (i <? lengthN v0) eqn:E1.
        * intros Hi. split; [apply (Hv i); rewrite nthN_snoc, E1; exact Hi|].
          intros j Hj. rewrite bit_at_firstnN.
          rewrite (bit_at_bits_of_blocks nb (v0 ++ [x]) i j b); [|assumption|assumption|rewrite nthN_snoc, E1; exact Hi].
          destruct (i * nb + j <? len * k) eqn:E2; [reflexivity|]. nia.
        * destruct (i =? lengthN v0) eqn:E2; [|discriminate]. intros [= <-].
          assert (i = lengthN v0) as -> by lia. split.
          -- apply bits_lt. intros j Hj. rewrite N.land_spec, (testbit_small x nb) by assumption. reflexivity.
          -- intros j Hj. rewrite bit_at_firstnN.
             rewrite (bit_at_bits_of_blocks nb (v0 ++ [x]) (lengthN v0) j x);
               [|assumption|assumption|rewrite nthN_snoc, E1, E2; reflexivity].
             rewrite N.land_spec, testbit_ones, andb_comm. f_equal. lia.
  Qed.

  Lemma set_len_from_blocks_ok len v : Forall (fun b => b < 2 ^ nb) v -> lengthN v * nb <= max_bits c ->
    exists v', set_len_from_blocks c nb k {| vb_len := len; vb_vec := v |} = Ok v' /\
      Vrep v' (firstnN (lengthN v * nb / k * k) (bits_of_blocks nb v)).
  Proof.
    intros Hv Hm. pose proof (max_bits_lt c). unfold set_len_from_blocks. cbn [vb_vec].
    rewrite mul_nbits_ok by (auto; lia). cbn [bind]. rewrite wdiv_ok by lia. cbn [bind].
    set (q := lengthN v * nb / k).
    assert (Hq : q * k <= lengthN v * nb < q * k + k).
    { unfold q. pose proof (N.div_mod (lengthN v * nb) k ltac:(lia)).
      pose proof (N.mod_lt (lengthN v * nb) k ltac:(lia)). lia. }
    clearbody q.
    assert (Hbl : blocks_for nb (q * k) = lengthN v).
    { pose proof (blocks_for_spec nb (q * k) nb_pos). nia. }
    rewrite clear_extra_bits_ok by auto. eexists; split; [reflexivity|].
    unfold Vrep. cbn [vb_len vb_vec]. rewrite lengthN_bits_of_blocks_firstn, N.min_l by lia.
    split; [reflexivity|]. split; [reflexivity|]. unfold fits. rewrite Hbl. lia.
  Qed.

  (** *** Reads *)
  Lemma vb_bits64 v l : Vrep v l -> wmul c 64 (vb_len v) k = Ok (lengthN l).
  Proof. intros [_ [H1 H2]]. apply fits63 in H2. rewrite wmul_ok by lia. now rewrite H1. Qed.

  Lemma vb_get_bits_ok v l s n : Vrep v l -> s + n <= lengthN l -> n <= nb ->
    (1 <= n \/ s < lengthN l \/ s mod nb <> 0) ->
    vb_get_bits c nb k v s n = Ok (int_of (sub s n l)).
  Proof.
    intros HV H1 H2 H3. unfold vb_get_bits. pose proof HV as [E [El Hf]]. pose proof (fits63 l Hf).
    rewrite wadd_ok by lia. cbn [bind]. rewrite (vb_bits64 v l HV). cbn [bind].
    rewrite assert_true by lia. cbn [bind]. rewrite E.
    pose proof (blocks_for_spec nb (lengthN l) nb_pos).
    rewrite (blocks_get_bits_ok c nb Hc Hnb _ (full nb l) s n); [now rewrite sub_full by lia| | | |].
    - now apply R_blocks_pack.
    - rewrite lengthN_full. lia.
    - assumption.
    - rewrite lengthN_full. lia.
  Qed.
  Lemma vb_get_bits_oob v l s n : Vrep v l -> lengthN l < s + n -> s < 2 ^ 64 -> n < 2 ^ ptr c ->
    panics (vb_get_bits c nb k v s n).
  Proof.
    intros HV H1 H2 H3. unfold vb_get_bits. pose proof HV as [E [El Hf]]. pose proof (fits63 l Hf).
    destruct (wadd_cases c 64 s n H2 ltac:(lia)) as [Ea|[p Ea]]; rewrite Ea; cbn [bind]; [|auto].
    rewrite (vb_bits64 v l HV). cbn [bind].
    destruct (_ <=? lengthN l) eqn:E1; cbn [assert_ bind]; [|auto]. rewrite E.
    apply (blocks_get_bits_oob c nb Hc Hnb _ (full nb l)); auto; [now apply R_blocks_pack|].
    rewrite lengthN_full. pose proof (blocks_for_spec nb (lengthN l) nb_pos).
    destruct (N.lt_ge_cases (s + n) (2 ^ 64)) as [Hw|Hw]; [|lia].
    rewrite N.mod_small in E1 by assumption. lia.
  Qed.
  Lemma vb_get_block_ok v l i : Vrep v l -> i * nb < lengthN l -> vb_get_block v i = Ok (block_of nb i l).
  Proof. intros [E _] H. unfold vb_get_block. rewrite E. now apply pack_get_block. Qed.
  Lemma vb_get_block_oob v l i : Vrep v l -> lengthN l <= i * nb -> panics (vb_get_block v i).
  Proof. intros [E _] H. unfold vb_get_block. rewrite E, pack_get_block_oob by assumption. auto. Qed.

  (** *** Writes *)
  Lemma pack_put s x l : s + lengthN x <= lengthN l -> pack nb (put s x (full nb l)) = pack nb (put s x l).
  Proof.
    intros H. pose proof (blocks_for_spec nb (lengthN l) nb_pos) as Hb.
    apply pack_ext; [lia| |].
    - rewrite !lengthN_put, lengthN_full by (rewrite ?lengthN_full; lia). apply blocks_for_mul. lia.
    - intros i. rewrite !bit_at_put by (rewrite ?lengthN_full; lia). now rewrite bit_at_full by lia.
  Qed.
  Lemma vb_set_bits_ok v l s n x : Vrep v l -> s + n <= lengthN l -> n <= nb -> x < 2 ^ nb ->
    (1 <= n \/ s < lengthN l \/ s mod nb <> 0) ->
    exists v', vb_set_bits c nb k v s n x = Ok v' /\ Vrep v' (put s (bits_of n x) l) /\ vb_len v' = vb_len v.
  Proof.
    intros HV H1 H2 Hx H3. unfold vb_set_bits. pose proof HV as [E [El Hf]]. pose proof (fits63 l Hf).
    rewrite wadd_ok by lia. cbn [bind]. rewrite (vb_bits64 v l HV). cbn [bind].
    rewrite assert_true by lia. cbn [bind]. rewrite E.
    pose proof (blocks_for_spec nb (lengthN l) nb_pos).
    destruct (blocks_set_bits_ok c nb Hc Hnb (pack nb l) (full nb l) s n x) as [v' [H4 [H5 _]]];
      rewrite ?lengthN_full; try lia; [now apply R_blocks_pack|].
    rewrite H4. cbn [bind]. eexists; split; [reflexivity|].
    unfold Vrep. cbn [vb_vec vb_len].
    assert (s + lengthN (bits_of n x) <= lengthN l) by (rewrite lengthN_bits_of; lia).
    rewrite lengthN_put by assumption. rewrite H5, pack_put by assumption. auto.
  Qed.
  Lemma vb_set_bits_oob v l s n x : Vrep v l -> lengthN l < s + n -> s < 2 ^ 64 -> n < 2 ^ ptr c ->
    panics (vb_set_bits c nb k v s n x).
  Proof.
    intros HV H1 H2 H3. unfold vb_set_bits. pose proof HV as [E [El Hf]]. pose proof (fits63 l Hf).
    destruct (wadd_cases c 64 s n H2 ltac:(lia)) as [Ea|[p Ea]]; rewrite Ea; cbn [bind]; [|auto].
    rewrite (vb_bits64 v l HV). cbn [bind].
    destruct (_ <=? lengthN l) eqn:E1; cbn [assert_ bind]; [|auto]. rewrite E.
    apply bind_panics.
    apply (blocks_set_bits_oob c nb Hc Hnb _ (full nb l)); auto; [now apply R_blocks_pack|].
    rewrite lengthN_full. pose proof (blocks_for_spec nb (lengthN l) nb_pos).
    destruct (N.lt_ge_cases (s + n) (2 ^ 64)) as [Hw|Hw]; [|lia].
    rewrite N.mod_small in E1 by assumption. lia.
  Qed.

  Lemma vb_set_block_ok v l i x : Vrep v l -> i * nb < lengthN l -> x < 2 ^ nb ->
    exists v', vb_set_block c nb k v i x = Ok v' /\ Vrep v' (set_block_of nb i x l).
  Proof.
    intros HV Hi Hx. unfold vb_set_block. pose proof HV as [E [El Hf]]. pose proof (fits63 l Hf).
    pose proof (fitsp l Hf) as Hp.
    assert (Hi' : i < blocks_for nb (lengthN l)) by (apply blocks_for_lt; lia).
    rewrite E, index_set_ok by now rewrite lengthN_pack. cbn [bind].
    rewrite wadd_ok by lia. cbn [bind]. rewrite lengthN_updN, lengthN_pack.
    assert (Hall : Forall (fun b => b < 2 ^ nb) (updN (pack nb l) i x)).
    { apply Forall_nthN. intros j b. rewrite nthN_updN. destruct (j =? i).
      - destruct (_ <? _); [|discriminate]. now intros [= <-].
      - intros Hb. exact (proj1 (Forall_nthN _ _) (pack_lt nb l) j b Hb). }
    pose proof (blocks_for_spec nb (lengthN l) nb_pos) as Hb.
    destruct (i + 1 =? blocks_for nb (lengthN l)) eqn:Elast.
    - rewrite clear_extra_bits_ok; [|assumption| |].
      + eexists; split; [reflexivity|]. unfold Vrep. cbn [vb_len vb_vec].
        rewrite lengthN_set_block_of by lia. split; [|auto].
        rewrite El.
        apply pack_ext; [lia| |].
        * rewrite lengthN_bits_of_blocks_firstn, lengthN_updN, lengthN_pack, lengthN_set_block_of by lia.
          rewrite N.min_l by lia. reflexivity.
        * intros j. rewrite bit_at_firstnN, bit_at_set_block_of by lia.
          destruct (j <? lengthN l) eqn:Ej; cbn [andb].
          2:{ destruct ((i * nb <=? j) && (j <? i * nb + nb)) eqn:E2.
              - reflexivity.
              - rewrite bit_at_oob by lia. reflexivity. }
          pose proof (N.div_mod j nb ltac:(lia)) as Ed. pose proof (N.mod_lt j nb ltac:(lia)) as Hr.
          assert (Hjq : j / nb < blocks_for nb (lengthN l)) by (apply blocks_for_lt; nia).
          set (q := j / nb) in *. set (r := j mod nb) in *. clearbody q r.
          rewrite Ed, (N.mul_comm nb q).
          destruct (N.eq_dec q i) as [->|Hne].
          -- rewrite (bit_at_bits_of_blocks nb _ i r x); [|lia|lia|].
             2:{ rewrite nthN_updN, N.eqb_refl, lengthN_pack. destruct (i <? _) eqn:E3; [reflexivity|lia]. }
             destruct ((i * nb <=? i * nb + r) && (i * nb + r <? i * nb + nb)) eqn:E2; [|lia].
             replace (i * nb + r - i * nb) with r by lia. reflexivity.
          -- rewrite (bit_at_bits_of_blocks nb _ q r (block_of nb q l)); [|lia|lia|].
             2:{ rewrite nthN_updN. destruct (q =? i) eqn:E3; [lia|]. rewrite nthN_pack.
                 destruct (q <? _) eqn:E4; [reflexivity|lia]. }
             rewrite testbit_block_of. destruct (r <? nb) eqn:E5; [|lia].
             destruct ((i * nb <=? q * nb + r) && (q * nb + r <? i * nb + nb)) eqn:E2; [nia|reflexivity].
      + rewrite lengthN_updN, lengthN_pack. now rewrite El.
      + rewrite lengthN_updN, lengthN_pack. exact Hf.
    - eexists; split; [reflexivity|]. unfold Vrep. cbn [vb_len vb_vec].
      rewrite lengthN_set_block_of by lia. split; [|auto].
      apply pack_upd; auto. intros Hl. exfalso.
      assert (i + 1 < blocks_for nb (lengthN l)) as H1 by lia. apply blocks_for_lt in H1; lia.
  Qed.
  Lemma vb_set_block_oob v l i x : Vrep v l -> lengthN l <= i * nb -> panics (vb_set_block c nb k v i x).
  Proof.
    intros [E _] H. unfold vb_set_block. apply bind_panics. rewrite E, index_set_oob; [auto|].
    rewrite lengthN_pack. destruct (N.le_gt_cases (blocks_for nb (lengthN l)) i) as [H1|H1]; [exact H1|].
    apply blocks_for_lt in H1; lia.
  Qed.
End VectorBase.
