(** * Proofs about [Rank9]. *)
From Verif Require Import Machine MStorage MTraits MRank SpecBits SpecLaws SpecRank
  PBase PStorage PBits PBlocks PRank.

(** ** The packed counters *)
Definition field (x t : N) : N := N.land (N.shiftr x (9 * (t - 1))) 0x1FF.

Lemma cases8 t : t < 8 -> t = 0 \/ t = 1 \/ t = 2 \/ t = 3 \/ t = 4 \/ t = 5 \/ t = 6 \/ t = 7.
Proof. lia. Qed.
Lemma level2_shift_ok c t : wf_cfg c -> t < 8 -> level2_shift c t = Ok (if t =? 0 then 63 else 9 * (t - 1)).
Proof.
  intros Hc Ht. destruct c as [d p]. unfold wf_cfg, level2_shift in *. cbn [ptr] in *.
  destruct Hc as [-> | ->]; destruct (cases8 t Ht) as [->|[->|[->|[->|[->|[->|[->| ->]]]]]]]; reflexivity.
Qed.
Lemma testbit_511 i : N.testbit 0x1FF i = (i <? 9).
Proof. change 0x1FF with (N.ones 9). apply testbit_ones. Qed.
Lemma testbit_field x t i : N.testbit (field x t) i = N.testbit x (9 * (t - 1) + i) && (i <? 9).
Proof. unfold field. rewrite N.land_spec, N.shiftr_spec', testbit_511. do 2 f_equal. lia. Qed.

Lemma level2_get_ok c x t : wf_cfg c -> x < 2 ^ 63 -> t < 8 ->
  level2_get c x t = Ok (if t =? 0 then 0 else field x t).
Proof.
  intros Hc Hx Ht. unfold level2_get. rewrite debug_assert_true by lia. cbn [bind].
  rewrite level2_shift_ok by auto. cbn [bind]. destruct (t =? 0) eqn:E.
  - rewrite wshr_ok by lia. cbn [bind]. rewrite N.shiftr_div_pow2, N.div_small by exact Hx. reflexivity.
  - rewrite wshr_ok by lia. reflexivity.
Qed.
Lemma level2_set_ok c x t v : wf_cfg c -> x < 2 ^ 63 -> 1 <= t -> t < 8 -> v < 512 ->
  exists x', level2_set c x t v = Ok x' /\ x' < 2 ^ 63 /\
    forall t', 1 <= t' -> t' < 8 -> field x' t' = if t' =? t then v else field x t'.
Proof.
  intros Hc Hx H1 Ht Hv. unfold level2_set. rewrite debug_assert_true by lia. cbn [bind].
  rewrite level2_shift_ok by auto. cbn [bind]. destruct (t =? 0) eqn:E; [lia|].
  rewrite !wshl_ok by lia. cbn [bind]. eexists. split; [reflexivity|].
  set (s := 9 * (t - 1)).
  assert (Eb : forall i, N.testbit (N.lor (N.land x (wnot 64 (N.shiftl 511 s mod 2 ^ 64)))
      (N.shiftl (N.land v 511) s mod 2 ^ 64)) i =
      if (s <=? i) && (i <? s + 9) then N.testbit v (i - s) else N.testbit x i).
  { intros i. rewrite N.lor_spec, N.land_spec. unfold wnot. rewrite testbit_lnot, !testbit_shiftl_mod, N.land_spec, !testbit_511.
    destruct (N.lt_ge_cases i 63) as [Hi|Hi].
    - destruct (i <? 64) eqn:E1; [|lia]. destruct (s <=? i) eqn:E2; cbn [andb negb].
      + destruct (i - s <? 9) eqn:E3, (i <? s + 9) eqn:E4; try lia; cbn [andb negb].
        * rewrite andb_false_r. cbn [orb]. now rewrite andb_true_r.
        * rewrite andb_true_r, andb_false_r. apply orb_false_r.
      + rewrite andb_true_r. apply orb_false_r.
    - rewrite (testbit_small x 63 i Hx Hi). cbn [andb]. destruct ((s <=? i) && (i <? s + 9)) eqn:E2; [lia|].
      cbn [orb]. destruct (s <=? i) eqn:E3; cbn [andb]; [|now rewrite andb_false_r].
      destruct (i - s <? 9) eqn:E4; [lia|]. now rewrite !andb_false_r. }
  split.
  - apply bits_lt. intros i Hi. rewrite Eb. destruct ((s <=? i) && (i <? s + 9)) eqn:E2; [lia|]. now apply (testbit_small x 63).
  - intros t' Ht1 Ht2. apply N.bits_inj. intros i. rewrite testbit_field, Eb.
    destruct (t' =? t) eqn:E1.
    + destruct (i <? 9) eqn:E2.
      * destruct ((s <=? 9 * (t' - 1) + i) && (9 * (t' - 1) + i <? s + 9)) eqn:E3; [|lia].
        rewrite andb_true_r. f_equal. lia.
      * rewrite andb_false_r. symmetry. apply (testbit_small v 9); [exact Hv|lia].
    + rewrite testbit_field. destruct (i <? 9) eqn:E2; [|now rewrite !andb_false_r].
      destruct ((s <=? 9 * (t' - 1) + i) && (9 * (t' - 1) + i <? s + 9)) eqn:E3; [|reflexivity].
      exfalso. lia.
Qed.
Lemma field_0 t : field 0 t = 0.
Proof. unfold field. rewrite N.shiftr_0_l. reflexivity. Qed.

Section Rank9Proof.
  Context {T : Type} (c : cfg) (B : bitvec T) (R : T -> list bool -> Prop).
  Hypothesis Hc : wf_cfg c.
  Hypothesis LB : lawful_bits c B R.
  Hypothesis LK : lawful_block_reads B R.
  Hypothesis H64 : bv_nb B = 64.

  Definition ones_below (l : list bool) (j : N) : N := count true (firstnN j l).

  (** The counters of the words before word [i]. *)
  Definition cells_ok (l : list bool) (i : N) (cs : list cell) : Prop :=
    lengthN cs = blocks_for 8 i /\
    forall q cl, nthN cs q = Some cl ->
      level1 cl = ones_below l (q * 512) /\ level2 cl < 2 ^ 63 /\
      forall t, 1 <= t -> t < 8 -> q * 8 + t < i ->
        field (level2 cl) t = ones_below l ((q * 8 + t) * 64) - ones_below l (q * 512).

  Lemma store_counts_ok l i cs l2 : cells_ok l i cs ->
    l2 = (if i =? 0 then 0 else ones_below l (i * 64) - ones_below l ((i - 1) / 8 * 512)) ->
    exists cs', store_counts c i cs (ones_below l (i * 64)) l2 =
        Ok (cs', ones_below l (i * 64) - ones_below l (i / 8 * 512)) /\
      cells_ok l (i + 1) cs'.
  Proof.
    intros [Hlen Hcs] El2. unfold store_counts.
    set (q := i / 8) in *. assert (Hq : i = 8 * q + i mod 8) by (apply N.div_mod; lia).
    pose proof (N.mod_lt i 8 ltac:(lia)) as Hm. set (o := i mod 8) in *. clearbody q o.
    assert (Enext : blocks_for 8 (i + 1) = q + 1).
    { unfold blocks_for. replace (i + 1 + (8 - 1)) with (o + (q + 1) * 8) by lia. rewrite N.div_add, N.div_small by lia. lia. }
    destruct (o =? 0) eqn:E.
    - assert (Eq : blocks_for 8 i = q).
      { replace i with (q * 8) by lia. apply blocks_for_mul. lia. }
      rewrite Eq in Hlen. eexists. split.
      { f_equal. f_equal. replace (i * 64) with (q * 512) by lia. lia. }
      split; [rewrite lengthN_app, lengthN_cons, lengthN_nil, Enext; lia|].
      intros q' cl. rewrite nthN_app. destruct (q' <? lengthN cs) eqn:E1.
      + intros Hn. destruct (Hcs q' cl Hn) as (A1 & A2 & A3). repeat split; auto.
        intros t Ht1 Ht2 Ht3. apply A3; lia.
      + rewrite nthN_cons, nthN_nil. destruct (q' - lengthN cs =? 0) eqn:E2; [|discriminate].
        assert (q' = q) as -> by lia. intros [= <-]. cbn [level1 level2]. split; [f_equal; lia|]. split; [lia|].
        intros t Ht1 Ht2 Ht3. lia.
    - assert (Eq : blocks_for 8 i = q + 1).
      { unfold blocks_for. replace (i + (8 - 1)) with (o - 1 + (q + 1) * 8) by lia. rewrite N.div_add, N.div_small by lia. lia. }
      rewrite Eq in Hlen. destruct (nthN_Some cs q ltac:(lia)) as [cl Hcl].
      rewrite (index_Some _ _ _ Hcl). cbn [bind]. destruct (Hcs q cl Hcl) as (A1 & A2 & A3).
      destruct (i =? 0) eqn:E0; [lia|].
      assert (Ed : (i - 1) / 8 = q) by (symmetry; apply (N.div_unique _ _ _ (o - 1)); lia).
      rewrite Ed in El2.
      assert (Hdiff : l2 <= i * 64 - q * 512) by (rewrite El2; apply count_diff; lia).
      destruct (level2_set_ok c (level2 cl) o l2 Hc A2 ltac:(lia) Hm ltac:(lia)) as (x' & Ex & Hx & Hf).
      rewrite Ex. cbn [bind]. rewrite index_set_ok by lia. cbn [bind]. eexists. split; [rewrite El2; reflexivity|].
      split; [rewrite lengthN_updN, Enext; lia|].
      intros q' cl'. rewrite nthN_updN. destruct (q' =? q) eqn:E1.
      + assert (q' = q) as -> by lia. destruct (q <? lengthN cs) eqn:E2; [|lia].
        intros [= <-]. cbn [level1 level2]. split; [exact A1|]. split; [exact Hx|].
        intros t Ht1 Ht2 Ht3. rewrite Hf by auto. destruct (t =? o) eqn:E3.
        * rewrite El2. do 2 f_equal. lia.
        * apply A3; lia.
      + intros Hn. destruct (Hcs q' cl' Hn) as (B1 & B2 & B3). repeat split; auto.
        intros t Ht1 Ht2 Ht3. apply B3; auto. lia.
  Qed.

  Definition R9_rep (r : rank9 T) (l : list bool) : Prop :=
    R (r9_store r) l /\ cells_ok l (blocks_for 64 (lengthN l) + 1) (r9_counts r).

  Lemma rank9_new_ok t l : R t l -> exists r, rank9_new c B t = Ok r /\ r9_store r = t /\ R9_rep r l.
  Proof.
    intros HR. pose proof (lb_fits c B R LB _ _ HR) as Hf. rewrite H64 in Hf.
    pose proof (wf_ptr c Hc) as Hptr.
    assert (Hn64 : wf_nb 64) by (right; right; right; reflexivity).
    pose proof (fits_ptr c 64 _ Hc Hn64 Hf) as Hblp.
    assert (Hbl4 : 64 * blocks_for 64 (lengthN l) <= max_bits c) by (unfold fits in Hf; lia).
    pose proof (fits_lt64 c 64 _ ltac:(lia) Hf) as H63.
    assert (Hb32 : blocks_for 64 (lengthN l) + 8 < 2 ^ ptr c /\ 512 <= max_bits c).
    { unfold max_bits in Hbl4 |- *. destruct Hc as [E|E]; rewrite E in *.
      - change (32 =? 32) with true in *. cbv iota in *. lia.
      - change (64 =? 32) with false in *. cbv iota in *. lia. }
    unfold rank9_new. rewrite (lkr_block_len B R LK _ _ HR), H64. cbn [bind].
    set (bl := blocks_for 64 (lengthN l)) in *.
    rewrite ceil_div_ok by lia. cbn [bind].
    pose proof (blocks_for_spec 8 bl ltac:(lia)) as Hbb. set (bb := blocks_for 8 bl) in *.
    rewrite wadd_ok by lia. cbn [bind]. rewrite alloc_ok by lia. cbn [bind].
    match goal with |- context [for_range 0 bl ?body ?s0] =>
      destruct (for_range_ind (fun i (st : list cell * N * N) => let '(cs, l1, l2) := st in
        cells_ok l i cs /\ l1 = ones_below l (i * 64) /\
        l2 = (if i =? 0 then 0 else ones_below l (i * 64) - ones_below l ((i - 1) / 8 * 512))) body 0 bl s0)
        as [st' [Est Hinv]] end.
    { lia. }
    { cbn [N.eqb]. split; [|split; reflexivity]. split; [reflexivity|]. intros q cl Hq. discriminate. }
    { intros i [[cs l1] l2] Hi0 Hi (HC & E1 & E2). subst l1.
      destruct (store_counts_ok l i cs l2 HC E2) as [cs' [Es HC']]. rewrite Es. cbn [bind].
      assert (Hil : i * 64 < lengthN l) by (apply blocks_for_lt; [lia|exact Hi]).
      rewrite (lkr_get_block B R LK _ _ i HR) by (rewrite H64; exact Hil). cbn [bind]. rewrite H64, count_ones_block.
      assert (Enext : ones_below l (i * 64) + count true (sub (i * 64) 64 l) = ones_below l ((i + 1) * 64)).
      { unfold ones_below. replace ((i + 1) * 64) with (i * 64 + 64) by lia. now rewrite count_add. }
      pose proof (count_firstn_le true ((i + 1) * 64) l) as Hcl. fold (ones_below l ((i + 1) * 64)) in Hcl.
      rewrite wadd_ok by lia. cbn [bind]. rewrite wadd_ok by lia. cbn [bind]. eexists. split; [reflexivity|].
      split; [exact HC'|]. split; [exact Enext|]. destruct (i + 1 =? 0) eqn:E; [lia|].
      replace (i + 1 - 1) with i by lia. rewrite <- Enext.
      assert (ones_below l (i / 8 * 512) <= ones_below l (i * 64)).
      { apply count_mono. pose proof (N.mul_div_le i 8 ltac:(lia)). lia. }
      lia. }
    rewrite Est. destruct st' as [[cs l1] l2]. cbn [bind]. destruct Hinv as (HC & E1 & E2). subst l1.
    destruct (store_counts_ok l bl cs l2 HC E2) as [cs' [Es HC']]. rewrite Es. cbn [bind fst].
    eexists. split; [reflexivity|]. split; [reflexivity|]. split; [exact HR|exact HC'].
  Qed.

  Lemma rank9_rank1_words r l p : R9_rep r l -> p < blocks_for 64 (lengthN l) * 64 -> rank9_rank1 c B r p = Ok (rank_of true l p).
  Proof.
    intros [HR [Hlen Hcs]] Hp. pose proof (lb_fits c B R LB _ _ HR) as Hf. rewrite H64 in Hf.
    pose proof (wf_ptr c Hc) as Hptr.
    assert (Hn64 : wf_nb 64) by (right; right; right; reflexivity).
    pose proof (fits_ptr c 64 _ Hc Hn64 Hf) as Hblp.
    pose proof (fits_lt64 c 64 _ ltac:(lia) Hf) as H63.
    unfold rank9_rank1.
    assert (Hw : p / 64 < blocks_for 64 (lengthN l)).
    { apply N.div_lt_upper_bound; lia. }
    assert (Hwl : p / 64 * 64 < lengthN l) by (apply blocks_for_lt; [lia|exact Hw]).
    pose proof (blocks_for_spec 64 (lengthN l) ltac:(lia)) as Hbs.
    assert (E512 : p / 512 = p / 64 / 8) by (rewrite N.div_div by lia; reflexivity).
    set (bl := blocks_for 64 (lengthN l)) in *. set (wd := p / 64) in *.
    assert (Hpw : p = 64 * wd + p mod 64) by (apply N.div_mod; lia).
    pose proof (N.mod_lt p 64 ltac:(lia)) as Hmo. set (o := p mod 64) in *. clearbody wd o.
    rewrite E512. set (q := wd / 8) in *. assert (Hq : wd = 8 * q + wd mod 8) by (apply N.div_mod; lia).
    pose proof (N.mod_lt wd 8 ltac:(lia)) as Hmt.
    rewrite to_usize_small by lia. cbn [expect bind]. rewrite to_usize_small by lia. cbn [expect bind].
    set (t := wd mod 8) in *. clearbody q t.
    assert (Hb8 : q < blocks_for 8 (bl + 1)) by (apply blocks_for_lt; lia).
    destruct (nthN_Some (r9_counts r) q ltac:(lia)) as [cl Hcl].
    destruct (Hcs q cl Hcl) as (A1 & A2 & A3). rewrite (index_Some _ _ _ Hcl). cbn [bind].
    rewrite level2_get_ok by auto. cbn [bind].
    rewrite (lkr_get_block B R LK _ _ wd HR) by (rewrite H64; lia). cbn [bind]. rewrite H64. unfold block_of.
    rewrite prim_rank1_int_of by auto. cbn [bind]. rewrite A1.
    assert (Ew : (if t =? 0 then 0 else field (level2 cl) t) = ones_below l (wd * 64) - ones_below l (q * 512)).
    { destruct (t =? 0) eqn:E.
      - replace (wd * 64) with (q * 512) by lia. lia.
      - rewrite A3 by lia. do 2 f_equal. lia. }
    rewrite Ew.
    assert (Hmono : ones_below l (q * 512) <= ones_below l (wd * 64)) by (apply count_mono; lia).
    assert (E : ones_below l (wd * 64) + rank_of true (sub (wd * 64) 64 l) o = rank_of true l p).
    { unfold rank_of, ones_below. replace (p + 1) with (wd * 64 + (o + 1)) by lia. rewrite (count_add true (wd * 64) (o + 1)). do 2 f_equal.
      apply nthN_ext. intros i. rewrite nthN_firstnN, !nthN_sub. destruct (i <? o + 1) eqn:E1, (i <? 64) eqn:E2; try lia; reflexivity. }
    pose proof (rank_of_le true l p). clear - Hmono E H H63 Hp Hbs.
    rewrite wadd_ok by lia. cbn [bind]. rewrite wadd_ok by lia. f_equal. lia.
  Qed.
  Lemma rank9_rank1_ok r l p : R9_rep r l -> p < lengthN l -> rank9_rank1 c B r p = Ok (rank_of true l p).
  Proof. intros H Hp. apply rank9_rank1_words; [exact H|]. pose proof (blocks_for_spec 64 (lengthN l) ltac:(lia)). lia. Qed.

  Lemma rank9_lawful : lawful_rank (rank9_bitrank c B) R9_rep.
  Proof.
    apply mk_bitrank_lawful.
    - intros t l [HR _]. pose proof (lb_fits c B R LB _ _ HR) as Hf. rewrite H64 in Hf.
      pose proof (fits_lt64 c 64 _ ltac:(lia) Hf). lia.
    - intros t l [HR _]. apply (lb_bit_len c B R LB _ _ HR).
    - apply rank9_rank1_ok.
  Qed.

  (** Past the last word. *)
  Lemma rank9_rank1_oob r l p : lawful_blocks c B R -> R9_rep r l -> blocks_for 64 (lengthN l) * 64 <= p ->
    panics (rank9_rank1 c B r p).
  Proof.
    intros LKf [HR [Hlen Hcs]] Hp. pose proof (lb_fits c B R LB _ _ HR) as Hf. rewrite H64 in Hf.
    pose proof (blocks_for_spec 64 (lengthN l) ltac:(lia)) as Hbs.
    assert (Hw : blocks_for 64 (lengthN l) <= p / 64) by (apply N.div_le_lower_bound; lia).
    assert (E512 : p / 512 = p / 64 / 8) by (rewrite N.div_div by lia; reflexivity).
    unfold rank9_rank1. destruct (N.lt_ge_cases (p / 512) (2 ^ ptr c)) as [H1|H1];
      [rewrite to_usize_small by auto|rewrite to_usize_big by auto; apply panics_Panic].
    cbn [expect bind]. destruct (N.lt_ge_cases (p / 64) (2 ^ ptr c)) as [H2|H2];
      [rewrite to_usize_small by auto|rewrite to_usize_big by auto; apply panics_Panic].
    cbn [expect bind]. destruct (nthN (r9_counts r) (p / 512)) as [cl|] eqn:Hcl.
    - destruct (Hcs _ cl Hcl) as (A1 & A2 & A3). rewrite (index_Some _ _ _ Hcl). cbn [bind].
      rewrite level2_get_ok by (auto; apply N.mod_lt; lia). cbn [bind]. apply bind_panics.
      apply (lk_get_block_oob c B R LKf _ l); auto. rewrite H64. lia.
    - unfold index. rewrite Hcl. apply panics_Panic.
  Qed.
End Rank9Proof.
