(** * The default methods built on [get_bit]/[set_bit]/[push_bit]: get_block, set_block,
    align_block, push_block.  Instances: [Vec<bool>] and the primitive integers. *)
From Verif Require Export PBits SpecLaws PBlocks.

Lemma testbit_pow2_mod j nb i : N.testbit (2 ^ j mod 2 ^ nb) i = (i <? nb) && (i =? j).
Proof.
  destruct (i <? nb) eqn:E.
  - rewrite N.mod_pow2_bits_low by lia. rewrite N.pow2_bits_eqb, N.eqb_sym. reflexivity.
  - rewrite N.mod_pow2_bits_high by lia. reflexivity.
Qed.

Lemma def_get_block {T} c nb (bit_len block_len : T -> res N) (get_bit : T -> N -> res bool) (t : T) (l : list bool) i :
  wf_cfg c -> wf_nb nb -> lengthN l <= 2 ^ 63 ->
  bit_len t = Ok (lengthN l) -> block_len t = Ok (blocks_for nb (lengthN l)) ->
  (forall j, j < lengthN l -> get_bit t j = Ok (bit_at l j)) ->
  i * nb < lengthN l ->
  default_get_block c nb bit_len block_len get_bit t i = Ok (block_of nb i l).
Proof.
  intros Hc Hnb Hl Hlen Hbl Hget Hi. pose proof (wf_nb_range nb Hnb) as nb_range.
  unfold default_get_block. rewrite Hbl. cbn [bind].
  pose proof Hi as Hi'. apply (blocks_for_lt nb) in Hi'; [|lia].
  rewrite assert_true by lia. cbn [bind]. rewrite wmul_ok by lia. cbn [bind].
  match goal with |- context [for_range 0 nb ?b ?s] =>
    destruct (for_range_ind (fun j st => st = (int_of (sub (i * nb) j l), 2 ^ j mod 2 ^ nb)) b 0 nb s)
      as [s' [E1 E2]] end.
  - lia.
  - f_equal. rewrite N.mod_small; [reflexivity|]. apply N.pow_lt_mono_r; lia.
  - intros j st _ Hj ->. cbn beta iota. rewrite wadd_ok by lia. cbn [bind]. rewrite Hlen. cbn [bind].
    assert (Eb : (if i * nb + j <? lengthN l then get_bit t (i * nb + j) else Ok false)
                 = Ok (bit_at l (i * nb + j))).
    { destruct (i * nb + j <? lengthN l) eqn:E; [apply Hget; lia|]. rewrite bit_at_oob by lia. reflexivity. }
    rewrite Eb. cbn [bind]. rewrite wshl_ok by lia. cbn [bind]. eexists; split; [reflexivity|].
    f_equal.
    + apply N.bits_inj. intros m. rewrite testbit_int_of, bit_at_sub.
      destruct (bit_at l (i * nb + j)) eqn:Ebit; rewrite ?N.lor_spec, testbit_int_of, bit_at_sub, ?testbit_pow2_mod.
      * destruct (m =? j) eqn:Em.
        -- apply N.eqb_eq in Em. subst m. rewrite Ebit.
           destruct (j <? nb) eqn:?, (j <? j + 1) eqn:?, (j <? j) eqn:?; try lia; reflexivity.
        -- rewrite andb_false_r, orb_false_r. f_equal. lia.
      * destruct (m =? j) eqn:Em.
        -- apply N.eqb_eq in Em. subst m. rewrite Ebit, !andb_false_r. reflexivity.
        -- f_equal. lia.
    + apply N.bits_inj. intros m. rewrite testbit_shiftl_mod, !testbit_pow2_mod.
      destruct (m <? nb) eqn:?, (1 <=? m) eqn:?, (m - 1 =? j) eqn:?, (m - 1 <? nb) eqn:?, (m =? j + 1) eqn:?;
        cbn [andb]; try lia; reflexivity.
  - rewrite E1. cbn [bind]. subst s'. reflexivity.
Qed.
Lemma def_get_block_oob {T} c nb (bit_len block_len : T -> res N) (get_bit : T -> N -> res bool) (t : T) (l : list bool) i :
  0 < nb -> block_len t = Ok (blocks_for nb (lengthN l)) -> lengthN l <= i * nb ->
  panics (default_get_block c nb bit_len block_len get_bit t i).
Proof.
  intros Hnb Hbl Hi. unfold default_get_block. rewrite Hbl. cbn [bind].
  rewrite assert_false; [cbn [bind]; auto|].
  destruct (i <? blocks_for nb (lengthN l)) eqn:E; [|reflexivity].
  apply N.ltb_lt in E. apply blocks_for_lt in E; lia.
Qed.

Lemma land_1 x : N.land x 1 = if N.testbit x 0 then 1 else 0.
Proof. destruct x as [|[p|p|]]; reflexivity. Qed.
Lemma low_bit x : negb (N.land x 1 =? 0) = N.testbit x 0.
Proof. rewrite land_1. destruct (N.testbit x 0); reflexivity. Qed.
Lemma wshr_1 c nb x j : 1 < nb -> wshr c nb (N.shiftr x j) 1 = Ok (N.shiftr x (j + 1)).
Proof. intros H. rewrite wshr_ok by lia. rewrite N.shiftr_shiftr. reflexivity. Qed.

Lemma put_snoc s x (l : list bool) b : s + lengthN x < lengthN l ->
  updN (put s x l) (s + lengthN x) b = put s (x ++ [b]) l.
Proof.
  intros H. apply list_bit_ext.
  - rewrite lengthN_updN, !lengthN_put by (rewrite ?lengthN_app, ?lengthN_cons, ?lengthN_nil; lia). reflexivity.
  - intros i Hi. rewrite bit_at_updN by (rewrite lengthN_put by lia; lia).
    rewrite !bit_at_put by (rewrite ?lengthN_app, ?lengthN_cons, ?lengthN_nil; lia).
    rewrite lengthN_app, lengthN_cons, lengthN_nil, bit_at_app.
    destruct (i =? s + lengthN x) eqn:E.
    + destruct ((s <=? i) && (i <? s + (lengthN x + (0 + 1)))) eqn:E1; [|lia].
      destruct (i - s <? lengthN x) eqn:E2; [lia|].
      replace (i - s - lengthN x) with 0 by lia. reflexivity.
    + destruct ((s <=? i) && (i <? s + lengthN x)) eqn:E1,
        ((s <=? i) && (i <? s + (lengthN x + (0 + 1)))) eqn:E2; try lia; [|reflexivity].
      destruct (i - s <? lengthN x) eqn:E3; [reflexivity|lia].
Qed.
Lemma bits_of_snoc n x : bits_of (n + 1) x = bits_of n x ++ [N.testbit x n].
Proof.
  apply nthN_ext. intros i. rewrite nthN_app, !nthN_bits_of, lengthN_bits_of, nthN_cons, nthN_nil.
  destruct (i <? n + 1) eqn:E1, (i <? n) eqn:E2, (i - n =? 0) eqn:E3; try lia; try reflexivity.
  replace i with n by lia. reflexivity.
Qed.
Lemma firstnN_bits_of n w x : n <= w -> firstnN n (bits_of w x) = bits_of n x.
Proof.
  intros H. apply nthN_ext. intros i. rewrite nthN_firstnN, !nthN_bits_of.
  destruct (i <? n) eqn:E1, (i <? w) eqn:E2; try lia; reflexivity.
Qed.
Lemma put_nil {A} s (l : list A) : s <= lengthN l -> put s [] l = l.
Proof. intros H. unfold put. rewrite lengthN_nil, N.add_0_r. apply firstn_skipnN. Qed.

Lemma def_set_block {T} c nb (bit_len block_len : T -> res N) (set_bit : T -> N -> bool -> res T)
    (R : T -> list bool -> Prop) (t : T) (l : list bool) i v :
  wf_cfg c -> wf_nb nb -> fits c nb (lengthN l) ->
  bit_len t = Ok (lengthN l) -> block_len t = Ok (blocks_for nb (lengthN l)) ->
  R t l ->
  (forall t' l' j b, R t' l' -> lengthN l' = lengthN l -> j < lengthN l ->
     exists t'', set_bit t' j b = Ok t'' /\ R t'' (updN l' j b)) ->
  i * nb < lengthN l ->
  exists t', default_set_block c nb bit_len block_len set_bit t i v = Ok t' /\ R t' (set_block_of nb i v l).
Proof.
  intros Hc Hnb Hf Hlen Hbl HR Hset Hi. pose proof (wf_nb_range nb Hnb) as nb_range.
  pose proof (fits_lt64 c nb (lengthN l) ltac:(lia) Hf) as len63.
  pose proof (fits_ptr c nb _ Hc Hnb Hf) as Hp.
  pose proof Hi as Hi'. apply (blocks_for_lt nb) in Hi'; [|lia].
  unfold default_set_block. rewrite wadd_ok by lia. cbn [bind]. rewrite Hbl. cbn [bind].
  set (limit := N.min nb (lengthN l - i * nb)).
  assert (El : (if i + 1 =? blocks_for nb (lengthN l)
     then bl <- bit_len t;; last_block_bits c nb bl else Ok nb) = Ok limit).
  { pose proof (blocks_for_spec nb (lengthN l) ltac:(lia)) as Hb.
    pose proof (N.div_mod (lengthN l) nb ltac:(lia)). pose proof (N.mod_lt (lengthN l) nb ltac:(lia)).
    rewrite Hlen. cbn [bind]. rewrite last_block_bits_ok by assumption.
    unfold limit. destruct (i + 1 =? blocks_for nb (lengthN l)) eqn:E.
    - f_equal. apply N.eqb_eq in E. rewrite <- E in Hb. rewrite <- E in Hi'.
      assert (lengthN l mod nb = 0 /\ lengthN l / nb = i + 1 \/ lengthN l mod nb > 0 /\ lengthN l / nb = i)
        as [[E1 E2]|[E1 E2]] by nia.
      + rewrite E1, E2 in H. rewrite E1, N.eqb_refl.
        assert (lengthN l - i * nb = nb) as -> by (rewrite H; lia). lia.
      + destruct (lengthN l mod nb =? 0) eqn:E3; [lia|]. rewrite E2 in H.
        assert (lengthN l - i * nb = lengthN l mod nb) as -> by (rewrite H at 1; lia). lia.
    - f_equal. assert (i + 1 < blocks_for nb (lengthN l)) as H1 by lia.
      apply blocks_for_lt in H1; lia. }
  rewrite El. cbn [bind]. clear El. rewrite mul_nbits_ok by (auto; lia). cbn [bind].
  assert (Hlim : limit <= nb /\ i * nb + limit <= lengthN l) by lia.
  match goal with |- context [for_range 0 limit ?b ?s] =>
    destruct (for_range_ind (fun j (st : T * N) =>
       R (fst st) (put (i * nb) (bits_of j v) l) /\ snd st = N.shiftr v j) b 0 limit s)
      as [s' [E1 E2]] end.
  - lia.
  - cbn [fst snd]. rewrite N.shiftr_0_r. split; [|reflexivity].
    change (bits_of 0 v) with (@nil bool). rewrite put_nil by lia. exact HR.
  - intros j [t1 v1] _ Hj [H1 H2]. cbn [fst snd] in H1, H2. subst v1.
    rewrite wadd_ok by lia. cbn [bind]. rewrite low_bit, N.shiftr_spec'. rewrite N.add_0_l.
    assert (Hpl : i * nb + lengthN (bits_of j v) <= lengthN l) by (rewrite lengthN_bits_of; lia).
    destruct (Hset t1 _ (i * nb + j) (N.testbit v j) H1) as [t2 [H3 H4]].
    { rewrite lengthN_put by assumption. reflexivity. }
    { lia. }
    rewrite H3. cbn [bind]. rewrite wshr_1 by lia. cbn [bind].
    eexists; split; [reflexivity|]. cbn [fst snd]. split; [|reflexivity].
    rewrite bits_of_snoc. rewrite <- put_snoc by (rewrite lengthN_bits_of; lia).
    rewrite lengthN_bits_of. exact H4.
  - rewrite E1. cbn [bind]. exists (fst s'). split; [reflexivity|].
    destruct E2 as [E2 _].
    replace (set_block_of nb i v l) with (put (i * nb) (bits_of limit v) l); [exact E2|].
    unfold set_block_of. f_equal. unfold limit.
    destruct (N.le_gt_cases nb (lengthN l - i * nb)) as [H|H].
    + rewrite firstnN_all by (rewrite lengthN_bits_of; lia). f_equal. lia.
    + rewrite firstnN_bits_of by lia. f_equal. lia.
Qed.
(** Out of bounds, when the bit position is representable. *)
Lemma def_set_block_oob {T} c nb (bit_len block_len : T -> res N) (set_bit : T -> N -> bool -> res T)
    (t : T) (l : list bool) i v :
  wf_cfg c -> wf_nb nb ->
  bit_len t = Ok (lengthN l) -> block_len t = Ok (blocks_for nb (lengthN l)) ->
  (forall j b, lengthN l <= j -> j < 2 ^ 64 -> panics (set_bit t j b)) ->
  i < 2 ^ ptr c -> lengthN l <= i * nb -> i * nb < 2 ^ 64 ->
  panics (default_set_block c nb bit_len block_len set_bit t i v).
Proof.
  intros Hc Hnb Hlen Hbl Hset Hip Hi Hi64. pose proof (wf_nb_range nb Hnb) as nb_range.
  unfold default_set_block. pose proof (wf_ptr _ Hc).
  destruct (wadd_cases c (ptr c) i 1 Hip ltac:(lia)) as [E|[p E]]; rewrite E; cbn [bind]; [|auto]. clear E.
  rewrite Hbl. cbn [bind]. rewrite Hlen. cbn [bind].
  assert (exists lim, (if (i + 1) mod 2 ^ ptr c =? blocks_for nb (lengthN l)
     then last_block_bits c nb (lengthN l) else Ok nb) = Ok lim /\ 0 < lim) as [lim [E Hlim]].
  { rewrite last_block_bits_ok by assumption.
    destruct (_ =? _); eexists; (split; [reflexivity|]); [|lia].
    pose proof (N.mod_lt (lengthN l) nb ltac:(lia)). destruct (lengthN l mod nb =? 0) eqn:E2; lia. }
  rewrite E. cbn [bind]. rewrite mul_nbits_ok by (auto; lia). cbn [bind].
  unfold for_range. replace (N.to_nat (lim - 0)) with (S (N.to_nat (lim - 1))) by lia. cbn [for_loop].
  rewrite wadd_ok by lia. cbn [bind].
  destruct (Hset (i * nb + 0) (negb (N.land v 1 =? 0)) ltac:(lia) ltac:(lia)) as [p Hp].
  rewrite Hp. cbn [bind]. auto.
Qed.

Lemma padding_0 nb n : 0 < nb -> n mod nb = 0 -> padding nb n = 0.
Proof. intros H E. unfold padding. rewrite E, N.sub_0_r, N.mod_same by lia. reflexivity. Qed.
Lemma padding_S nb n : 0 < nb -> n mod nb <> 0 -> padding nb n = padding nb (n + 1) + 1.
Proof.
  intros H E. unfold padding. pose proof (N.mod_lt n nb ltac:(lia)).
  rewrite (N.mod_small (nb - n mod nb)) by lia.
  rewrite <- (N.add_mod_idemp_l n 1 nb) by lia.
  destruct (N.eq_dec (n mod nb + 1) nb) as [E2|E2].
  - rewrite E2, (N.mod_same nb), N.sub_0_r, (N.mod_same nb) by lia. lia.
  - rewrite (N.mod_small (n mod nb + 1) nb) by lia. rewrite (N.mod_small (nb - (n mod nb + 1)) nb) by lia. lia.
Qed.
Lemma padding_spec nb n : 0 < nb -> n + padding nb n = blocks_for nb n * nb.
Proof.
  intros H. pose proof (N.div_mod n nb ltac:(lia)) as E. pose proof (N.mod_lt n nb ltac:(lia)) as Hr.
  unfold padding, blocks_for. set (q := n / nb) in *. set (r := n mod nb) in *. clearbody q r.
  destruct (N.eq_dec r 0) as [->|Hz].
  - rewrite N.sub_0_r, N.mod_same by lia. subst n.
    replace (nb * q + 0 + (nb - 1)) with (nb - 1 + q * nb) by lia. rewrite N.div_add by lia.
    rewrite N.div_small by lia. lia.
  - rewrite N.mod_small by lia. subst n.
    replace (nb * q + r + (nb - 1)) with (r - 1 + (q + 1) * nb) by lia. rewrite N.div_add by lia.
    rewrite N.div_small by lia. lia.
Qed.

Lemma repeatN_S {A} (a : A) n : repeatN a (n + 1) = a :: repeatN a n.
Proof. unfold repeatN. replace (N.to_nat (n + 1)) with (S (N.to_nat n)) by lia. reflexivity. Qed.

Section Push.
  Context {T : Type} (c : cfg) (nb : N).
  Hypothesis Hc : wf_cfg c.
  Hypothesis Hnb : wf_nb nb.
  Variable bit_len : T -> res N.
  Variable push_bit : T -> bool -> res T.
  Variable R : T -> list bool -> Prop.
  Variable room : N -> Prop.
  Hypothesis Hlen : forall t l, R t l -> bit_len t = Ok (lengthN l).
  Hypothesis Hpush : forall t l b, R t l -> room (lengthN l + 1) ->
    exists t', push_bit t b = Ok t' /\ R t' (l ++ [b]).
  Hypothesis Hroom : forall m n, m <= n -> room n -> room m.

  Lemma def_align_block fuel t l v : R t l -> (N.to_nat (padding nb (lengthN l)) < fuel)%nat ->
    room (lengthN l + padding nb (lengthN l)) ->
    exists t', default_align_block c nb bit_len push_bit fuel t v = Ok t' /\
      R t' (l ++ repeatN v (padding nb (lengthN l))).
  Proof.
    unfold default_align_block. pose proof (wf_nb_pos nb Hnb) as Hpos.
    revert t l; induction fuel as [|f IH]; intros t l Ht Hfuel Hr; [lia|].
    cbn [loop_fuel]. rewrite (Hlen t l Ht). cbn [bind]. rewrite mod_nbits_ok by assumption. cbn [bind].
    destruct (lengthN l mod nb =? 0) eqn:E.
    - cbn [bind]. rewrite padding_0 by (auto; lia). exists t. split; [reflexivity|].
      unfold repeatN. cbn. now rewrite app_nil_r.
    - apply N.eqb_neq in E. pose proof (padding_S nb (lengthN l) Hpos E) as Ep.
      destruct (Hpush t l v Ht) as [t1 [H1 H2]]; [eapply Hroom; [|exact Hr]; lia|].
      rewrite H1. cbn [bind]. rewrite Ep, repeatN_S.
      assert (El : lengthN (l ++ [v]) = lengthN l + 1) by now rewrite lengthN_app, lengthN_cons, lengthN_nil.
      destruct (IH t1 (l ++ [v]) H2) as [t2 [H3 H4]].
      + rewrite El. lia.
      + rewrite El. eapply Hroom; [|exact Hr]. lia.
      + exists t2. split; [exact H3|]. rewrite El, <- app_assoc in H4. exact H4.
  Qed.

  Lemma def_push_block fuel t l x : R t l -> (N.to_nat (padding nb (lengthN l)) < fuel)%nat ->
    room (lengthN l + padding nb (lengthN l) + nb) ->
    exists t', default_push_block c nb bit_len push_bit fuel t x = Ok t' /\
      R t' (l ++ repeatN false (padding nb (lengthN l)) ++ bits_of nb x).
  Proof.
    intros Ht Hfuel Hr. pose proof (wf_nb_range nb Hnb) as Hpos. unfold default_push_block.
    destruct (def_align_block fuel t l false Ht Hfuel) as [t1 [H1 H2]]; [eapply Hroom; [|exact Hr]; lia|].
    rewrite H1. cbn [bind]. set (l1 := l ++ repeatN false (padding nb (lengthN l))) in *.
    assert (El : lengthN l1 = lengthN l + padding nb (lengthN l)).
    { unfold l1. now rewrite lengthN_app, lengthN_repeatN. }
    match goal with |- context [for_range 0 nb ?b ?s] =>
      destruct (for_range_ind (fun j (st : T * N) =>
         R (fst st) (l1 ++ bits_of j x) /\ snd st = N.shiftr x j) b 0 nb s)
        as [s' [E1 E2]] end.
    - lia.
    - cbn [fst snd]. rewrite N.shiftr_0_r. split; [|reflexivity].
      change (bits_of 0 x) with (@nil bool). rewrite app_nil_r. exact H2.
    - intros j [t2 v1] _ Hj [H3 H4]. cbn [fst snd] in H3, H4. subst v1.
      rewrite low_bit, N.shiftr_spec', N.add_0_l.
      destruct (Hpush t2 _ (N.testbit x j) H3) as [t3 [H5 H6]].
      { rewrite lengthN_app, lengthN_bits_of. eapply Hroom; [|exact Hr]. lia. }
      rewrite H5. cbn [bind]. rewrite wshr_1 by lia. cbn [bind].
      eexists; split; [reflexivity|]. cbn [fst snd]. split; [|reflexivity].
      rewrite bits_of_snoc, app_assoc. exact H6.
    - rewrite E1. cbn [bind]. exists (fst s'). split; [reflexivity|]. destruct E2 as [E2 _].
      unfold l1 in E2. rewrite <- app_assoc in E2. exact E2.
  Qed.

  (** If there is no room, pushing panics before the end. *)
  Hypothesis Hfull : forall t l b, R t l -> ~ room (lengthN l + 1) -> panics (push_bit t b).
  Hypothesis Hroom_dec : forall n, room n \/ ~ room n.

  Lemma def_align_block_full fuel t l v : R t l -> (N.to_nat (padding nb (lengthN l)) < fuel)%nat ->
    room (lengthN l) -> ~ room (lengthN l + padding nb (lengthN l)) ->
    panics (default_align_block c nb bit_len push_bit fuel t v).
  Proof.
    unfold default_align_block. pose proof (wf_nb_pos nb Hnb) as Hpos.
    revert t l; induction fuel as [|f IH]; intros t l Ht Hfuel Hr0 Hr; [lia|].
    cbn [loop_fuel]. rewrite (Hlen t l Ht). cbn [bind]. rewrite mod_nbits_ok by assumption. cbn [bind].
    destruct (lengthN l mod nb =? 0) eqn:E.
    - rewrite padding_0, N.add_0_r in Hr by (auto; lia). contradiction.
    - apply N.eqb_neq in E. pose proof (padding_S nb (lengthN l) Hpos E) as Ep.
      assert (El : lengthN (l ++ [v]) = lengthN l + 1) by now rewrite lengthN_app, lengthN_cons, lengthN_nil.
      destruct (Hroom_dec (lengthN l + 1)) as [Hy|Hn].
      + destruct (Hpush t l v Ht Hy) as [t1 [H1 H2]]. rewrite H1. cbn [bind].
        apply (IH t1 (l ++ [v]) H2).
        * rewrite El. lia.
        * now rewrite El.
        * rewrite El. rewrite Ep in Hr.
          replace (lengthN l + 1 + padding nb (lengthN l + 1)) with (lengthN l + (padding nb (lengthN l + 1) + 1)) by lia.
          exact Hr.
      + destruct (Hfull t l v Ht Hn) as [p Hp]. rewrite Hp. cbn [bind]. auto.
  Qed.

  Lemma push_loop_full n : forall j t l x, R t l -> room (lengthN l) -> ~ room (lengthN l + N.of_nat n) -> 1 < nb ->
    panics (for_loop n j (fun _ (st : T * N) =>
      let (t, value) := st in
      t' <- push_bit t (negb (N.land value 1 =? 0)) ;;
      v' <- wshr c nb value 1 ;;
      Ok (t', v')) (t, x)).
  Proof.
    induction n as [|n IH]; intros j t l x Ht Hr0 Hr Hnb1.
    - exfalso. apply Hr. now replace (lengthN l + N.of_nat 0) with (lengthN l) by lia.
    - cbn [for_loop]. destruct (Hroom_dec (lengthN l + 1)) as [Hy|Hn].
      + destruct (Hpush t l (negb (N.land x 1 =? 0)) Ht Hy) as [t1 [H1 H2]]. rewrite H1. cbn [bind].
        rewrite wshr_ok by lia. cbn [bind].
        assert (El : lengthN (l ++ [negb (N.land x 1 =? 0)]) = lengthN l + 1)
          by now rewrite lengthN_app, lengthN_cons, lengthN_nil.
        apply (IH _ _ _ _ H2); [now rewrite El| |assumption].
        rewrite El. now replace (lengthN l + 1 + N.of_nat n) with (lengthN l + N.of_nat (S n)) by lia.
      + destruct (Hfull t l (negb (N.land x 1 =? 0)) Ht Hn) as [p Hp]. rewrite Hp. cbn [bind]. auto.
  Qed.

  Lemma def_push_block_full fuel t l x : R t l -> (N.to_nat (padding nb (lengthN l)) < fuel)%nat ->
    room (lengthN l) -> ~ room (lengthN l + padding nb (lengthN l) + nb) ->
    panics (default_push_block c nb bit_len push_bit fuel t x).
  Proof.
    intros Ht Hfuel Hr0 Hr. pose proof (wf_nb_range nb Hnb) as Hpos. unfold default_push_block.
    destruct (Hroom_dec (lengthN l + padding nb (lengthN l))) as [Hy|Hn].
    - destruct (def_align_block fuel t l false Ht Hfuel Hy) as [t1 [H1 H2]]. rewrite H1. cbn [bind].
      apply bind_panics. unfold for_range.
      assert (El : lengthN (l ++ repeatN false (padding nb (lengthN l))) = lengthN l + padding nb (lengthN l))
        by now rewrite lengthN_app, lengthN_repeatN.
      eapply push_loop_full; [exact H2|now rewrite El| |lia].
      rewrite El. replace (N.of_nat (N.to_nat (nb - 0))) with nb by lia. exact Hr.
    - apply bind_panics. eapply def_align_block_full; eauto.
  Qed.
End Push.

(** ** [Vec<bool>] *)
Definition R_bools (c : cfg) (v l : list bool) : Prop := v = l /\ lengthN l * 8 <= max_bits c.

Section VecBool.
  Variable c : cfg.
  Hypothesis Hc : wf_cfg c.

  Lemma bools_ptr (l : list bool) : lengthN l * 8 <= max_bits c -> lengthN l < 2 ^ ptr c.
  Proof. intros H. eapply (blocks_fit c 8); [exact Hc|left; reflexivity|exact H]. Qed.
  Lemma bools_fits (l : list bool) : lengthN l * 8 <= max_bits c -> fits c 8 (lengthN l).
  Proof.
    intros H. unfold fits. pose proof (blocks_for_spec 8 (lengthN l) ltac:(lia)).
    assert (15 <= max_bits c) by (unfold max_bits; destruct (ptr c =? 32); lia).
    destruct (N.eq_dec (lengthN l) 0) as [E|E]; [rewrite E; change (blocks_for 8 0) with 0; lia|]. lia.
  Qed.

  Lemma vb8_get_bit_ok v l i b : R_bools c v l -> nthN l i = Some b -> vb8_get_bit c v i = Ok b.
  Proof.
    intros [-> H] Hi. pose proof (nthN_lt _ _ _ Hi). pose proof (bools_ptr l H).
    unfold vb8_get_bit. rewrite to_usize_small by lia. cbn [expect bind]. now apply index_Some.
  Qed.
  Lemma vb8_get_bit_oob v l i : R_bools c v l -> lengthN l <= i -> panics (vb8_get_bit c v i).
  Proof.
    intros [-> H] Hi. unfold vb8_get_bit. destruct (to_usize c i) as [p|] eqn:E; cbn [expect bind]; [|auto].
    unfold to_usize in E. destruct (i <? 2 ^ ptr c); [|discriminate]. injection E as <-.
    rewrite index_None by assumption. auto.
  Qed.
  Lemma vb8_set_bit_ok v l i b : R_bools c v l -> i < lengthN l ->
    exists v', vb8_set_bit c v i b = Ok v' /\ R_bools c v' (updN l i b).
  Proof.
    intros [-> H] Hi. pose proof (bools_ptr l H). unfold vb8_set_bit.
    rewrite to_usize_small by lia. cbn [expect bind]. rewrite index_set_ok by assumption.
    eexists; split; [reflexivity|]. split; [reflexivity|]. now rewrite lengthN_updN.
  Qed.
  Lemma vb8_set_bit_oob v l i b : R_bools c v l -> lengthN l <= i -> panics (vb8_set_bit c v i b).
  Proof.
    intros [-> H] Hi. unfold vb8_set_bit. destruct (to_usize c i) as [p|] eqn:E; cbn [expect bind]; [|auto].
    unfold to_usize in E. destruct (i <? 2 ^ ptr c); [|discriminate]. injection E as <-.
    rewrite index_set_oob by assumption. auto.
  Qed.
  Lemma wf_nb_8 : wf_nb 8. Proof. left; reflexivity. Qed.
  Hint Resolve wf_nb_8 : core.
  Lemma vb8_block_len_ok v l : R_bools c v l -> vb8_block_len c v = Ok (blocks_for 8 (lengthN l)).
  Proof. intros [-> H]. unfold vb8_block_len. apply def_block_len; auto. now apply bools_fits. Qed.
  Lemma vb8_get_block_ok v l i : R_bools c v l -> i * 8 < lengthN l -> vb8_get_block c v i = Ok (block_of 8 i l).
  Proof.
    intros HR Hi. pose proof HR as [-> H]. unfold vb8_get_block.
    pose proof (fits_lt64 c 8 _ ltac:(lia) (bools_fits l H)).
    apply def_get_block; auto; [now apply vb8_block_len_ok|].
    intros j Hj. eapply vb8_get_bit_ok; eauto. now apply nthN_bit_at.
  Qed.
  Lemma vb8_get_block_oob v l i : R_bools c v l -> lengthN l <= i * 8 -> panics (vb8_get_block c v i).
  Proof.
    intros HR Hi. unfold vb8_get_block. eapply def_get_block_oob; [lia| |exact Hi].
    now apply vb8_block_len_ok.
  Qed.
  Lemma vb8_set_block_ok v l i x : R_bools c v l -> i * 8 < lengthN l ->
    exists v', vb8_set_block c v i x = Ok v' /\ R_bools c v' (set_block_of 8 i x l).
  Proof.
    intros HR Hi. pose proof HR as [_ H]. unfold vb8_set_block.
    apply def_set_block; auto.
    - now apply bools_fits. - now destruct HR as [-> _]. - now apply vb8_block_len_ok.
    - intros. apply vb8_set_bit_ok; auto. lia.
  Qed.
  Lemma vb8_set_block_oob v l i x : R_bools c v l -> lengthN l <= i * 8 -> i < 2 ^ ptr c -> i * 8 < 2 ^ 64 ->
    panics (vb8_set_block c v i x).
  Proof.
    intros HR Hi Hp Hi64. unfold vb8_set_block. eapply def_set_block_oob with (l := l); auto.
    - now destruct HR as [-> _]. - now apply vb8_block_len_ok.
    - intros. eapply vb8_set_bit_oob; eauto.
  Qed.

  Theorem vecbool_lawful_bits : lawful_bits c (vecbool_bitvec c) (R_bools c).
  Proof.
    constructor; cbn.
    - auto.
    - intros t l [_ H]. now apply bools_fits.
    - intros t l [-> _]. reflexivity.
    - exact vb8_get_bit_ok.
    - intros t l i H Hi _. eapply vb8_get_bit_oob; eauto.
    - intros t l s n HR H1 H2 H3. pose proof HR as [E H]. unfold vb8_get_bits. subst t.
      apply def_get_bits; auto; try tauto.
      + now apply bools_fits. + intros. now apply vb8_get_block_ok.
    - intros t l s n HR H1 H2 H3. pose proof HR as [-> H]. unfold vb8_get_bits.
      apply def_get_bits_oob with (l := l); auto.
  Qed.
  Theorem vecbool_lawful_blocks : lawful_blocks c (vecbool_bitvec c) (R_bools c).
  Proof.
    constructor; cbn.
    - exact vb8_block_len_ok.
    - exact vb8_get_block_ok.
    - intros t l i HR Hi _. eapply vb8_get_block_oob; eauto.
  Qed.
  Theorem vecbool_lawful_mut : lawful_mut c (vecbool_bitvecmut c) (R_bools c).
  Proof.
    constructor; cbn.
    - exact vb8_set_bit_ok.
    - intros t l i b HR Hi _. eapply vb8_set_bit_oob; eauto.
    - intros t l s n v HR H1 H2 H3 H4. pose proof HR as [E H]. unfold vb8_set_bits.
      apply def_set_bits with (R := R_bools c); auto; try tauto.
      + now subst. + now apply bools_fits. + intros. now apply vb8_get_block_ok.
      + intros. apply vb8_set_block_ok; auto. lia.
    - intros t l s n v HR H1 H2 H3. pose proof HR as [-> H]. unfold vb8_set_bits.
      apply def_set_bits_oob with (l := l); auto.
  Qed.
  Definition room_bools (n : N) : Prop := n * 8 <= max_bits c.
  Lemma vb8_push_bit_ok v l b : R_bools c v l -> room_bools (lengthN l + 1) ->
    exists v', vb8_push_bit c v b = Ok v' /\ R_bools c v' (l ++ [b]).
  Proof.
    intros [-> H] Hr. unfold vb8_push_bit, vec_push. rewrite alloc_ok by exact Hr. cbn [bind].
    eexists; split; [reflexivity|]. split; [reflexivity|]. now rewrite lengthN_app, lengthN_cons, lengthN_nil.
  Qed.
  Lemma vb8_push_bit_full v l b : R_bools c v l -> ~ room_bools (lengthN l + 1) -> panics (vb8_push_bit c v b).
  Proof.
    intros [-> H] Hr. unfold vb8_push_bit, vec_push. unfold room_bools in Hr.
    rewrite alloc_fail by lia. cbn [bind]. auto.
  Qed.
  Theorem vecbool_lawful_push : lawful_push c (vecbool_bitvecpush c) (R_bools c) room_bools.
  Proof.
    constructor; cbn.
    - exact vb8_push_bit_ok.
    - exact vb8_push_bit_full.
    - intros t l b [-> H]. unfold vb8_pop_bit. rewrite vec_pop_snoc. eexists; split; [reflexivity|].
      split; [reflexivity|]. rewrite lengthN_app in H. lia.
    - intros t [-> H]. reflexivity.
  Qed.
End VecBool.

(** ** Primitive integers *)
Definition R_prim (nb : N) (x : N) (l : list bool) : Prop := x < 2 ^ nb /\ l = bits_of nb x.

Section Prim.
  Variables (c : cfg) (nb : N).
  Hypothesis Hc : wf_cfg c.
  Hypothesis Hnb : wf_nb nb.
  Let nb_range := wf_nb_range nb Hnb.
  Let ptr_range := wf_ptr c Hc.

  Lemma prim_fits : fits c nb nb.
  Proof.
    unfold fits. replace (blocks_for nb nb) with 1.
    - unfold max_bits. destruct (ptr c =? 32); lia.
    - symmetry. rewrite <- (N.mul_1_l nb) at 2. apply blocks_for_mul. lia.
  Qed.
  Lemma block_of_bits_of x : x < 2 ^ nb -> block_of nb 0 (bits_of nb x) = x.
  Proof.
    intros H. apply (bits_eq_below _ _ nb); [apply block_of_lt|assumption|].
    intros i Hi. rewrite testbit_block_of, bit_at_bits_of, N.mul_0_l, N.add_0_l.
    destruct (i <? nb) eqn:E; [reflexivity|lia].
  Qed.
  Lemma bits_of_inj_upd x i b : x < 2 ^ nb -> i < nb -> bits_of nb (setbit_ x i b) = updN (bits_of nb x) i b.
  Proof.
    intros Hx Hi. apply list_bit_ext; [now rewrite lengthN_updN, !lengthN_bits_of|].
    intros j Hj. rewrite lengthN_bits_of in Hj. rewrite bit_at_updN by (rewrite lengthN_bits_of; lia).
    rewrite !bit_at_bits_of, testbit_setbit_. destruct (j <? nb) eqn:E; [|lia]. destruct (j =? i); reflexivity.
  Qed.

  Theorem prim_lawful_bits : lawful_bits c (prim_bitvec c nb) (R_prim nb).
  Proof.
    constructor; cbn.
    - exact Hnb.
    - intros t l [_ ->]. rewrite lengthN_bits_of. apply prim_fits.
    - intros t l [_ ->]. rewrite lengthN_bits_of. reflexivity.
    - intros t l i b [H ->] Hi. pose proof (nthN_lt _ _ _ Hi) as Hl. rewrite lengthN_bits_of in Hl.
      unfold prim_get_bit. rewrite assert_true by lia. cbn [bind]. rewrite as_usize_small by lia.
      rewrite blk_get_bit_ok by assumption. rewrite nthN_bits_of in Hi.
      destruct (i <? nb) eqn:E; [|lia]. now injection Hi as ->.
    - intros t l i [H ->] Hi _. rewrite lengthN_bits_of in Hi. unfold prim_get_bit.
      rewrite assert_false by lia. cbn [bind]. auto.
    - intros t l s n [H ->] H1 H2 _. rewrite lengthN_bits_of in H1. unfold prim_get_bits.
      rewrite wadd_ok by lia. cbn [bind]. rewrite assert_true by lia. cbn [bind].
      rewrite as_usize_small by lia. rewrite blk_get_bits_ok by auto. f_equal. now apply field_sub.
    - intros t l s n [H ->] H1 H2 _. rewrite lengthN_bits_of in H1. unfold prim_get_bits.
      rewrite wadd_ok by lia. cbn [bind]. rewrite assert_false by lia. cbn [bind]. auto.
  Qed.
  Theorem prim_lawful_blocks : lawful_blocks c (prim_bitvec c nb) (R_prim nb).
  Proof.
    constructor; cbn.
    - intros t l [_ ->]. rewrite lengthN_bits_of. unfold prim_block_len. f_equal. symmetry.
      rewrite <- (N.mul_1_l nb) at 2. apply blocks_for_mul. lia.
    - intros t l i [H ->] Hi. rewrite lengthN_bits_of in Hi. assert (i = 0) as -> by nia.
      unfold prim_get_block. rewrite assert_true by lia. cbn [bind]. now rewrite block_of_bits_of.
    - intros t l i [H ->] Hi _. rewrite lengthN_bits_of in Hi.
      unfold prim_get_block. rewrite assert_false; [cbn [bind]; auto|]. destruct (i =? 0) eqn:E; [|reflexivity].
      apply N.eqb_eq in E. subst. lia.
  Qed.
  Theorem prim_lawful_mut : lawful_mut c (prim_bitvecmut c nb) (R_prim nb).
  Proof.
    constructor; cbn.
    - intros t l i b [H ->] Hi. rewrite lengthN_bits_of in Hi. unfold prim_set_bit.
      rewrite assert_true by lia. cbn [bind]. rewrite as_usize_small by lia.
      rewrite blk_with_bit_ok by assumption. eexists; split; [reflexivity|].
      split; [now apply setbit_lt|]. symmetry. now apply bits_of_inj_upd.
    - intros t l i b [H ->] Hi _. rewrite lengthN_bits_of in Hi. unfold prim_set_bit.
      rewrite assert_false by lia. cbn [bind]. auto.
    - intros t l s n v [H ->] H1 H2 H3 _. rewrite lengthN_bits_of in H1. unfold prim_set_bits.
      rewrite wadd_ok by lia. cbn [bind]. rewrite assert_true by lia. cbn [bind].
      rewrite as_usize_small by lia. rewrite blk_with_bits_ok by auto. eexists; split; [reflexivity|].
      split; [now apply with_field_lt|]. symmetry. now apply with_field_put.
    - intros t l s n v [H ->] H1 H2 _. rewrite lengthN_bits_of in H1. unfold prim_set_bits.
      rewrite wadd_ok by lia. cbn [bind]. rewrite assert_false by lia. cbn [bind]. auto.
  Qed.
  Theorem prim_lawful_mutblocks : lawful_mutblocks c (prim_bitvecmut c nb) (R_prim nb).
  Proof.
    constructor; cbn.
    - intros t l i v [H ->] Hi Hv. rewrite lengthN_bits_of in Hi. assert (i = 0) as -> by nia.
      unfold prim_set_block. rewrite assert_true by lia. cbn [bind]. eexists; split; [reflexivity|].
      split; [assumption|]. unfold set_block_of. rewrite N.mul_0_l, N.sub_0_r, lengthN_bits_of.
      rewrite firstnN_all by (rewrite lengthN_bits_of; lia). unfold put.
      rewrite N.add_0_l, firstnN_0, lengthN_bits_of, skipnN_all by (rewrite lengthN_bits_of; lia).
      cbn. now rewrite app_nil_r.
    - intros t l i v [H ->] Hi _. rewrite lengthN_bits_of in Hi.
      unfold prim_set_block. rewrite assert_false; [cbn [bind]; auto|]. destruct (i =? 0) eqn:E; [|reflexivity].
      apply N.eqb_eq in E. subst. lia.
  Qed.
End Prim.
