(** * Property C124: integers of varying size with direct access ([MDac.v]). *)
From Verif Require Import Machine MStorage MTraits MVectorBase MBitVector MIntVector MRank MDac
  SpecBits SpecCfg SpecLaws SpecOps SpecRank PBase PStorage PBits PVectorBase PVectorBase2 PVectorBase3 PBitVector PIntVector PIntRun PRank PRank9
  Properties6 Properties57 Properties59 Properties72.

Lemma lor_above a y s : a < 2 ^ s -> N.lor a (N.shiftl y s) = a + y * 2 ^ s.
Proof.
  intros H. rewrite <- N.shiftl_mul_pow2. assert (L : N.land a (N.shiftl y s) = 0).
  { apply N.bits_inj. intros j. rewrite N.land_spec, N.bits_0. destruct (N.lt_ge_cases j s) as [Hj|Hj].
    - rewrite N.shiftl_spec_low by exact Hj. apply andb_false_r.
    - destruct (N.eq_dec a 0) as [->|Ha]; [now rewrite N.bits_0|]. rewrite N.bits_above_log2; [reflexivity|]. apply N.lt_le_trans with s; [|exact Hj]. apply N.log2_lt_pow2; lia. }
  rewrite (N.add_nocarry_lxor _ _ L). symmetry. now apply N.lxor_lor.
Qed.

Section Level.
  Variables (c : cfg) (k : N).
  Hypothesis Hc : wf_cfg c.
  Hypothesis Hk : 1 <= k <= 63.
  Let H64 : wf_nb 64 := ltac:(unfold wf_nb; auto).
  Let LP := bvec_lawful_push c 64 Hc H64.
  (** a number goes on to the next level *)
  Definition goes_on (x : N) : bool := negb (x / 2 ^ k =? 0).
  Definition next_level (xs : list N) : list N := map (fun x => x / 2 ^ k) (filter goes_on xs).

  Lemma split_ok xs : forall v m r vs ms, R_iv c 64 k v vs -> R_bv c 64 m ms ->
    fits c 64 ((lengthN vs + lengthN xs) * k) -> fits c 64 (lengthN ms + lengthN xs) ->
    exists v' m', dac_split c k xs v m r = Ok (v', m', r ++ next_level xs) /\ R_iv c 64 k v' (vs ++ map (fun x => x mod 2 ^ k) xs) /\ R_bv c 64 m' (ms ++ map goes_on xs).
  Proof.
    induction xs as [|x xs IH]; intros v m r vs ms HV HM F1 F2.
    - exists v, m. cbn [dac_split map]. unfold next_level. cbn [filter map]. rewrite !app_nil_r. auto.
    - rewrite lengthN_cons in F1, F2. cbn [dac_split]. rewrite low_mask_ok by (assumption || lia). cbn [bind]. rewrite N.land_ones.
      assert (Hx : x mod 2 ^ k < 2 ^ k) by (apply N.mod_lt; pose proof (pow2_pos k); lia).
      destruct (iv_push_ok c 64 k Hc H64 ltac:(lia) v vs _ HV Hx) as (v1 & E1 & V1).
      { apply (fits_mono c 64 _ ((lengthN vs + (lengthN xs + 1)) * k)); [lia|apply N.mul_le_mono_r; lia|exact F1]. }
      rewrite E1. cbn [bind]. rewrite wshr_ok by lia. cbn [bind]. rewrite N.shiftr_div_pow2. fold (goes_on x).
      destruct (lp_push_bit _ _ _ _ LP m _ (goes_on x) HM) as (m1 & E2 & M1); [apply (fits_mono c 64 _ (lengthN ms + (lengthN xs + 1))); [lia|lia|exact F2]|]. rewrite E2. cbn [bind].
      destruct (IH v1 m1 (if goes_on x then r ++ [x / 2 ^ k] else r) _ _ V1 M1) as (v2 & m2 & E3 & V2 & M2).
      + rewrite lengthN_app, lengthN_cons, lengthN_nil. replace (lengthN vs + (0 + 1) + lengthN xs) with (lengthN vs + (lengthN xs + 1)) by lia. exact F1.
      + rewrite lengthN_app, lengthN_cons, lengthN_nil. replace (lengthN ms + (0 + 1) + lengthN xs) with (lengthN ms + (lengthN xs + 1)) by lia. exact F2.
      + exists v2, m2. rewrite <- app_assoc in V2, M2. split; [|split; [exact V2|exact M2]]. rewrite E3. unfold next_level. cbn [filter]. destruct (goes_on x); [|reflexivity]. cbn [map]. now rewrite <- app_assoc.
  Qed.

  Lemma next_level_in xs y : In y (next_level xs) -> exists x, In x xs /\ y = x / 2 ^ k /\ 1 <= y.
  Proof.
    unfold next_level. intros H. apply in_map_iff in H. destruct H as (x & <- & H). apply filter_In in H. destruct H as [H1 H2]. exists x. split; [exact H1|]. split; [reflexivity|].
    unfold goes_on in H2. apply negb_true_iff, N.eqb_neq in H2. clear -H2. destruct (x / 2 ^ k); [congruence|lia].
  Qed.
  Lemma next_level_length xs : lengthN (next_level xs) <= lengthN xs.
  Proof. unfold next_level. rewrite lengthN_map. unfold lengthN. induction xs as [|x xs IH]; [cbn; lia|]. cbn [filter]. destruct (goes_on x); cbn [length]; lia. Qed.
  Lemma next_level_count xs j : how_many (fun y => (j =? 0) || (2 ^ (k * j) <=? y)) (next_level xs) = how_many (fun x => 2 ^ (k * (j + 1)) <=? x) xs.
  Proof.
    unfold next_level. rewrite how_many_map, how_many_filter. apply how_many_ext, Forall_forall. intros x _. pose proof (pow2_pos k) as Hp. pose proof (pow2_pos (k * j)) as Hq.
    assert (EP : 2 ^ (k * (j + 1)) = 2 ^ k * 2 ^ (k * j)) by (rewrite <- N.pow_add_r; f_equal; lia). rewrite EP.
    assert (EQ : (2 ^ k * 2 ^ (k * j) <=? x) = (2 ^ (k * j) <=? x / 2 ^ k)).
    { apply eq_true_iff_eq. rewrite !N.leb_le. split; intros H; [apply N.div_le_lower_bound; lia|]. pose proof (N.mul_div_le x (2 ^ k) ltac:(lia)) as H1. apply (N.mul_le_mono_l _ _ (2 ^ k)) in H. lia. }
    rewrite EQ. unfold goes_on. set (y := x / 2 ^ k). destruct (j =? 0) eqn:Ej.
    - apply N.eqb_eq in Ej. subst j. rewrite N.mul_0_r. cbn [orb]. rewrite andb_true_r. change (2 ^ 0) with 1. destruct (y =? 0) eqn:E, (1 <=? y) eqn:E1; try reflexivity; lia.
    - cbn [orb]. destruct (y =? 0) eqn:E, (2 ^ (k * j) <=? y) eqn:E1; try reflexivity; lia.
  Qed.

  Lemma fill_ok fuel : forall xs, lengthN xs * 64 <= max_bits c -> Forall (fun x => x < 2 ^ (k * N.of_nat fuel) /\ (fuel = O -> 1 <= x)) xs ->
    exists ls, dac_fill c fuel k xs = Ok ls /\ (length ls <= fuel)%nat /\
      (forall j l, nthN ls j = Some l -> iv_bits (dl_chunks l) = k /\ iv_len (dl_chunks l) = how_many (fun x => (j =? 0) || (2 ^ (k * j) <=? x)) xs) /\
      forall i y acc sh, nthN xs i = Some y -> acc < 2 ^ sh -> acc + y * 2 ^ sh < 2 ^ 64 -> sh < 64 -> dac_walk c k ls i acc sh = Ok (acc + y * 2 ^ sh).
  Proof.
    pose proof (pow2_pos k) as Hp.
    induction fuel as [|fuel IH]; intros xs Hn HX; (destruct xs as [|x0 xs0]; [exists []; split; [reflexivity|]; split; [cbn; lia|]; split; [intros j l H; discriminate|]; intros i y acc sh H; discriminate|]).
    - inversion HX as [|? ? [H1 H2] _]; subst. specialize (H2 eq_refl). rewrite N.mul_0_r in H1. change (2 ^ 0) with 1 in H1. lia.
    - set (xs := x0 :: xs0) in *. assert (EU : dac_fill c (S fuel) k xs = (chunks <- iv_new c 64 k ;; more <- bvec_new c 64 ;; '(chunks, more, rest) <- dac_split c k xs chunks more [] ;;
        d <- rank9_new c (bvec_bitvec c 64) more ;; ls <- dac_fill c fuel k rest ;; Ok ({| dl_chunks := chunks; dl_more := d |} :: ls))) by reflexivity.
      rewrite EU. clear EU. clearbody xs.
      assert (Em : bvec_new c 64 = Ok {| vb_len := 0; vb_vec := [] |}) by (unfold bvec_new, vb_new, vb_block_with_capacity, alloc; cbn [N.mul]; destruct (max_bits c); reflexivity).
      assert (Rm : R_bv c 64 {| vb_len := 0; vb_vec := [] |} []) by (split; [reflexivity|]; split; [reflexivity|apply fits_0; lia]).
      pose proof (iv_make_sim c 64 k Hc H64 ltac:(lia) INew I) as H0. unfold spec_imake in H0. destruct ((k =? 0) || (64 <? k)) eqn:Ek; [lia|].
      cbn [iv_make ends] in H0. destruct H0 as (v0 & Ev0 & V0). rewrite Ev0. cbn [bind]. rewrite Em. cbn [bind].
      assert (F2 : fits c 64 (lengthN xs * k)).
      { apply (fits_mono c 64 _ (lengthN xs * 64)); [lia|apply N.mul_le_mono_l; lia|]. unfold fits. rewrite blocks_for_mul by lia. lia. }
      assert (F1 : fits c 64 (lengthN xs)). { apply (fits_mono c 64 _ (lengthN xs * k)); [lia|clear -Hk; nia|exact F2]. }
      destruct (split_ok xs v0 _ [] [] [] V0 Rm F2 F1) as (v & m & E1 & V & M). cbn [app] in V, M. rewrite E1. cbn [bind app].
      pose proof (bvec_lawful_bits c 64 Hc H64) as LB. pose proof (bvec_lawful_blocks c 64 Hc H64) as LK.
      destruct (rank9_new_ok c (bvec_bitvec c 64) (R_bv c 64) Hc LB (block_reads c _ _ LK) eq_refl m _ M) as (D & ED & Es & _). rewrite ED. cbn [bind].
      destruct (C35_rank_structures _ c (bvec_bitvec c 64) (R_bv c 64) Hc LB LK) as (_ & LR & _). specialize (LR eq_refl).
      assert (HD : exists m, R_bv c 64 m (map goes_on xs) /\ rank9_new c (bvec_bitvec c 64) m = Ok D) by (exists m; auto).
      destruct (IH (next_level xs)) as (ls & E2 & L1 & L2 & L3).
      { pose proof (next_level_length xs). lia. }
      { apply Forall_forall. intros y Hy. apply next_level_in in Hy. destruct Hy as (x & Hx & -> & H1). split; [|intros _; exact H1]. rewrite Forall_forall in HX. destruct (HX x Hx) as [H2 _].
        apply N.div_lt_upper_bound; [lia|]. rewrite <- N.pow_add_r. replace (k + k * N.of_nat fuel) with (k * N.of_nat (S fuel)) by lia. exact H2. }
      rewrite E2. cbn [bind]. eexists. split; [reflexivity|]. split; [cbn [length]; lia|]. split.
      + intros j l Hj. rewrite nthN_cons in Hj. destruct (j =? 0) eqn:E0.
        * injection Hj as <-. cbn [dl_chunks]. split; [exact (proj1 V)|]. rewrite (PIntVector.R_iv_len c 64 k Hc H64 ltac:(lia) v _ V), lengthN_map. symmetry. now apply how_many_every.
        * destruct (L2 _ _ Hj) as [L2a L2b]. split; [exact L2a|]. rewrite L2b, next_level_count. replace (j - 1 + 1) with j by lia. apply how_many_ext, Forall_forall. reflexivity.
      + intros i y acc sh Hi Ha Hy Hsh. pose proof (nthN_lt _ _ _ Hi) as Li. cbn [dac_walk dl_chunks dl_more].
        assert (G1 : iv_get c 64 v i = Ok (y mod 2 ^ k)).
        { apply (iv_get_ok c 64 k Hc H64 ltac:(lia) v _ i _ V); [|rewrite nthN_map, Hi; reflexivity]. apply (iv_index_ok c 64 k v _ i Hc H64 ltac:(lia) V). now rewrite lengthN_map. }
        assert (G2 : bv_get_bit (rank9_bitvec (bvec_bitvec c 64)) D i = Ok (goes_on y)).
        { unfold rank9_bitvec. cbn [bv_get_bit]. rewrite Es. apply (lb_get_bit _ _ _ LB m _ i _ M). rewrite nthN_map, Hi. reflexivity. }
        pose proof (pow2_pos sh) as Hs. pose proof (N.div_mod y (2 ^ k) ltac:(lia)) as HY. set (q := y / 2 ^ k) in *. set (r := y mod 2 ^ k) in *.
        assert (HR : r < 2 ^ k) by (apply N.mod_lt; lia).
        assert (EY : y * 2 ^ sh = r * 2 ^ sh + q * 2 ^ (sh + k)) by (rewrite N.pow_add_r, HY; clear; nia).
        rewrite G1. cbn [bind]. rewrite wshl_ok by lia. cbn [bind]. rewrite N.mod_small by (rewrite N.shiftl_mul_pow2; lia). rewrite lor_above by exact Ha. rewrite G2. cbn [bind]. destruct (goes_on y) eqn:Eg; cbn [negb].
        * destruct (filter_at goes_on xs i y Hi Eg) as [Q1 Q2].
          rewrite (lr_rank1 _ _ LR D _ i HD) by (rewrite lengthN_map; exact Li). cbn [bind].
          assert (Er : rank_of true (map goes_on xs) i = how_many goes_on (firstnN i xs) + 1).
          { unfold rank_of. rewrite firstnN_map, <- how_many_count, <- Q2. unfold how_many. f_equal. apply filter_ext. intros z. now destruct (goes_on z). }
          rewrite Er, wsub_ok by lia. cbn [bind]. assert (EI : how_many goes_on (firstnN i xs) + 1 - 1 = how_many goes_on (firstnN i xs)) by (clear; lia). rewrite EI.
          assert (SW : sh + k < 2 ^ ptr c) by (destruct Hc as [E|E]; rewrite E; lia). rewrite wadd_ok by exact SW. cbn [bind].
          assert (Hq : 1 <= q) by (unfold goes_on in Eg; fold q in Eg; apply negb_true_iff, N.eqb_neq in Eg; lia).
          assert (B1 : acc + r * 2 ^ sh < 2 ^ (sh + k)).
          { rewrite N.pow_add_r. apply N.lt_le_trans with ((r + 1) * 2 ^ sh); [lia|]. rewrite (N.mul_comm (2 ^ sh)). apply N.mul_le_mono_r. lia. }
          assert (B2 : sh + k < 64). { apply (N.pow_lt_mono_r_iff 2); [lia|]. apply N.le_lt_trans with (1 * 2 ^ (sh + k)); [lia|]. apply N.le_lt_trans with (q * 2 ^ (sh + k)); [now apply N.mul_le_mono_r|lia]. }
          rewrite (L3 (how_many goes_on (firstnN i xs)) q (acc + r * 2 ^ sh) (sh + k)); [f_equal; lia| |exact B1|lia|exact B2].
          unfold next_level. rewrite nthN_map, Q1. reflexivity.
        * unfold goes_on in Eg. fold q in Eg. apply negb_false_iff, N.eqb_eq in Eg. rewrite Eg in EY. f_equal. lia.
  Qed.
End Level.

Theorem C124_dac : forall c k fuel xs, wf_cfg c -> 1 <= k <= 63 -> lengthN xs * 64 <= max_bits c ->
  (1 <= fuel)%nat -> Forall (fun x => x < 2 ^ 64 /\ x < 2 ^ (k * N.of_nat fuel)) xs ->
  exists d, dac_new c fuel k xs = Ok d /\
    (* no more levels than chunks in the greatest number *)
    (length (dac_levels d) <= fuel)%nat /\
    (* a level holds a chunk of every number that is long enough, in k bits *)
    (forall j l, nthN (dac_levels d) j = Some l -> iv_bits (dl_chunks l) = k /\ iv_len (dl_chunks l) = how_many (fun x => (j =? 0) || (2 ^ (k * j) <=? x)) xs) /\
    forall i x, nthN xs i = Some x -> dac_get c d i = Ok x.
Proof.
  intros c k fuel xs Hc Hk Hn Hf HX. destruct (fill_ok c k Hc Hk fuel xs Hn) as (ls & E & H1 & H2 & H3).
  { eapply Forall_impl; [|exact HX]. intros x [_ H]. split; [exact H|]. intros ->. lia. }
  exists {| dac_k := k; dac_levels := ls |}. split; [unfold dac_new; now rewrite E|]. split; [exact H1|]. split; [exact H2|]. intros i x Hi. unfold dac_get. cbn [dac_k dac_levels].
  destruct (proj1 (Forall_nthN _ _) HX i x Hi) as [Hx _]. rewrite (H3 i x 0 0 Hi); [f_equal; change (2 ^ 0) with 1; lia|reflexivity|change (2 ^ 0) with 1; lia|lia].
Qed.

Example C124_ex : let xs := [5; 1000; 0; 70; 8; 18446744073709551615; 7; 511; 512] in
  exists d, dac_new dbg32 22 3 xs = Ok d /\ map (fun l => iv_len (dl_chunks l)) (dac_levels d) = [9; 6; 5; 3; 1; 1; 1; 1; 1; 1; 1; 1; 1; 1; 1; 1; 1; 1; 1; 1; 1; 1] /\
    map (dac_get dbg32 d) [0; 1; 2; 3; 4; 5; 6; 7; 8] = map Ok xs.
Proof. cbv zeta. eexists. split; [vm_compute; reflexivity|]. split; vm_compute; reflexivity. Qed.
Example C124_ex_ok : let xs := [5; 1000; 0; 70; 8; 18446744073709551615; 7; 511; 512] in
  wf_cfg dbg32 /\ 1 <= 3 <= 63 /\ lengthN xs * 64 <= max_bits dbg32 /\ (1 <= 22)%nat /\ Forall (fun x => x < 2 ^ 64 /\ x < 2 ^ (3 * N.of_nat 22)) xs.
Proof. cbv zeta. split; [unfold wf_cfg; auto|]. split; [lia|]. split; [vm_compute; congruence|]. split; [lia|]. repeat (constructor; [split; vm_compute; reflexivity|]). constructor. Qed.

Print Assumptions C124_dac.
