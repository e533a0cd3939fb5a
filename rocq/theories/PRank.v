(** * Proofs about rank: counting, primitive integers, [JacobsonRank]. *)
From Verif Require Import Machine MStorage MTraits MVectorBase MIntVector MRank SpecBits SpecLaws SpecRank
  PBase PStorage PBits PBlocks PVectorBase PVectorBase2 SpecOps PRun PIntVector PIntRun.

(** ** Counting *)
Lemma count_app v l l' : count v (l ++ l') = count v l + count v l'.
Proof. induction l as [|b l IH]; cbn [count app]; [lia|]. rewrite IH. lia. Qed.
Lemma count_le v l : count v l <= lengthN l.
Proof. induction l as [|b l IH]; cbn [count]; [cbn; lia|]. rewrite lengthN_cons. destruct (eqb b v); lia. Qed.
Lemma count_both l : count true l + count false l = lengthN l.
Proof. induction l as [|b l IH]; cbn [count]; [reflexivity|]. rewrite lengthN_cons. destruct b; cbn [eqb]; lia. Qed.
Lemma count_repeatN_other n : count true (repeatN false n) = 0.
Proof. unfold repeatN. induction (N.to_nat n) as [|m IH]; [reflexivity|]. cbn. exact IH. Qed.

Lemma firstnN_add {A} a b (l : list A) : firstnN (a + b) l = firstnN a l ++ sub a b l.
Proof.
  apply nthN_ext. intros i. rewrite nthN_app, nthN_firstnN, nthN_sub, lengthN_firstnN, nthN_firstnN.
  destruct (i <? N.min a (lengthN l)) eqn:E1.
  - destruct (i <? a + b) eqn:E2, (i <? a) eqn:E3; try lia; reflexivity.
  - destruct (N.lt_ge_cases i (lengthN l)) as [H|H].
    + destruct (i <? a + b) eqn:E2, (i - N.min a (lengthN l) <? b) eqn:E3; try lia; [|reflexivity].
      f_equal. lia.
    + replace (nthN l i) with (@None A) by (symmetry; apply nthN_None; lia).
      destruct (N.lt_ge_cases (lengthN l) a) as [Ha|Ha].
      * replace (nthN l (a + (i - N.min a (lengthN l)))) with (@None A) by (symmetry; apply nthN_None; lia).
        destruct (i <? a + b), (i - N.min a (lengthN l) <? b); reflexivity.
      * replace (nthN l (a + (i - N.min a (lengthN l)))) with (@None A) by (symmetry; apply nthN_None; lia).
        destruct (i <? a + b), (i - N.min a (lengthN l) <? b); reflexivity.
Qed.
Lemma count_add v a b l : count v (firstnN (a + b) l) = count v (firstnN a l) + count v (sub a b l).
Proof. now rewrite firstnN_add, count_app. Qed.
Lemma count_mono v a b l : a <= b -> count v (firstnN a l) <= count v (firstnN b l).
Proof. intros H. replace b with (a + (b - a)) by lia. rewrite count_add. lia. Qed.
Lemma count_diff v a b l : a <= b -> count v (firstnN b l) - count v (firstnN a l) <= b - a.
Proof.
  intros H. replace b with (a + (b - a)) at 1 by lia. rewrite count_add.
  pose proof (count_le v (sub a (b - a) l)) as H1. rewrite lengthN_sub in H1. lia.
Qed.
Lemma count_firstn_le v a l : count v (firstnN a l) <= lengthN l.
Proof. pose proof (count_le v (firstnN a l)) as H. rewrite lengthN_firstnN in H. lia. Qed.
Lemma rank_of_0 l p : p < lengthN l -> rank_of false l p = p + 1 - rank_of true l p.
Proof. intros H. unfold rank_of. pose proof (count_both (firstnN (p + 1) l)) as E. rewrite lengthN_firstnN in E. lia. Qed.
Lemma rank_of_le v l p : rank_of v l p <= p + 1.
Proof. unfold rank_of. pose proof (count_le v (firstnN (p + 1) l)) as H. rewrite lengthN_firstnN in H. lia. Qed.

(** ** Population count *)
Lemma count_ones_double x (b : bool) : count_ones ((if b then 1 else 0) + 2 * x) = (if b then 1 else 0) + count_ones x.
Proof. destruct x as [|p], b; reflexivity. Qed.
Lemma count_ones_int_of l : count_ones (int_of l) = count true l.
Proof. induction l as [|b l IH]; [reflexivity|]. cbn [int_of count]. rewrite count_ones_double, IH. destruct b; reflexivity. Qed.
Lemma count_ones_block nb i l : count_ones (block_of nb i l) = count true (sub (i * nb) nb l).
Proof. apply count_ones_int_of. Qed.
Lemma land_ones_int_of l k : N.land (int_of l) (N.ones k) = int_of (firstnN k l).
Proof.
  apply N.bits_inj. intros i. rewrite N.land_spec, testbit_ones, !testbit_int_of, bit_at_firstnN.
  apply andb_comm.
Qed.
Lemma prim_rank1_int_of c nb l p : wf_cfg c -> wf_nb nb -> p < nb ->
  prim_rank1 c nb (int_of l) p = Ok (rank_of true l p).
Proof.
  intros Hc Hn Hp. pose proof (wf_nb_range _ Hn). pose proof (wf_ptr _ Hc). unfold prim_rank1.
  rewrite debug_assert_true by lia. cbn [bind]. rewrite wadd_ok by lia. cbn [bind].
  rewrite as_usize_small by lia. rewrite low_mask_ok by (auto; lia). cbn [bind].
  now rewrite land_ones_int_of, count_ones_int_of.
Qed.

(** ** The derived operations *)
Lemma default_rank0_ok {T} c (rank1 : T -> N -> res N) t l p : lengthN l < 2 ^ 64 -> p < lengthN l ->
  rank1 t p = Ok (rank_of true l p) -> default_rank0 c rank1 t p = Ok (rank_of false l p).
Proof.
  intros Hl Hp E. unfold default_rank0. rewrite wadd_ok by lia. cbn [bind]. rewrite E. cbn [bind].
  rewrite wsub_ok by apply rank_of_le. now rewrite rank_of_0.
Qed.
Lemma mk_bitrank_lawful {T} c (rank1 : T -> N -> res N) limit (Rel : T -> list bool -> Prop) :
  (forall t l, Rel t l -> lengthN l < 2 ^ 64) ->
  (forall t l, Rel t l -> limit t = Ok (lengthN l)) ->
  (forall t l p, Rel t l -> p < lengthN l -> rank1 t p = Ok (rank_of true l p)) ->
  lawful_rank (mk_bitrank c rank1 limit) Rel.
Proof.
  intros H1 H2 H3. split; cbn; auto.
  - intros t l p HR Hp. apply default_rank0_ok; eauto.
  - intros t l p [|] HR Hp; cbn; auto. apply default_rank0_ok; eauto.
Qed.

(** ** Tables *)
Definition tab {A} (n : N) (f : N -> A) : list A := map (fun i => f (N.of_nat i)) (seq 0 (N.to_nat n)).
Lemma lengthN_tab {A} n (f : N -> A) : lengthN (tab n f) = n.
Proof. unfold tab. rewrite lengthN_map. unfold lengthN. rewrite seq_length. lia. Qed.
Lemma tab_0 {A} (f : N -> A) : tab 0 f = []. Proof. reflexivity. Qed.
Lemma tab_succ {A} n (f : N -> A) : tab (n + 1) f = tab n f ++ [f n].
Proof.
  unfold tab. replace (N.to_nat (n + 1)) with (Datatypes.S (N.to_nat n)) by lia.
  rewrite seq_S, map_app. cbn. do 3 f_equal. lia.
Qed.
Lemma nthN_tab {A} n (f : N -> A) i : nthN (tab n f) i = if i <? n then Some (f i) else None.
Proof.
  unfold tab. rewrite nthN_map, nthN_seq. destruct (i <? N.of_nat (N.to_nat n)) eqn:E1, (i <? n) eqn:E2; try lia; cbn; [|reflexivity].
  do 2 f_equal. lia.
Qed.
Lemma tab_ext {A} n (f g : N -> A) : (forall i, i < n -> f i = g i) -> tab n f = tab n g.
Proof. intros H. apply nthN_ext. intros i. rewrite !nthN_tab. dif E; [|reflexivity]. rewrite H by lia. reflexivity. Qed.

Lemma log2_up_pow n : n <= 2 ^ N.log2_up n.
Proof.
  destruct (N.le_gt_cases n 1) as [H|H].
  - pose proof (pow2_pos (N.log2_up n)). lia.
  - apply N.log2_up_spec. lia.
Qed.
Lemma log2_up_le n k : n <= 2 ^ k -> N.log2_up n <= k.
Proof. intros H. rewrite <- (N.log2_up_pow2 k) by lia. apply N.log2_up_le_mono. exact H. Qed.
Lemma ceil_div_ok c w x d : 0 < d -> x + d < 2 ^ w -> ceil_div c w x d = Ok (blocks_for d x).
Proof.
  intros Hd H. unfold ceil_div. rewrite wadd_ok by lia. cbn [bind]. rewrite wsub_ok by lia. cbn [bind].
  rewrite wdiv_ok by lia. unfold blocks_for. do 2 f_equal. lia.
Qed.
(** Arithmetic of the block geometry. *)
Lemma mul_ge a d e n : e <= d -> a * d <= n -> e * a <= n.
Proof. nia. Qed.
Lemma ja_k8 k1 lg L : k1 <= lg + 1 -> 30 <= lg -> lg * lg <= L -> 4 * (2 * k1) <= L.
Proof. intros A B C. assert (30 * lg <= lg * lg) by (apply N.mul_le_mono_r; lia). lia. Qed.
Lemma ja_k1 k1 lg L : k1 <= lg + 1 -> 1 <= lg -> lg * lg <= L -> k1 <= 2 * L.
Proof. nia. Qed.
Lemma ja_bl bl nb n : 8 <= nb -> nb <= 64 -> bl * nb < n + nb -> 8 * bl <= n + 8.
Proof. nia. Qed.
Lemma ja_m1 m bl spl nb n : n <= bl * nb -> bl <= m * spl -> n <= m * (nb * spl).
Proof. nia. Qed.
Lemma ja_m2 m bl spl nb n : m * spl < bl + spl -> bl * nb < n + nb -> 1 <= spl -> m * (nb * spl) <= n + 2 * (nb * spl).
Proof. intros H1 H2 H3. assert (m * spl * nb <= (bl + spl) * nb) by (apply N.mul_le_mono_r; lia). nia. Qed.
Lemma ja_fa lq k1 L n : lq * L <= n -> k1 <= 2 * L -> k1 <= 64 -> (lq + 1) * k1 <= 2 * n + 500.
Proof. intros H1 H2 H3. assert (lq * k1 <= lq * (2 * L)) by (apply N.mul_le_mono_l; lia). lia. Qed.
Lemma ja_fb m k1 L n : m * L <= n + 2 * L -> k1 <= 2 * L -> k1 <= 64 -> (m + 1) * k1 <= 2 * n + 500.
Proof.
  intros H1 H2 H3. destruct (N.le_gt_cases m 2) as [H|H]; [nia|].
  assert ((m - 2) * k1 <= (m - 2) * (2 * L)) by (apply N.mul_le_mono_l; lia).
  assert ((m - 2) * L <= n) by (rewrite N.mul_sub_distr_r; lia).
  replace ((m + 1) * k1) with ((m - 2) * k1 + 3 * k1) by (replace (m + 1) with (m - 2 + 3) by lia; lia). lia.
Qed.
Lemma ja_fc sq k2 n : 8 * sq <= n + 8 -> k2 <= 12 -> (sq + 1) * k2 <= 2 * n + 500.
Proof. intros H1 H2. assert ((sq + 1) * k2 <= (sq + 1) * 12) by (apply N.mul_le_mono_l; lia). lia. Qed.
Lemma ja_q1 bl spl q o nb : bl - 1 = spl * q + o -> o < spl -> 1 <= bl ->
  q * (nb * spl) <= bl * nb /\ bl * nb - q * (nb * spl) <= nb * spl.
Proof. intros H1 H2 H3. assert (E : bl = spl * q + o + 1) by lia. subst bl. split; [nia|]. nia. Qed.
Lemma ja_bl0 bl nb n : 2 <= n -> n <= bl * nb -> bl =? 0 = false.
Proof. intros H1 H2. apply N.eqb_neq. intros ->. lia. Qed.

(** A loop whose steps keep the invariant or panic. *)
Lemma for_range_or {S} (P : N -> S -> Prop) (body : N -> S -> res S) a b s : a <= b -> P a s ->
  (forall j t, a <= j -> j < b -> P j t -> (exists t', body j t = Ok t' /\ P (j + 1) t') \/ panics (body j t)) ->
  (exists s', for_range a b body s = Ok s' /\ P b s') \/ panics (for_range a b body s).
Proof.
  intros Hab. unfold for_range. assert (G : forall n i s, i + N.of_nat n = b -> P i s ->
    (forall j t, i <= j -> j < b -> P j t -> (exists t', body j t = Ok t' /\ P (j + 1) t') \/ panics (body j t)) ->
    (exists s', for_loop n i body s = Ok s' /\ P b s') \/ panics (for_loop n i body s)).
  { clear. induction n as [|n IH]; intros i s Hi H0 Hs; cbn [for_loop].
    - left. exists s. split; [reflexivity|]. now replace b with i by lia.
    - destruct (Hs i s ltac:(lia) ltac:(lia) H0) as [(t & Et & Ht)|[k Ek]]; [|right; rewrite Ek; apply panics_Panic].
      rewrite Et. cbn [bind]. apply IH; [lia|exact Ht|]. intros j u Hj1 Hj2. apply Hs; lia. }
  intros H0 Hs. apply G; auto. lia.
Qed.
Lemma ja_big k1 L n lq : lq * L <= n + 2 * L -> 4 * k1 <= L -> (lq + 1) * k1 <= n + 4 * k1.
Proof.
  intros H1 H2. destruct (N.le_gt_cases lq 2) as [H|H]; [nia|].
  assert ((lq - 2) * k1 <= (lq - 2) * L) by (apply N.mul_le_mono_l; lia).
  assert ((lq - 2) * L <= n) by (rewrite N.mul_sub_distr_r; lia).
  replace ((lq + 1) * k1) with ((lq - 2) * k1 + 3 * k1) by (replace (lq + 1) with (lq - 2 + 3) by lia; lia). lia.
Qed.

(** ** [JacobsonRank] *)
Lemma block_reads {T} c (B : bitvec T) R : lawful_blocks c B R -> lawful_block_reads B R.
Proof. intros [H1 H2 _]. now constructor. Qed.
Section JacobsonProof.
  Context {T : Type} (c : cfg) (B : bitvec T) (R : T -> list bool -> Prop).
  Hypothesis Hc : wf_cfg c.
  Hypothesis LB : lawful_bits c B R.
  Hypothesis LK : lawful_block_reads B R.
  Let nb := bv_nb B.
  Let Hnb : wf_nb nb := lb_nb c B R LB.
  Let ones (l : list bool) (j : N) : N := count true (firstnN j l).
  Let H64 : wf_nb 64. Proof. right; right; right; reflexivity. Qed.

  (** What a built structure contains; [m] is the number of large entries. *)
  Definition J_rep (j : jacobson T) (l : list bool) : Prop :=
    R (jr_store j) l /\
    exists spl m k1 k2, 1 <= spl /\ 1 <= k1 <= 64 /\ 1 <= k2 <= 64 /\
      jr_large_block_size j = nb * spl /\ lengthN l <= m * (nb * spl) /\
      (exists x, R_iv c 64 k1 (jr_large j) (tab m (fun i => ones l (i * (nb * spl))) ++ [x])) /\
      (exists x, R_iv c 64 k2 (jr_small j)
        (tab (blocks_for nb (lengthN l)) (fun i => ones l (i * nb) - ones l (i / spl * (nb * spl))) ++ [x])).

  Lemma jac_rank1 j l p : J_rep j l -> p < lengthN l -> jacobson_rank1 c B j p = Ok (rank_of true l p).
  Proof.
    intros (HR & spl & m & k1 & k2 & Hs & Hk1 & Hk2 & EL & Hm & [x1 HL] & [x2 HS]) Hp.
    pose proof (wf_nb_range _ Hnb) as Hr. pose proof (lb_fits c B R LB _ _ HR) as Hf. fold nb in Hf.
    pose proof (fits_lt64 c nb _ ltac:(lia) Hf) as H63.
    unfold jacobson_rank1. rewrite (lb_bit_len c B R LB _ _ HR). cbn [bind].
    rewrite assert_true by lia. cbn [bind]. rewrite EL, wdiv_ok by nia. cbn [bind].
    fold nb. rewrite (address_in c nb _ p Hc Hnb Hf Hp). cbn [bind block_index bit_offset].
    assert (Eq : p / (nb * spl) = p / nb / spl) by (rewrite N.div_div by lia; reflexivity).
    set (q := p / nb) in *. assert (Hq : p = nb * q + p mod nb) by (apply N.div_mod; lia).
    pose proof (N.mod_lt p nb ltac:(lia)) as Hmod. set (o := p mod nb) in *. clearbody q o.
    set (g := q / spl) in *. assert (Hg : q = spl * g + q mod spl) by (apply N.div_mod; lia).
    pose proof (N.mod_lt q spl ltac:(lia)) as Hmod2. set (o2 := q mod spl) in *. 
    rewrite Eq.
    assert (Hgm : g < m) by (clearbody g o2; nia).
    assert (Hqb : q < blocks_for nb (lengthN l)) by (apply blocks_for_lt; lia).
    rewrite (iv_get_ok c 64 k1 Hc H64 Hk1 _ _ g (ones l (g * (nb * spl))) HL);
      [| eapply iv_index_ok; [exact Hc|exact H64|exact Hk1|exact HL|rewrite lengthN_app, lengthN_tab; lia]
       | rewrite nthN_app_l, nthN_tab by (rewrite lengthN_tab; lia); now rewrite (proj2 (N.ltb_lt _ _) Hgm)].
    cbn [bind].
    rewrite (iv_get_ok c 64 k2 Hc H64 Hk2 _ _ q (ones l (q * nb) - ones l (g * (nb * spl))) HS);
      [| eapply iv_index_ok; [exact Hc|exact H64|exact Hk2|exact HS|rewrite lengthN_app, lengthN_tab; lia]
       | rewrite nthN_app_l, nthN_tab by (rewrite lengthN_tab; lia); now rewrite (proj2 (N.ltb_lt _ _) Hqb)].
    cbn [bind].
    rewrite (lkr_get_block B R LK _ _ q HR) by (fold nb; lia). cbn [bind]. fold nb. unfold block_of.
    rewrite prim_rank1_int_of by auto. cbn [bind].
    assert (Hmono : ones l (g * (nb * spl)) <= ones l (q * nb)).
    { apply count_mono. clearbody g o2. nia. }
    assert (E : ones l (q * nb) + rank_of true (sub (q * nb) nb l) o = rank_of true l p).
    { unfold rank_of, ones. replace (p + 1) with (q * nb + (o + 1)) by lia. rewrite (count_add true (q * nb) (o + 1)). do 2 f_equal.
      apply nthN_ext. intros i. rewrite nthN_firstnN, !nthN_sub. destruct (i <? o + 1) eqn:E1, (i <? nb) eqn:E2; try lia; reflexivity. }
    pose proof (rank_of_le true l p).
    clear - Hmono E H H63 Hp. set (a := ones l (g * (nb * spl))) in *. set (b := ones l (q * nb)) in *. clearbody a b.
    rewrite wadd_ok by lia. cbn [bind]. rewrite wadd_ok by lia. f_equal. lia.
  Qed.

  Lemma jac_rank1_oob j l p : J_rep j l -> lengthN l <= p -> panics (jacobson_rank1 c B j p).
  Proof.
    intros (HR & _) Hp. unfold jacobson_rank1. rewrite (lb_bit_len c B R LB _ _ HR). cbn [bind].
    rewrite assert_false by lia. cbn [bind]. apply panics_Panic.
  Qed.
  Lemma jac_rank0_oob j l p : J_rep j l -> lengthN l <= p -> panics (default_rank0 c (jacobson_rank1 c B) j p).
  Proof.
    intros HR Hp. unfold default_rank0, wadd, wrap. destruct (jac_rank1_oob j l p HR Hp) as [k E].
    dif E1; cbn [bind]; [rewrite E; apply panics_Panic|].
    dif E2; cbn [bind]; [apply panics_Panic|rewrite E; apply panics_Panic].
  Qed.

  Lemma jac_lawful : lawful_rank (jacobson_bitrank c B) J_rep.
  Proof.
    apply mk_bitrank_lawful.
    - intros t l (HR & _). pose proof (wf_nb_range _ Hnb). pose proof (fits_lt64 c nb _ ltac:(lia) (lb_fits c B R LB _ _ HR)). lia.
    - intros t l (HR & _). apply (lb_bit_len c B R LB _ _ HR).
    - apply jac_rank1.
  Qed.

  (** *** Construction *)
  Definition jac_inv (l : list bool) (spl k1 k2 i : N) (st : intvec * intvec * N * N * N) : Prop :=
    let '(large, small, cur, last, sbi) := st in
    R_iv c 64 k1 large (tab (blocks_for spl i) (fun j => ones l (j * (nb * spl)))) /\
    R_iv c 64 k2 small (tab i (fun j => ones l (j * nb) - ones l (j / spl * (nb * spl)))) /\
    cur = ones l (i * nb) /\ sbi = i mod spl /\
    last = (if i =? 0 then 0 else ones l ((i - 1) / spl * (nb * spl))).

  Definition jac_body (t : T) (spl i : N) (st : intvec * intvec * N * N * N) : res (intvec * intvec * N * N * N) :=
    let '(large, small, current_rank, last_large_rank, small_block_index) := st in
    ll <- (if small_block_index =? 0 then
             large' <- iv_push c 64 large current_rank ;; Ok (large', current_rank)
           else Ok (large, last_large_rank)) ;;
    let (large, last_large_rank) := ll : intvec * N in
    excess <- wsub c 64 current_rank last_large_rank ;;
    small' <- iv_push c 64 small excess ;;
    b <- bv_get_block B t i ;;
    current_rank' <- wadd c 64 current_rank (count_ones b) ;;
    sbi <- wadd c (ptr c) small_block_index 1 ;;
    let sbi' := if sbi =? spl then 0 else sbi in
    Ok (large, small', current_rank', last_large_rank, sbi').

  Section Loop.
    Variables (t : T) (l : list bool) (spl k1 k2 : N).
    Hypothesis HR : R t l.
    Hypothesis Hs : 1 <= spl < 2 ^ 31.
    Hypothesis Hk1 : 1 <= k1 <= 64.
    Hypothesis Hk2 : 1 <= k2 <= 64.
    Hypothesis Hv1 : lengthN l < 2 ^ k1.
    Hypothesis Hv2 : nb * spl < 2 ^ k2.
    Let bl := blocks_for nb (lengthN l).
    Hypothesis Hf1 : fits c 64 ((blocks_for spl bl + 1) * k1).

    Lemma jac_step i st : i < bl -> jac_inv l spl k1 k2 i st ->
      (exists st', jac_body t spl i st = Ok st' /\ jac_inv l spl k1 k2 (i + 1) st') \/
      (panics (jac_body t spl i st) /\ ~ fits c 64 ((i + 1) * k2)).
    Proof.
      destruct st as [[[[large small] cur] last] sbi]. cbn [jac_inv jac_body]. intros Hi (HL & HS & Ecur & Esbi & Elast).
      pose proof (wf_nb_range _ Hnb) as Hr. pose proof (lb_fits c B R LB _ _ HR) as Hf. fold nb in Hf.
      pose proof (fits_lt64 c nb _ ltac:(lia) Hf) as H63. pose proof (wf_ptr c Hc) as Hptr.
      assert (Hil : i * nb < lengthN l) by (apply blocks_for_lt; auto; lia).
      set (q := i / spl) in *. assert (Hq : i = spl * q + i mod spl) by (apply N.div_mod; lia).
      pose proof (N.mod_lt i spl ltac:(lia)) as Hm. set (o := i mod spl) in *.
      assert (Hlarge : exists large', 
        (if sbi =? 0 then large' <- iv_push c 64 large cur ;; Ok (large', cur) else Ok (large, last))
          = Ok (large', ones l (q * (nb * spl))) /\
        R_iv c 64 k1 large' (tab (blocks_for spl (i + 1)) (fun j => ones l (j * (nb * spl))))).
      { assert (Eq1 : blocks_for spl (i + 1) = q + 1).
        { unfold blocks_for. replace (i + 1 + (spl - 1)) with (i + 1 * spl) by lia. rewrite N.div_add by lia. reflexivity. }
        rewrite Eq1. rewrite Esbi. destruct (o =? 0) eqn:E.
        - assert (Eq0 : blocks_for spl i = q).
          { rewrite Hq. replace (spl * q + o) with (q * spl) by lia. apply blocks_for_mul. lia. }
          rewrite Eq0 in HL. assert (Ec : cur = ones l (q * (nb * spl))).
          { rewrite Ecur. f_equal. clearbody o. nia. }
          assert (Hqb : q < blocks_for spl bl).
          { apply blocks_for_lt; [lia|]. clearbody o q. nia. }
          destruct (iv_push_ok c 64 k1 Hc H64 Hk1 large _ cur HL) as [large' [Ep HL']].
          + rewrite Ecur. pose proof (count_firstn_le true (i * nb) l). unfold ones. lia.
          + rewrite lengthN_tab. eapply fits_mono; [lia| |exact Hf1]. clearbody o q. nia.
          + exists large'. rewrite Ep. cbn [bind]. rewrite Ec. split; [reflexivity|]. rewrite tab_succ, <- Ec. exact HL'.
        - assert (Eq0 : blocks_for spl i = q + 1).
          { unfold blocks_for. rewrite Hq. replace (spl * q + o + (spl - 1)) with (o - 1 + (q + 1) * spl) by lia.
            rewrite N.div_add, N.div_small by lia. lia. }
          rewrite Eq0 in HL. exists large. split; [|exact HL]. rewrite Elast.
          destruct (i =? 0) eqn:E0; [lia|]. do 5 f_equal.
          symmetry. apply (N.div_unique _ _ _ (o - 1)); lia. }
      destruct Hlarge as [large' [-> HL']]. cbn [bind].
      assert (Hmono : ones l (q * (nb * spl)) <= ones l (i * nb)) by (apply count_mono; clearbody o q; nia).
      rewrite wsub_ok by lia. cbn [bind].
      assert (Hlt : cur - ones l (q * (nb * spl)) < 2 ^ k2).
      { eapply N.le_lt_trans; [|exact Hv2]. rewrite Ecur. unfold ones.
        pose proof (count_diff true (q * (nb * spl)) (i * nb) l ltac:(clearbody o q; nia)). clearbody o q. nia. }
      destruct (fitsb c 64 ((i + 1) * k2)) eqn:Ef2.
      2:{ right. assert (Hnf : ~ fits c 64 ((i + 1) * k2)) by now apply fitsb_false. split; [|exact Hnf].
          apply bind_panics. apply (iv_push_bad c 64 k2 Hc H64 Hk2 small _ _ HS).
          - eapply N.lt_le_trans; [exact Hlt|apply N.pow_le_mono_r; lia].
          - right. rewrite lengthN_tab. exact Hnf. }
      left. apply fitsb_spec in Ef2.
      destruct (iv_push_ok c 64 k2 Hc H64 Hk2 small _ (cur - ones l (q * (nb * spl))) HS) as [small' [Ep HS']].
      { exact Hlt. }
      { now rewrite lengthN_tab. }
      rewrite Ep. cbn [bind]. rewrite (lkr_get_block B R LK _ _ i HR) by exact Hil. cbn [bind]. fold nb.
      rewrite count_ones_block.
      assert (Enext : cur + count true (sub (i * nb) nb l) = ones l ((i + 1) * nb)).
      { rewrite Ecur. unfold ones. replace ((i + 1) * nb) with (i * nb + nb) by lia. now rewrite count_add. }
      pose proof (count_firstn_le true ((i + 1) * nb) l) as Hcl. fold (ones l ((i + 1) * nb)) in Hcl.
      rewrite wadd_ok by lia. cbn [bind]. rewrite wadd_ok by lia. cbn [bind].
      eexists. split; [reflexivity|]. cbn [jac_inv]. split; [exact HL'|]. split.
      { rewrite tab_succ, <- Ecur. exact HS'. }
      split; [exact Enext|]. split.
      - rewrite Esbi. destruct (o + 1 =? spl) eqn:E.
        + apply (N.mod_unique _ _ (q + 1)); [lia|]. clearbody o q. nia.
        + apply (N.mod_unique _ _ q); lia.
      - destruct (i + 1 =? 0) eqn:E; [lia|]. replace (i + 1 - 1) with i by lia. reflexivity.
    Qed.
  End Loop.

  Lemma jac_empty k n : 1 <= k <= 64 -> n < 2 ^ 64 -> fits c 64 (n * k) -> n * k + 64 <= 2 ^ 64 ->
    exists v, iv_with_capacity c 64 k n = Ok v /\ R_iv c 64 k v [].
  Proof.
    intros Hk Hn Hf Ho. pose proof (iv_make_sim c 64 k Hc H64 Hk (IWithCapacity n) (conj Hn (or_introl Ho))) as E.
    unfold spec_imake in E. destruct ((k =? 0) || (64 <? k)) eqn:E1; [lia|].
    rewrite (proj2 (fitsb_spec c 64 (n * k)) Hf) in E. exact E.
  Qed.

  (** The sizes of the tables *)
  Definition J_size (j : jacobson T) (n : N) : Prop :=
    let spl := blocks_for nb (N.log2_up n * N.log2_up n) in
    jr_large_block_size j = nb * spl /\
    iv_bits (jr_large j) = N.log2_up (n + 1) /\ iv_len (jr_large j) = blocks_for spl (blocks_for nb n) + 1 /\
    iv_bits (jr_small j) = N.log2_up (nb * spl + 1) /\ iv_len (jr_small j) = blocks_for nb n + 1.
  Lemma R_iv_len k v xs : 1 <= k <= 64 -> R_iv c 64 k v xs -> iv_len v = lengthN xs.
  Proof. intros Hk [_ H]. unfold iv_len. eapply Irep_len; eauto. Qed.

  Lemma jac_new_exact t l : R t l -> 2 <= lengthN l ->
    (exists j, jacobson_new c B t = Ok j /\ jr_store j = t /\ J_rep j l /\ J_size j (lengthN l) /\ jac_room c nb (lengthN l)) \/
    (panics (jacobson_new c B t) /\ ~ jac_room c nb (lengthN l)).
  Proof.
    intros HR Hn. pose proof (lb_fits c B R LB _ _ HR) as Hmem.
    pose proof (wf_nb_range _ Hnb) as Hr. pose proof (lb_fits c B R LB _ _ HR) as Hf. fold nb in Hf.
    pose proof (max_bits_lt c) as Hmax. pose proof (wf_ptr c Hc) as Hptr.
    set (n := lengthN l) in *. fold nb in Hmem. pose proof (blocks_for_spec nb n ltac:(lia)) as Hbl. unfold fits in Hmem. assert (Hmem' : n <= max_bits c) by lia.
    assert (Hmax32 : 2 ^ 33 <= max_bits c) by (unfold max_bits; destruct (ptr c =? 32); vm_compute; congruence).
    unfold jacobson_new. rewrite (lb_bit_len c B R LB _ _ HR). cbn [bind]. fold n nb.
    rewrite ceil_lg_ok by lia. cbn [bind].
    assert (Hlg1 : 1 <= N.log2_up n) by (apply N.le_succ_l with (n := 0), N.log2_up_pos; lia).
    assert (Hlg2 : N.log2_up n <= 63) by (apply log2_up_le; lia).
    assert (Hk1a : N.log2_up (n + 1) <= N.log2_up n + 1).
    { apply log2_up_le. rewrite N.pow_add_r. change (2 ^ 1) with 2. pose proof (log2_up_pow n). lia. }
    assert (Hv1 : n < 2 ^ N.log2_up (n + 1)) by (pose proof (log2_up_pow (n + 1)); lia).
    assert (Hk1b : 1 <= N.log2_up (n + 1)) by (apply N.le_succ_l with (n := 0), N.log2_up_pos; lia).
    set (k1 := N.log2_up (n + 1)) in *. set (lg := N.log2_up n) in *.
    rewrite wmul_ok by nia. cbn [bind].
    assert (Hl2 : 1 <= lg * lg <= 3969) by nia.
    rewrite ceil_div_ok by lia. cbn [bind].
    pose proof (blocks_for_spec nb (lg * lg) ltac:(lia)) as Hspl. set (spl := blocks_for nb (lg * lg)) in *.
    assert (Hs1 : 1 <= spl) by (clearbody spl; nia).
    rewrite wmul_ok by lia. cbn [bind].
    assert (HL1 : lg * lg <= nb * spl < 4033) by lia.
    assert (HLnb : nb <= nb * spl) by nia.
    assert (Hv2 : nb * spl < 2 ^ N.log2_up (nb * spl + 1)) by (pose proof (log2_up_pow (nb * spl + 1)); lia).
    assert (Hk2 : N.log2_up (nb * spl + 1) <= 12).
    { apply log2_up_le. change (2 ^ 12) with 4096. lia. }
    assert (Hk2b : 1 <= N.log2_up (nb * spl + 1)) by (apply N.le_succ_l with (n := 0), N.log2_up_pos; lia).
    rewrite wdiv_ok by lia. cbn [bind].
    assert (Hq1 : n / (nb * spl) * (nb * spl) <= n) by (rewrite N.mul_comm; apply N.mul_div_le; lia).
    assert (Hq2 : n / nb * nb <= n) by (rewrite N.mul_comm; apply N.mul_div_le; lia).
    set (L := nb * spl) in *. set (lq := n / L) in *. set (sq := n / nb) in *.
    assert (Hlq : lq <= n) by (pose proof (mul_ge lq L 1 n ltac:(lia) Hq1); lia). assert (Hsq : 8 * sq <= n) by (apply (mul_ge sq nb 8 n); [lia|exact Hq2]).
    rewrite wadd_ok by lia. cbn [bind].
    rewrite wdiv_ok by lia. cbn [bind]. fold sq.
    rewrite wadd_ok by lia. cbn [bind]. rewrite wadd_ok by lia. cbn [bind].
    rewrite ceil_lg_ok by lia. cbn [bind]. fold k1. rewrite wadd_ok by lia. cbn [bind].
    rewrite ceil_lg_ok by lia. cbn [bind]. set (k2 := N.log2_up (L + 1)) in *.
    assert (Hk1L : k1 <= 2 * L) by (apply (ja_k1 k1 lg L); lia).
    assert (Hk1 : 1 <= k1 <= 64) by lia. assert (Hk2' : 1 <= k2 <= 64) by lia.
    assert (Hfit : forall a, a <= 2 ^ 32 \/ a <= n / 2 + 500 -> fits c 64 a).
    { intros a Ha. unfold fits. pose proof (blocks_for_spec 64 a ltac:(lia)). pose proof (N.mul_div_le n 2 ltac:(lia)). lia. }
    set (bl := blocks_for nb n) in *.
    assert (Hbl8 : 8 * bl <= n + 8) by (apply (ja_bl bl nb n); lia).
    pose proof (blocks_for_spec spl bl ltac:(lia)) as Hm. set (m := blocks_for spl bl) in *.
    assert (HmL : n <= m * L) by (apply (ja_m1 m bl spl nb n); lia).
    assert (HmL2 : m * L <= n + 2 * L) by (apply (ja_m2 m bl spl nb n); lia).
    assert (Hlarge : forall x, x * L <= n + 2 * L -> fits c 64 ((x + 1) * k1)).
    { intros x Hx. apply Hfit. destruct (N.lt_ge_cases n (2 ^ 30)) as [Hs|Hs].
      - left. pose proof (ja_fb x k1 L n Hx Hk1L ltac:(lia)). change (2 ^ 32) with 4294967296. change (2 ^ 30) with 1073741824 in Hs. lia.
      - right. assert (Hlg30 : 30 <= lg) by (unfold lg; rewrite <- (N.log2_up_pow2 30) by lia; now apply N.log2_up_le_mono).
        assert (H8 : 4 * (2 * k1) <= L) by (apply (ja_k8 k1 lg L); lia). pose proof (ja_big (2 * k1) L n x Hx H8).
        replace ((x + 1) * (2 * k1)) with (2 * ((x + 1) * k1)) in H by lia. set (y := (x + 1) * k1) in *. clearbody y. 
        pose proof (N.div_mod n 2 ltac:(lia)). pose proof (N.mod_lt n 2 ltac:(lia)). lia. }
    assert (Hfa : fits c 64 ((lq + 1) * k1)) by (apply Hlarge; lia).
    assert (Hfb : fits c 64 ((m + 1) * k1)) by (apply Hlarge; lia).
    pose proof (fits_lt64 c 64 _ ltac:(lia) Hfa) as Hfa'. assert (Hmx : max_bits c <= 2 ^ 63) by (unfold max_bits; destruct (ptr c =? 32); vm_compute; congruence).
    destruct (jac_empty k1 (lq + 1) Hk1 ltac:(lia) Hfa) as [large0 [E1 HL0]]; [lia|].
    rewrite E1. cbn [bind]. change (jac_room c nb n) with (fits c 64 ((bl + 1) * k2)).
    assert (Hsb : sq <= bl) by (clear - Hq2 Hbl Hr; nia).
    assert (Hfd : fits c 64 ((sq + 1) * k2) \/ ~ fits c 64 ((bl + 1) * k2) /\ panics (iv_with_capacity c 64 k2 (sq + 1))).
    { destruct (fitsb c 64 ((sq + 1) * k2)) eqn:Efs; [left; now apply fitsb_spec|]. right. assert (Hnf : ~ fits c 64 ((sq + 1) * k2)) by now apply fitsb_false. split.
      - intros Hf2. apply Hnf. apply (fits_mono c 64 _ ((bl + 1) * k2)); [lia|apply N.mul_le_mono_r; lia|exact Hf2].
      - pose proof (iv_make_sim c 64 k2 Hc H64 Hk2' (IWithCapacity (sq + 1))) as E. cbn [iv_make] in E. unfold spec_imake in E.
        destruct ((k2 =? 0) || (64 <? k2)) eqn:E1'; [lia|]. rewrite Efs in E. apply E. split; [lia|left].
        assert ((sq + 1) * k2 <= (sq + 1) * 12) by (apply N.mul_le_mono_l; lia). lia. }
    destruct Hfd as [Hfc|[Hnf [kp Ekp]]]; [|right; rewrite Ekp; split; [apply panics_Panic|exact Hnf]].
    destruct (jac_empty k2 (sq + 1) Hk2' ltac:(lia) Hfc) as [small0 [E2 HS0]]; [assert ((sq + 1) * k2 <= (sq + 1) * 12) by (apply N.mul_le_mono_l; lia); lia|].
    rewrite E2. cbn [bind]. rewrite (lkr_block_len B R LK _ _ HR). cbn [bind]. fold nb n bl.
    assert (Hcases : (exists st', for_range 0 bl (jac_body t spl) (large0, small0, 0, 0, 0) = Ok st' /\ jac_inv l spl k1 k2 bl st') \/
      (panics (for_range 0 bl (jac_body t spl) (large0, small0, 0, 0, 0)) /\ ~ fits c 64 ((bl + 1) * k2))).
    { destruct (fitsb c 64 ((bl + 1) * k2)) eqn:Efs.
      - apply fitsb_spec in Efs. left. apply for_range_ind; [lia| |].
        + cbn [jac_inv]. rewrite blocks_for_0 by lia. rewrite !tab_0. split; [exact HL0|]. split; [exact HS0|]. split; [reflexivity|]. split; [|reflexivity]. rewrite N.mod_0_l by lia. reflexivity.
        + intros i st Hi0 Hi Hinv. destruct (jac_step t l spl k1 k2 HR ltac:(lia) Hk1 Hk2' Hv1 Hv2 Hfb i st Hi Hinv) as [H|[_ H]]; [exact H|].
          exfalso. apply H. apply (fits_mono c 64 _ ((bl + 1) * k2)); [lia|apply N.mul_le_mono_r; lia|exact Efs].
      - apply fitsb_false in Efs. destruct (for_range_or (jac_inv l spl k1 k2) (jac_body t spl) 0 bl (large0, small0, 0, 0, 0)) as [H|H]; [lia| | |left; exact H|right; split; [exact H|exact Efs]].
        + cbn [jac_inv]. rewrite blocks_for_0 by lia. rewrite !tab_0. split; [exact HL0|]. split; [exact HS0|]. split; [reflexivity|]. split; [|reflexivity]. rewrite N.mod_0_l by lia. reflexivity.
        + intros i st Hi0 Hi Hinv. destruct (jac_step t l spl k1 k2 HR ltac:(lia) Hk1 Hk2' Hv1 Hv2 Hfb i st Hi Hinv) as [H|[H _]]; [left; exact H|right; exact H]. }
    match goal with |- context [for_range 0 bl ?body ?st] => change (for_range 0 bl body st) with (for_range 0 bl (jac_body t spl) st) end.
    destruct Hcases as [[st' [Est Hinv]]|[[kp Ekp] Hnf]]; [|right; rewrite Ekp; split; [apply panics_Panic|exact Hnf]].
    rewrite Est. cbn [bind]. destruct st' as [[[[large small] cur] last] sbi].
    cbn [jac_inv] in Hinv. destruct Hinv as (HL & HS & Ecur & Esbi & Elast). fold m in HL.
    destruct (iv_push_ok c 64 k1 Hc H64 Hk1 large _ cur HL) as [large' [Ep HL']].
    { rewrite Ecur. pose proof (count_firstn_le true (bl * nb) l) as Hcl. fold n in Hcl. eapply N.le_lt_trans; [exact Hcl|exact Hv1]. }
    { rewrite lengthN_tab. exact Hfb. }
    rewrite Ep. cbn [bind].
    pose proof (ja_bl0 bl nb n Hn (proj1 Hbl)) as Hbl0. rewrite Hbl0 in Elast.
    set (q := (bl - 1) / spl) in *. assert (Hq : bl - 1 = spl * q + (bl - 1) mod spl) by (apply N.div_mod; lia).
    pose proof (N.mod_lt (bl - 1) spl ltac:(lia)) as Hmq. set (o := (bl - 1) mod spl) in *.
    destruct (ja_q1 bl spl q o nb Hq Hmq ltac:(lia)) as [Hqle Hqdiff]. fold L in Hqle, Hqdiff.
    pose proof (count_mono true _ _ l Hqle) as Hcm. pose proof (count_diff true _ _ l Hqle) as Hcd.
    rewrite wsub_ok by (rewrite Ecur, Elast; exact Hcm). cbn [bind].
    assert (Hlt : cur - last < 2 ^ k2).
    { rewrite Ecur, Elast. eapply N.le_lt_trans; [exact Hcd|]. eapply N.le_lt_trans; [exact Hqdiff|exact Hv2]. }
    destruct (fitsb c 64 ((bl + 1) * k2)) eqn:Ef2.
    2:{ right. assert (Hnf : ~ fits c 64 ((bl + 1) * k2)) by now apply fitsb_false. split; [|exact Hnf].
        apply bind_panics. apply (iv_push_bad c 64 k2 Hc H64 Hk2' small _ _ HS).
        - eapply N.lt_le_trans; [exact Hlt|apply N.pow_le_mono_r; lia].
        - right. rewrite lengthN_tab. exact Hnf. }
    left. apply fitsb_spec in Ef2.
    destruct (iv_push_ok c 64 k2 Hc H64 Hk2' small _ (cur - last) HS) as [small' [Ep2 HS']].
    { exact Hlt. }
    { now rewrite lengthN_tab. }
    rewrite Ep2. cbn [bind]. eexists. split; [reflexivity|]. split; [reflexivity|]. split.
    - split; [exact HR|]. exists spl, m, k1, k2. cbn [jr_large_block_size jr_large jr_small]. fold L n bl.
      repeat (split; [auto|]). { now exists cur. } now exists (cur - last).
    - split; [|exact Ef2]. unfold J_size. cbn [jr_large_block_size jr_large jr_small]. fold n. fold lg. fold spl. fold L. fold bl. fold m. fold k1. fold k2.
      rewrite (R_iv_len k1 _ _ Hk1 HL'), (R_iv_len k2 _ _ Hk2' HS'), !lengthN_app, !lengthN_tab.
      destruct HL' as [-> _], HS' as [-> _]. repeat split.
  Qed.
  Lemma jac_new_full t l : R t l -> 2 <= lengthN l -> jac_room c nb (lengthN l) ->
    exists j, jacobson_new c B t = Ok j /\ jr_store j = t /\ J_rep j l /\ J_size j (lengthN l).
  Proof. intros H1 H2 H3. destruct (jac_new_exact t l H1 H2) as [(j & E1 & E2 & E3 & E4 & _)|[_ H]]; [now exists j|contradiction]. Qed.
  Lemma jac_new t l : R t l -> 2 <= lengthN l -> jac_room c nb (lengthN l) ->
    exists j, jacobson_new c B t = Ok j /\ jr_store j = t /\ J_rep j l.
  Proof. intros H1 H2 H3. destruct (jac_new_full t l H1 H2 H3) as (j & E1 & E2 & E3 & _). now exists j. Qed.
End JacobsonProof.

(** Fewer than two bits: the large block size is zero. *)
Lemma jac_new_small {T} c (B : bitvec T) R t l : wf_cfg c -> lawful_bits c B R ->
  R t l -> lengthN l <= 1 -> panics (jacobson_new c B t).
Proof.
  intros Hc LB HR Hn. pose proof (wf_ptr c Hc). pose proof (wf_nb_range _ (lb_nb c B R LB)) as Hr.
  unfold jacobson_new. rewrite (lb_bit_len c B R LB _ _ HR). cbn [bind].
  rewrite ceil_lg_ok by lia. cbn [bind].
  assert (E : N.log2_up (lengthN l) = 0) by (apply N.log2_up_eqn0; lia). rewrite E.
  rewrite wmul_ok by lia. cbn [bind]. rewrite ceil_div_ok by lia. cbn [bind].
  change (0 * 0) with 0. rewrite blocks_for_0 by lia.
  rewrite wmul_ok by lia. cbn [bind]. rewrite N.mul_0_r. cbn [wdiv N.eqb bind]. apply panics_Panic.
Qed.

(** When there is room for the directory of relative ranks: up to a quarter of the memory limit, and up to the limit itself for blocks
    of 16 bits and more. *)
Lemma jac_width nb n : wf_nb nb -> n <= 2 ^ 63 -> N.log2_up (nb * blocks_for nb (N.log2_up n * N.log2_up n) + 1) <= 12.
Proof.
  intros Hnb Hn. pose proof (wf_nb_range nb Hnb) as Hr. assert (Hlg : N.log2_up n <= 63) by (apply log2_up_le; exact Hn). set (lg := N.log2_up n) in *. clearbody lg.
  pose proof (blocks_for_spec nb (lg * lg) ltac:(lia)). assert (lg * lg <= 3969) by nia. apply log2_up_le. change (2 ^ 12) with 4096. lia.
Qed.
Lemma jac_room_quarter c nb n : wf_nb nb -> 4 * n <= max_bits c -> jac_room c nb n.
Proof.
  intros Hnb Hn. pose proof (wf_nb_range nb Hnb) as Hr. pose proof (max_bits_lt c) as Hmax. unfold jac_room. pose proof (jac_width nb n Hnb ltac:(lia)) as Hk.
  set (k := N.log2_up _) in *. clearbody k. pose proof (blocks_for_spec nb n ltac:(lia)) as Hb. set (bl := blocks_for nb n) in *. clearbody bl.
  pose proof (ja_bl bl nb n ltac:(lia) ltac:(lia) ltac:(lia)) as H8. pose proof (ja_fc bl k n H8 Hk) as Hfc.
  assert (Hmax32 : 2 ^ 33 <= max_bits c) by (unfold max_bits; destruct (ptr c =? 32); vm_compute; congruence).
  unfold fits. set (y := (bl + 1) * k) in *. clearbody y. pose proof (blocks_for_spec 64 y ltac:(lia)). lia.
Qed.
Lemma jac_room_wide c nb n : wf_nb nb -> 16 <= nb -> fits c nb n -> jac_room c nb n.
Proof.
  intros Hnb H16 Hf. pose proof (wf_nb_range nb Hnb) as Hr. pose proof (max_bits_lt c) as Hmax. pose proof (fits_le c nb n ltac:(lia) Hf) as Hle.
  unfold jac_room. pose proof (jac_width nb n Hnb ltac:(lia)) as Hk.
  set (k := N.log2_up _) in *. clearbody k. pose proof (blocks_for_spec nb n ltac:(lia)) as Hb. set (bl := blocks_for nb n) in *. clearbody bl.
  assert (H8 : 16 * bl <= n + 16) by (destruct (N.eq_dec bl 0) as [->|]; [lia|]; assert (1 * nb <= bl * nb) by (apply N.mul_le_mono_r; lia); assert ((bl - 1) * nb < n) by (rewrite N.mul_sub_distr_r; lia); assert (16 * (bl - 1) <= nb * (bl - 1)) by (apply N.mul_le_mono_r; lia); lia).
  assert (Hfc : (bl + 1) * k <= (bl + 1) * 12) by (apply N.mul_le_mono_l; lia).
  assert (Hmax32 : 2 ^ 33 <= max_bits c) by (unfold max_bits; destruct (ptr c =? 32); vm_compute; congruence).
  unfold fits. set (y := (bl + 1) * k) in *. clearbody y. pose proof (blocks_for_spec 64 y ltac:(lia)). lia.
Qed.
