(** * Property C123: the places of a pattern ([MFmLocate.v]). *)
From Coq Require Import Sorted Permutation.
From Verif Require Import Machine MStorage MTraits MVectorBase MBitVector MIntVector MRank MWavelet MFmIndex MFmLocate
  SpecBits SpecCfg SpecLaws SpecOps SpecRank PBase PStorage PBits PVectorBase PVectorBase2 PVectorBase3 PBitVector PIntVector PIntRun PRank PRank9
  Properties6 Properties57 Properties59 Properties71.

(** ** Lists *)
Lemma filter_at {A} (f : A -> bool) l : forall p x, nthN l p = Some x -> f x = true ->
  nthN (filter f l) (how_many f (firstnN p l)) = Some x /\ how_many f (firstnN (p + 1) l) = how_many f (firstnN p l) + 1.
Proof.
  induction l as [|a l IH]; intros p x Hp Hx; [discriminate|]. rewrite nthN_cons in Hp. destruct (p =? 0) eqn:E.
  - apply N.eqb_eq in E. subst p. injection Hp as ->. rewrite firstnN_0. change (how_many f []) with 0. cbn [filter]. rewrite Hx. split; [reflexivity|].
    change (firstnN (0 + 1) (x :: l)) with [x]. rewrite how_many_cons, Hx. reflexivity.
  - destruct (IH _ _ Hp Hx) as [H1 H2].
    assert (F : forall q, firstnN (q + 1) (a :: l) = a :: firstnN q l) by (intros q; unfold firstnN; now replace (N.to_nat (q + 1)) with (Datatypes.S (N.to_nat q)) by lia).
    rewrite F. replace (firstnN p (a :: l)) with (a :: firstnN (p - 1) l) by (rewrite <- F; f_equal; lia). replace (p - 1 + 1) with p in H2 by lia. rewrite !how_many_cons, H2. cbn [filter]. destruct (f a) eqn:Ea.
    + split; [|lia]. rewrite nthN_cons. destruct (1 + how_many f (firstnN (p - 1) l) =? 0) eqn:E1; [lia|]. now replace (1 + how_many f (firstnN (p - 1) l) - 1) with (how_many f (firstnN (p - 1) l)) by lia.
    + split; [exact H1|lia].
Qed.
Lemma below {A} (f : A -> bool) l : StronglySorted (fun a b => f b = true -> f a = true) l -> forall p x, nthN l p = Some x -> f x = (p <? how_many f l).
Proof.
  induction 1 as [|a r HS IH HF]; intros p x Hp; [discriminate|]. rewrite nthN_cons in Hp. rewrite how_many_cons.
  assert (Hn : f a = false -> Forall (fun x => f x = false) r) by (intros E; eapply Forall_impl; [|exact HF]; intros y Hy; cbn in Hy; apply Bool.not_true_is_false; intros Ex; specialize (Hy Ex); congruence).
  destruct (p =? 0) eqn:E.
  - injection Hp as ->. destruct (f x) eqn:Ex; [symmetry; apply N.ltb_lt; lia|]. rewrite (how_many_none f r (Hn eq_refl)). symmetry. apply N.ltb_ge. lia.
  - rewrite (IH _ _ Hp). destruct (f a) eqn:Ea.
    + destruct (p - 1 <? how_many f r) eqn:E1; symmetry; [apply N.ltb_lt|apply N.ltb_ge]; lia.
    + rewrite (how_many_none f r (Hn eq_refl)). transitivity false; [apply N.ltb_ge|symmetry; apply N.ltb_ge]; lia.
Qed.
Lemma NoDup_nth_inj {A} (l : list A) i j x : NoDup l -> nthN l i = Some x -> nthN l j = Some x -> i = j.
Proof.
  intros HN Hi Hj. pose proof (nthN_lt _ _ _ Hi) as Li. rewrite nthN_nth_error in Hi, Hj. rewrite NoDup_nth_error in HN.
  assert (N.to_nat i = N.to_nat j) by (apply HN; [unfold lengthN in Li; lia|congruence]). lia.
Qed.

Lemma nthN_In {A} (l : list A) i x : nthN l i = Some x -> In x l.
Proof. rewrite nthN_nth_error. apply nth_error_In. Qed.
Lemma In_nthN {A} (l : list A) x : In x l -> exists i, nthN l i = Some x.
Proof. intros H. apply In_nth_error in H. destruct H as (n & H). exists (N.of_nat n). rewrite nthN_nth_error. now rewrite Nat2N.id. Qed.

(** ** The order of slices *)
Definition lex_lt (x y : list N) : Prop := (exists z, z <> [] /\ y = x ++ z) \/ exists u a b x' y', x = u ++ a :: x' /\ y = u ++ b :: y' /\ a < b.
Lemma slice_le_lex x : forall y, Forall (fun a => 1 <= a) x -> x <> y -> slice_le (x ++ [0]) (y ++ [0]) = true -> lex_lt x y.
Proof.
  induction x as [|a x IH]; intros y HF HN H.
  - left. exists y. split; [congruence|reflexivity].
  - inversion HF as [|? ? Ha HF']; subst. destruct y as [|b y]; cbn [app slice_le] in H.
    + apply orb_true_iff in H. destruct H as [H|H]; [apply N.ltb_lt in H; lia|]. apply andb_true_iff in H. destruct H as [H _]. apply N.eqb_eq in H. lia.
    + apply orb_true_iff in H. destruct H as [H|H]; [right; exists [], a, b, x, y; apply N.ltb_lt in H; auto|]. apply andb_true_iff in H. destruct H as [H1 H2]. apply N.eqb_eq in H1. subst b.
      destruct (IH y HF' ltac:(congruence) H2) as [(z & Hz & ->)|(u & p & q & x' & y' & -> & -> & Hpq)].
      * left. exists z. auto.
      * right. exists (a :: u), p, q, x', y'. auto.
Qed.
Lemma sorted_nth {A} (Q : A -> A -> Prop) l : StronglySorted Q l -> forall i j a b, i < j -> nthN l i = Some a -> nthN l j = Some b -> Q a b.
Proof.
  induction 1 as [|x r HS IH HF]; intros i j a b Hij Hi Hj; [discriminate|]. rewrite nthN_cons in Hi, Hj. destruct (j =? 0) eqn:Ej; [lia|]. destruct (i =? 0) eqn:Ei.
  - injection Hi as ->. rewrite Forall_forall in HF. apply HF. exact (nthN_In r (j - 1) b Hj).
  - apply (IH (i - 1) (j - 1)); auto. lia.
Qed.

Section Fill.
  Variables (c : cfg) (every k : N).
  Hypothesis Hc : wf_cfg c.
  Hypothesis Hk : 1 <= k <= 64.
  Hypothesis He : 1 <= every.
  Let H64 : wf_nb 64 := ltac:(unfold wf_nb; auto).
  Let LP := bvec_lawful_push c 64 Hc H64.
  Let f (i : N) := i mod every =? 0.
  Lemma lo_fill_ok l : forall m v ms vs, R_bv c 64 m ms -> R_iv c 64 k v vs -> Forall (fun i => i < 2 ^ k) l ->
    fits c 64 (lengthN ms + lengthN l) -> fits c 64 ((lengthN vs + lengthN l) * k) ->
    exists m' v', lo_fill c every l m v = Ok (m', v') /\ R_bv c 64 m' (ms ++ map f l) /\ R_iv c 64 k v' (vs ++ filter f l).
  Proof.
    induction l as [|i l IH]; intros m v ms vs HM HV HF F1 F2.
    - exists m, v. cbn [lo_fill map filter]. rewrite !app_nil_r. auto.
    - inversion HF as [|? ? Hi HF']; subst. rewrite lengthN_cons in F1, F2. cbn [lo_fill]. unfold wmod. destruct (every =? 0) eqn:E0; [lia|]. cbn [bind]. fold (f i).
      destruct (lp_push_bit _ _ _ _ LP m _ (f i) HM) as (m1 & E1 & M1); [apply (fits_mono c 64 _ (lengthN ms + (lengthN l + 1))); [lia|lia|exact F1]|]. rewrite E1. cbn [bind].
      assert (exists v1, (if f i then iv_push c 64 v i else Ok v) = Ok v1 /\ R_iv c 64 k v1 (vs ++ if f i then [i] else [])) as (v1 & E2 & V1).
      { destruct (f i); [|exists v; rewrite app_nil_r; auto]. apply (iv_push_ok c 64 k Hc H64 ltac:(lia) v vs i HV Hi).
        apply (fits_mono c 64 _ ((lengthN vs + (lengthN l + 1)) * k)); [lia|apply N.mul_le_mono_r; lia|exact F2]. }
      rewrite E2. cbn [bind]. destruct (IH m1 v1 _ _ M1 V1 HF') as (m2 & v2 & E3 & M2 & V2).
      + rewrite lengthN_app, lengthN_cons, lengthN_nil. replace (lengthN ms + (0 + 1) + lengthN l) with (lengthN ms + (lengthN l + 1)) by lia. exact F1.
      + apply (fits_mono c 64 _ ((lengthN vs + (lengthN l + 1)) * k)); [lia| |exact F2]. apply N.mul_le_mono_r. rewrite lengthN_app. destruct (f i); [rewrite lengthN_cons|]; rewrite lengthN_nil; lia.
      + exists m2, v2. split; [exact E3|]. rewrite <- app_assoc in M2, V2. cbn [map filter]. split; [exact M2|]. destruct (f i); exact V2.
  Qed.
End Fill.

Theorem C123_locate : forall c w sigma every k text, wf_cfg c -> (w <= 64)%nat -> sigma <= 2 ^ N.of_nat w -> Forall (fun x => 1 <= x < sigma) text ->
  1 <= every -> 1 <= k <= 64 -> lengthN text < 2 ^ k ->
  (* the text and the table of symbols fit in memory *)
  (lengthN text + 1) * 64 <= max_bits c -> sigma * 64 <= max_bits c ->
  exists x, lo_new c w sigma every k text = Ok x /\ forall P fuel, Forall (fun x => 1 <= x < sigma) P ->
    (* as many steps for a place as the samples are apart, whatever the text is *)
    (N.to_nat every <= fuel)%nat ->
    exists places, lo_locate c fuel x P = Ok places /\ NoDup places /\
      (forall i, In i places <-> i <= lengthN text /\ forall j, j < lengthN P -> nthN text (i + j) = nthN P j) /\
      (* in the order of what follows them in the text *)
      forall p q i j, p < q -> nthN places p = Some i -> nthN places q = Some j -> lex_lt (skipnN i text) (skipnN j text).
Proof.
  intros c w sigma every k text Hc Hw Hs HT He Hk HL Hn Hsg. set (t := text ++ [0]). assert (Ht : lengthN t = lengthN text + 1) by (unfold t; rewrite lengthN_app, lengthN_cons, lengthN_nil; lia).
  rewrite <- Ht in Hn. set (sa := fm_suffixes t). set (bwt := map (before_at 0 t) sa).
  assert (HI : forall i, In i sa -> i < lengthN t) by (intros i Hi; apply (Permutation_in _ (sort_perm _ _)), iota_In in Hi; exact Hi).
  assert (SL : lengthN sa = lengthN t) by apply (sa_length text).
  assert (HB : lengthN bwt = lengthN t) by (unfold bwt; rewrite lengthN_map; exact SL).
  assert (Hw2 : 0 < 2 ^ N.of_nat w) by (pose proof (pow2_pos (N.of_nat w)); lia).
  destruct (C110_wavelet c w bwt Hc Hw) as (d & Ed & EL & ER & _ & EG & _).
  { apply Forall_forall. intros x Hx. apply in_map_iff in Hx. destruct Hx as (i & <- & Hi). unfold before_at. destruct (i =? 0); [exact Hw2|]. destruct (nthN t (i - 1)) as [y|] eqn:Ey; [|exact Hw2].
    assert (HTt : Forall (fun x => x < 2 ^ N.of_nat w) t) by (apply Forall_app; split; [eapply Forall_impl; [|exact HT]; intros z Hz; cbn in Hz; lia|repeat constructor; exact Hw2]).
    exact (proj1 (Forall_nthN _ _) HTt _ _ Ey). }
  { rewrite HB. unfold fits. pose proof (blocks_for_spec 64 (lengthN t) ltac:(lia)). lia. }
  set (f := {| fm_first := fm_firsts sigma t; fm_last := d |}).
  assert (EF : fm_new c w sigma text = Ok f) by (unfold fm_new; fold t; fold sa; rewrite (preceding_ok c t sa Hc Hn HI); cbn [bind]; fold bwt; rewrite Ed; reflexivity).
  assert (HRW : forall p v, p < lengthN t -> v < sigma -> rs_rank (wavelet_ranksup c) d p v = Ok (how_many (N.eqb v) (firstnN (p + 1) bwt))) by (intros p v Hp Hv; apply ER; [now rewrite HB|lia]).
  assert (RO : forall i, i < lengthN t -> nthN sa (bound text false (skipnN i t)) = Some i) by (intros i Hi; apply (row_ok text i Hi)).
  assert (HG : forall i, i < lengthN t -> wt_get c (wl_tree d) (bound text false (skipnN i t)) = Ok (before_at 0 t i)).
  { intros i Hi. apply EG. unfold bwt. rewrite nthN_map, (RO i Hi). reflexivity. }
  assert (ND : NoDup sa) by (apply (Permutation_NoDup (Permutation_sym (sa_perm text))), iota_NoDup).
  (* the vectors *)
  assert (H64 : wf_nb 64) by (unfold wf_nb; auto). set (g := fun i => i mod every =? 0).
  assert (Em : bvec_new c 64 = Ok {| vb_len := 0; vb_vec := [] |}) by (unfold bvec_new, vb_new, vb_block_with_capacity, alloc; cbn [N.mul]; destruct (max_bits c); reflexivity).
  assert (Rm : R_bv c 64 {| vb_len := 0; vb_vec := [] |} []) by (split; [reflexivity|]; split; [reflexivity|apply fits_0; lia]).
  pose proof (iv_make_sim c 64 k Hc H64 ltac:(lia) INew I) as H0. unfold spec_imake in H0. destruct ((k =? 0) || (64 <? k)) eqn:Ek; [lia|].
  cbn [iv_make ends] in H0. destruct H0 as (v0 & Ev0 & V0).
  assert (F2 : fits c 64 (lengthN sa * k)).
  { apply (fits_mono c 64 _ (lengthN sa * 64)); [lia|apply N.mul_le_mono_l; lia|]. unfold fits. rewrite SL, blocks_for_mul by lia. lia. }
  assert (F1 : fits c 64 (lengthN sa)). { apply (fits_mono c 64 _ (lengthN sa * k)); [lia|clear -Hk; nia|exact F2]. }
  destruct (lo_fill_ok c every k Hc Hk He sa _ v0 [] [] Rm V0) as (m & v & E1 & M & V).
  { apply Forall_forall. intros i Hi. apply HI in Hi. lia. }
  { exact F1. } { exact F2. }
  cbn [app] in M, V. fold g in M, V.
  pose proof (bvec_lawful_bits c 64 Hc H64) as LB. pose proof (bvec_lawful_blocks c 64 Hc H64) as LK.
  destruct (rank9_new_ok c (bvec_bitvec c 64) (R_bv c 64) Hc LB (block_reads c _ _ LK) eq_refl m _ M) as (D & ED & Es & _).
  destruct (C35_rank_structures _ c (bvec_bitvec c 64) (R_bv c 64) Hc LB LK) as (_ & LR & _). specialize (LR eq_refl).
  assert (HD : exists m, R_bv c 64 m (map g sa) /\ rank9_new c (bvec_bitvec c 64) m = Ok D) by (exists m; auto).
  set (x := {| lo_fm := f; lo_marks := D; lo_samples := v |}). exists x.
  split; [unfold lo_new; rewrite EF; cbn [bind]; rewrite Em; cbn [bind]; rewrite Ev0; cbn [bind]; fold t; fold sa; rewrite E1; cbn [bind]; rewrite ED; reflexivity|].
  intros P fuel HP Hf.
  (* the position of a row *)
  pose proof (max_bits_lt c) as Hm.
  assert (K : forall fl i e, i < lengthN t -> i + e < lengthN t -> (N.to_nat (i mod every) < fl)%nat ->
    loop_fuel fl (fun '(p, d) =>
      b <- bv_get_bit (rank9_bitvec (bvec_bitvec c 64)) (lo_marks x) p ;;
      if b then
        r <- br_rank1 (rank9_bitrank c (bvec_bitvec c 64)) (lo_marks x) p ;; q <- wsub c 64 r 1 ;; s <- iv_get c 64 (lo_samples x) q ;; r <- wadd c 64 s d ;; Ok (Return r)
      else
        y <- wt_get c (wl_tree (fm_last (lo_fm x))) p ;; p <- fm_step c (wavelet_ranksup c) (lo_fm x) y p ;; d <- wadd c 64 d 1 ;; Ok (Continue (p, d)))
      (bound text false (skipnN i t), e) = Ok (i + e)).
  { induction fl as [|fl IH]; intros i e Hi Hie Hfl; [lia|]. cbn [loop_fuel]. pose proof (RO i Hi) as HR. set (p := bound text false (skipnN i t)) in *.
    assert (HGB : bv_get_bit (rank9_bitvec (bvec_bitvec c 64)) (lo_marks x) p = Ok (g i)).
    { unfold rank9_bitvec, x. cbn [bv_get_bit lo_marks]. rewrite Es. apply (lb_get_bit _ _ _ LB m _ p _ M). rewrite nthN_map, HR. reflexivity. }
    rewrite HGB. cbn [bind]. unfold x. cbn [lo_marks lo_samples lo_fm]. destruct (g i) eqn:Eg.
    - destruct (filter_at g sa p i HR Eg) as [Q1 Q2]. pose proof (nthN_lt _ _ _ HR) as Hp.
      rewrite (lr_rank1 _ _ LR D _ p HD) by (rewrite lengthN_map; exact Hp). cbn [bind].
      assert (Er : rank_of true (map g sa) p = how_many g (firstnN p sa) + 1).
      { unfold rank_of. rewrite firstnN_map, <- how_many_count, <- Q2. unfold how_many. f_equal. apply filter_ext. intros z. now destruct (g z). }
      rewrite Er, wsub_ok by lia. cbn [bind]. replace (how_many g (firstnN p sa) + 1 - 1) with (how_many g (firstnN p sa)) by lia.
      rewrite (iv_get_ok c 64 k Hc H64 ltac:(lia) v _ _ i V); [|apply (iv_index_ok c 64 k v _ _ Hc H64 ltac:(lia) V); exact (nthN_lt _ _ _ Q1)|exact Q1].
      cbn [bind]. rewrite wadd_ok by lia. reflexivity.
    - unfold g in Eg. assert (I0 : i <> 0) by (intros ->; rewrite N.mod_0_l in Eg by lia; discriminate).
      unfold p. change (fm_last f) with d. rewrite (HG i Hi). cbn [bind].
      assert (exists y, nthN t (i - 1) = Some y /\ 1 <= y < sigma) as (y & Ey & Hy).
      { destruct (nthN t (i - 1)) as [y|] eqn:Ey; [|apply nthN_None in Ey; lia]. exists y. split; [reflexivity|]. unfold t in Ey. rewrite nthN_app_l in Ey by lia. exact (proj1 (Forall_nthN _ _) HT _ _ Ey). }
      assert (EB : before_at 0 t i = y) by (unfold before_at; destruct (i =? 0) eqn:E; [lia|]; now rewrite Ey). rewrite EB.
      pose proof (step_ok c (wavelet_ranksup c) sigma text d Hc Hsg Hn HRW false y (skipnN i t) Hy) as HST. fold t in HST. fold f in HST. rewrite HST. cbn [bind]. rewrite wadd_ok by lia. cbn [bind].
      assert (ES : y :: skipnN i t = skipnN (i - 1) t).
      { apply nthN_ext. intros j. rewrite nthN_cons, !nthN_skipnN. destruct (j =? 0) eqn:E; [rewrite <- Ey; f_equal; lia|f_equal; lia]. }
      rewrite ES. replace (i + e) with ((i - 1) + (e + 1)) by lia. apply IH; [lia|lia|].
      assert (EM : i mod every = (i - 1) mod every + 1).
      { pose proof (N.mod_lt i every ltac:(lia)) as H1. apply N.eqb_neq in Eg. pose proof (N.div_mod i every ltac:(lia)) as H2.
        assert (H3 : (i - 1) mod every = i mod every - 1) by (symmetry; apply (N.mod_unique (i - 1) every (i / every)); lia). lia. }
      lia. }
  assert (POS : forall p i, nthN sa p = Some i -> lo_position c fuel x p = Ok i).
  { intros p i Hp. assert (Hi : i < lengthN t) by (apply HI; exact (nthN_In sa p i Hp)). pose proof (NoDup_nth_inj sa _ _ i ND Hp (RO i Hi)) as ->.
    pose proof (K fuel i 0 Hi ltac:(lia)) as HK. rewrite N.add_0_r in HK. apply HK. pose proof (N.mod_lt i every ltac:(lia)). lia. }
  (* the rows of the pattern *)
  assert (SO : forall b, StronglySorted (fun i j => low b P (skipnN j t) = true -> low b P (skipnN i t) = true) sa) by (intros b; apply (sorted_impl _ _ sa (fun i j => low_down b P (skipnN i t) (skipnN j t)) (sa_sorted text))).
  assert (BE : bound text false P <= bound text true P) by (apply how_many_mono; intros z; apply low_false_true).
  pose proof (bound_le text true P) as BL. fold t in BL.
  assert (ST : fm_steps c (wavelet_ranksup c) f (rev P) 0 (lengthN t) = Ok (bound text false P, bound text true P)).
  { pose proof (steps_ok c (wavelet_ranksup c) sigma text d Hc Hsg Hn HRW (rev P) [] (Forall_rev HP)) as H. rewrite rev_involutive, app_nil_r in H. fold t in H. fold f in H. rewrite <- H. f_equal; unfold bound; cbn [low].
    - symmetry. apply how_many_none. now apply Forall_forall.
    - symmetry. rewrite how_many_every by reflexivity. fold t. fold sa. exact SL. }
  set (s := bound text false P) in *. set (e := bound text true P) in *.
  destruct (for_range_ind (fun q acc => lengthN acc = q - s /\ forall j, j < q - s -> nthN acc j = nthN sa (s + j)) (fun p acc => i <- lo_position c fuel x p ;; Ok (acc ++ [i])) s e []) as (places & EP & LE & NE).
  - exact BE.
  - split; [rewrite lengthN_nil; lia|]. intros j Hj. lia.
  - intros q acc H1 H2 [A1 A2]. destruct (nthN sa q) as [i|] eqn:Eq; [|apply nthN_None in Eq; lia]. rewrite (POS q i Eq). cbn [bind]. eexists. split; [reflexivity|]. split.
    + rewrite lengthN_app, lengthN_cons, lengthN_nil. lia.
    + intros j Hj. rewrite nthN_app. destruct (j <? lengthN acc) eqn:E; [apply A2; lia|]. assert (Ej : s + j = q) by lia. replace (j - lengthN acc) with 0 by lia. change (nthN [i] 0) with (Some i). now rewrite Ej.
  - exists places. split; [|split; [|split]].
    + unfold lo_locate. unfold x at 1. cbn [lo_fm fm_last f]. rewrite EL. cbn [bind]. rewrite HB. unfold x at 1. cbn [lo_fm]. rewrite ST. cbn [bind]. exact EP.
    + apply NoDup_nth_error. intros i j Hi Hij. assert (Li : N.of_nat i < lengthN places) by (unfold lengthN; lia).
      assert (Lj : N.of_nat j < lengthN places). { assert (nth_error places j <> None) by (rewrite <- Hij; now apply nth_error_Some). apply nth_error_Some in H. unfold lengthN; lia. }
      assert (EE : forall q, nth_error places q = nthN places (N.of_nat q)) by (intros q; rewrite nthN_nth_error; f_equal; lia). rewrite !EE in Hij.
      rewrite (NE (N.of_nat i)), (NE (N.of_nat j)) in Hij by lia. destruct (nthN sa (s + N.of_nat i)) as [z|] eqn:Ez; [|apply nthN_None in Ez; lia]. symmetry in Hij.
      pose proof (NoDup_nth_inj sa _ _ z ND Ez Hij). lia.
    + intros i. transitivity (exists p, s <= p < e /\ nthN sa p = Some i).
      * split.
        -- intros Hi. apply In_nthN in Hi. destruct Hi as (j & Hj). pose proof (nthN_lt _ _ _ Hj). rewrite NE in Hj by lia. exists (s + j). split; [lia|exact Hj].
        -- intros (p & Hp & Ep). apply (nthN_In _ (p - s) i). rewrite NE by lia. rewrite <- Ep. f_equal. lia.
      * assert (OC : forall i, i < lengthN t -> (s <= bound text false (skipnN i t) < e <-> (forall j, j < lengthN P -> nthN (skipnN i t) j = nthN P j))).
        { intros z Hz. rewrite <- low_prefix. pose proof (below _ sa (SO false) _ _ (RO z Hz)) as B1. pose proof (below _ sa (SO true) _ _ (RO z Hz)) as B2. cbn beta in B1, B2. rewrite B1, B2.
          change (how_many (fun i => low false P (skipnN i t)) sa) with s. change (how_many (fun i => low true P (skipnN i t)) sa) with e. rewrite andb_true_iff, negb_true_iff, N.ltb_lt, N.ltb_ge. tauto. }
        split.
        -- intros (p & Hp & Ep). assert (Hi : i < lengthN t) by (apply HI; exact (nthN_In sa p i Ep)). pose proof (NoDup_nth_inj sa _ _ i ND Ep (RO i Hi)) as ->. split; [lia|].
           intros j Hj. pose proof (proj1 (OC i Hi) Hp j Hj) as H. rewrite nthN_skipnN in H. unfold t in H. rewrite nthN_app in H. destruct (i + j <? lengthN text) eqn:E; [exact H|]. exfalso. rewrite nthN_cons, nthN_nil in H.
           destruct (nthN P j) as [y|] eqn:Ey; [|apply nthN_None in Ey; lia]. pose proof (proj1 (Forall_nthN _ _) HP j y Ey) as Hy. cbn in Hy. destruct (i + j - lengthN text =? 0); [injection H as <-; lia|discriminate].
        -- intros [Hi H]. assert (Hi' : i < lengthN t) by lia. exists (bound text false (skipnN i t)). split; [|apply (RO i Hi')]. apply (OC i Hi'). intros j Hj. specialize (H j Hj).
           rewrite nthN_skipnN. unfold t. destruct (nthN P j) as [y|] eqn:Ey; [|apply nthN_None in Ey; lia]. rewrite nthN_app_l by (exact (nthN_lt _ _ _ H)). exact H.
    + intros p q i j Hpq Hp Hq. pose proof (nthN_lt _ _ _ Hp) as Lp. pose proof (nthN_lt _ _ _ Hq) as Lq. rewrite NE in Hp, Hq by lia.
      pose proof (sorted_nth _ sa (sa_sorted text) (s + p) (s + q) i j ltac:(lia) Hp Hq) as HO. cbn beta in HO.
      assert (Hi : i < lengthN t) by (apply HI; exact (nthN_In sa _ i Hp)). assert (Hj : j < lengthN t) by (apply HI; exact (nthN_In sa _ j Hq)).
      assert (SK : forall z, z < lengthN t -> skipnN z (text ++ [0]) = skipnN z text ++ [0]).
      { intros z Hz. unfold skipnN. rewrite skipn_app. replace (N.to_nat z - length text)%nat with 0%nat by (unfold lengthN in *; lia). reflexivity. }
      rewrite !SK in HO by assumption. apply slice_le_lex; [| |exact HO].
      * apply Forall_forall. intros z Hz. rewrite Forall_forall in HT. assert (HZ : In z text) by (rewrite <- (firstn_skipn (N.to_nat i) text); apply in_or_app; now right). specialize (HT z HZ). cbn in HT. lia.
      * intros EQ. assert (i = j) by (apply (skipnN_inj i j t Hi Hj); unfold t; rewrite !SK by assumption; now rewrite EQ). subst j. pose proof (NoDup_nth_inj sa _ _ i ND Hp Hq). lia.
Qed.

(** "mississippi" with m = 2, i = 1, s = 4, p = 3; every third position is kept, in four bits. *)
Example C123_ex : let text := [2; 1; 4; 4; 1; 4; 4; 1; 3; 3; 1] in
  exists x, lo_new dbg32 3 5 3 4 text = Ok x /\ iv_len (lo_samples x) = 4 /\
    lo_locate dbg32 3 x [1; 4; 4; 1] = Ok [4; 1] /\ lo_locate dbg32 3 x [1] = Ok [10; 7; 4; 1] /\ lo_locate dbg32 3 x [3; 1; 3] = Ok [] /\
    lo_locate dbg32 3 x [] = Ok [11; 10; 7; 4; 1; 0; 9; 8; 6; 3; 5; 2] /\ lo_locate dbg32 3 x text = Ok [0].
Proof. cbv zeta. eexists. split; [vm_compute; reflexivity|]. do 5 (split; [vm_compute; reflexivity|]). vm_compute. reflexivity. Qed.
Example C123_ex_ok : let text := [2; 1; 4; 4; 1; 4; 4; 1; 3; 3; 1] in
  wf_cfg dbg32 /\ (3 <= 64)%nat /\ 5 <= 2 ^ N.of_nat 3 /\ Forall (fun x => 1 <= x < 5) text /\ 1 <= 3 /\ 1 <= 4 <= 64 /\ lengthN text < 2 ^ 4 /\
  (lengthN text + 1) * 64 <= max_bits dbg32 /\ 5 * 64 <= max_bits dbg32 /\ Forall (fun x => 1 <= x < 5) [1; 4; 4; 1] /\ (N.to_nat 3 <= 3)%nat.
Proof. cbv zeta. split; [unfold wf_cfg; auto|]. split; [lia|]. split; [vm_compute; congruence|]. split; [repeat constructor; lia|]. split; [lia|]. split; [lia|]. split; [vm_compute; reflexivity|]. split; [vm_compute; congruence|]. split; [vm_compute; congruence|]. split; [repeat constructor; lia|]. apply le_n. Qed.

Print Assumptions C123_locate.
