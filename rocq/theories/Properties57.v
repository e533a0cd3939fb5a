(** * Property C110: rank and select over symbols: any implementation of RankSupport, and a wavelet tree ([MWavelet.v]). *)
From Verif Require Import Machine MStorage MTraits MVectorBase MBitVector MRank MSelect MWavelet
  SpecBits SpecCfg SpecLaws SpecOps SpecRank PBase PBits PDefaults PVectorBase PVectorBase2 PVectorBase3 PBitVector PRank PRank9 PSelect Properties6 Properties49.

(** The number of elements of a list that satisfy [f]. *)
Definition how_many {A} (f : A -> bool) (l : list A) : N := lengthN (filter f l).

Lemma how_many_app {A} f (l m : list A) : how_many f (l ++ m) = how_many f l + how_many f m.
Proof. unfold how_many. now rewrite filter_app, lengthN_app. Qed.
Lemma how_many_count {A} (f : A -> bool) b l : how_many (fun x => Bool.eqb (f x) b) l = count b (map f l).
Proof.
  unfold how_many. induction l as [|x l IH]; [reflexivity|]. cbn [filter map count]. destruct (Bool.eqb (f x) b); [rewrite lengthN_cons|]; lia.
Qed.
Lemma how_many_true {A} (f : A -> bool) l : how_many f l = count true (map f l).
Proof. rewrite <- how_many_count. unfold how_many. f_equal. apply filter_ext. intros x. now destruct (f x). Qed.
Lemma firstnN_map {A B} (f : A -> B) n l : firstnN n (map f l) = map f (firstnN n l).
Proof. unfold firstnN. apply firstn_map. Qed.
Lemma how_many_ext {A} (f g : A -> bool) l : Forall (fun x => f x = g x) l -> how_many f l = how_many g l.
Proof. unfold how_many. induction 1 as [|x l E _ IH]; [reflexivity|]. cbn [filter]. rewrite E. destruct (g x); [rewrite !lengthN_cons|]; lia. Qed.
Lemma how_many_filter {A} (f g : A -> bool) l : how_many f (filter g l) = how_many (fun x => g x && f x) l.
Proof. unfold how_many. induction l as [|x l IH]; [reflexivity|]. cbn [filter]. destruct (g x); cbn [filter andb]; [|exact IH]. destruct (f x); [rewrite !lengthN_cons|]; lia. Qed.
Lemma how_many_split {A} (f g : A -> bool) l : how_many f l = how_many f (filter (fun x => negb (g x)) l) + how_many f (filter g l).
Proof.
  rewrite !how_many_filter. unfold how_many. induction l as [|x l IH]; [reflexivity|]. cbn [filter]. destruct (g x), (f x); cbn [negb andb]; rewrite ?lengthN_cons; lia.
Qed.
Lemma how_many_le {A} (f : A -> bool) l : how_many f l <= lengthN l.
Proof. unfold how_many. induction l as [|x l IH]; [apply N.le_refl|]. cbn [filter]. destruct (f x); rewrite !lengthN_cons; lia. Qed.
Lemma filter_firstnN {A} (g : A -> bool) e l : filter g (firstnN e l) = firstnN (how_many g (firstnN e l)) (filter g l).
Proof.
  rewrite <- (firstn_skipnN e l) at 3. rewrite filter_app. unfold how_many. now rewrite firstnN_app_exact.
Qed.

Lemma filter_all {A} (l : list A) : filter (fun _ => true) l = l.
Proof. induction l as [|x l IH]; [reflexivity|]. cbn [filter]. now rewrite IH. Qed.

(** ** Any rank structure over any type of symbols: select is exact *)
Theorem C110_select : forall A T c (eqA : A -> A -> bool) (R : ranksup A T) t (xs : list A) v i fuel,
  (forall x y, eqA x y = true <-> x = y) -> lengthN xs < 2 ^ 64 -> i < 2 ^ 64 - 1 -> (64 < fuel)%nat ->
  rs_limit R t = Ok (lengthN xs) ->
  (forall p, p < lengthN xs -> rs_rank R t p v = Ok (how_many (eqA v) (firstnN (p + 1) xs))) ->
  exists o, bss_select c R fuel t i v = Ok o /\
    (forall p, o = Some p <-> nthN xs p = Some v /\ how_many (eqA v) (firstnN p xs) = i) /\
    (o = None <-> how_many (eqA v) xs <= i).
Proof.
  intros A T c eqA R t xs v i fuel HE HL Hi Hf EL ER. set (l := map (eqA v) xs).
  assert (LL : lengthN l = lengthN xs) by apply lengthN_map.
  assert (HC : forall e, how_many (eqA v) (firstnN e xs) = count true (firstnN e l)) by (intros e; unfold l; rewrite firstnN_map; apply how_many_true).
  assert (HN : forall p, nthN l p = Some true <-> nthN xs p = Some v).
  { intros p. unfold l. rewrite nthN_map. destruct (nthN xs p) as [y|]; cbn [option_map]; [|split; discriminate].
    destruct (eqA v y) eqn:E; [apply HE in E; subst; split; reflexivity|]. split; [discriminate|]. intros [= ->]. rewrite (proj2 (HE v v) eq_refl) in E. discriminate. }
  unfold bss_select. rewrite EL. cbn [bind]. rewrite wadd_ok by lia. cbn [bind]. rewrite <- LL.
  destruct (search_ok c 64 (i + 1) (lengthN l) (fun p => rs_rank R t p v) (rank_of true l) ltac:(lia) ltac:(lia) 0 ltac:(lia)) with (fuel := fuel) as [o [Eo Ho]].
  - intros p _ Hp. rewrite ER by lia. unfold rank_of. now rewrite HC.
  - intros p q _ Hpq _. now apply rank_of_mono.
  - lia.
  - exists o. split; [exact Eo|]. destruct o as [p|].
    + destruct Ho as (_ & H1 & H2 & H3). assert (S : is_select true l i p) by (apply least_is_select; auto; intros q Hq; apply H3; lia). split.
      * intros q. split.
        -- intros [= <-]. destruct S as [Sa Sb]. split; [now apply HN|]. now rewrite HC.
        -- intros [Qa Qb]. f_equal. apply (is_select_unique true l i); [exact S|]. split; [now apply HN|]. now rewrite <- HC.
      * split; [discriminate|]. rewrite how_many_true. fold l. pose proof (is_select_exists _ _ _ _ S). lia.
    + assert (S : count true l <= i) by (apply select_none; intros p Hp; apply Ho; lia). split.
      * intros q. split; [discriminate|]. intros [Qa Qb]. rewrite HC in Qb. pose proof (is_select_exists true l i q (conj (proj2 (HN q) Qa) Qb)). lia.
      * split; [intros _; rewrite how_many_true; exact S|reflexivity].
Qed.

(** ** The wavelet tree *)
Lemma mod_succ x w : x mod 2 ^ (w + 1) = x mod 2 ^ w + 2 ^ w * N.b2n (N.testbit x w).
Proof.
  rewrite N.pow_add_r. change (2 ^ 1) with 2. rewrite N.mod_mul_r by lia. now rewrite N.testbit_spec'.
Qed.
Lemma of_nat_S w : N.of_nat (S w) = N.of_nat w + 1.
Proof. lia. Qed.

Section Run.
  Variable c : cfg.
  Hypothesis Hc : wf_cfg c.
  Let H64 : wf_nb 64 := ltac:(unfold wf_nb; auto).
  Let LB := bvec_lawful_bits c 64 Hc H64.
  Let LK := bvec_lawful_blocks c 64 Hc H64.
  Local Notation B := (bvec_bitvec c 64).

  Lemma get_bit_word x i : x < 2 ^ 64 -> i < 64 -> bv_get_bit (prim_bitvec c 64) x i = Ok (N.testbit x i).
  Proof.
    intros Hx Hi. apply (lb_get_bit _ _ _ (prim_lawful_bits c 64 Hc H64) x (bits_of 64 x)); [split; [exact Hx|reflexivity]|].
    rewrite nthN_bits_of. destruct (i <? 64) eqn:E; [reflexivity|lia].
  Qed.
  Lemma set_bit_word x i b : x < 2 ^ i -> i < 64 -> bm_set_bit (prim_bitvecmut c 64) x i b = Ok (x + 2 ^ i * N.b2n b).
  Proof.
    intros Hx Hi. assert (Hx64 : x < 2 ^ 64) by (eapply N.lt_le_trans; [exact Hx|apply N.pow_le_mono_r; lia]).
    cbn [bm_set_bit prim_bitvecmut]. unfold prim_set_bit. rewrite assert_true by lia. cbn [bind]. rewrite as_usize_small by (apply N.lt_le_trans with (2 ^ 32); [apply N.lt_trans with (1 := Hi); reflexivity|apply N.pow_le_mono_r; [lia|destruct Hc as [E|E]; rewrite E; lia]]).
    rewrite blk_with_bit_ok by assumption. f_equal. apply N.bits_inj. intros j. rewrite testbit_setbit_.
    pose proof (testbit_small x i i Hx (N.le_refl i)) as Hxi.
    destruct b; cbn [N.b2n]; [|rewrite N.mul_0_r, N.add_0_r; destruct (j =? i) eqn:E; [replace j with i by lia; now rewrite Hxi|reflexivity]].
    rewrite N.mul_1_r, N.add_nocarry_lxor.
    - rewrite N.lxor_spec, N.pow2_bits_eqb, (N.eqb_sym i j). destruct (j =? i) eqn:E; [replace j with i by lia; now rewrite Hxi|]. now rewrite xorb_false_r.
    - apply N.bits_inj. intros k. rewrite N.land_spec, N.pow2_bits_eqb, N.bits_0. destruct (i =? k) eqn:E; [|apply andb_false_r]. replace k with i by lia. now rewrite Hxi.
  Qed.

  (** the tree [t] over the low [w] bits of [xs] *)
  Fixpoint holds (w : nat) (t : wtree) (xs : list N) : Prop :=
    match w, t with
    | O, WLeaf => True
    | S w, WNode s d z o => s = N.of_nat w /\
        (exists m, R_bv c 64 m (map (fun x => N.testbit x s) xs) /\ rank9_new c B m = Ok d /\ r9_store d = m) /\
        holds w z (filter (fun x => negb (N.testbit x s)) xs) /\ holds w o (filter (fun x => N.testbit x s) xs)
    | _, _ => False
    end.

  Lemma wt_split_ok s : s < 64 -> forall xs bits zero one l, R_bv c 64 bits l -> Forall (fun x => x < 2 ^ 64) xs -> fits c 64 (lengthN l + lengthN xs) ->
    exists bits', wt_split c s xs bits zero one = Ok (bits', zero ++ filter (fun x => negb (N.testbit x s)) xs, one ++ filter (fun x => N.testbit x s) xs) /\
      R_bv c 64 bits' (l ++ map (fun x => N.testbit x s) xs).
  Proof.
    intros Hs. induction xs as [|x xs IH]; intros bits zero one l HR HX HF.
    - exists bits. cbn [wt_split filter map]. rewrite !app_nil_r. auto.
    - apply Forall_cons_iff in HX. destruct HX as [Hx HX]. rewrite lengthN_cons in HF. cbn [wt_split filter map]. rewrite get_bit_word by assumption. cbn [bind].
      destruct (lp_push_bit _ _ _ _ (bvec_lawful_push c 64 Hc H64) bits l (N.testbit x s) HR) as (b1 & E1 & H1); [apply (fits_mono c 64 _ (lengthN l + (lengthN xs + 1))); [lia|lia|exact HF]|].
      rewrite E1. cbn [bind].
      assert (HF' : fits c 64 (lengthN (l ++ [N.testbit x s]) + lengthN xs)) by (rewrite lengthN_app, lengthN_cons, lengthN_nil; replace (lengthN l + (0 + 1) + lengthN xs) with (lengthN l + (lengthN xs + 1)) by lia; exact HF).
      destruct (N.testbit x s) eqn:Eb; cbn [negb].
      + destruct (IH b1 zero (one ++ [x]) _ H1 HX HF') as (b2 & E2 & H2). exists b2. rewrite E2. rewrite <- !app_assoc in *. auto.
      + destruct (IH b1 (zero ++ [x]) one _ H1 HX HF') as (b2 & E2 & H2). exists b2. rewrite E2. rewrite <- !app_assoc in *. auto.
  Qed.
  Lemma Forall_filter {A} (P : A -> Prop) f l : Forall P l -> Forall P (filter f l).
  Proof. intros H. apply Forall_forall. intros x Hx. apply filter_In in Hx. rewrite Forall_forall in H. now apply H. Qed.

  Lemma wt_new_ok w : (w <= 64)%nat -> forall xs, Forall (fun x => x < 2 ^ 64) xs -> fits c 64 (lengthN xs) -> exists t, wt_new c w xs = Ok t /\ holds w t xs.
  Proof.
    intros Hw. induction w as [|w IH]; intros xs HX HF; [exists WLeaf; split; [reflexivity|exact I]|]. cbn [wt_new].
    assert (Em : bvec_new c 64 = Ok {| vb_len := 0; vb_vec := [] |}) by (unfold bvec_new, vb_new, vb_block_with_capacity, alloc; cbn [N.mul]; destruct (max_bits c); reflexivity).
    assert (Rm : R_bv c 64 {| vb_len := 0; vb_vec := [] |} []) by (split; [reflexivity|]; split; [reflexivity|apply fits_0; lia]).
    rewrite Em. cbn [bind]. destruct (wt_split_ok (N.of_nat w) ltac:(lia) xs _ [] [] [] Rm HX HF) as (m & E1 & M1). cbn [app] in E1, M1. rewrite E1. cbn [bind].
    destruct (rank9_new_ok c B (R_bv c 64) Hc LB (block_reads c _ _ LK) eq_refl m _ M1) as (d & Ed & Es & _). rewrite Ed. cbn [bind].
    assert (G : forall f, exists t, wt_new c w (filter f xs) = Ok t /\ holds w t (filter f xs)).
    { intros f. apply IH; [lia|now apply Forall_filter|]. apply (fits_mono c 64 _ (lengthN xs)); [lia| |exact HF]. exact (how_many_le f xs). }
    destruct (G (fun x => negb (N.testbit x (N.of_nat w)))) as (z & Ez & Hz). destruct (G (fun x => N.testbit x (N.of_nat w))) as (o & Eo & Ho).
    rewrite Ez. cbn [bind]. rewrite Eo. cbn [bind]. eexists. split; [reflexivity|]. cbn [holds]. split; [reflexivity|]. split; [exists m; auto|]. split; assumption.
  Qed.

  Lemma node_rank d m xs s p b : R_bv c 64 m (map (fun x => N.testbit x s) xs) -> rank9_new c B m = Ok d -> p < lengthN xs ->
    rs_rank (br_rs (rank9_bitrank c B)) d p b = Ok (how_many (fun x => Bool.eqb (N.testbit x s) b) (firstnN (p + 1) xs)).
  Proof.
    intros HR Ed Hp. destruct (C35_rank_structures _ c B (R_bv c 64) Hc LB LK) as (_ & LR & _). specialize (LR eq_refl).
    rewrite (lr_rank _ _ LR d _ p b (ex_intro _ m (conj HR Ed))) by (rewrite lengthN_map; lia). f_equal. unfold rank_of. rewrite firstnN_map. symmetry. apply how_many_count.
  Qed.

  (** [x] and [v] agree on the low [w] bits *)
  Definition same (w v x : N) : bool := v mod 2 ^ w =? x mod 2 ^ w.
  Lemma same_succ w v x : same (w + 1) v x = Bool.eqb (N.testbit x w) (N.testbit v w) && same w v x.
  Proof.
    unfold same. rewrite !mod_succ. pose proof (N.mod_lt x (2 ^ w)). pose proof (N.mod_lt v (2 ^ w)). pose proof (N.pow_nonzero 2 w).
    set (P := 2 ^ w) in *. set (a := x mod P) in *. set (b := v mod P) in *. clearbody a b. 
    destruct (N.testbit x w), (N.testbit v w); cbn [Bool.eqb andb N.b2n]; lia.
  Qed.
  Lemma filter_bit b s (xs : list N) : filter (fun x => Bool.eqb (N.testbit x s) b) xs = if b then filter (fun x => N.testbit x s) xs else filter (fun x => negb (N.testbit x s)) xs.
  Proof. destruct b; apply filter_ext; intros x; now destruct (N.testbit x s). Qed.

  Lemma wt_before_ok w v : (w <= 64)%nat -> v < 2 ^ 64 -> forall t xs e, holds w t xs -> e <= lengthN xs ->
    wt_before c t e v = Ok (how_many (same (N.of_nat w) v) (firstnN e xs)).
  Proof.
    intros Hw Hv. induction w as [|w IH]; intros t xs e HT He; destruct t as [|s d z o]; try contradiction; cbn [wt_before].
    - f_equal. change (N.of_nat 0) with 0. rewrite (how_many_ext _ (fun _ => true)).
      + unfold how_many. rewrite filter_all. rewrite lengthN_firstnN. lia.
      + apply Forall_forall. intros x _. unfold same. change (2 ^ 0) with 1. rewrite !N.mod_1_r. reflexivity.
    - cbn [holds] in HT. destruct HT as (-> & (m & HR & Ed & Es) & Hz & Ho). destruct (e =? 0) eqn:E0.
      + replace e with 0 by lia. reflexivity.
      + rewrite get_bit_word by lia. cbn [bind]. rewrite wsub_ok by lia. cbn [bind]. rewrite (node_rank d m xs (N.of_nat w) (e - 1) _ HR Ed) by lia. cbn [bind].
        replace (e - 1 + 1) with e by lia. set (b := N.testbit v (N.of_nat w)) in *.
        assert (G : forall t', holds w t' (filter (fun x => Bool.eqb (N.testbit x (N.of_nat w)) b) xs) ->
                  wt_before c t' (how_many (fun x => Bool.eqb (N.testbit x (N.of_nat w)) b) (firstnN e xs)) v = Ok (how_many (same (N.of_nat (S w)) v) (firstnN e xs))).
        { intros t' HT. rewrite (IH ltac:(lia) t' _ _ HT).
          - f_equal. rewrite <- filter_firstnN, how_many_filter. apply how_many_ext. apply Forall_forall. intros x _. rewrite of_nat_S, same_succ. reflexivity.
          - change (how_many (fun x => Bool.eqb (N.testbit x (N.of_nat w)) b) (firstnN e xs) <= how_many (fun x => Bool.eqb (N.testbit x (N.of_nat w)) b) xs).
            rewrite <- (firstn_skipnN e xs) at 2. rewrite how_many_app. lia. }
        destruct b eqn:Eb; apply G; rewrite filter_bit; assumption.
  Qed.

  Lemma wt_get_ok w : (w <= 64)%nat -> forall t xs p x, holds w t xs -> nthN xs p = Some x -> wt_get c t p = Ok (x mod 2 ^ N.of_nat w).
  Proof.
    intros Hw. induction w as [|w IH]; intros t xs p x HT Hx; destruct t as [|s d z o]; try contradiction; cbn [wt_get].
    - change (2 ^ N.of_nat 0) with 1. now rewrite N.mod_1_r.
    - cbn [holds] in HT. destruct HT as (-> & (m & HR & Ed & Es) & Hz & Ho). pose proof (nthN_lt _ _ _ Hx) as Hp.
      unfold rank9_bitvec at 1. cbn [bv_get_bit]. rewrite Es.
      rewrite (lb_get_bit _ _ _ LB m _ p (N.testbit x (N.of_nat w)) HR) by (rewrite nthN_map, Hx; reflexivity). cbn [bind].
      rewrite (node_rank d m xs (N.of_nat w) p _ HR Ed Hp). cbn [bind]. set (b := N.testbit x (N.of_nat w)) in *.
      destruct (nthN_split xs p x Hx) as (l1 & l2 & Ex & Lp). set (g := fun x => Bool.eqb (N.testbit x (N.of_nat w)) b).
      assert (Hn : how_many g (firstnN (p + 1) xs) = how_many g l1 + 1).
      { rewrite Ex. replace (l1 ++ x :: l2) with ((l1 ++ [x]) ++ l2) by (rewrite <- app_assoc; reflexivity).
        replace (p + 1) with (lengthN (l1 ++ [x])) by (rewrite lengthN_app, lengthN_cons, lengthN_nil; lia). rewrite firstnN_app_exact, how_many_app. f_equal.
        unfold how_many. cbn [filter]. unfold g, b. rewrite Bool.eqb_reflx. reflexivity. }
      rewrite Hn, wsub_ok by lia. cbn [bind]. replace (how_many g l1 + 1 - 1) with (how_many g l1) by lia.
      assert (Hg : nthN (filter g xs) (how_many g l1) = Some x).
      { rewrite Ex, filter_app, nthN_app_r by (unfold how_many; lia). unfold how_many. rewrite N.sub_diag. cbn [filter]. unfold g at 1, b at 1. rewrite Bool.eqb_reflx. reflexivity. }
      unfold g in Hg. rewrite filter_bit in Hg.
      assert (G : (if b then wt_get c o (how_many g l1) else wt_get c z (how_many g l1)) = Ok (x mod 2 ^ N.of_nat w)).
      { destruct b; [exact (IH ltac:(lia) _ _ _ _ Ho Hg)|exact (IH ltac:(lia) _ _ _ _ Hz Hg)]. }
      rewrite G. cbn [bind]. rewrite set_bit_word by (lia || (apply N.mod_lt; apply N.pow_nonzero; lia)). f_equal. rewrite of_nat_S, mod_succ. reflexivity.
  Qed.

  Lemma wt_zeros_ok d m xs s p : R_bv c 64 m (map (fun x => N.testbit x s) xs) -> rank9_new c B m = Ok d -> p <= lengthN xs ->
    wt_zeros c d p = Ok (how_many (fun x => negb (N.testbit x s)) (firstnN p xs)).
  Proof.
    intros HR Ed Hp. unfold wt_zeros. destruct (p =? 0) eqn:E; [replace p with 0 by lia; reflexivity|]. rewrite wsub_ok by lia. cbn [bind].
    destruct (C35_rank_structures _ c B (R_bv c 64) Hc LB LK) as (_ & LR & _). specialize (LR eq_refl).
    rewrite (lr_rank0 _ _ LR d _ (p - 1) (ex_intro _ m (conj HR Ed))) by (rewrite lengthN_map; lia). f_equal. unfold rank_of. rewrite firstnN_map.
    replace (p - 1 + 1) with p by lia. rewrite <- how_many_count. apply how_many_ext. apply Forall_forall. intros x _. now destruct (N.testbit x s).
  Qed.
  Lemma firstnN_sub {A} s e (l : list A) : s <= e -> firstnN e l = firstnN s l ++ sub s (e - s) l.
  Proof. intros H. rewrite <- PRank.firstnN_add. f_equal. lia. Qed.
  Lemma filter_sub {A} (g : A -> bool) s e (l : list A) : s <= e ->
    sub (how_many g (firstnN s l)) (how_many g (firstnN e l) - how_many g (firstnN s l)) (filter g l) = filter g (sub s (e - s) l).
  Proof.
    intros H. rewrite (firstnN_sub s e l H), how_many_app. replace (how_many g (firstnN s l) + how_many g (sub s (e - s) l) - how_many g (firstnN s l)) with (how_many g (sub s (e - s) l)) by lia.
    rewrite <- (firstn_skipnN e l) at 3. rewrite (firstnN_sub s e l H), !filter_app, <- app_assoc. unfold how_many. apply sub_middle.
  Qed.
  Lemma how_many_none {A} (f : A -> bool) l : Forall (fun x => f x = false) l -> how_many f l = 0.
  Proof. intros H. rewrite (how_many_ext f (fun _ => false)) by exact H. unfold how_many. clear. induction l; auto. Qed.
  Lemma how_many_every {A} (f : A -> bool) l : Forall (fun x => f x = true) l -> how_many f l = lengthN l.
  Proof. intros H. rewrite (how_many_ext f (fun _ => true)) by exact H. unfold how_many. now rewrite filter_all. Qed.

  (** [v] stands at place [k], counted from 0, when the low [w] bits of the elements of [l] are put in order *)
  Definition ranked (w : N) (l : list N) (k v : N) : Prop :=
    how_many (fun x => x mod 2 ^ w <? v) l <= k < how_many (fun x => x mod 2 ^ w <=? v) l.

  Lemma wt_nth_ok w : (w <= 64)%nat -> forall t xs s e k, holds w t xs -> s <= e -> e <= lengthN xs -> k < e - s ->
    exists v, wt_nth_smallest c t s e k = Ok v /\ v < 2 ^ N.of_nat w /\ ranked (N.of_nat w) (sub s (e - s) xs) k v.
  Proof.
    intros Hw. induction w as [|w IH]; intros t xs s e k HT Hs He Hk; destruct t as [|sh d z o]; try contradiction; cbn [wt_nth_smallest].
    - exists 0. split; [reflexivity|]. change (2 ^ N.of_nat 0) with 1. split; [lia|]. unfold ranked. change (2 ^ N.of_nat 0) with 1.
      rewrite how_many_none by (apply Forall_forall; intros x _; rewrite N.mod_1_r; reflexivity).
      rewrite how_many_every by (apply Forall_forall; intros x _; rewrite N.mod_1_r; reflexivity). rewrite lengthN_sub. lia.
    - cbn [holds] in HT. destruct HT as (-> & (m & HR & Ed & Es) & Hz & Ho).
      rewrite (wt_zeros_ok d m xs _ s HR Ed) by lia. cbn [bind]. rewrite (wt_zeros_ok d m xs _ e HR Ed) by lia. cbn [bind].
      set (g0 := fun x => negb (N.testbit x (N.of_nat w))) in *. set (g1 := fun x => N.testbit x (N.of_nat w)) in *.
      pose proof (filter_sub g0 s e xs Hs) as F0. pose proof (filter_sub g1 s e xs Hs) as F1.
      set (r := sub s (e - s) xs) in *.
      assert (Lr : lengthN r = e - s) by (unfold r; rewrite lengthN_sub; lia).
      assert (Part : forall l : list N, how_many g1 l = lengthN l - how_many g0 l /\ how_many g0 l <= lengthN l).
      { intros l. pose proof (how_many_split (fun _ => true) g1 l) as H. unfold how_many in *. rewrite !filter_all in H. change (fun x => negb (g1 x)) with g0 in H. lia. }
      assert (Es1 : how_many g1 (firstnN s xs) = s - how_many g0 (firstnN s xs) /\ how_many g0 (firstnN s xs) <= s).
      { pose proof (Part (firstnN s xs)) as H. rewrite lengthN_firstnN in H. replace (N.min s (lengthN xs)) with s in H by lia. exact H. }
      assert (Ee1 : how_many g1 (firstnN e xs) = e - how_many g0 (firstnN e xs) /\ how_many g0 (firstnN e xs) <= e).
      { pose proof (Part (firstnN e xs)) as H. rewrite lengthN_firstnN in H. replace (N.min e (lengthN xs)) with e in H by lia. exact H. }
      pose proof (Part r) as Pr.
      assert (M0 : how_many g0 (firstnN e xs) = how_many g0 (firstnN s xs) + how_many g0 r) by (rewrite (firstnN_sub s e xs Hs), how_many_app; reflexivity).
      assert (M1 : how_many g1 (firstnN e xs) = how_many g1 (firstnN s xs) + how_many g1 r) by (rewrite (firstnN_sub s e xs Hs), how_many_app; reflexivity).
      assert (T0 : how_many g0 (firstnN e xs) <= lengthN (filter g0 xs)).
      { change (lengthN (filter g0 xs)) with (how_many g0 xs). rewrite <- (firstn_skipnN e xs) at 2. rewrite how_many_app. lia. }
      assert (T1 : how_many g1 (firstnN e xs) <= lengthN (filter g1 xs)).
      { change (lengthN (filter g1 xs)) with (how_many g1 xs). rewrite <- (firstn_skipnN e xs) at 2. rewrite how_many_app. lia. }
      rewrite wsub_ok by lia. cbn [bind]. rewrite M0. replace (how_many g0 (firstnN s xs) + how_many g0 r - how_many g0 (firstnN s xs)) with (how_many g0 r) by lia.
      rewrite <- M0. pose proof (N.pow_nonzero 2 (N.of_nat w) ltac:(lia)) as P0.
      assert (D : forall x, x mod 2 ^ N.of_nat (S w) = x mod 2 ^ N.of_nat w + 2 ^ N.of_nat w * N.b2n (g1 x)) by (intros x; rewrite of_nat_S; apply mod_succ).
      assert (B0 : Forall (fun x => g1 x = false) (filter g0 r)) by (apply Forall_forall; intros x Hx; apply filter_In in Hx; destruct Hx as [_ Hx]; unfold g0 in Hx; fold (g1 x) in Hx; now destruct (g1 x)).
      assert (B1 : Forall (fun x => g1 x = true) (filter g1 r)) by (apply Forall_forall; intros x Hx; apply filter_In in Hx; apply Hx).
      assert (ML : forall x, x mod 2 ^ N.of_nat w < 2 ^ N.of_nat w) by (intros x; apply N.mod_lt; exact P0).
      assert (PS : 2 ^ N.of_nat (S w) = 2 * 2 ^ N.of_nat w) by (rewrite of_nat_S, N.pow_add_r; lia).
      destruct (k <? how_many g0 r) eqn:Ek.
      + destruct (IH ltac:(lia) z _ (how_many g0 (firstnN s xs)) (how_many g0 (firstnN e xs)) k Hz ltac:(lia) T0 ltac:(lia)) as (v & Ev & Hv & Rv).
        exists v. split; [exact Ev|]. split; [lia|]. rewrite F0 in Rv. unfold ranked in *.
        rewrite !(how_many_split _ g1 r). change (fun x => negb (g1 x)) with g0.
        rewrite (how_many_none (fun x => x mod 2 ^ N.of_nat (S w) <? v) (filter g1 r)) by (apply Forall_impl with (2 := B1); intros x Hx; rewrite D, Hx; cbn [N.b2n]; specialize (ML x); lia).
        rewrite (how_many_none (fun x => x mod 2 ^ N.of_nat (S w) <=? v) (filter g1 r)) by (apply Forall_impl with (2 := B1); intros x Hx; rewrite D, Hx; cbn [N.b2n]; specialize (ML x); lia).
        rewrite (how_many_ext (fun x => x mod 2 ^ N.of_nat (S w) <? v) (fun x => x mod 2 ^ N.of_nat w <? v) (filter g0 r)) by (apply Forall_impl with (2 := B0); intros x Hx; rewrite D, Hx, N.mul_0_r, N.add_0_r; reflexivity).
        rewrite (how_many_ext (fun x => x mod 2 ^ N.of_nat (S w) <=? v) (fun x => x mod 2 ^ N.of_nat w <=? v) (filter g0 r)) by (apply Forall_impl with (2 := B0); intros x Hx; rewrite D, Hx, N.mul_0_r, N.add_0_r; reflexivity).
        lia.
      + rewrite !wsub_ok by lia. cbn [bind].
        destruct (IH ltac:(lia) o _ (how_many g1 (firstnN s xs)) (how_many g1 (firstnN e xs)) (k - how_many g0 r) Ho ltac:(lia) T1 ltac:(lia)) as (v & Ev & Hv & Rv).
        rewrite <- (proj1 Es1), <- (proj1 Ee1), Ev. cbn [bind]. rewrite set_bit_word by (assumption || lia). cbn [N.b2n]. rewrite N.mul_1_r.
        exists (v + 2 ^ N.of_nat w). split; [reflexivity|]. split; [lia|]. rewrite F1 in Rv. unfold ranked in *.
        rewrite !(how_many_split _ g1 r). change (fun x => negb (g1 x)) with g0.
        rewrite (how_many_every (fun x => x mod 2 ^ N.of_nat (S w) <? v + 2 ^ N.of_nat w) (filter g0 r)) by (apply Forall_impl with (2 := B0); intros x Hx; rewrite D, Hx; cbn [N.b2n]; specialize (ML x); lia).
        rewrite (how_many_every (fun x => x mod 2 ^ N.of_nat (S w) <=? v + 2 ^ N.of_nat w) (filter g0 r)) by (apply Forall_impl with (2 := B0); intros x Hx; rewrite D, Hx; cbn [N.b2n]; specialize (ML x); lia).
        rewrite (how_many_ext (fun x => x mod 2 ^ N.of_nat (S w) <? v + 2 ^ N.of_nat w) (fun x => x mod 2 ^ N.of_nat w <? v) (filter g1 r)) by (apply Forall_impl with (2 := B1); intros x Hx; rewrite D, Hx; cbn [N.b2n]; lia).
        rewrite (how_many_ext (fun x => x mod 2 ^ N.of_nat (S w) <=? v + 2 ^ N.of_nat w) (fun x => x mod 2 ^ N.of_nat w <=? v) (filter g1 r)) by (apply Forall_impl with (2 := B1); intros x Hx; rewrite D, Hx; cbn [N.b2n]; lia).
        change (lengthN (filter g0 r)) with (how_many g0 r). lia.
  Qed.
End Run.

Theorem C110_wavelet : forall c w xs, wf_cfg c -> (w <= 64)%nat -> Forall (fun x => x < 2 ^ N.of_nat w) xs -> fits c 64 (lengthN xs) ->
  exists t, wavelet_new c w xs = Ok t /\
    rs_limit (wavelet_ranksup c) t = Ok (lengthN xs) /\
    (forall p v, p < lengthN xs -> v < 2 ^ N.of_nat w -> rs_rank (wavelet_ranksup c) t p v = Ok (how_many (N.eqb v) (firstnN (p + 1) xs))) /\
    (forall i v fuel, v < 2 ^ N.of_nat w -> i < 2 ^ 64 - 1 -> (64 < fuel)%nat ->
       exists o, bss_select c (wavelet_ranksup c) fuel t i v = Ok o /\
         (forall p, o = Some p <-> nthN xs p = Some v /\ how_many (N.eqb v) (firstnN p xs) = i) /\
         (o = None <-> how_many (N.eqb v) xs <= i)) /\
    (forall p x, nthN xs p = Some x -> wt_get c (wl_tree t) p = Ok x) /\
    (forall s e k, s <= e -> e <= lengthN xs -> k < e - s -> exists v, wt_nth_smallest c (wl_tree t) s e k = Ok v /\
       how_many (fun x => x <? v) (sub s (e - s) xs) <= k < how_many (fun x => x <=? v) (sub s (e - s) xs)).
Proof.
  intros c w xs Hc Hw HX HF.
  assert (P64 : 2 ^ N.of_nat w <= 2 ^ 64) by (apply N.pow_le_mono_r; lia).
  assert (HX64 : Forall (fun x => x < 2 ^ 64) xs) by (apply Forall_impl with (2 := HX); intros; lia).
  destruct (wt_new_ok c Hc w Hw xs HX64 HF) as (t & Et & HT).
  exists {| wl_tree := t; wl_len := lengthN xs |}. split; [unfold wavelet_new; rewrite Et; reflexivity|]. split; [reflexivity|]. cbn [wl_tree].
  assert (L63 : lengthN xs < 2 ^ 64 - 1) by (pose proof (fits_lt64 c 64 _ ltac:(lia) HF); lia).
  assert (RK : forall p v, p < lengthN xs -> v < 2 ^ N.of_nat w -> rs_rank (wavelet_ranksup c) {| wl_tree := t; wl_len := lengthN xs |} p v = Ok (how_many (N.eqb v) (firstnN (p + 1) xs))).
  { intros p v Hp Hv. cbn [rs_rank wavelet_ranksup wl_tree]. rewrite wadd_ok by lia. cbn [bind]. rewrite (wt_before_ok c Hc w v Hw ltac:(lia) t xs _ HT) by lia. f_equal.
    apply how_many_ext. apply Forall_forall. intros x Hx. unfold same. rewrite !N.mod_small; [reflexivity| |exact Hv].
    rewrite Forall_forall in HX. apply HX. rewrite <- (firstn_skipnN (p + 1) xs). apply in_or_app. now left. }
  split; [exact RK|]. split.
  { intros i v fuel Hv Hi Hf. apply (C110_select N wavelet c N.eqb); auto; [intros x y; apply N.eqb_eq|lia]. }
  split.
  - intros p x Hx. rewrite (wt_get_ok c Hc w Hw t xs p x HT Hx). f_equal. apply N.mod_small. exact (proj1 (Forall_nthN _ _) HX p x Hx).
  - intros s e k Hs He Hk. destruct (wt_nth_ok c Hc w Hw t xs s e k HT Hs He Hk) as (v & Ev & _ & Rv). exists v. split; [exact Ev|]. unfold ranked in Rv.
    assert (HS : Forall (fun x => x mod 2 ^ N.of_nat w = x) (sub s (e - s) xs)).
    { apply Forall_forall. intros x Hx. apply N.mod_small. rewrite Forall_forall in HX. apply HX. unfold sub in Hx.
      rewrite <- (firstn_skipnN s xs). apply in_or_app. right. rewrite <- (firstn_skipnN (e - s) (skipnN s xs)). apply in_or_app. now left. }
    rewrite (how_many_ext (fun x => x mod 2 ^ N.of_nat w <? v) (fun x => x <? v)) in Rv by (apply Forall_impl with (2 := HS); intros x ->; reflexivity).
    rewrite (how_many_ext (fun x => x mod 2 ^ N.of_nat w <=? v) (fun x => x <=? v)) in Rv by (apply Forall_impl with (2 := HS); intros x ->; reflexivity). exact Rv.
Qed.

(** The letters of "abracadabra" *)
Definition C110_text : list N := [1; 2; 18; 1; 3; 1; 4; 1; 2; 18; 1].
Example C110_ex : exists t, Forall (fun x => x < 2 ^ N.of_nat 5) C110_text /\ fits dbg64 64 (lengthN C110_text) /\
  wavelet_new dbg64 5 C110_text = Ok t /\
  map (fun v => rs_rank (wavelet_ranksup dbg64) t 8 v) [1; 2; 18; 3; 5] = [Ok 4; Ok 2; Ok 1; Ok 1; Ok 0] /\
  map (fun i => bss_select dbg64 (wavelet_ranksup dbg64) 70 t i 1) [0; 3; 4; 5] = [Ok (Some 0); Ok (Some 7); Ok (Some 10); Ok None] /\
  map (wt_get dbg64 (wl_tree t)) [0; 2; 6] = [Ok 1; Ok 18; Ok 4] /\
  map (wt_nth_smallest dbg64 (wl_tree t) 1 7) [0; 1; 2; 3; 4; 5] = [Ok 1; Ok 1; Ok 2; Ok 3; Ok 4; Ok 18].
Proof.
  eexists. split; [repeat constructor|]. split; [vm_compute; congruence|]. split; [vm_compute; reflexivity|]. repeat (split; [vm_compute; reflexivity|]). vm_compute. reflexivity.
Qed.

Print Assumptions C110_select.
Print Assumptions C110_wavelet.
