(** * Property C112: a compressed sorted sequence ([MEliasFano.v]). *)
From Coq Require Import Sorted.
From Verif Require Import Machine MStorage MTraits MVectorBase MBitVector MIntVector MRank MSelect MEliasFano
  SpecBits SpecCfg SpecLaws SpecOps SpecRank PBase PStorage PBits PVectorBase PVectorBase2 PVectorBase3 PBitVector PIntVector PIntRun PRank PRank9 PSelect
  Properties6 Properties49 Properties57.

(** ** Sorted lists and predicates that hold up to some element *)
Lemma how_many_none {A} (f : A -> bool) l : Forall (fun x => f x = false) l -> how_many f l = 0.
Proof. unfold how_many. induction 1 as [|x l H _ IH]; [reflexivity|]. cbn [filter]. rewrite H. exact IH. Qed.
Lemma how_many_cons {A} (f : A -> bool) x l : how_many f (x :: l) = (if f x then 1 else 0) + how_many f l.
Proof. unfold how_many. cbn [filter]. destruct (f x); [rewrite lengthN_cons|]; lia. Qed.
Lemma how_many_map {A B} (g : A -> B) (f : B -> bool) l : how_many f (map g l) = how_many (fun x => f (g x)) l.
Proof. induction l as [|x l IH]; [reflexivity|]. cbn [map]. rewrite !how_many_cons, IH. reflexivity. Qed.
Lemma how_many_every {A} (f : A -> bool) l : (forall x, In x l -> f x = true) -> how_many f l = lengthN l.
Proof.
  intros H. induction l as [|x l IH]; [reflexivity|]. rewrite how_many_cons, lengthN_cons, H by now left. rewrite IH by (intros y Hy; apply H; now right). lia.
Qed.
Definition down (f : N -> bool) : Prop := forall x y, x <= y -> f y = true -> f x = true.
Lemma prefix f xs i x : down f -> StronglySorted N.le xs -> nthN xs i = Some x -> f x = (i <? how_many f xs).
Proof.
  intros D S. revert i. induction S as [|a xs S IH F]; intros i Hi; [rewrite nthN_nil in Hi; discriminate|].
  rewrite nthN_cons in Hi. rewrite how_many_cons. destruct (i =? 0) eqn:E.
  - injection Hi as ->. destruct (f x) eqn:Fx; [lia|]. rewrite how_many_none; [lia|].
    apply Forall_impl with (2 := F). intros y Hy. destruct (f y) eqn:Fy; [|reflexivity]. now rewrite (D x y Hy Fy) in Fx.
  - rewrite (IH _ Hi). destruct (f a) eqn:Fa; [lia|].
    rewrite how_many_none; [lia|]. apply Forall_impl with (2 := F). intros y Hy. destruct (f y) eqn:Fy; [|reflexivity]. now rewrite (D a y Hy Fy) in Fa.
Qed.
Lemma how_many_mono {A} (f g : A -> bool) l : (forall x, f x = true -> g x = true) -> how_many f l <= how_many g l.
Proof. intros H. induction l as [|x l IH]; [apply N.le_refl|]. rewrite !how_many_cons. destruct (f x) eqn:E; [rewrite (H x E); lia|]. destruct (g x); lia. Qed.

(** ** The high parts in unary *)
Fixpoint up (h0 : N) (hs : list N) : list bool :=
  match hs with [] => [] | h :: r => repeatN false (h - h0) ++ true :: up h r end.
Fixpoint top (h0 : N) (hs : list N) : N := match hs with [] => h0 | h :: r => top h r end.
Notation ascends h0 hs := (StronglySorted N.le (h0 :: hs)).
Lemma ascends_inv h0 h r : ascends h0 (h :: r) -> h0 <= h /\ ascends h r.
Proof. intros H. apply StronglySorted_inv in H. destruct H as [S F]. apply Forall_cons_iff in F. split; [apply F|exact S]. Qed.
Lemma ascends_all h0 hs : ascends h0 hs -> Forall (fun h => h0 <= h) hs.
Proof. intros H. now apply StronglySorted_inv in H. Qed.
Lemma top_le h0 hs : ascends h0 hs -> h0 <= top h0 hs.
Proof. revert h0. induction hs as [|h r IH]; intros h0 H; [apply N.le_refl|]. apply ascends_inv in H. destruct H as [H1 H2]. cbn [top]. specialize (IH h H2). lia. Qed.
Lemma top_max h0 hs : ascends h0 hs -> Forall (fun h => h <= top h0 hs) hs.
Proof.
  revert h0. induction hs as [|h r IH]; intros h0 H; [constructor|]. apply ascends_inv in H. destruct H as [H1 H2]. cbn [top]. constructor; [now apply top_le|now apply IH].
Qed.
Lemma lengthN_up h0 hs : ascends h0 hs -> lengthN (up h0 hs) = lengthN hs + (top h0 hs - h0).
Proof.
  revert h0. induction hs as [|h r IH]; intros h0 H; [change (0 = 0 + (h0 - h0)); lia|]. apply ascends_inv in H. destruct H as [H1 H2]. cbn [up top].
  rewrite lengthN_app, lengthN_repeatN, !lengthN_cons, IH by exact H2. pose proof (top_le h r H2). lia.
Qed.
Lemma count_repeat b n : count b (repeatN b n) = n.
Proof. pose proof (count_both (repeatN b n)) as H. rewrite lengthN_repeatN in H. destruct b; [|rewrite count_repeatN_other in H; lia]. clear H.
  unfold repeatN. induction n as [|n IH] using N.peano_ind; [reflexivity|]. rewrite N2Nat.inj_succ. cbn [repeat count]. rewrite IH. cbn [Bool.eqb]. lia. Qed.
Lemma counts_up h0 hs : ascends h0 hs -> count true (up h0 hs) = lengthN hs /\ count false (up h0 hs) = top h0 hs - h0.
Proof.
  intros H. assert (E : count true (up h0 hs) = lengthN hs).
  { clear H. revert h0. induction hs as [|h r IH]; intros h0; [reflexivity|]. cbn [up]. rewrite count_app, count_repeatN_other, lengthN_cons. cbn [count Bool.eqb]. rewrite IH. lia. }
  split; [exact E|]. pose proof (count_both (up h0 hs)) as B. rewrite lengthN_up in B by exact H. lia.
Qed.
Lemma select_app_r v l m i p : is_select v m i p -> is_select v (l ++ m) (count v l + i) (lengthN l + p).
Proof.
  intros [H1 H2]. split.
  - rewrite nthN_app_r by lia. now replace (lengthN l + p - lengthN l) with p by lia.
  - rewrite PRank.firstnN_add, count_app, firstnN_app_exact. f_equal. rewrite <- H2. f_equal. apply nthN_ext. intros j. rewrite nthN_sub, nthN_firstnN, nthN_app_r by lia. now replace (lengthN l + j - lengthN l) with j by lia.
Qed.
Lemma select_cons v b m i p : is_select v m i p -> is_select v (b :: m) ((if Bool.eqb b v then 1 else 0) + i) (p + 1).
Proof.
  intros H. apply (select_app_r v [b]) in H. cbn [app count] in H. change (lengthN [b]) with 1 in H. replace (1 + p) with (p + 1) in H by lia.
  replace ((if Bool.eqb b v then 1 else 0) + i) with ((if Bool.eqb b v then 1 else 0) + 0 + i) by lia. exact H.
Qed.
Lemma up_ones h0 hs i h : ascends h0 hs -> nthN hs i = Some h -> is_select true (up h0 hs) i (h - h0 + i).
Proof.
  revert h0 i. induction hs as [|h' r IH]; intros h0 i HA Hi; [rewrite nthN_nil in Hi; discriminate|].
  pose proof (ascends_inv _ _ _ HA) as [H1 H2]. cbn [up]. rewrite nthN_cons in Hi. destruct (i =? 0) eqn:E.
  - injection Hi as ->. assert (G : is_select true (true :: up h r) 0 0) by (split; reflexivity). apply (select_app_r true (repeatN false (h - h0))) in G.
    rewrite count_repeatN_other, lengthN_repeatN in G. now replace i with 0 by lia.
  - specialize (IH h' _ H2 Hi). apply (select_cons true true), (select_app_r true (repeatN false (h' - h0))) in IH.
    rewrite count_repeatN_other, lengthN_repeatN in IH. cbn [Bool.eqb] in IH.
    assert (h' <= h) by (pose proof (ascends_all _ _ H2) as F; exact (proj1 (Forall_nthN _ _) F _ _ Hi)).
    replace (0 + (1 + (i - 1))) with i in IH by lia. replace (h' - h0 + (h - h' + (i - 1) + 1)) with (h - h0 + i) in IH by lia. exact IH.
Qed.
Lemma up_zeros h0 hs z : ascends h0 hs -> h0 <= z < top h0 hs -> is_select false (up h0 hs) (z - h0) (z - h0 + how_many (fun h => h <=? z) hs).
Proof.
  revert h0. induction hs as [|h' r IH]; intros h0 HA Hz; [cbn [top] in Hz; lia|].
  pose proof (ascends_inv _ _ _ HA) as [H1 H2]. cbn [up top] in *. rewrite how_many_cons. destruct (h' <=? z) eqn:E.
  - specialize (IH h' H2 ltac:(lia)). apply (select_cons false true), (select_app_r false (repeatN false (h' - h0))) in IH. rewrite count_repeat, lengthN_repeatN in IH. cbn [Bool.eqb] in IH.
    set (q := how_many (fun h => h <=? z) r) in *. replace (h' - h0 + (0 + (z - h'))) with (z - h0) in IH by lia. replace (h' - h0 + (z - h' + q + 1)) with (z - h0 + (1 + q)) in IH by lia. exact IH.
  - rewrite how_many_none; [|apply Forall_impl with (2 := ascends_all _ _ H2); intros; cbn beta in *; lia]. replace (z - h0 + (0 + 0)) with (z - h0) by lia. split.
    + rewrite nthN_app_l by (rewrite lengthN_repeatN; lia). rewrite nthN_repeatN. destruct (z - h0 <? h' - h0) eqn:E2; [reflexivity|lia].
    + rewrite PVectorBase2.firstnN_app by (rewrite lengthN_repeatN; lia). replace (firstnN (z - h0) (repeatN false (h' - h0))) with (repeatN false (z - h0)); [apply count_repeat|].
      apply nthN_ext. intros j. rewrite nthN_firstnN, !nthN_repeatN. destruct (j <? z - h0) eqn:E3; [|reflexivity]. destruct (j <? h' - h0) eqn:E4; [reflexivity|lia].
Qed.

Section Run.
  Variables (c : cfg) (k : N).
  Hypothesis Hc : wf_cfg c.
  Hypothesis Hk : 1 <= k <= 63.
  Let H64 : wf_nb 64 := ltac:(unfold wf_nb; auto).
  Let hi (x : N) := x / 2 ^ k.
  Let lo (x : N) := x mod 2 ^ k.
  Let LP := bvec_lawful_push c 64 Hc H64.

  Lemma hi_shift x : N.shiftr x k = hi x.
  Proof. apply N.shiftr_div_pow2. Qed.
  Lemma lo_mask x : N.land x (N.ones k) = lo x.
  Proof. apply N.land_ones. Qed.
  Lemma lo_lt x : lo x < 2 ^ k.
  Proof. apply N.mod_lt. pose proof (pow2_pos k). lia. Qed.

  Lemma push_zeros h e m l : R_bv c 64 m l -> h <= e -> fits c 64 (lengthN l + (e - h)) ->
    exists m', for_range h e (fun _ high => bp_push_bit (bvec_bitvecpush c 64) high false) m = Ok m' /\ R_bv c 64 m' (l ++ repeatN false (e - h)).
  Proof.
    intros HM He HF. destruct (for_range_ind (fun i m => R_bv c 64 m (l ++ repeatN false (i - h))) (fun _ high => bp_push_bit (bvec_bitvecpush c 64) high false) h e m) as (m' & E & M').
    - exact He.
    - rewrite N.sub_diag. cbn. now rewrite app_nil_r.
    - intros i m1 H1 H2 M1. destruct (lp_push_bit _ _ _ _ LP m1 _ false M1) as (m2 & E2 & M2).
      + apply (fits_mono c 64 _ (lengthN l + (e - h))); [lia| |exact HF]. rewrite lengthN_app, lengthN_repeatN. lia.
      + exists m2. split; [exact E2|]. replace (l ++ repeatN false (i + 1 - h)) with ((l ++ repeatN false (i - h)) ++ [false]); [exact M2|].
        rewrite <- app_assoc. f_equal. apply nthN_ext. intros j. rewrite nthN_app, lengthN_repeatN, !nthN_repeatN, nthN_cons, nthN_nil.
        destruct (j <? i - h) eqn:E3, (j <? i + 1 - h) eqn:E4, (j - (i - h) =? 0) eqn:E5; try lia; reflexivity.
    - exists m'. auto.
  Qed.

  Lemma ef_fill_ok xs : forall h0 m v l ls, R_bv c 64 m l -> R_iv c 64 k v ls -> ascends h0 (map hi xs) ->
    fits c 64 (lengthN l + lengthN (up h0 (map hi xs))) -> fits c 64 ((lengthN ls + lengthN xs) * k) ->
    exists m' v', ef_fill c k xs h0 m v = Ok (m', v') /\ R_bv c 64 m' (l ++ up h0 (map hi xs)) /\ R_iv c 64 k v' (ls ++ map lo xs).
  Proof.
    induction xs as [|x xs IH]; intros h0 m v l ls HM HV HA HF HG.
    - exists m, v. cbn [ef_fill map up]. rewrite !app_nil_r. auto.
    - cbn [map] in HA, HF |- *. pose proof (ascends_inv _ _ _ HA) as [A1 A2]. cbn [ef_fill up] in HF |- *. rewrite lengthN_app, lengthN_repeatN, !lengthN_cons in HF. rewrite lengthN_cons in HG.
      rewrite low_mask_ok by (assumption || lia). cbn [bind]. rewrite lo_mask.
      destruct (iv_push_ok c 64 k Hc H64 ltac:(lia) v ls (lo x) HV (lo_lt x)) as (v1 & E1 & V1).
      { apply (fits_mono c 64 _ ((lengthN ls + (lengthN xs + 1)) * k)); [lia|apply N.mul_le_mono_r; lia|exact HG]. }
      rewrite E1. cbn [bind]. rewrite wshr_ok by lia. cbn [bind]. rewrite hi_shift.
      destruct (push_zeros h0 (hi x) m l HM A1) as (m1 & E2 & M1).
      { apply (fits_mono c 64 _ (lengthN l + (hi x - h0 + (lengthN (up (hi x) (map hi xs)) + 1)))); [lia|lia|exact HF]. }
      rewrite E2. cbn [bind]. destruct (lp_push_bit _ _ _ _ LP m1 _ true M1) as (m2 & E3 & M2).
      { apply (fits_mono c 64 _ (lengthN l + (hi x - h0 + (lengthN (up (hi x) (map hi xs)) + 1)))); [lia|rewrite lengthN_app, lengthN_repeatN; lia|exact HF]. }
      rewrite E3. cbn [bind]. destruct (IH (hi x) m2 v1 _ _ M2 V1 A2) as (m3 & v3 & E4 & M3 & V3).
      { rewrite !lengthN_app, lengthN_repeatN, lengthN_cons, lengthN_nil.
        replace (lengthN l + (hi x - h0) + (0 + 1) + lengthN (up (hi x) (map hi xs))) with (lengthN l + (hi x - h0 + (lengthN (up (hi x) (map hi xs)) + 1))) by lia. exact HF. }
      { rewrite lengthN_app, lengthN_cons, lengthN_nil. replace (lengthN ls + (0 + 1) + lengthN xs) with (lengthN ls + (lengthN xs + 1)) by lia. exact HG. }
      exists m3, v3. split; [exact E4|]. rewrite <- !app_assoc in M3. rewrite <- app_assoc in V3. split; [exact M3|exact V3].
  Qed.
End Run.

Theorem C112_elias_fano : forall c k u xs, wf_cfg c -> 1 <= k <= 63 -> u < 2 ^ 64 ->
  StronglySorted N.le xs -> Forall (fun x => x <= u) xs ->
  fits c 64 (lengthN xs * k) -> fits c 64 (lengthN xs + u / 2 ^ k) ->
  exists e, ef_new c k xs = Ok e /\
    (* the space: k bits for every element in one vector, and one bit for every element and every 2^k numbers in the other *)
    iv_len (ef_low e) = lengthN xs /\
    (exists n, bv_bit_len (bss_bitvec (rank9_bitvec (bvec_bitvec c 64))) (ef_high e) = Ok n /\ n <= lengthN xs + u / 2 ^ k) /\
    (forall fuel i, (64 < fuel)%nat -> i < 2 ^ 64 - 1 -> ef_get c fuel e i = Ok (nthN xs i)) /\
    (forall fuel x, (64 < fuel)%nat -> (length xs < fuel)%nat -> x < 2 ^ 64 -> ef_rank c fuel e x = Ok (how_many (fun y => y <? x) xs)).
Proof.
  intros c k u xs Hc Hk Hu HS HX F1 F2. assert (H64 : wf_nb 64) by (unfold wf_nb; auto). pose proof (pow2_pos k) as Hp.
  set (hi := fun x => x / 2 ^ k). set (lo := fun x => x mod 2 ^ k).
  assert (Hmono : forall x y, x <= y -> hi x <= hi y) by (intros x y H; apply N.div_le_mono; lia).
  assert (HA : ascends 0 (map hi xs)).
  { constructor; [|apply Forall_forall; intros; lia]. clear - HS Hmono. induction HS as [|x l S IH F]; cbn [map]; constructor; [exact IH|].
    apply Forall_forall. intros y Hy. apply in_map_iff in Hy. destruct Hy as (z & <- & Hz). apply Hmono. rewrite Forall_forall in F. now apply F. }
  assert (HT : top 0 (map hi xs) <= u / 2 ^ k).
  { clear - HX Hmono. assert (G : forall hs h0, h0 <= hi u -> Forall (fun h => h <= hi u) hs -> top h0 hs <= hi u).
    { induction hs as [|h r IH]; intros h0 H F; cbn [top]; [exact H|]. apply Forall_cons_iff in F. now apply IH. }
    apply G; [lia|]. apply Forall_forall. intros h Hh. apply in_map_iff in Hh. destruct Hh as (x & <- & Hx). apply Hmono. rewrite Forall_forall in HX. now apply HX. }
  set (l := up 0 (map hi xs)). assert (LL : lengthN l = lengthN xs + top 0 (map hi xs)) by (unfold l; rewrite lengthN_up by exact HA; rewrite lengthN_map; lia).
  assert (Em : bvec_new c 64 = Ok {| vb_len := 0; vb_vec := [] |}) by (unfold bvec_new, vb_new, vb_block_with_capacity, alloc; cbn [N.mul]; destruct (max_bits c); reflexivity).
  assert (Rm : R_bv c 64 {| vb_len := 0; vb_vec := [] |} []) by (split; [reflexivity|]; split; [reflexivity|apply fits_0; lia]).
  pose proof (iv_make_sim c 64 k Hc H64 ltac:(lia) INew I) as H0. unfold spec_imake in H0. destruct ((k =? 0) || (64 <? k)) eqn:Ek; [lia|].
  cbn [iv_make ends] in H0. destruct H0 as (v0 & Ev0 & V0).
  assert (F3 : fits c 64 (lengthN l)) by (apply (fits_mono c 64 _ (lengthN xs + u / 2 ^ k)); [lia|lia|exact F2]).
  destruct (ef_fill_ok c k Hc Hk xs 0 _ v0 [] [] Rm V0 HA) as (m & v & E1 & M & V); [exact F3|exact F1|]. cbn [app] in M, V. fold hi in M. fold l in M.
  pose proof (bvec_lawful_bits c 64 Hc H64) as LB. pose proof (bvec_lawful_blocks c 64 Hc H64) as LK.
  destruct (rank9_new_ok c (bvec_bitvec c 64) (R_bv c 64) Hc LB (block_reads c _ _ LK) eq_refl m l M) as (d & Ed & Es & _).
  destruct (C35_rank_structures _ c (bvec_bitvec c 64) (R_bv c 64) Hc LB LK) as (_ & LR & _). specialize (LR eq_refl).
  assert (HD : exists m, R_bv c 64 m l /\ rank9_new c (bvec_bitvec c 64) m = Ok d) by (exists m; auto).
  pose proof (fits_lt64 c 64 _ ltac:(lia) F3) as L64.
  set (e := {| ef_k := k; ef_high := d; ef_low := v |}). exists e.
  assert (BL : bv_bit_len (bss_bitvec (rank9_bitvec (bvec_bitvec c 64))) (ef_high e) = Ok (lengthN l)).
  { unfold bss_bitvec, rank9_bitvec, e. cbn [bv_bit_len ef_high]. rewrite Es. exact (lb_bit_len _ _ _ LB m l M). }
  assert (GB : forall p b, nthN l p = Some b -> bv_get_bit (bss_bitvec (rank9_bitvec (bvec_bitvec c 64))) (ef_high e) p = Ok b).
  { intros p b H. unfold bss_bitvec, rank9_bitvec, e. cbn [bv_get_bit ef_high]. rewrite Es. exact (lb_get_bit _ _ _ LB m l p b M H). }
  assert (GT : forall i x, nthN xs i = Some x -> iv_get c 64 v i = Ok (lo x)).
  { intros i x E. apply (iv_get_ok c 64 k Hc H64 ltac:(lia) v _ i _ V).
    - apply (iv_index_ok c 64 k v _ i Hc H64 ltac:(lia) V). rewrite lengthN_map. now apply nthN_lt in E.
    - rewrite nthN_map, E. reflexivity. }
  split; [unfold ef_new; rewrite Em; cbn [bind]; rewrite Ev0; cbn [bind]; rewrite E1; cbn [bind]; rewrite Ed; reflexivity|].
  split; [unfold e; cbn [ef_low]; rewrite (PIntVector.R_iv_len c 64 k Hc H64 ltac:(lia) v _ V); apply lengthN_map|].
  split; [exists (lengthN l); split; [exact BL|lia]|]. split.
  - intros fuel i Hf Hi. unfold ef_get. destruct (C35_select _ c _ _ d l i true fuel LR HD Hi Hf) as [(o & Eo & Ho1 & Ho2) _]. cbv iota in Eo. unfold e. cbn [ef_high ef_low ef_k]. rewrite Eo. cbn [bind].
    destruct (nthN xs i) as [x|] eqn:Ex.
    + assert (Eh : nthN (map hi xs) i = Some (hi x)) by (rewrite nthN_map, Ex; reflexivity).
      rewrite (proj2 (Ho1 (hi x - 0 + i)) (up_ones 0 _ i _ HA Eh)). rewrite wsub_ok by lia. cbn [bind]. rewrite wshl_ok by lia. cbn [bind]. rewrite (GT i x Ex). cbn [bind]. f_equal. f_equal.
      replace (hi x - 0 + i - i) with (hi x) by lia. assert (Hx : x < 2 ^ 64). { pose proof (proj1 (Forall_nthN _ _) HX _ _ Ex) as G. cbn beta in G. lia. }
      rewrite N.mod_small.
      * rewrite N.shiftl_mul_pow2. unfold hi, lo. apply N.bits_inj. intros j. rewrite N.lor_spec. destruct (N.lt_ge_cases j k) as [Hj|Hj].
        -- rewrite N.mul_pow2_bits_low, N.mod_pow2_bits_low by exact Hj. reflexivity.
        -- rewrite N.mul_pow2_bits_high, N.mod_pow2_bits_high, N.div_pow2_bits by exact Hj. rewrite orb_false_r. f_equal. lia.
      * rewrite N.shiftl_mul_pow2. unfold hi. pose proof (N.mul_div_le x (2 ^ k) ltac:(lia)). lia.
    + rewrite (proj2 Ho2); [reflexivity|]. apply nthN_None in Ex. unfold l. rewrite (proj1 (counts_up 0 _ HA)), lengthN_map. exact Ex.
  - intros fuel x Hf Hf2 Hx. unfold ef_rank. unfold e at 1. cbn [ef_k]. rewrite wshr_ok by lia. cbn [bind]. rewrite N.shiftr_div_pow2. change (x / 2 ^ k) with (hi x). set (h := hi x).
    unfold e at 1. cbn [ef_k]. rewrite low_mask_ok by (assumption || lia). cbn [bind]. rewrite N.land_ones. change (x mod 2 ^ k) with (lo x).
    set (A := how_many (fun y => y <? x) xs).
    set (a := how_many (fun y => hi y <? h) xs). set (b := how_many (fun y => hi y <=? h) xs).
    assert (D1 : down (fun y => hi y <? h)) by (intros y z H1 H2; specialize (Hmono y z H1); lia).
    assert (D2 : down (fun y => hi y <=? h)) by (intros y z H1 H2; specialize (Hmono y z H1); lia).
    assert (D3 : down (fun y => y <? x)) by (intros y z H1 H2; lia).
    assert (aA : a <= A). { apply how_many_mono. intros y H. destruct (N.lt_ge_cases y x) as [G|G]; [lia|]. specialize (Hmono _ _ G). fold h in Hmono. lia. }
    assert (Ab : A <= b). { apply how_many_mono. intros y H. specialize (Hmono y x ltac:(lia)). fold h in Hmono. lia. }
    assert (bl : b <= lengthN xs) by apply how_many_le.
    assert (Hh : h < 2 ^ 63). { apply N.div_lt_upper_bound; [lia|]. apply N.lt_le_trans with (1 := Hx). change (2 ^ 64) with (2 ^ 1 * 2 ^ 63). apply N.mul_le_mono_r. apply N.pow_le_mono_r; lia. }
    assert (Hl : lengthN xs <= 2 ^ 63) by lia.
    assert (SM : forall i, a <= i <= A -> ef_smaller c e h (lo x) i = Ok (i <? A)).
    { intros i Hi. unfold ef_smaller. rewrite wadd_ok by lia. cbn [bind]. rewrite BL. cbn [bind].
      destruct (i <? b) eqn:Eb.
      - destruct (nthN_Some xs i ltac:(lia)) as [y Ey]. pose proof (prefix _ xs i y D1 HS Ey) as P1. pose proof (prefix _ xs i y D2 HS Ey) as P2. pose proof (prefix _ xs i y D3 HS Ey) as P3.
        fold a in P1. fold b in P2. fold A in P3. cbn beta in P1, P2, P3. assert (Ehy : hi y = h) by lia.
        assert (Eh : nthN (map hi xs) i = Some h) by (rewrite nthN_map, Ey; cbn [option_map]; now rewrite Ehy).
        destruct (up_ones 0 _ i _ HA Eh) as [Q1 _]. fold l in Q1. replace (h - 0 + i) with (i + h) in Q1 by lia. pose proof (nthN_lt _ _ _ Q1) as Q2.
        destruct (i + h <? lengthN l) eqn:E2; [|lia]. cbn [bind]. rewrite (GB _ _ Q1). cbn [bind]. unfold e. cbn [ef_low]. rewrite (GT i y Ey). cbn [bind]. f_equal. rewrite <- P3.
        assert (Ey2 : y = hi y * 2 ^ k + lo y) by (unfold hi, lo; pose proof (N.div_mod' y (2 ^ k)); lia).
        assert (Ex2 : x = h * 2 ^ k + lo x) by (unfold h, hi, lo; pose proof (N.div_mod' x (2 ^ k)); lia). rewrite Ehy in Ey2. clear - Ey2 Ex2. lia.
      - assert (i = b) by lia. assert (A = b) by lia. subst i. destruct (N.lt_ge_cases h (top 0 (map hi xs))) as [Ht|Ht].
        + destruct (up_zeros 0 (map hi xs) h HA ltac:(lia)) as [Q1 _]. fold l in Q1. rewrite how_many_map in Q1. fold b in Q1. replace (h - 0 + b) with (b + h) in Q1 by lia. pose proof (nthN_lt _ _ _ Q1) as Q2.
          destruct (b + h <? lengthN l) eqn:E2; [|lia]. cbn [bind]. rewrite (GB _ _ Q1). cbn [bind]. f_equal. lia.
        + assert (b = lengthN xs).
          { unfold b. clear - Ht HA. pose proof (top_max _ _ HA) as F. apply how_many_every. intros y Hy.
            rewrite Forall_forall in F. specialize (F (hi y) (in_map hi _ _ Hy)). lia. }
          destruct (b + h <? lengthN l) eqn:E2; [lia|]. f_equal. lia. }
    assert (LO : forall n i, (N.to_nat (A - i) < n)%nat -> a <= i <= A -> loop_fuel n (fun i => b <- ef_smaller c e h (lo x) i ;; if b then i <- wadd c 64 i 1 ;; Ok (Continue i) else Ok (Return i)) i = Ok A).
    { induction n as [|n IH]; intros i Hn Hi; [lia|]. cbn [loop_fuel]. rewrite SM by exact Hi. cbn [bind]. destruct (i <? A) eqn:E.
      - rewrite wadd_ok by lia. cbn [bind]. apply IH; lia.
      - cbn [bind]. f_equal. lia. }
    assert (Af : (N.to_nat A < fuel)%nat) by (unfold lengthN in *; lia).
    destruct (h =? 0) eqn:Eh.
    + apply LO; [lia|]. split; [|lia]. unfold a. rewrite how_many_none; [lia|]. apply Forall_forall. intros y _. lia.
    + rewrite wsub_ok by lia. cbn [bind]. destruct (C35_select _ c _ _ d l (h - 1) false fuel LR HD ltac:(lia) Hf) as [(o & Eo & Ho1 & Ho2) _]. cbv iota in Eo. unfold e at 1. cbn [ef_high]. rewrite Eo. cbn [bind].
      destruct (N.lt_ge_cases (h - 1) (top 0 (map hi xs))) as [Ht|Ht].
      * pose proof (up_zeros 0 (map hi xs) (h - 1) HA ltac:(lia)) as Q. fold l in Q. rewrite how_many_map in Q.
        assert (Ea : how_many (fun y => hi y <=? h - 1) xs = a) by (apply how_many_ext, Forall_forall; intros y _; lia). rewrite Ea in Q. replace (h - 1 - 0) with (h - 1) in Q by lia.
        rewrite (proj2 (Ho1 (h - 1 + a)) Q). rewrite wadd_ok by lia. cbn [bind]. rewrite wsub_ok by lia. cbn [bind]. apply LO; lia.
      * rewrite (proj2 Ho2) by (unfold l; rewrite (proj2 (counts_up 0 _ HA)); lia). unfold e. cbn [ef_low]. f_equal. rewrite (PIntVector.R_iv_len c 64 k Hc H64 ltac:(lia) v _ V), lengthN_map.
        unfold A. symmetry. apply how_many_every. intros y Hy. pose proof (top_max _ _ HA) as F. rewrite Forall_forall in F. specialize (F (hi y) (in_map hi _ _ Hy)).
        destruct (N.lt_ge_cases y x) as [G|G]; [lia|]. specialize (Hmono _ _ G). fold h in Hmono. lia.
Qed.

Example C112_ex : exists e, StronglySorted N.le [2; 3; 5; 7; 11; 13; 24; 24; 100] /\ Forall (fun x => x <= 100) [2; 3; 5; 7; 11; 13; 24; 24; 100] /\
  fits dbg64 64 (9 * 3) /\ fits dbg64 64 (9 + 100 / 2 ^ 3) /\
  ef_new dbg64 3 [2; 3; 5; 7; 11; 13; 24; 24; 100] = Ok e /\
  bv_bit_len (bss_bitvec (rank9_bitvec (bvec_bitvec dbg64 64))) (ef_high e) = Ok 21 /\
  map (ef_get dbg64 70 e) [0; 3; 4; 7; 8; 9] = [Ok (Some 2); Ok (Some 7); Ok (Some 11); Ok (Some 24); Ok (Some 100); Ok None] /\
  map (ef_rank dbg64 70 e) [0; 3; 4; 8; 12; 24; 25; 99; 100; 101; 2 ^ 64 - 1] = [Ok 0; Ok 1; Ok 2; Ok 4; Ok 5; Ok 6; Ok 8; Ok 8; Ok 8; Ok 9; Ok 9].
Proof.
  eexists. split; [repeat (constructor; [|repeat (constructor; [vm_compute; congruence|]); constructor]); constructor|].
  split; [repeat (constructor; [vm_compute; congruence|]); constructor|].
  split; [vm_compute; congruence|]. split; [vm_compute; congruence|]. split; [vm_compute; reflexivity|]. repeat (split; [vm_compute; reflexivity|]). vm_compute. reflexivity.
Qed.

Print Assumptions C112_elias_fano.
