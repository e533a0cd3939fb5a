(** * What a binary search and a select query cost, exactly, in the worst cases; the documented O(lg lg n) does not hold (C113, C114). *)
From Verif Require Import Machine MStorage MTraits MRank MSelect MSearchGen SpecBits SpecCfg SpecLaws SpecRank PBase PStorage PBits PDefaults PRank PSelect
  Properties6 Properties28.

Section Cost.
  Context (c : cfg) (D : pint) {S R : Type} (ge lt : R -> R -> bool) (value : R) (f : Z -> S -> res (R * S)).
  Hypothesis HD : wf_pint D.

  Lemma loop_absent start limit : in_type D start -> in_type D limit ->
    (forall p s, (start <= p < limit)%Z -> exists y s', f p s = Ok (y, s') /\ ge y value = false) ->
    forall k fuel st s, (start < st <= limit)%Z -> (2 ^ Z.of_nat k <= limit - st + 1 < 2 * 2 ^ Z.of_nat k)%Z -> (k < fuel)%nat ->
    exists s' tr, search_loop_gen c D ge lt value f fuel st limit s = Ok (None, s') /\ calls f s tr s' /\ length tr = k.
  Proof.
    intros [Hs1 Hs2] [Hl1 Hl2] Hf. induction k as [|k IH]; intros fuel st s Hst Hk Hfuel; (destruct fuel as [|fuel]; [lia|]);
      unfold search_loop_gen; cbn [loop_fuel]; destruct (st <? limit)%Z eqn:E.
    - apply Z.ltb_lt in E. change (2 ^ Z.of_nat 0)%Z with 1%Z in Hk. lia.
    - cbn [bind]. exists s, []. split; [reflexivity|]. split; [constructor|reflexivity].
    - apply Z.ltb_lt in E. rewrite Nat2Z.inj_succ, Z.pow_succ_r in Hk by lia. set (P := (2 ^ Z.of_nat k)%Z) in *. clearbody P.
      rewrite average_gen_ok by (try exact HD; split; lia). cbn [bind].
      pose proof (Z.div_mod (st + limit) 2 ltac:(lia)) as Hm. pose proof (Z.mod_pos_bound (st + limit) 2 ltac:(lia)) as Hm2.
      set (mid := ((st + limit) / 2)%Z) in *. set (e := ((st + limit) mod 2)%Z) in *. clearbody mid e.
      destruct (Hf mid s ltac:(lia)) as (y & s1 & E1 & G). rewrite E1. cbn [bind]. rewrite G.
      rewrite pi_wrap_ok by (split; lia). cbn [bind].
      destruct (IH fuel (mid + 1)%Z s1 ltac:(lia) ltac:(lia) ltac:(lia)) as (s' & tr & R1 & R2 & R3).
      exists s', ((mid, y) :: tr). split; [exact R1|]. split; [econstructor; eassumption|]. cbn [length]. lia.
    - apply Z.ltb_ge in E. rewrite Nat2Z.inj_succ, Z.pow_succ_r in Hk by lia. pose proof (Z.pow_pos_nonneg 2 (Z.of_nat k) ltac:(lia) ltac:(lia)). lia.
  Qed.

  Lemma loop_last start limit : in_type D start -> in_type D limit ->
    (forall p s, (start <= p < limit)%Z -> exists y s', f p s = Ok (y, s') /\ ge y value = (p =? limit - 1)%Z /\ lt y value = negb (p =? limit - 1)%Z) ->
    forall k fuel st s, (start < st < limit)%Z -> (2 * 2 ^ Z.of_nat k <= limit - st + 1 < 4 * 2 ^ Z.of_nat k)%Z -> (k < fuel)%nat ->
    exists s' tr, search_loop_gen c D ge lt value f fuel st limit s = Ok (Some (limit - 1)%Z, s') /\ calls f s tr s' /\ length tr = (2 + k)%nat.
  Proof.
    intros [Hs1 Hs2] [Hl1 Hl2] Hf. induction k as [|k IH]; intros fuel st s Hst Hk Hfuel; (destruct fuel as [|fuel]; [lia|]);
      unfold search_loop_gen; cbn [loop_fuel]; replace (st <? limit)%Z with true by (symmetry; apply Z.ltb_lt; lia);
      (rewrite average_gen_ok by (try exact HD; split; lia)); cbn [bind];
      pose proof (Z.div_mod (st + limit) 2 ltac:(lia)) as Hm; pose proof (Z.mod_pos_bound (st + limit) 2 ltac:(lia)) as Hm2;
      set (mid := ((st + limit) / 2)%Z) in *; set (e := ((st + limit) mod 2)%Z) in *; clearbody mid e.
    - change (2 ^ Z.of_nat 0)%Z with 1%Z in Hk. assert (mid = limit - 1)%Z by lia. subst mid.
      destruct (Hf (limit - 1)%Z s ltac:(lia)) as (y & s1 & E1 & G & _). rewrite E1. cbn [bind]. rewrite G, Z.eqb_refl.
      rewrite pi_wrap_ok by (split; lia). cbn [bind]. destruct (Hf (limit - 1 - 1)%Z s1 ltac:(lia)) as (y' & s2 & E2 & _ & L). rewrite E2. cbn [bind].
      rewrite L. replace (limit - 1 - 1 =? limit - 1)%Z with false by (symmetry; apply Z.eqb_neq; lia). cbn [negb bind].
      exists s2, [((limit - 1)%Z, y); ((limit - 1 - 1)%Z, y')]. split; [reflexivity|]. split; [|reflexivity]. econstructor; [exact E1|]. now apply calls_1.
    - rewrite Nat2Z.inj_succ, Z.pow_succ_r in Hk by lia. pose proof (Z.pow_pos_nonneg 2 (Z.of_nat k) ltac:(lia) ltac:(lia)) as HP.
      set (P := (2 ^ Z.of_nat k)%Z) in *. clearbody P.
      destruct (Hf mid s ltac:(lia)) as (y & s1 & E1 & G & _). rewrite E1. cbn [bind]. rewrite G.
      replace (mid =? limit - 1)%Z with false by (symmetry; apply Z.eqb_neq; lia).
      rewrite pi_wrap_ok by (split; lia). cbn [bind].
      destruct (IH fuel (mid + 1)%Z s1 ltac:(lia) ltac:(lia) ltac:(lia)) as (s' & tr & R1 & R2 & R3).
      exists s', ((mid, y) :: tr). split; [exact R1|]. split; [econstructor; eassumption|]. cbn [length]. lia.
  Qed.
End Cost.

Lemma log2_bounds z : (0 < z)%Z -> let k := N.to_nat (N.log2 (Z.to_N z)) in (2 ^ Z.of_nat k <= z < 2 * 2 ^ Z.of_nat k)%Z.
Proof.
  intros Hz k. subst k. rewrite N_nat_Z. rewrite <- Z.pow_succ_r by lia. pose proof (N.log2_spec (Z.to_N z) ltac:(lia)) as [H1 H2].
  apply N2Z.inj_le in H1. apply N2Z.inj_lt in H2. rewrite N2Z.inj_pow in H1, H2. rewrite N2Z.inj_succ in H2. change (Z.of_N 2) with 2%Z in *. rewrite Z2N.id in H1, H2 by lia. lia.
Qed.

(** ** The first answer is large enough: one call. *)
Theorem C113_first : forall c D S R (ge lt : R -> R -> bool) start limit value (f : Z -> S -> res (R * S)) s y s' fuel,
  (start < limit)%Z -> f start s = Ok (y, s') -> ge y value = true ->
  binary_search_gen c D ge lt fuel start limit value f s = Ok (Some start, s') /\ calls f s [(start, y)] s'.
Proof.
  intros c D S R ge lt start limit value f s y s' fuel H E G. split; [|now apply calls_1]. unfold binary_search_gen.
  replace (limit <=? start)%Z with false by (symmetry; apply Z.leb_gt; lia). rewrite E. cbn [bind]. now rewrite G.
Qed.

(** ** No answer is large enough: exactly 1 + lg (limit - start) calls. *)
Theorem C113_absent : forall c D S R (ge lt : R -> R -> bool) start limit value (f : Z -> S -> res (R * S)) s fuel,
  wf_pint D -> in_type D start -> in_type D limit -> (start < limit)%Z ->
  (forall p s, (start <= p < limit)%Z -> exists y s', f p s = Ok (y, s') /\ ge y value = false) ->
  (N.to_nat (N.log2 (Z.to_N (limit - start))) < fuel)%nat ->
  exists s' tr, binary_search_gen c D ge lt fuel start limit value f s = Ok (None, s') /\ calls f s tr s' /\
    lengthN tr = 1 + N.log2 (Z.to_N (limit - start)).
Proof.
  intros c D S R ge lt start limit value f s fuel HD Hs Hl H Hf Hfuel. unfold binary_search_gen.
  replace (limit <=? start)%Z with false by (symmetry; apply Z.leb_gt; lia).
  destruct (Hf start s ltac:(lia)) as (y & s1 & E1 & G). rewrite E1. cbn [bind]. rewrite G. destruct Hs as [Hs1 Hs2]. destruct Hl as [Hl1 Hl2].
  rewrite pi_wrap_ok by (split; lia). cbn [bind]. pose proof (log2_bounds (limit - start) ltac:(lia)) as HB. cbv zeta in HB.
  destruct (loop_absent c D ge lt value f HD start limit (conj Hs1 Hs2) (conj Hl1 Hl2) Hf _ fuel (start + 1)%Z s1 ltac:(lia)
    ltac:(replace (limit - (start + 1) + 1)%Z with (limit - start)%Z by lia; exact HB) Hfuel) as (s' & tr & R1 & R2 & R3).
  exists s', ((start, y) :: tr). split; [exact R1|]. split; [econstructor; eassumption|]. unfold lengthN. cbn [length]. rewrite R3. lia.
Qed.

(** ** Only the last answer is large enough: exactly 2 + lg (limit - start) calls. *)
Theorem C113_last : forall c D S R (ge lt : R -> R -> bool) start limit value (f : Z -> S -> res (R * S)) s fuel,
  wf_pint D -> in_type D start -> in_type D limit -> (start + 1 < limit)%Z ->
  (forall p s, (start <= p < limit)%Z -> exists y s', f p s = Ok (y, s') /\ ge y value = (p =? limit - 1)%Z /\ lt y value = negb (p =? limit - 1)%Z) ->
  (N.to_nat (N.log2 (Z.to_N (limit - start))) <= fuel)%nat ->
  exists s' tr, binary_search_gen c D ge lt fuel start limit value f s = Ok (Some (limit - 1)%Z, s') /\ calls f s tr s' /\
    lengthN tr = 2 + N.log2 (Z.to_N (limit - start)).
Proof.
  intros c D S R ge lt start limit value f s fuel HD Hs Hl H Hf Hfuel. unfold binary_search_gen.
  replace (limit <=? start)%Z with false by (symmetry; apply Z.leb_gt; lia).
  destruct (Hf start s ltac:(lia)) as (y & s1 & E1 & G & _). rewrite E1. cbn [bind]. rewrite G. destruct Hs as [Hs1 Hs2]. destruct Hl as [Hl1 Hl2].
  replace (start =? limit - 1)%Z with false by (symmetry; apply Z.eqb_neq; lia).
  rewrite pi_wrap_ok by (split; lia). cbn [bind]. pose proof (log2_bounds (limit - start) ltac:(lia)) as HB. cbv zeta in HB.
  destruct (N.to_nat (N.log2 (Z.to_N (limit - start)))) as [|k] eqn:Ek; [change (2 ^ Z.of_nat 0)%Z with 1%Z in HB; lia|].
  rewrite Nat2Z.inj_succ, Z.pow_succ_r in HB by lia.
  destruct (loop_last c D ge lt value f HD start limit (conj Hs1 Hs2) (conj Hl1 Hl2) Hf k fuel (start + 1)%Z s1 ltac:(lia) ltac:(lia) ltac:(lia)) as (s' & tr & R1 & R2 & R3).
  exists s', ((start, y) :: tr). split; [exact R1|]. split; [econstructor; eassumption|]. unfold lengthN. cbn [length]. rewrite R3. lia.
Qed.

Lemma count_firstnN v a l : count v (firstnN a l) <= count v l.
Proof.
  destruct (N.le_gt_cases (lengthN l) a) as [H|H]; [rewrite firstnN_all by lia; lia|].
  pose proof (count_mono v a (lengthN l) l ltac:(lia)) as HM. rewrite (firstnN_all (lengthN l)) in HM by lia. exact HM.
Qed.
Lemma firstnN_app_l {A} (l t : list A) n : n <= lengthN l -> firstnN n (l ++ t) = firstnN n l.
Proof. intros H. unfold firstnN, lengthN in *. rewrite firstn_app. replace (N.to_nat n - length l)%nat with 0%nat by lia. now rewrite app_nil_r. Qed.

(** ** Select, over every rank structure that answers exactly *)
Lemma unsigned64 : wf_pint (unsigned 64).
Proof. exists 64. split; [lia|auto]. Qed.
Lemma u64_in z : (0 <= z < 2 ^ 64)%Z -> in_type (unsigned 64) z.
Proof. intros H. split; cbn [pi_min pi_max unsigned]; change (Z.of_N 64) with 64%Z; lia. Qed.
Lemma function_log c limit value f fuel o log : limit < 2 ^ 64 -> queries c fuel limit value f o log -> binary_search_function c 64 fuel 0 limit value f = Ok o.
Proof.
  intros Hl Q. pose proof (C81_instance c 64 fuel 0 limit value f ltac:(lia) ltac:(reflexivity) Hl) as HI. pose proof (erase_log c (unsigned 64) value f fuel 0%Z (Z.of_N limit) []) as HE.
  unfold queries in Q. change (Z.of_N 0) with 0%Z in HI. rewrite HI, Q in HE. destruct (binary_search_function c 64 fuel 0 limit value f) as [o'| |]; try discriminate HE.
  cbn [to_opt bind fst] in HE. injection HE as E. destruct o as [x|], o' as [x'|]; cbn [option_map] in E; try discriminate E; [|reflexivity]. injection E as E. apply N2Z.inj in E. now subst.
Qed.
Lemma search_absent c limit value f fuel : 1 <= limit -> limit < 2 ^ 64 -> (63 < fuel)%nat -> (forall p, p < limit -> exists y, f p = Ok y /\ y < value) ->
  exists log, queries c fuel limit value f None log /\ lengthN log = 1 + N.log2 limit.
Proof.
  intros H1 Hl Hfuel Hf. assert (HlZ : (Z.of_N limit < 2 ^ 64)%Z) by (change (2 ^ 64)%Z with (Z.of_N (2 ^ 64)); lia).
  assert (Hlog : N.log2 limit < 64) by (apply N.log2_lt_pow2; lia).
  destruct (C113_absent c (unsigned 64) (list N) N (fun x y => y <=? x) N.ltb 0%Z (Z.of_N limit) value (logged f) [] fuel) as (log & tr & R1 & R2 & R3).
  - exact unsigned64.
  - apply u64_in. lia.
  - apply u64_in. lia.
  - lia.
  - intros p lg Hp. destruct (Hf (Z.to_N p) ltac:(lia)) as (y & E & Hy). exists y, (lg ++ [Z.to_N p]). unfold logged. rewrite E. cbn [bind]. split; [reflexivity|]. apply N.leb_gt. exact Hy.
  - rewrite Z.sub_0_r, N2Z.id. lia.
  - exists log. split; [exact R1|]. rewrite (calls_logged _ _ _ _ R2). cbn [app]. rewrite Z.sub_0_r, N2Z.id in R3. unfold lengthN in *. now rewrite map_length.
Qed.
Lemma search_last c limit value f fuel : 2 <= limit -> limit < 2 ^ 64 -> (63 < fuel)%nat ->
  (forall p, p < limit -> exists y, f p = Ok y /\ (y < value <-> p < limit - 1)) ->
  exists log, queries c fuel limit value f (Some (limit - 1)) log /\ lengthN log = 2 + N.log2 limit.
Proof.
  intros H1 Hl Hfuel Hf. assert (HlZ : (Z.of_N limit < 2 ^ 64)%Z) by (change (2 ^ 64)%Z with (Z.of_N (2 ^ 64)); lia).
  assert (Hlog : N.log2 limit < 64) by (apply N.log2_lt_pow2; lia).
  destruct (C113_last c (unsigned 64) (list N) N (fun x y => y <=? x) N.ltb 0%Z (Z.of_N limit) value (logged f) [] fuel) as (log & tr & R1 & R2 & R3).
  - exact unsigned64.
  - apply u64_in. lia.
  - apply u64_in. lia.
  - lia.
  - intros p lg Hp. destruct (Hf (Z.to_N p) ltac:(lia)) as (y & E & Hy). exists y, (lg ++ [Z.to_N p]). unfold logged. rewrite E. cbn [bind]. split; [reflexivity|].
    destruct (Z.eqb_spec p (Z.of_N limit - 1)) as [Ep|Ep]; cbn [negb].
    + split; [apply N.leb_le; lia|apply N.ltb_ge; lia].
    + split; [apply N.leb_gt; lia|apply N.ltb_lt; lia].
  - rewrite Z.sub_0_r, N2Z.id. lia.
  - exists log. split.
    + unfold queries. rewrite R1. cbn [option_map]. do 3 f_equal. lia.
    + rewrite (calls_logged _ _ _ _ R2). cbn [app]. rewrite Z.sub_0_r, N2Z.id in R3. unfold lengthN in *. now rewrite map_length.
Qed.

Theorem C113_select_absent : forall T c (K : bitrank T) (Rel : T -> list bool -> Prop) t l i v fuel,
  lawful_rank K Rel -> Rel t l -> i + 1 < 2 ^ 64 -> (63 < fuel)%nat -> l <> [] -> count v l <= i ->
  (exists log, (if v then bss_select1 c K fuel t i else bss_select0 c K fuel t i) = Ok None /\
     queries c fuel (lengthN l) (i + 1) (if v then br_rank1 K t else br_rank0 K t) None log /\ lengthN log = 1 + N.log2 (lengthN l)) /\
  (exists log, bss_select c (br_rs K) fuel t i v = Ok None /\
     queries c fuel (lengthN l) (i + 1) (fun p => rs_rank (br_rs K) t p v) None log /\ lengthN log = 1 + N.log2 (lengthN l)).
Proof.
  intros T c K Rel t l i v fuel LR HR Hi Hfuel Hne Hc. pose proof (lr_len _ _ LR t l HR) as HL. pose proof (lr_limit _ _ LR t l HR) as HM.
  assert (H1 : 1 <= lengthN l) by (destruct l; [congruence|unfold lengthN; cbn [length]; lia]).
  assert (HC : forall p, rank_of v l p < i + 1) by (intros p; pose proof (count_firstnN v (p + 1) l); unfold rank_of; lia).
  split.
  - destruct (search_absent c (lengthN l) (i + 1) (if v then br_rank1 K t else br_rank0 K t) fuel H1 HL Hfuel) as (log & Q1 & Q2).
    { intros p Hp. exists (rank_of v l p). split; [|apply HC]. destruct v; [exact (lr_rank1 _ _ LR t l p HR Hp)|exact (lr_rank0 _ _ LR t l p HR Hp)]. }
    exists log. split; [|split; [exact Q1|exact Q2]]. pose proof (function_log _ _ _ _ _ _ _ HL Q1) as E.
    unfold bss_select1, bss_select0. rewrite HM. cbn [bind]. rewrite wadd_ok by lia. cbn [bind]. destruct v; exact E.
  - destruct (search_absent c (lengthN l) (i + 1) (fun p => rs_rank (br_rs K) t p v) fuel H1 HL Hfuel) as (log & Q1 & Q2).
    { intros p Hp. exists (rank_of v l p). split; [|apply HC]. exact (lr_rank _ _ LR t l p v HR Hp). }
    exists log. split; [|split; [exact Q1|exact Q2]]. pose proof (function_log _ _ _ _ _ _ _ HL Q1) as E.
    unfold bss_select. rewrite HM. cbn [bind]. rewrite wadd_ok by lia. cbn [bind]. exact E.
Qed.

Theorem C113_select_last : forall T c (K : bitrank T) (Rel : T -> list bool -> Prop) t l i v fuel,
  lawful_rank K Rel -> Rel t (l ++ [v]) -> i + 1 < 2 ^ 64 -> (63 < fuel)%nat -> l <> [] -> count v l = i ->
  (exists log, (if v then bss_select1 c K fuel t i else bss_select0 c K fuel t i) = Ok (Some (lengthN l)) /\
     queries c fuel (lengthN l + 1) (i + 1) (if v then br_rank1 K t else br_rank0 K t) (Some (lengthN l)) log /\ lengthN log = 2 + N.log2 (lengthN l + 1)) /\
  (exists log, bss_select c (br_rs K) fuel t i v = Ok (Some (lengthN l)) /\
     queries c fuel (lengthN l + 1) (i + 1) (fun p => rs_rank (br_rs K) t p v) (Some (lengthN l)) log /\ lengthN log = 2 + N.log2 (lengthN l + 1)).
Proof.
  intros T c K Rel t l i v fuel LR HR Hi Hfuel Hne Hc. pose proof (lr_len _ _ LR t _ HR) as HL. pose proof (lr_limit _ _ LR t _ HR) as HM.
  assert (Hlen : lengthN (l ++ [v]) = lengthN l + 1) by (unfold lengthN; rewrite app_length; cbn [length]; lia). rewrite Hlen in HL, HM.
  assert (H1 : 2 <= lengthN l + 1) by (destruct l; [congruence|unfold lengthN; cbn [length]; lia]).
  assert (HC : forall p, p < lengthN l + 1 -> rank_of v (l ++ [v]) p < i + 1 <-> p < lengthN l + 1 - 1).
  { intros p Hp. assert (HA : rank_of v (l ++ [v]) (lengthN l) = i + 1).
    { apply is_select_rank. split; [now rewrite nthN_app_r, N.sub_diag by lia|]. now rewrite firstnN_app_l, firstnN_all by lia. }
    split; intros H.
    - destruct (N.eq_dec p (lengthN l)) as [->|]; lia.
    - unfold rank_of. rewrite firstnN_app_l by lia. pose proof (count_firstnN v (p + 1) l). lia. }
  replace (Some (lengthN l)) with (Some (lengthN l + 1 - 1)) by (f_equal; lia).
  split.
  - destruct (search_last c (lengthN l + 1) (i + 1) (if v then br_rank1 K t else br_rank0 K t) fuel H1 HL Hfuel) as (log & Q1 & Q2).
    { intros p Hp. exists (rank_of v (l ++ [v]) p). split; [|now apply HC]. rewrite <- Hlen in Hp. destruct v; [exact (lr_rank1 _ _ LR t _ p HR Hp)|exact (lr_rank0 _ _ LR t _ p HR Hp)]. }
    exists log. split; [|split; [exact Q1|exact Q2]]. pose proof (function_log _ _ _ _ _ _ _ HL Q1) as E.
    unfold bss_select1, bss_select0. rewrite HM. cbn [bind]. rewrite wadd_ok by lia. cbn [bind]. destruct v; exact E.
  - destruct (search_last c (lengthN l + 1) (i + 1) (fun p => rs_rank (br_rs K) t p v) fuel H1 HL Hfuel) as (log & Q1 & Q2).
    { intros p Hp. exists (rank_of v (l ++ [v]) p). split; [|now apply HC]. rewrite <- Hlen in Hp. exact (lr_rank _ _ LR t _ p v HR Hp). }
    exists log. split; [|split; [exact Q1|exact Q2]]. pose proof (function_log _ _ _ _ _ _ _ HL Q1) as E.
    unfold bss_select. rewrite HM. cbn [bind]. rewrite wadd_ok by lia. cbn [bind]. exact E.
Qed.

(** ** README.md:14 and src/lib.rs:10-12 say that select takes O(lg lg n) time "based on binary search over ranks".  Whatever constants one
    takes, there are a width of the positions and a length [n] for which the search makes more than a * lg (lg n) + b queries. *)
Theorem C114_lglg_refuted : forall a b : N, exists w n fuel log, 3 <= w /\ 2 <= n < 2 ^ w /\
  binary_search_gen rel64 (unsigned w) (fun x y => y <=? x) N.ltb fuel 0 (Z.of_N n) 1 (logged (fun p => Ok (if p =? n - 1 then 1 else 0))) []
    = Ok (Some (Z.of_N (n - 1)), log) /\
  a * N.log2 (N.log2 n) + b < lengthN log.
Proof.
  intros a b. set (t := a + b + 1). set (k := 2 ^ (4 * t)). exists (k + 3), (2 ^ k), (S (N.to_nat k)).
  assert (Hk : a * (4 * t) + b < k).
  { assert (H : 2 * t < 2 ^ (2 * t)) by (apply N.pow_gt_lin_r; lia). subst k. replace (4 * t) with (2 * t + 2 * t) at 2 by lia. rewrite N.pow_add_r.
    set (P := 2 ^ (2 * t)) in *. clearbody P. assert (2 * t * (2 * t) < P * P) by (apply N.mul_lt_mono; exact H). subst t. lia. }
  assert (Hn : 2 ^ 1 <= 2 ^ k) by (apply N.pow_le_mono_r; lia). change (2 ^ 1) with 2 in Hn.
  assert (Hw : 2 ^ k < 2 ^ (k + 3)) by (apply N.pow_lt_mono_r; lia).
  assert (HwZ : (Z.of_N (2 ^ k) < 2 ^ Z.of_N (k + 3))%Z) by (apply N2Z.inj_lt in Hw; rewrite (N2Z.inj_pow 2 (k + 3)) in Hw; exact Hw).
  destruct (C113_last rel64 (unsigned (k + 3)) (list N) N (fun x y => y <=? x) N.ltb 0%Z (Z.of_N (2 ^ k)) 1 (logged (fun p => Ok (if p =? 2 ^ k - 1 then 1 else 0))) [] (S (N.to_nat k)))
    as (log & tr & R1 & R2 & R3).
  - exists (k + 3). split; [lia|auto].
  - split; cbn [pi_min pi_max unsigned]; lia.
  - split; cbn [pi_min pi_max unsigned]; lia.
  - lia.
  - intros p lg Hp. unfold logged. cbn [bind]. eexists _, _. split; [reflexivity|].
    destruct (Z.eqb_spec p (Z.of_N (2 ^ k) - 1)) as [Ep|Ep]; cbn [negb].
    + replace (Z.to_N p =? 2 ^ k - 1) with true by (symmetry; apply N.eqb_eq; lia). split; reflexivity.
    + replace (Z.to_N p =? 2 ^ k - 1) with false by (symmetry; apply N.eqb_neq; lia). split; reflexivity.
  - rewrite Z.sub_0_r, N2Z.id, N.log2_pow2 by lia. lia.
  - exists log. split; [lia|]. split; [lia|]. split.
    + rewrite R1. do 3 f_equal. lia.
    + rewrite (calls_logged _ _ _ _ R2). cbn [app]. rewrite Z.sub_0_r, N2Z.id in R3. unfold lengthN in *. rewrite map_length, R3. rewrite !N.log2_pow2 by lia.
      assert (E : N.log2 k = 4 * t) by (subst k; apply N.log2_pow2; lia). rewrite E. lia.
Qed.

(** 2^12 bits with a single one at the end, in a vector of u64: select1(0) makes 14 = 2 + lg n rank queries, select1(1) makes 13; lg (lg n) is 3. *)
Definition late := repeatN 0 63 ++ [2 ^ 63].
Definition late_rank := rank9_bitrank dbg64 (blocks_bitvec dbg64 64).
Example C113_ex : exists Rel, lawful_rank late_rank Rel /\ exists r, rank9_new dbg64 (blocks_bitvec dbg64 64) late = Ok r /\
  Rel r (repeatN false 4095 ++ [true]) /\ Rel r (bits_of_blocks 64 late) /\ count true (repeatN false 4095) = 0 /\ count true (bits_of_blocks 64 late) = 1 /\
  bss_select1 dbg64 late_rank 65 r 0 = Ok (Some 4095) /\
  queries dbg64 65 4096 1 (br_rank1 late_rank r) (Some 4095) [0; 2048; 3072; 3584; 3840; 3968; 4032; 4064; 4080; 4088; 4092; 4094; 4095; 4094] /\
  bss_select1 dbg64 late_rank 65 r 1 = Ok None /\
  queries dbg64 65 4096 2 (br_rank1 late_rank r) None [0; 2048; 3072; 3584; 3840; 3968; 4032; 4064; 4080; 4088; 4092; 4094; 4095] /\
  bss_select0 dbg64 late_rank 65 r 0 = Ok (Some 0) /\ queries dbg64 65 4096 1 (br_rank0 late_rank r) (Some 0) [0].
Proof.
  exists (fun r l => exists t, R_blocks dbg64 64 t l /\ rank9_new dbg64 (blocks_bitvec dbg64 64) t = Ok r).
  split; [apply (C35_rank_structures _ dbg64 _ _ wf_dbg64 (blocks_lawful_bits dbg64 64 wf_dbg64 wf64) (blocks_lawful_blocks dbg64 64 wf64)); reflexivity|].
  assert (HR : R_blocks dbg64 64 late (bits_of_blocks 64 late)).
  { split; [vm_compute; reflexivity|]. split; [vm_compute; reflexivity|]. vm_compute. discriminate. }
  assert (EL : repeatN false 4095 ++ [true] = bits_of_blocks 64 late) by (vm_compute; reflexivity).
  eexists. split; [vm_compute; reflexivity|].
  split; [exists late; split; [exact (eq_ind_r (R_blocks dbg64 64 late) HR EL)|vm_compute; reflexivity]|]. split; [exists late; split; [exact HR|vm_compute; reflexivity]|].
  unfold queries. repeat (split; [vm_compute; reflexivity|]). vm_compute; reflexivity.
Qed.
(** Over i8 positions: 190 of them from -100 on; no value reaches 10^6, and only the last one reaches 89^3. *)
Example C113_gen_ex : wf_pint (signed 8) /\ in_type (signed 8) (-100)%Z /\ in_type (signed 8) 90%Z /\ N.log2 (Z.to_N (90 - -100)) = 7 /\
  (forall p n, (-100 <= p < 90)%Z -> exists y n', cube p n = Ok (y, n') /\ Z.geb y 1000000%Z = false) /\
  binary_search_gen dbg64 (signed 8) Z.geb Z.ltb 8 (-100)%Z 90%Z 1000000%Z cube 0 = Ok (None, 8) /\
  binary_search_gen dbg64 (signed 8) Z.geb Z.ltb 7 (-100)%Z 90%Z (89 * 89 * 89)%Z cube 0 = Ok (Some 89%Z, 9).
Proof.
  split; [exists 8; split; [lia|auto]|]. split; [split; vm_compute; discriminate|]. split; [split; vm_compute; discriminate|]. split; [reflexivity|].
  split. { intros p n H. exists (p * p * p)%Z, (n + 1). unfold cube. replace ((-100 <=? p)%Z) with true by (symmetry; apply Z.leb_le; lia).
    replace ((p <? 90)%Z) with true by (symmetry; apply Z.ltb_lt; lia). split; [reflexivity|]. rewrite Z.geb_leb. apply Z.leb_gt.
    destruct (Z.le_gt_cases 0 p); [|assert (p * p * p <= 0)%Z by (apply Z.mul_nonneg_nonpos; [apply Z.square_nonneg|lia]); lia].
    assert (p * p <= 89 * 89)%Z by (apply Z.square_le_mono_nonneg; lia). assert (p * p * p <= 89 * 89 * 89)%Z by (apply Z.mul_le_mono_nonneg; try lia; apply Z.square_nonneg). lia. }
  vm_compute. auto.
Qed.

Print Assumptions C113_first.
Print Assumptions C113_absent.
Print Assumptions C113_last.
Print Assumptions C113_select_absent.
Print Assumptions C113_select_last.
Print Assumptions C114_lglg_refuted.
