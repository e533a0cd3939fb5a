(** * Property C125: lists with runs of equal numbers ([MRuns.v]). *)
From Verif Require Import Machine MStorage MTraits MVectorBase MBitVector MIntVector MRank MSelect MRuns
  SpecBits SpecCfg SpecLaws SpecOps SpecRank PBase PStorage PBits PVectorBase PVectorBase2 PVectorBase3 PBitVector PIntVector PIntRun PRank PRank9 PSelect
  Properties6 Properties57.

Fixpoint fresh_bits (last : option N) (xs : list N) : list bool :=
  match xs with [] => [] | x :: r => rn_fresh last x :: fresh_bits (Some x) r end.
Fixpoint run_heads (last : option N) (xs : list N) : list N :=
  match xs with [] => [] | x :: r => if rn_fresh last x then x :: run_heads (Some x) r else run_heads (Some x) r end.
Lemma fresh_length xs : forall o, lengthN (fresh_bits o xs) = lengthN xs.
Proof. induction xs as [|x r IH]; intros o; [reflexivity|]. cbn [fresh_bits]. rewrite !lengthN_cons, IH. reflexivity. Qed.
Lemma heads_count xs : forall o, lengthN (run_heads o xs) = count true (fresh_bits o xs).
Proof. induction xs as [|x r IH]; intros o; [reflexivity|]. cbn [run_heads fresh_bits count]. destruct (rn_fresh o x); cbn [Bool.eqb]; [rewrite lengthN_cons|]; rewrite IH; lia. Qed.
Lemma firstnN_one_more {A} q (a : A) l : firstnN (q + 1) (a :: l) = a :: firstnN q l.
Proof. unfold firstnN. now replace (N.to_nat (q + 1)) with (Datatypes.S (N.to_nat q)) by lia. Qed.
Lemma heads_at xs : forall a i x, nthN xs i = Some x -> nthN (a :: run_heads (Some a) xs) (count true (firstnN (i + 1) (fresh_bits (Some a) xs))) = Some x.
Proof.
  induction xs as [|y r IH]; intros a i x Hi; [discriminate|]. cbn [run_heads fresh_bits]. rewrite firstnN_one_more. cbn [count]. rewrite nthN_cons in Hi. destruct (i =? 0) eqn:E.
  - injection Hi as ->. apply N.eqb_eq in E. subst i. rewrite firstnN_0. cbn [count]. unfold rn_fresh. destruct (a =? x) eqn:Ea; cbn [negb Bool.eqb]; [apply N.eqb_eq in Ea; subst; reflexivity|reflexivity].
  - specialize (IH y (i - 1) x Hi). replace (i - 1 + 1) with i in IH by lia. set (n := count true (firstnN i (fresh_bits (Some y) r))) in *. unfold rn_fresh. destruct (a =? y) eqn:Ea; cbn [negb Bool.eqb].
    + apply N.eqb_eq in Ea. subst a. rewrite N.add_0_l. exact IH.
    + rewrite nthN_cons. destruct (1 + n =? 0) eqn:E0; [lia|]. now replace (1 + n - 1) with n by lia.
Qed.
Lemma heads_ok xs i x : nthN xs i = Some x -> let n := count true (firstnN (i + 1) (fresh_bits None xs)) in 1 <= n /\ nthN (run_heads None xs) (n - 1) = Some x.
Proof.
  destruct xs as [|y r]; intros Hi n; [discriminate|]. subst n. cbn [run_heads fresh_bits rn_fresh]. rewrite firstnN_one_more. cbn [count Bool.eqb]. split; [lia|].
  set (n := count true (firstnN i (fresh_bits (Some y) r))). replace (1 + n - 1) with n by lia. rewrite nthN_cons in Hi. destruct (i =? 0) eqn:E.
  - apply N.eqb_eq in E. subst i. subst n. rewrite firstnN_0. exact Hi.
  - pose proof (heads_at r y (i - 1) x Hi) as H. replace (i - 1 + 1) with i in H by lia. exact H.
Qed.
Lemma fresh_at xs : forall o p, nthN (fresh_bits o xs) p = match nthN xs p with Some x => Some (rn_fresh (if p =? 0 then o else nthN xs (p - 1)) x) | None => None end.
Proof.
  induction xs as [|y r IH]; intros o p; [reflexivity|]. cbn [fresh_bits]. rewrite !nthN_cons. destruct (p =? 0) eqn:E; [reflexivity|]. rewrite IH. destruct (nthN r (p - 1)); reflexivity.
Qed.
Lemma count_first_mono v a b l : a <= b -> count v (firstnN a l) <= count v (firstnN b l).
Proof. intros H. replace b with (a + (b - a)) by lia. rewrite PRank.firstnN_add, count_app. lia. Qed.
Lemma count_first_step v p l b : nthN l p = Some b -> count v (firstnN (p + 1) l) = count v (firstnN p l) + if Bool.eqb b v then 1 else 0.
Proof.
  intros H. rewrite PRank.firstnN_add, count_app. f_equal. assert (E : sub p 1 l = [b]).
  { apply nthN_ext. intros j. rewrite nthN_sub, nthN_cons, nthN_nil. destruct (j =? 0) eqn:E; [apply N.eqb_eq in E; subst j; rewrite N.add_0_r, H; reflexivity|]. destruct (j <? 1) eqn:E1; [lia|reflexivity]. }
  rewrite E. cbn [count]. lia.
Qed.

Section Fill.
  Variables (c : cfg) (k : N).
  Hypothesis Hc : wf_cfg c.
  Hypothesis Hk : 1 <= k <= 64.
  Let H64 : wf_nb 64 := ltac:(unfold wf_nb; auto).
  Let LP := bvec_lawful_push c 64 Hc H64.
  Lemma rn_fill_ok xs : forall o m v ms vs, R_bv c 64 m ms -> R_iv c 64 k v vs -> Forall (fun x => x < 2 ^ k) xs ->
    fits c 64 (lengthN ms + lengthN xs) -> fits c 64 ((lengthN vs + lengthN (run_heads o xs)) * k) ->
    exists m' v', rn_fill c xs o m v = Ok (m', v') /\ R_bv c 64 m' (ms ++ fresh_bits o xs) /\ R_iv c 64 k v' (vs ++ run_heads o xs).
  Proof.
    induction xs as [|x xs IH]; intros o m v ms vs HM HV HF F1 F2.
    - exists m, v. cbn [rn_fill fresh_bits run_heads]. rewrite !app_nil_r. auto.
    - inversion HF as [|? ? Hx HF']; subst. rewrite lengthN_cons in F1. cbn [rn_fill fresh_bits run_heads] in *. set (b := rn_fresh o x) in *. clearbody b.
      destruct (lp_push_bit _ _ _ _ LP m _ b HM) as (m1 & E1 & M1); [apply (fits_mono c 64 _ (lengthN ms + (lengthN xs + 1))); [lia|lia|exact F1]|]. rewrite E1. cbn [bind].
      assert (exists v1, (if b then iv_push c 64 v x else Ok v) = Ok v1 /\ R_iv c 64 k v1 (vs ++ if b then [x] else [])) as (v1 & E2 & V1).
      { destruct b; [|exists v; rewrite app_nil_r; auto]. apply (iv_push_ok c 64 k Hc H64 ltac:(lia) v vs x HV Hx). rewrite lengthN_cons in F2.
        apply (fits_mono c 64 _ ((lengthN vs + (lengthN (run_heads (Some x) xs) + 1)) * k)); [lia|apply N.mul_le_mono_r; lia|exact F2]. }
      rewrite E2. cbn [bind]. destruct (IH (Some x) m1 v1 _ _ M1 V1 HF') as (m2 & v2 & E3 & M2 & V2).
      + rewrite lengthN_app, lengthN_cons, lengthN_nil. replace (lengthN ms + (0 + 1) + lengthN xs) with (lengthN ms + (lengthN xs + 1)) by lia. exact F1.
      + apply (fits_mono c 64 _ ((lengthN vs + lengthN (if b then x :: run_heads (Some x) xs else run_heads (Some x) xs)) * k)); [lia| |exact F2]. apply N.mul_le_mono_r. rewrite lengthN_app. destruct b; rewrite ?lengthN_cons, lengthN_nil; lia.
      + exists m2, v2. split; [exact E3|]. rewrite <- app_assoc in M2, V2. split; [exact M2|]. destruct b; exact V2.
  Qed.
End Fill.

Theorem C125_runs : forall c k xs, wf_cfg c -> 1 <= k <= 64 -> Forall (fun x => x < 2 ^ k) xs -> fits c 64 (lengthN xs) ->
  (* only one number for every run has to fit: a run starts where there is no equal number just before *)
  let starts := filter (fun i => match nthN xs (i - 1), nthN xs i with Some a, Some b => (i =? 0) || negb (a =? b) | _, _ => true end) (map N.of_nat (seq 0 (length xs))) in
  fits c 64 (lengthN starts * k) ->
  exists t, rn_new c k xs = Ok t /\ iv_len (rn_heads t) = lengthN starts /\
    (forall i x, nthN xs i = Some x -> rn_get c t i = Ok x) /\
    forall fuel i x, (64 < fuel)%nat -> nthN xs i = Some x -> exists s e, rn_run c fuel t i = Ok (s, e) /\ s <= i < e /\ e <= lengthN xs /\
      (* the numbers there are the same, and those at either side are not *)
      (forall p, s <= p < e -> nthN xs p = Some x) /\ (s = 0 \/ nthN xs (s - 1) <> Some x) /\ nthN xs e <> Some x.
Proof.
  intros c k xs Hc Hk HX F1 starts F2. assert (H64 : wf_nb 64) by (unfold wf_nb; auto). set (l := fresh_bits None xs).
  assert (LL : lengthN l = lengthN xs) by apply fresh_length.
  assert (ES : lengthN starts = count true l).
  { unfold starts. clear -l. assert (G : forall (f : N -> bool) (n : nat) (l : list bool), length l = n -> (forall i, i < N.of_nat n -> nthN l i = Some (f i)) -> lengthN (filter f (map N.of_nat (seq 0 n))) = count true l).
    { intros f n. induction n as [|n IH]; intros m Hm Hf; [destruct m; [reflexivity|discriminate]|]. rewrite seq_S, map_app, filter_app, lengthN_app. cbn [plus map filter].
      assert (exists m' b, m = m' ++ [b]) as (m' & b & ->) by (destruct (exists_last (l := m)) as (m' & b & ->); [intros ->; discriminate|eauto]). rewrite app_length in Hm. cbn in Hm.
      rewrite (IH m'); [|lia|]. - rewrite count_app. f_equal. specialize (Hf (N.of_nat n) ltac:(lia)). rewrite nthN_app_r in Hf by (unfold lengthN; lia). replace (N.of_nat n - lengthN m') with 0 in Hf by (unfold lengthN; lia). injection Hf as ->. destruct (f (N.of_nat n)); reflexivity.
      - intros i Hi. specialize (Hf i ltac:(lia)). rewrite nthN_app_l in Hf by (unfold lengthN; lia). exact Hf. }
    apply G; [pose proof (fresh_length xs None) as H; unfold lengthN in H; apply Nat2N.inj in H; exact H|].
    intros i Hi. unfold l. rewrite fresh_at. destruct (nthN xs i) as [x|] eqn:Ex; [|apply nthN_None in Ex; unfold lengthN in Ex; lia]. f_equal. destruct (i =? 0) eqn:E.
    - destruct (nthN xs (i - 1)); reflexivity.
    - destruct (nthN xs (i - 1)) as [y|] eqn:Ey; reflexivity. }
  rewrite ES in *.
  assert (Em : bvec_new c 64 = Ok {| vb_len := 0; vb_vec := [] |}) by (unfold bvec_new, vb_new, vb_block_with_capacity, alloc; cbn [N.mul]; destruct (max_bits c); reflexivity).
  assert (Rm : R_bv c 64 {| vb_len := 0; vb_vec := [] |} []) by (split; [reflexivity|]; split; [reflexivity|apply fits_0; lia]).
  pose proof (iv_make_sim c 64 k Hc H64 ltac:(lia) INew I) as H0. unfold spec_imake in H0. destruct ((k =? 0) || (64 <? k)) eqn:Ek; [lia|].
  cbn [iv_make ends] in H0. destruct H0 as (v0 & Ev0 & V0).
  destruct (rn_fill_ok c k Hc Hk xs None _ v0 [] [] Rm V0 HX) as (m & v & E1 & M & V); [exact F1|rewrite heads_count; exact F2|]. cbn [app] in M, V. fold l in M.
  pose proof (bvec_lawful_bits c 64 Hc H64) as LB. pose proof (bvec_lawful_blocks c 64 Hc H64) as LK.
  destruct (rank9_new_ok c (bvec_bitvec c 64) (R_bv c 64) Hc LB (block_reads c _ _ LK) eq_refl m l M) as (d & Ed & Es & _).
  destruct (C35_rank_structures _ c (bvec_bitvec c 64) (R_bv c 64) Hc LB LK) as (_ & LR & _). specialize (LR eq_refl).
  assert (HD : exists m, R_bv c 64 m l /\ rank9_new c (bvec_bitvec c 64) m = Ok d) by (exists m; auto).
  assert (L63 : lengthN l < 2 ^ 64 - 1). { unfold fits in F1. pose proof (blocks_for_spec 64 (lengthN xs) ltac:(lia)). pose proof (max_bits_lt c). rewrite LL. lia. }
  exists {| rn_starts := d; rn_heads := v |}. split; [unfold rn_new; rewrite Em; cbn [bind]; rewrite Ev0; cbn [bind]; rewrite E1; cbn [bind]; rewrite Ed; reflexivity|].
  split; [cbn [rn_heads]; rewrite (PIntVector.R_iv_len c 64 k Hc H64 ltac:(lia) v _ V); apply heads_count|].
  assert (RK : forall i, i < lengthN xs -> br_rank1 (bss_bitrank (rank9_bitrank c (bvec_bitvec c 64))) d i = Ok (count true (firstnN (i + 1) l))).
  { intros i Hi. unfold bss_bitrank. cbn [br_rank1]. rewrite (lr_rank1 _ _ LR d l i HD) by lia. reflexivity. }
  split.
  - intros i x Hi. pose proof (nthN_lt _ _ _ Hi) as Li. unfold rn_get. cbn [rn_starts rn_heads]. rewrite (RK i Li). cbn [bind]. destruct (heads_ok xs i x Hi) as [N1 N2]. fold l in N1, N2.
    rewrite wsub_ok by lia. cbn [bind]. apply (iv_get_ok c 64 k Hc H64 ltac:(lia) v _ _ _ V); [|exact N2]. apply (iv_index_ok c 64 k v _ _ Hc H64 ltac:(lia) V). exact (nthN_lt _ _ _ N2).
  - intros fuel i x Hf Hi. pose proof (nthN_lt _ _ _ Hi) as Li. unfold rn_run. cbn [rn_starts]. rewrite (RK i Li). cbn [bind]. destruct (heads_ok xs i x Hi) as [N1 N2]. fold l in N1, N2.
    set (r := count true (firstnN (i + 1) l)) in *. assert (RL : r <= count true l) by (unfold r; rewrite <- (firstnN_all (lengthN l) l) at 2 by lia; apply count_first_mono; lia).
    pose proof (count_le true l) as CL. rewrite wsub_ok by lia. cbn [bind].
    destruct (C35_select _ c _ _ d l (r - 1) true fuel LR HD ltac:(lia) Hf) as [(o & Eo & Ho1 & Ho2) _]. cbv iota in Eo. rewrite Eo. cbn [bind].
    destruct o as [s|]; [|exfalso; pose proof (proj1 Ho2 eq_refl); lia]. cbn [expect bind]. destruct (proj1 (Ho1 s) eq_refl) as [S1 S2].
    destruct (C35_select _ c _ _ d l r true fuel LR HD ltac:(lia) Hf) as [(o' & Eo' & Ho1' & Ho2') _]. cbv iota in Eo'. rewrite Eo'. cbn [bind].
    assert (BL : bv_bit_len (bss_bitvec (rank9_bitvec (bvec_bitvec c 64))) d = Ok (lengthN l)).
    { unfold bss_bitvec, rank9_bitvec. cbn [bv_bit_len]. rewrite Es. exact (lb_bit_len _ _ _ LB m l M). }
    rewrite BL. cbn [bind]. set (e := match o' with Some e => e | None => lengthN l end). exists s, e. split; [reflexivity|].
    assert (CE : count true (firstnN e l) = r /\ e <= lengthN xs /\ (e < lengthN xs -> nthN l e = Some true)).
    { destruct o' as [e'|]; cbn in e.
      - subst e. destruct (proj1 (Ho1' e') eq_refl) as [T1 T2]. pose proof (nthN_lt _ _ _ T1). split; [exact T2|]. split; [lia|]. intros _. exact T1.
      - subst e. pose proof (proj1 Ho2' eq_refl). rewrite firstnN_all by lia. split; [lia|]. split; [lia|]. lia. }
    destruct CE as (CE1 & CE2 & CE3). pose proof (nthN_lt _ _ _ S1) as Ls.
    assert (SI : s <= i). { destruct (N.le_gt_cases s i) as [H|H]; [exact H|]. pose proof (count_first_mono true (i + 1) s l ltac:(lia)) as H1. fold r in H1. lia. }
    assert (IE : i < e).
    { destruct (N.le_gt_cases e i) as [H|H]; [|exact H]. exfalso. pose proof (CE3 ltac:(lia)) as T. pose proof (count_first_step true e l true T) as T2. cbn [Bool.eqb] in T2. pose proof (count_first_mono true (e + 1) (i + 1) l ltac:(lia)) as T3. fold r in T3. lia. }
    assert (SAME : forall p, s <= p < e -> nthN xs p = Some x).
    { intros p Hp. destruct (nthN xs p) as [y|] eqn:Ey; [|apply nthN_None in Ey; lia]. destruct (heads_ok xs p y Ey) as [P1 P2]. fold l in P1, P2.
      pose proof (count_first_mono true (s + 1) (p + 1) l ltac:(lia)) as Q1. pose proof (count_first_mono true (p + 1) e l ltac:(lia)) as Q2. pose proof (count_first_step true s l true S1) as Q3. cbn [Bool.eqb] in Q3.
      assert (Q : count true (firstnN (p + 1) l) = r) by lia. rewrite Q in P2. rewrite P2 in N2. exact N2. }
    split; [lia|]. split; [exact CE2|]. split; [exact SAME|]. split.
    + destruct (N.eq_dec s 0) as [Z|Z]; [now left|right]. unfold l in S1. rewrite fresh_at, (SAME s ltac:(lia)) in S1. destruct (s =? 0) eqn:E; [lia|]. intros H. rewrite H in S1. cbn [rn_fresh] in S1. rewrite N.eqb_refl in S1. discriminate.
    + intros H. pose proof (nthN_lt _ _ _ H) as He. specialize (CE3 He). unfold l in CE3. rewrite fresh_at, H in CE3. destruct (e =? 0) eqn:E; [lia|]. rewrite (SAME (e - 1) ltac:(lia)) in CE3. cbn [rn_fresh] in CE3. rewrite N.eqb_refl in CE3. discriminate.
Qed.

Example C125_ex : let xs := [7; 7; 7; 0; 0; 5; 7; 7; 7; 7; 1; 1] in
  exists t, rn_new dbg32 3 xs = Ok t /\ iv_len (rn_heads t) = 5 /\ map (rn_get dbg32 t) (map N.of_nat (seq 0 12)) = map Ok xs /\
    map (rn_run dbg32 65 t) [0; 2; 3; 5; 8; 11] = [Ok (0, 3); Ok (0, 3); Ok (3, 5); Ok (5, 6); Ok (6, 10); Ok (10, 12)].
Proof. cbv zeta. eexists. split; [vm_compute; reflexivity|]. split; [vm_compute; reflexivity|]. split; vm_compute; reflexivity. Qed.
Example C125_ex_ok : let xs := [7; 7; 7; 0; 0; 5; 7; 7; 7; 7; 1; 1] in
  wf_cfg dbg32 /\ 1 <= 3 <= 64 /\ Forall (fun x => x < 2 ^ 3) xs /\ fits dbg32 64 (lengthN xs) /\
  lengthN (filter (fun i => match nthN xs (i - 1), nthN xs i with Some a, Some b => (i =? 0) || negb (a =? b) | _, _ => true end) (map N.of_nat (seq 0 (length xs)))) = 5 /\ fits dbg32 64 (5 * 3).
Proof. cbv zeta. split; [unfold wf_cfg; auto|]. split; [lia|]. split; [repeat constructor|]. split; [vm_compute; congruence|]. split; [vm_compute; reflexivity|]. vm_compute. congruence. Qed.

Print Assumptions C125_runs.
