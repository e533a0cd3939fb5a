(** * Property C109: a sparse array with predecessor and successor search ([MSparse.v]). *)
From Coq Require Import Sorted.
From Verif Require Import Machine MStorage MTraits MVectorBase MBitVector MIntVector MRank MSelect MSparse
  SpecBits SpecCfg SpecLaws SpecOps SpecRank PBase PBits PVectorBase PVectorBase2 PVectorBase3 PBitVector PIntVector PIntRun PRank PRank9 PSelect Properties6 Properties49.

Notation before := (fun a b : N * N => fst a < fst b).
Definition below (p : N) (items : list (N * N)) := filter (fun it => fst it <? p) items.
Definition from (p : N) (items : list (N * N)) := filter (fun it => p <=? fst it) items.
Definition marked (p : N) (items : list (N * N)) := existsb (fun it => fst it =? p) items.

Lemma below_none p items : Forall (fun it => p <= fst it) items -> below p items = [].
Proof. unfold below. induction 1 as [|it items H _ IH]; [reflexivity|]. cbn [filter]. destruct (fst it <? p) eqn:E; [lia|]. exact IH. Qed.
Lemma marked_none p items : Forall (fun it => p < fst it) items -> marked p items = false.
Proof. unfold marked. induction 1 as [|it items H _ IH]; [reflexivity|]. cbn [existsb]. destruct (fst it =? p) eqn:E; [lia|]. exact IH. Qed.
Lemma from_all p items : Forall (fun it => p <= fst it) items -> from p items = items.
Proof. unfold from. induction 1 as [|it items H _ IH]; [reflexivity|]. cbn [filter]. destruct (p <=? fst it) eqn:E; [|lia]. now rewrite IH. Qed.
Lemma Forall_before it items p : Forall (before it) items -> p <= fst it -> Forall (fun x => p < fst x) items.
Proof. intros H L. apply Forall_impl with (2 := H). intros. lia. Qed.
Lemma Forall_le p items : Forall (fun x : N * N => p < fst x) items -> Forall (fun x => p <= fst x) items.
Proof. apply Forall_impl. intros. lia. Qed.

Lemma split_at p items : StronglySorted before items -> items = below p items ++ from p items.
Proof.
  induction 1 as [|it items S IH F]; [reflexivity|]. unfold below, from. cbn [filter]. fold (below p items). fold (from p items).
  destruct (fst it <? p) eqn:E.
  - destruct (p <=? fst it) eqn:E2; [lia|]. cbn [app]. now f_equal.
  - destruct (p <=? fst it) eqn:E2; [|lia]. pose proof (Forall_le _ _ (Forall_before it items p F ltac:(lia))) as G.
    rewrite below_none, from_all by assumption. reflexivity.
Qed.
Lemma below_succ p items : StronglySorted before items ->
  lengthN (below (p + 1) items) = lengthN (below p items) + (if marked p items then 1 else 0).
Proof.
  induction 1 as [|it items S IH F]; [reflexivity|]. unfold below, marked. cbn [filter existsb]. fold (below p items). fold (below (p + 1) items). fold (marked p items).
  destruct (fst it <? p) eqn:E.
  - destruct (fst it <? p + 1) eqn:E2; [|lia]. destruct (fst it =? p) eqn:E3; [lia|]. cbn [orb]. rewrite !lengthN_cons. lia.
  - pose proof (Forall_before it items p F ltac:(lia)) as G. rewrite (below_none p) by now apply Forall_le.
    rewrite (below_none (p + 1)); [|apply Forall_impl with (2 := G); intros; lia]. rewrite marked_none by assumption.
    destruct (fst it <? p + 1) eqn:E2; destruct (fst it =? p) eqn:E3; try lia; reflexivity.
Qed.
Lemma marked_In p items : marked p items = true <-> exists x, In (p, x) items.
Proof.
  unfold marked. rewrite existsb_exists. split.
  - intros ([q x] & H & E). cbn [fst] in E. exists x. replace p with q by lia. exact H.
  - intros (x & H). exists (p, x). split; [exact H|]. cbn [fst]. lia.
Qed.
Lemma below_In p items it : In it (below p items) <-> In it items /\ fst it < p.
Proof. unfold below. rewrite filter_In. destruct (fst it <? p) eqn:E; intuition (try lia; try discriminate). Qed.
Lemma from_In p items it : In it (from p items) <-> In it items /\ p <= fst it.
Proof. unfold from. rewrite filter_In. destruct (p <=? fst it) eqn:E; intuition (try lia; try discriminate). Qed.
Lemma sorted_app a b : StronglySorted before (a ++ b) -> StronglySorted before a /\ StronglySorted before b /\ forall x y, In x a -> In y b -> fst x < fst y.
Proof.
  induction a as [|z a IH]; cbn [app]; intros H; [split; [constructor|]; split; [exact H|]; intros ? ? []|].
  inversion H as [|? ? S F]; subst. destruct (IH S) as (H1 & H2 & H3). apply Forall_app in F. destruct F as [F1 F2].
  split; [now constructor|]. split; [exact H2|]. intros x y [->|Hx] Hy; [|now apply H3]. rewrite Forall_forall in F2. now apply F2.
Qed.
Lemma sorted_fun items p x y : StronglySorted before items -> In (p, x) items -> In (p, y) items -> x = y.
Proof.
  induction 1 as [|it items S IH F]; [intros []|]. rewrite Forall_forall in F. intros [->|Hx] [E|Hy].
  - now injection E as <-.
  - specialize (F _ Hy). cbn [fst] in F. lia.
  - subst it. specialize (F _ Hx). cbn [fst] in F. lia.
  - now apply IH.
Qed.
Lemma below_at a q x b : StronglySorted before (a ++ (q, x) :: b) -> below q (a ++ (q, x) :: b) = a.
Proof.
  intros S. destruct (sorted_app _ _ S) as (_ & S2 & H). inversion S2 as [|? ? S3 F]; subst. unfold below. rewrite filter_app. cbn [filter fst]. rewrite N.ltb_irrefl.
  fold (below q b). rewrite below_none by (apply Forall_le; exact (Forall_before (q, x) b q F (N.le_refl _))). rewrite app_nil_r.
  assert (G : Forall (fun it => fst it < q) a) by (apply Forall_forall; intros it Hi; exact (H it (q, x) Hi (or_introl eq_refl))).
  clear - G. induction G as [|it a Hi _ IH]; [reflexivity|]. cbn [filter]. destruct (fst it <? q) eqn:E; [|lia]. now rewrite IH.
Qed.

Lemma sub_1 {A} (l : list A) p x : nthN l p = Some x -> sub p 1 l = [x].
Proof.
  intros H. apply nthN_ext. intros i. rewrite nthN_sub, nthN_cons. destruct (i <? 1) eqn:E; destruct (i =? 0) eqn:E2; try lia.
  - now replace (p + i) with p by lia.
  - symmetry. apply nthN_None. rewrite lengthN_nil. lia.
Qed.

(** The bits [l] mark the positions of the items. *)
Definition marks_of (n : N) (items : list (N * N)) (l : list bool) : Prop :=
  lengthN l = n /\ forall p, p < n -> nthN l p = Some (marked p items).
Lemma count_below n items l p : StronglySorted before items -> marks_of n items l -> p <= n -> count true (firstnN p l) = lengthN (below p items).
Proof.
  intros S [L M]. induction p as [|p IH] using N.peano_ind; intros Hp.
  - rewrite below_none; [reflexivity|]. apply Forall_forall. intros. lia.
  - rewrite <- N.add_1_r in *. rewrite below_succ, <- IH by (assumption || lia). rewrite PRank.firstnN_add, count_app. f_equal.
    specialize (M p ltac:(lia)). rewrite (sub_1 l p _ M). destruct (marked p items); reflexivity.
Qed.

Lemma marked_app p a b : marked p (a ++ b) = marked p a || marked p b.
Proof. apply existsb_app. Qed.

Section Run.
  Variables (c : cfg) (nb k n : N).
  Hypothesis Hc : wf_cfg c.
  Hypothesis Hnb : wf_nb nb.
  Hypothesis Hk : 1 <= k <= nb.
  Let H64 : wf_nb 64 := ltac:(unfold wf_nb; auto).

  Lemma sparse_fill_ok items : forall done m v l, R_bv c 64 m l -> marks_of n done l -> R_iv c nb k v (map snd done) ->
    Forall (fun it => fst it < n /\ snd it < 2 ^ k) items -> fits c nb ((lengthN done + lengthN items) * k) ->
    exists m' v' l', sparse_fill c nb items m v = Ok (m', v') /\ R_bv c 64 m' l' /\ marks_of n (done ++ items) l' /\ R_iv c nb k v' (map snd (done ++ items)).
  Proof.
    pose proof (wf_nb_range nb Hnb) as Hr.
    induction items as [|[p x] items IH]; intros done m v l HM [HL HQ] HV HI HF.
    - exists m, v, l. rewrite app_nil_r. cbn [sparse_fill]. split; [reflexivity|]. split; [exact HM|]. split; [split; assumption|exact HV].
    - apply Forall_cons_iff in HI. destruct HI as [[Hp Hx] HI']. cbn [fst snd] in Hp, Hx. cbn [sparse_fill].
      destruct (lm_set_bit _ _ _ (bvec_lawful_mut c 64 Hc H64) m l p true HM ltac:(lia)) as (m1 & E1 & M1). rewrite E1. cbn [bind].
      rewrite lengthN_cons in HF.
      assert (L1 : lengthN (map snd done) = lengthN done) by (unfold lengthN; now rewrite map_length).
      destruct (iv_push_ok c nb k Hc Hnb Hk v (map snd done) x HV Hx) as (v1 & E2 & V1).
      { rewrite L1. apply (fits_mono c nb _ ((lengthN done + (lengthN items + 1)) * k)); [lia|apply N.mul_le_mono_r; lia|exact HF]. }
      rewrite E2. cbn [bind].
      destruct (IH (done ++ [(p, x)]) m1 v1 (updN l p true) M1) as (m2 & v2 & l2 & E3 & M2 & Q2 & V2).
      + split; [rewrite lengthN_updN; exact HL|]. intros q Hq. rewrite nthN_updN, marked_app. unfold marked at 2. cbn [existsb fst]. rewrite orb_false_r.
        destruct (p <? lengthN l) eqn:Ep; [|lia]. destruct (q =? p) eqn:Eq.
        * destruct (p =? q) eqn:E; [|lia]. now rewrite orb_true_r.
        * destruct (p =? q) eqn:E; [lia|]. rewrite orb_false_r. apply HQ. exact Hq.
      + rewrite map_app. exact V1.
      + exact HI'.
      + rewrite lengthN_app, lengthN_cons, lengthN_nil. replace (lengthN done + (0 + 1) + lengthN items) with (lengthN done + (lengthN items + 1)) by lia. exact HF.
      + exists m2, v2, l2. rewrite <- app_assoc in Q2, V2. auto.
  Qed.
End Run.

(** The greatest item at or before [p], the least item at or after [p]. *)
Definition is_floor (items : list (N * N)) (p q x : N) : Prop :=
  In (q, x) items /\ q <= p /\ forall q' x', In (q', x') items -> q' <= p -> q' <= q.
Definition is_ceiling (items : list (N * N)) (p q x : N) : Prop :=
  In (q, x) items /\ p <= q /\ forall q' x', In (q', x') items -> p <= q' -> q <= q'.

Theorem C109_sparse : forall c nb k n items, wf_cfg c -> wf_nb nb -> 1 <= k <= nb ->
  StronglySorted before items -> Forall (fun it => fst it < n /\ snd it < 2 ^ k) items ->
  fits c 64 n -> fits c nb (lengthN items * k) ->
  exists s, sparse_new c nb n k items = Ok s /\ forall fuel, (64 < fuel)%nat ->
    (forall p, p < n -> exists o, sparse_get c nb s p = Ok o /\ forall x, o = Some x <-> In (p, x) items) /\
    (forall p, n <= p -> p < 2 ^ 64 -> panics (sparse_get c nb s p)) /\
    (forall i, i < 2 ^ 64 - 1 -> sparse_nth c nb fuel s i = Ok (nthN items i)) /\
    (forall p, p < n -> exists o, sparse_floor c nb fuel s p = Ok o /\ forall q x, o = Some (q, x) <-> is_floor items p q x) /\
    (forall p, p < n -> exists o, sparse_ceiling c nb fuel s p = Ok o /\ forall q x, o = Some (q, x) <-> is_ceiling items p q x).
Proof.
  intros c nb k n items Hc Hnb Hk HS HI F1 F2. pose proof (wf_nb_range nb Hnb) as Hr.
  assert (H64 : wf_nb 64) by (unfold wf_nb; auto).
  destruct (bvec_with_fill_ok c 64 Hc H64 n false F1) as (m0 & E0 & M0).
  pose proof (iv_make_sim c nb k Hc Hnb Hk INew I) as H0. unfold spec_imake in H0. destruct ((k =? 0) || (nb <? k)) eqn:Ek; [lia|].
  cbn [iv_make ends] in H0. destruct H0 as (v0 & Ev0 & V0).
  destruct (sparse_fill_ok c nb k n Hc Hnb Hk items [] m0 v0 (repeatN false n) M0) as (m & v & l & E1 & M & (LL & Q) & V); auto.
  { split; [apply lengthN_repeatN|]. intros p Hp. rewrite nthN_repeatN. destruct (p <? n) eqn:E; [reflexivity|lia]. }
  cbn [app] in Q, V. assert (MK : marks_of n items l) by (split; assumption).
  pose proof (bvec_lawful_bits c 64 Hc H64) as LB. pose proof (bvec_lawful_blocks c 64 Hc H64) as LK.
  destruct (rank9_new_ok c (bvec_bitvec c 64) (R_bv c 64) Hc LB (block_reads c _ _ LK) eq_refl m l M) as (d & Ed & Es & _).
  destruct (C35_rank_structures _ c (bvec_bitvec c 64) (R_bv c 64) Hc LB LK) as (_ & LR & _). specialize (LR eq_refl).
  assert (HD : exists m, R_bv c 64 m l /\ rank9_new c (bvec_bitvec c 64) m = Ok d) by (exists m; auto).
  exists {| sp_marks := d; sp_values := v |}.
  split; [unfold sparse_new; rewrite E0; cbn [bind]; rewrite Ev0; cbn [bind]; rewrite E1; cbn [bind]; rewrite Ed; reflexivity|]. intros fuel Hf.
  assert (N63 : n < 2 ^ 64 - 1) by (pose proof (fits_lt64 c 64 n ltac:(lia) F1); lia).
  assert (RK : forall p, p < n -> br_rank1 (bss_bitrank (rank9_bitrank c (bvec_bitvec c 64))) d p = Ok (lengthN (below (p + 1) items))).
  { intros p Hp. unfold bss_bitrank. cbn [br_rank1]. rewrite (lr_rank1 _ _ LR d l p HD) by lia. unfold rank_of. f_equal. apply (count_below n items l (p + 1) HS MK). lia. }
  assert (IX : forall i, i < lengthN items -> index_ok c nb k i).
  { intros i Hi. split.
    - pose proof (R_iv_63 c nb k Hc Hnb Hk v _ V) as H. rewrite lengthN_map in H. nia.
    - intros ->. pose proof (fits_ptr c nb _ Hc Hnb F2) as H. pose proof (blocks_for_spec nb (lengthN items * nb) ltac:(lia)). nia. }
  assert (GT : forall i it, nthN items i = Some it -> iv_get c nb v i = Ok (snd it)).
  { intros i it E. apply (iv_get_ok c nb k Hc Hnb Hk v (map snd items) i (snd it) V); [apply IX; now apply nthN_lt in E|].
    rewrite nthN_map, E. reflexivity. }
  assert (LI : lengthN items <= n).
  { pose proof (count_below n items l n HS MK (N.le_refl n)) as H. pose proof (split_at n items HS) as Sp.
    assert (F0 : from n items = []). { destruct (from n items) as [|it r] eqn:E; [reflexivity|]. assert (G : In it (from n items)) by (rewrite E; now left).
      apply from_In in G. rewrite Forall_forall in HI. specialize (HI it (proj1 G)). lia. }
    rewrite F0, app_nil_r in Sp. rewrite <- Sp in H. rewrite <- H, <- LL, firstnN_all by lia. apply count_le. }
  assert (NT : forall i, i < 2 ^ 64 - 1 -> sparse_nth c nb fuel {| sp_marks := d; sp_values := v |} i = Ok (nthN items i)).
  { intros i Hi. unfold sparse_nth. cbn [sp_marks sp_values].
    destruct (C35_select _ c _ _ d l i true fuel LR HD Hi Hf) as [(o & Eo & Ho1 & Ho2) _]. cbv iota in Eo. rewrite Eo. cbn [bind].
    destruct (nthN items i) as [[q x]|] eqn:Ei.
    - destruct (nthN_split items i (q, x) Ei) as (a & b & Et & La).
      assert (Hq : q < n) by (rewrite Forall_forall in HI; apply (HI (q, x)); rewrite Et; apply in_or_app; right; now left).
      rewrite (proj2 (Ho1 q)).
      + rewrite (GT i (q, x) Ei). reflexivity.
      + split.
        * rewrite (Q q Hq). f_equal. apply marked_In. exists x. rewrite Et. apply in_or_app. right. now left.
        * rewrite (count_below n items l q HS MK) by lia. rewrite Et, below_at by (rewrite <- Et; exact HS). exact La.
    - apply nthN_None in Ei. rewrite (proj2 Ho2); [reflexivity|]. rewrite <- (firstnN_all n l) by lia. rewrite (count_below n items l n HS MK) by lia.
      apply N.le_trans with (2 := Ei). rewrite (split_at n items HS) at 2. rewrite lengthN_app. lia. }
  assert (L64 : lengthN items < 2 ^ 64 - 1) by lia.
  assert (LE : forall p, lengthN (below p items) <= lengthN items) by (intros p; rewrite (split_at p items HS) at 2; rewrite lengthN_app; lia).
  split; [|split; [|split; [exact NT|split]]].
  - intros p Hp. unfold sparse_get, bss_bitvec, rank9_bitvec. cbn [bv_get_bit sp_marks sp_values]. rewrite Es.
    rewrite (lb_get_bit _ _ _ LB m l p _ M (Q p Hp)). cbn [bind]. destruct (marked p items) eqn:E.
    + rewrite (RK p Hp). cbn [bind]. rewrite below_succ, E, wsub_ok by (assumption || lia). cbn [bind].
      replace (lengthN (below p items) + 1 - 1) with (lengthN (below p items)) by lia.
      apply marked_In in E. destruct E as [x0 E]. destruct (in_split _ _ E) as (a & b & Ei).
      assert (En : nthN items (lengthN (below p items)) = Some (p, x0)).
      { rewrite Ei in HS |- *. rewrite below_at by exact HS. rewrite nthN_app_r, N.sub_diag by lia. reflexivity. }
      rewrite (GT _ _ En). cbn [bind snd]. exists (Some x0). split; [reflexivity|]. intros x. split; [intros [= <-]; exact E|]. intros H. f_equal. exact (sorted_fun items p x0 x HS E H).
    + exists None. split; [reflexivity|]. intros x. split; [discriminate|]. intros H. assert (G : marked p items = true) by (apply marked_In; eauto). congruence.
  - intros p Hp Hp2. unfold sparse_get, bss_bitvec, rank9_bitvec. cbn [bv_get_bit sp_marks sp_values]. rewrite Es.
    destruct (lb_get_bit_oob _ _ _ LB m l p M ltac:(lia) Hp2) as [k0 Ek0]. rewrite Ek0. eexists. reflexivity.
  - intros p Hp. unfold sparse_floor. cbn [sp_marks]. rewrite (RK p Hp). cbn [bind]. destruct (lengthN (below (p + 1) items) =? 0) eqn:E.
    + exists None. split; [reflexivity|]. intros q x. split; [discriminate|]. intros (G1 & G2 & _).
      assert (G : In (q, x) (below (p + 1) items)) by (apply below_In; split; [exact G1|cbn [fst]; lia]).
      destruct (below (p + 1) items); [destruct G|rewrite lengthN_cons in E; lia].
    + pose proof (LE (p + 1)) as Hle. rewrite wsub_ok by lia. cbn [bind]. rewrite NT by lia. eexists. split; [reflexivity|].
      destruct (exists_last (l := below (p + 1) items)) as (a & [q0 x0] & Ea); [intros Z; rewrite Z in E; discriminate E|].
      pose proof (split_at (p + 1) items HS) as Sp. rewrite Ea in Sp. rewrite Ea, lengthN_app, lengthN_cons, lengthN_nil. replace (lengthN a + (0 + 1) - 1) with (lengthN a) by lia.
      assert (G0 : In (q0, x0) (below (p + 1) items)) by (rewrite Ea; apply in_or_app; right; now left).
      apply below_In in G0. cbn [fst] in G0.
      assert (Fl : is_floor items p q0 x0).
      { split; [apply G0|]. split; [lia|]. intros q' x' H1 H2. assert (G : In (q', x') (below (p + 1) items)) by (apply below_In; split; [exact H1|cbn [fst]; lia]).
        rewrite Ea in G. apply in_app_or in G. destruct G as [G|[G|[]]]; [|injection G; lia].
        rewrite Sp, <- app_assoc in HS. destruct (sorted_app _ _ HS) as (_ & _ & H3). specialize (H3 _ (q0, x0) G (or_introl eq_refl)). cbn [fst] in H3. lia. }
      assert (Ei : nthN items (lengthN a) = Some (q0, x0)).
      { rewrite Sp, <- app_assoc, nthN_app_r, N.sub_diag by lia. reflexivity. }
      rewrite Ei. intros q x. split; [intros [= <- <-]; exact Fl|]. intros (H1 & H2 & H3). destruct Fl as (K1 & K2 & K3).
      pose proof (H3 _ _ K1 K2). pose proof (K3 _ _ H1 H2). replace q with q0 in * by lia. now rewrite (sorted_fun items q0 x x0 HS H1 K1).
  - intros p Hp. unfold sparse_ceiling. cbn [sp_marks].
    assert (E : (if p =? 0 then Ok 0 else q <- wsub c 64 p 1 ;; br_rank1 (bss_bitrank (rank9_bitrank c (bvec_bitvec c 64))) d q) = Ok (lengthN (below p items))).
    { destruct (p =? 0) eqn:E.
      - replace p with 0 by lia. rewrite below_none; [reflexivity|]. apply Forall_forall. intros. lia.
      - rewrite wsub_ok by lia. cbn [bind]. rewrite RK by lia. now replace (p - 1 + 1) with p by lia. }
    rewrite E. cbn [bind]. pose proof (LE p) as Hle. rewrite NT by lia. eexists. split; [reflexivity|].
    pose proof (split_at p items HS) as Sp.
    destruct (from p items) as [|[q0 x0] b] eqn:Eb.
    + assert (Ei : nthN items (lengthN (below p items)) = None) by (apply nthN_None; rewrite Sp at 1; rewrite app_nil_r; lia).
      rewrite Ei. intros q x. split; [discriminate|]. intros (H1 & H2 & _). assert (G : In (q, x) (from p items)) by (apply from_In; split; assumption). rewrite Eb in G. destruct G.
    + assert (Ei : nthN items (lengthN (below p items)) = Some (q0, x0)) by (rewrite Sp at 1; rewrite nthN_app_r, N.sub_diag by lia; reflexivity).
      assert (G0 : In (q0, x0) (from p items)) by (rewrite Eb; now left). apply from_In in G0. cbn [fst] in G0.
      assert (Fl : is_ceiling items p q0 x0).
      { split; [apply G0|]. split; [apply G0|]. intros q' x' H1 H2. assert (G : In (q', x') (from p items)) by (apply from_In; split; assumption).
        rewrite Eb in G. destruct G as [G|G]; [injection G; lia|]. rewrite Sp in HS. destruct (sorted_app _ _ HS) as (_ & S2 & _).
        inversion S2 as [|? ? _ F]; subst. rewrite Forall_forall in F. specialize (F _ G). cbn [fst] in F. lia. }
      rewrite Ei. intros q x. split; [intros [= <- <-]; exact Fl|]. intros (H1 & H2 & H3). destruct Fl as (K1 & K2 & K3).
      pose proof (H3 _ _ K1 K2). pose proof (K3 _ _ H1 H2). replace q with q0 in * by lia. now rewrite (sorted_fun items q0 x x0 HS H1 K1).
Qed.

Example C109_ex : exists s,
  StronglySorted before [(3, 7); (64, 0); (65, 31); (999, 12)] /\ fits dbg64 64 1000 /\ fits dbg64 8 20 /\
  sparse_new dbg64 8 1000 5 [(3, 7); (64, 0); (65, 31); (999, 12)] = Ok s /\
  map (sparse_get dbg64 8 s) [3; 4; 64; 999] = [Ok (Some 7); Ok None; Ok (Some 0); Ok (Some 12)] /\
  map (sparse_nth dbg64 8 100 s) [0; 2; 3; 4] = [Ok (Some (3, 7)); Ok (Some (65, 31)); Ok (Some (999, 12)); Ok None] /\
  map (sparse_floor dbg64 8 100 s) [0; 2; 3; 63; 70; 999] = [Ok None; Ok None; Ok (Some (3, 7)); Ok (Some (3, 7)); Ok (Some (65, 31)); Ok (Some (999, 12))] /\
  map (sparse_ceiling dbg64 8 100 s) [0; 3; 4; 65; 66; 999] = [Ok (Some (3, 7)); Ok (Some (3, 7)); Ok (Some (64, 0)); Ok (Some (65, 31)); Ok (Some (999, 12)); Ok (Some (999, 12))] /\
  sparse_get dbg64 8 s 1000 = Panic PAssert.
Proof.
  eexists. split; [repeat constructor|]. split; [vm_compute; congruence|]. split; [vm_compute; congruence|]. split; [vm_compute; reflexivity|].
  repeat (split; [vm_compute; reflexivity|]). vm_compute. reflexivity.
Qed.

Print Assumptions C109_sparse.
