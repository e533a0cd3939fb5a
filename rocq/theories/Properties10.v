(** * Capacities (C23, C24, C66). *)
From Verif Require Import PCapacity SpecCfg.

(** The two reserving functions, for elements of [k] bits ([k = 1] for [BitVector]). *)
Definition reserving (exact : bool) (c : cfg) (nb : N) (p : policy) (k : N) : cvb -> N -> res cvb :=
  if exact then cv_reserve_exact c nb p k else cv_reserve c nb p k.
Definition growing (exact : bool) (p : policy) : N -> N -> N -> N :=
  if exact then p_grow_exact p else p_grow p.

(** C23 (partial: the vector must be full to its capacity, or have the capacity already; and the
    number of bits must not be one of the last [nb] ones before 2^64 in a build without overflow
    checks).  [reserve(n)] and [reserve_exact(n)] leave the contents alone and give capacity for
    [n] more elements; they panic only if the memory for them cannot be had. *)
Theorem C23_reserve_partial (c : cfg) (nb k : N) (p : policy) (exact : bool) (v : cvb) (l : list bool) (n : N) :
  wf_cfg c -> wf_nb nb -> 1 <= k <= nb -> lawful_policy p -> holds c nb k v l ->
  let len := vb_len (cv_base v) in
  no_wrap c nb ((len + n) * k) ->
  cv_blocks v = cv_block_capacity v \/ (len + n) * k <= cv_block_capacity v * nb ->
  (exists v' cap, reserving exact c nb p k v n = Ok v' /\ cv_base v' = cv_base v /\ holds c nb k v' l /\
     cv_capacity c nb k v' = Ok cap /\ len + n <= cap) \/
  (panics (reserving exact c nb p k v n) /\
   ~ (fits c nb ((len + n) * k) /\
      growing exact p (cv_blocks v) (cv_cap v) (blocks_for nb ((len + n) * k) - cv_cap v) * nb <= max_bits c)).
Proof.
  intros Hc Hnb Hk Hp Hv len Hw Hcap. unfold cv_block_capacity in Hcap.
  assert (S := reserve_spec c nb k Hc Hnb Hk (growing exact p)
     (if exact then cv_block_reserve_exact c nb p else cv_block_reserve c nb p) v l n).
  cbv zeta in S. fold len in S.
  assert (E : bind (cv_additional_blocks c nb k v n)
      ((if exact then cv_block_reserve_exact c nb p else cv_block_reserve c nb p) v) =
      reserving exact c nb p k v n) by (destruct exact; reflexivity).
  rewrite E in S. clear E.
  specialize (S ltac:(destruct exact; [apply (lp_grow_exact p Hp)|apply (lp_grow p Hp)])
                ltac:(destruct exact; reflexivity) Hv Hw).
  destruct (reserving exact c nb p k v n) as [v'|q|] eqn:Er; [left|right|contradiction].
  - destruct S as [S1 [S2 [S3 [S4 _]]]]. exists v'. eexists. split; [reflexivity|]. split; [exact S1|].
    split; [exact S2|]. split; [eapply cv_capacity_ok; eauto|]. apply (capacity_blocks c nb k Hc Hnb Hk).
    destruct Hcap as [H|H]; [lia|]. apply (blocks_for_le nb) in H; [lia|]. now apply wf_nb_pos.
  - split; [now exists q|exact S].
Qed.
Example C23_reserve_ex :
  wf_cfg rel64 /\ wf_nb 8 /\ lawful_policy std_policy /\
  exists v v', cv_with_capacity rel64 8 std_policy 5 0 = Ok v /\
    bind (civ_push rel64 8 std_policy {| civ_bits := 5; civ_base := v |} 21) (fun w => civ_push rel64 8 std_policy w 3) = Ok v' /\
    holds rel64 8 5 (civ_base v') (bits_of 5 21 ++ bits_of 5 3) /\ civ_block_capacity v' = 4 /\
    exists v'', cv_reserve rel64 8 std_policy 5 (civ_base v') 4 = Ok v'' /\ cv_capacity rel64 8 5 v'' = Ok 6.
Proof.
  split; [auto with wf|]. split; [auto with wf|]. split; [apply lawful_std|].
  eexists. eexists. split; [vm_compute; reflexivity|]. split; [vm_compute; reflexivity|].
  split; [|split; [vm_compute; reflexivity|]; eexists; split; vm_compute; reflexivity].
  split; [|vm_compute; split; discriminate]. split; [vm_compute; reflexivity|]. split; [vm_compute; reflexivity|].
  vm_compute. discriminate.
Qed.
Print Assumptions C23_reserve_partial.

(** The same of the methods of [BitVector] and [IntVector]. *)
Theorem C23_bit_vector_partial (c : cfg) (nb : N) (p : policy) (exact : bool) (v : cvb) (l : list bool) (n : N) :
  wf_cfg c -> wf_nb nb -> lawful_policy p -> holds c nb 1 v l -> no_wrap c nb (lengthN l + n) ->
  cv_blocks v = cbv_block_capacity v \/ lengthN l + n <= cbv_block_capacity v * nb ->
  let r := (if exact then cbv_reserve_exact else cbv_reserve) c nb p v n in
  (exists v' cap, r = Ok v' /\ cv_base v' = cv_base v /\ cbv_capacity c nb v' = Ok cap /\ lengthN l + n <= cap) \/
  (panics r /\ ~ (fits c nb (lengthN l + n) /\
      growing exact p (cv_blocks v) (cv_cap v) (blocks_for nb (lengthN l + n) - cv_cap v) * nb <= max_bits c)).
Proof.
  intros Hc Hnb Hp Hv Hw Hcap r. assert (Hk : 1 <= 1 <= nb) by (split; [lia|]; pose proof (wf_nb_pos nb Hnb); lia).
  assert (El : vb_len (cv_base v) = lengthN l) by (destruct Hv as [[_ [H1 _]] _]; lia).
  assert (E1 : (vb_len (cv_base v) + n) * 1 = lengthN l + n) by lia.
  pose proof (C23_reserve_partial c nb 1 p exact v l n Hc Hnb Hk Hp Hv) as H. cbv zeta in H. rewrite E1 in H. specialize (H Hw Hcap).
  assert (Er : reserving exact c nb p 1 v n = r) by (unfold r, reserving; destruct exact; reflexivity). rewrite Er in H.
  destruct H as [(v' & cap & H1 & H2 & H3 & H4 & H5)|H]; [left|right; exact H]. exists v', cap. rewrite El in H5. auto.
Qed.
Theorem C23_int_vector_partial (c : cfg) (nb k : N) (p : policy) (exact : bool) (v : civ) (l : list bool) (n : N) :
  wf_cfg c -> wf_nb nb -> 1 <= k <= nb -> lawful_policy p -> civ_bits v = k -> holds c nb k (civ_base v) l ->
  let len := vb_len (cv_base (civ_base v)) in
  no_wrap c nb ((len + n) * k) ->
  cv_blocks (civ_base v) = civ_block_capacity v \/ (len + n) * k <= civ_block_capacity v * nb ->
  let r := (if exact then civ_reserve_exact else civ_reserve) c nb p v n in
  (exists v' cap, r = Ok v' /\ civ_vec v' = civ_vec v /\ civ_capacity c nb v' = Ok cap /\ len + n <= cap) \/
  (panics r /\ ~ (fits c nb ((len + n) * k) /\
      growing exact p (cv_blocks (civ_base v)) (cv_cap (civ_base v)) (blocks_for nb ((len + n) * k) - cv_cap (civ_base v)) * nb <= max_bits c)).
Proof.
  intros Hc Hnb Hk Hp Hb Hv len Hw Hcap r.
  pose proof (C23_reserve_partial c nb k p exact (civ_base v) l n Hc Hnb Hk Hp Hv Hw Hcap) as H. cbv zeta in H.
  assert (Er : r = bind (reserving exact c nb p k (civ_base v) n) (fun b => Ok {| civ_bits := k; civ_base := b |})) by (rewrite <- Hb; unfold r, reserving; destruct exact; reflexivity).
  rewrite Er. destruct H as [(v' & cap & H1 & H2 & H3 & H4 & H5)|[[q H1] H2]]; rewrite H1; cbn [bind]; [left|right; split; [now exists q|exact H2]].
  exists {| civ_bits := k; civ_base := v' |}, cap. split; [reflexivity|]. split; [unfold civ_vec; cbn [civ_bits civ_base]; now rewrite H2, Hb|]. split; [exact H4|exact H5].
Qed.
Example C23_vectors_ex :
  (exists v v', cbv_with_capacity dbg64 8 std_policy 0 = Ok v /\ holds dbg64 8 1 v [] /\ cbv_reserve_exact dbg64 8 std_policy v 12 = Ok v' /\ cbv_capacity dbg64 8 v' = Ok 16) /\
  (exists v v', civ_with_capacity dbg64 8 std_policy 5 0 = Ok v /\ holds dbg64 8 5 (civ_base v) [] /\ civ_reserve_exact dbg64 8 std_policy v 3 = Ok v' /\ civ_capacity dbg64 8 v' = Ok 3).
Proof.
  split; (eexists; eexists; split; [vm_compute; reflexivity|]; split; [split; [split; [vm_compute; reflexivity|]; split; [vm_compute; reflexivity|]; vm_compute; discriminate|vm_compute; split; discriminate]|]; split; vm_compute; reflexivity).
Qed.
Print Assumptions C23_bit_vector_partial.
Print Assumptions C23_int_vector_partial.

(** When the library allocates exactly what it is asked for, this is the whole truth about
    [reserve_exact]: the promised capacity is there afterwards iff the vector had it already or was full. *)
Theorem C23_exact_partial (c : cfg) (nb k : N) (v v' : cvb) (l : list bool) (n cap : N) :
  wf_cfg c -> wf_nb nb -> 1 <= k <= nb -> holds c nb k v l ->
  let len := vb_len (cv_base v) in
  no_wrap c nb ((len + n) * k) ->
  cv_reserve_exact c nb exact_policy k v n = Ok v' -> cv_capacity c nb k v' = Ok cap ->
  len + n <= cap <-> cv_blocks v = cv_block_capacity v \/ (len + n) * k <= cv_block_capacity v * nb.
Proof.
  intros Hc Hnb Hk Hv len Hw E Ecap. unfold cv_block_capacity. pose proof (wf_nb_pos nb Hnb) as Hpos.
  assert (S := reserve_spec c nb k Hc Hnb Hk (p_grow_exact exact_policy)
     (cv_block_reserve_exact c nb exact_policy) v l n (lp_grow_exact _ lawful_exact)
     (fun d => eq_refl) Hv Hw). cbv zeta in S. fold len in S.
  change (bind (cv_additional_blocks c nb k v n) (cv_block_reserve_exact c nb exact_policy v))
    with (cv_reserve_exact c nb exact_policy k v n) in S. rewrite E in S.
  destruct S as [S1 [S2 [S3 [S4 [S5 S6]]]]].
  rewrite (cv_capacity_ok c nb k Hc Hnb Hk v' l S2) in Ecap. injection Ecap as <-.
  rewrite (capacity_blocks c nb k Hc Hnb Hk). rewrite <- (blocks_for_le nb _ _ Hpos).
  destruct Hv as [_ [H1 _]]. cbn [p_grow_exact exact_policy] in S6.
  set (need := blocks_for nb ((len + n) * k)) in *. clearbody need. clear - H1 S3 S4 S5 S6. lia.
Qed.
Example C23_exact_ex :
  wf_cfg dbg64 /\ wf_nb 64 /\
  exists v v' v'', cv_block_with_capacity dbg64 64 exact_policy 10 = Ok v /\ holds dbg64 64 1 v [] /\
    no_wrap dbg64 64 ((0 + 700) * 1) /\ no_wrap dbg64 64 ((0 + 600) * 1) /\
    cv_reserve_exact dbg64 64 exact_policy 1 v 700 = Ok v' /\ cv_capacity dbg64 64 1 v' = Ok 640 /\
    cv_reserve_exact dbg64 64 exact_policy 1 v 600 = Ok v'' /\ cv_capacity dbg64 64 1 v'' = Ok 640.
Proof.
  split; [auto with wf|]. split; [auto with wf|]. eexists. eexists. eexists.
  split; [vm_compute; reflexivity|]. split.
  { split; [|vm_compute; split; discriminate]. split; [vm_compute; reflexivity|]. split; [vm_compute; reflexivity|].
    vm_compute. discriminate. }
  split; [left; vm_compute; discriminate|]. split; [left; vm_compute; discriminate|].
  repeat split; vm_compute; reflexivity.
Qed.
Print Assumptions C23_exact_partial.

(** C23 refuted: a [BitVector<u64>] created with room for 10 blocks; [reserve(960)] returns
    without allocating anything, and the capacity stays 640.  In a build without overflow checks
    [reserve(2^64 - 1)] on an empty vector does nothing either. *)
Theorem C23_reserve_refuted :
  (exists v v', cbv_block_with_capacity dbg64 64 std_policy 10 = Ok v /\
     cbv_reserve dbg64 64 std_policy v 960 = Ok v' /\ cbv_capacity dbg64 64 v' = Ok 640) /\
  (exists v v', cbv_block_with_capacity rel64 64 std_policy 0 = Ok v /\
     cbv_reserve rel64 64 std_policy v (2 ^ 64 - 1) = Ok v' /\ cbv_capacity rel64 64 v' = Ok 0).
Proof. split; eexists; eexists; repeat split; vm_compute; reflexivity. Qed.
Print Assumptions C23_reserve_refuted.

(** C23, in blocks: [block_reserve(n)] and [block_reserve_exact(n)] always give room for [n] more
    blocks, leave the contents alone, and do nothing if there was room. *)
Theorem C23_block_reserve (c : cfg) (nb k : N) (p : policy) (exact : bool) (v : cvb) (l : list bool) (n : N) :
  wf_cfg c -> wf_nb nb -> 1 <= k <= nb -> lawful_policy p -> holds c nb k v l ->
  let r := (if exact then cv_block_reserve_exact else cv_block_reserve) c nb p v n in
  (exists v', r = Ok v' /\ cv_base v' = cv_base v /\ holds c nb k v' l /\ cv_blocks v + n <= cv_block_capacity v' /\
     (cv_blocks v + n <= cv_block_capacity v -> v' = v)) \/
  (panics r /\ cv_block_capacity v < cv_blocks v + n /\
   max_bits c < growing exact p (cv_blocks v) (cv_block_capacity v) n * nb).
Proof.
  intros Hc Hnb Hk Hp [HV [H1 H2]] r.
  pose proof (vec_reserve_spec c nb k Hc Hnb Hk (growing exact p) (cv_blocks v) (cv_cap v) n
     ltac:(destruct exact; [apply (lp_grow_exact p Hp)|apply (lp_grow p Hp)]) H1 H2) as S.
  assert (Er : r = bind (vec_reserve c nb (growing exact p) (cv_blocks v) (cv_cap v) n)
     (fun cap => Ok {| cv_base := cv_base v; cv_cap := cap |})) by (unfold r; destruct exact; reflexivity).
  rewrite Er. clear Er r. unfold cv_block_capacity.
  destruct (vec_reserve c nb (growing exact p) (cv_blocks v) (cv_cap v) n) as [cap'|q|]; cbn [bind]; [left|right|contradiction].
  - destruct S as [S1 [S2 S3]]. eexists. split; [reflexivity|]. cbn [cv_base cv_cap]. split; [reflexivity|].
    split; [split; [exact HV|]; cbn [cv_cap]; unfold cv_blocks in *; cbn [cv_base]; lia|]. split; [exact S1|].
    intros H. rewrite (S3 H). now destruct v.
  - split; [now exists q|exact S].
Qed.
Example C23_block_reserve_ex :
  exists v v', cv_block_with_capacity dbg32 8 std_policy 3 = Ok v /\
    cv_block_reserve dbg32 8 std_policy v 5 = Ok v' /\ cv_block_capacity v' = 6 /\
    panics (cv_block_reserve dbg32 8 std_policy v (2 ^ 31)).
Proof.
  eexists. eexists. split; [vm_compute; reflexivity|]. split; [vm_compute; reflexivity|].
  split; [vm_compute; reflexivity|]. eexists. vm_compute. reflexivity.
Qed.
Print Assumptions C23_block_reserve.

(** C24 (partial: in a build without overflow checks the number of bits must not be one of the last
    [nb - 1] ones before 2^64).  [BitVector::with_capacity(n)] is empty and has capacity at least [n]; it
    panics only if the memory cannot be had. *)
Theorem C24_bit_vector_partial (c : cfg) (nb : N) (p : policy) (n : N) :
  wf_cfg c -> wf_nb nb -> lawful_policy p -> no_wrap c nb n ->
  (exists v cap, cbv_with_capacity c nb p n = Ok v /\ R_bv c nb (cv_base v) [] /\
     cbv_capacity c nb v = Ok cap /\ n <= cap) \/
  (panics (cbv_with_capacity c nb p n) /\ ~ (fits c nb n /\ p_fresh p (blocks_for nb n) * nb <= max_bits c)).
Proof.
  intros Hc Hnb Hp Hw. pose proof (wf_nb_range nb Hnb) as Hr.
  pose proof (cv_with_capacity_spec c nb 1 p Hc Hnb ltac:(lia) Hp n ltac:(now rewrite N.mul_1_r)) as S.
  rewrite N.mul_1_r in S. unfold cbv_with_capacity.
  destruct (cv_with_capacity c nb p 1 n) as [v|q|]; [left|right|contradiction].
  - destruct S as [S1 S2]. exists v. eexists. split; [reflexivity|]. split; [apply S1|].
    split; [eapply cv_capacity_ok; eauto; lia|]. assert (Hk1 : 1 <= 1 <= nb) by lia. apply (capacity_blocks c nb 1 Hc Hnb Hk1). now rewrite N.mul_1_r.
  - split; [now exists q|exact S].
Qed.
Example C24_bit_vector_ex :
  no_wrap rel64 32 65 /\ no_wrap dbg64 32 (2 ^ 64 - 1) /\
  exists v, cbv_with_capacity rel64 32 std_policy 65 = Ok v /\ cbv_capacity rel64 32 v = Ok 96.
Proof.
  split; [left; vm_compute; discriminate|]. split; [right; left; reflexivity|].
  eexists. split; vm_compute; reflexivity.
Qed.
Print Assumptions C24_bit_vector_partial.

(** The same for [IntVector::with_capacity(k, n)]; element widths that are not supported panic. *)
Theorem C24_int_vector_partial (c : cfg) (nb k : N) (p : policy) (n : N) :
  wf_cfg c -> wf_nb nb -> 1 <= k <= nb -> lawful_policy p -> no_wrap c nb (n * k) ->
  (exists v cap, civ_with_capacity c nb p k n = Ok v /\ R_iv c nb k (civ_vec v) [] /\
     civ_capacity c nb v = Ok cap /\ n <= cap) \/
  (panics (civ_with_capacity c nb p k n) /\
   ~ (fits c nb (n * k) /\ p_fresh p (blocks_for nb (n * k)) * nb <= max_bits c)).
Proof.
  intros Hc Hnb Hk Hp Hw.
  pose proof (cv_with_capacity_spec c nb k p Hc Hnb Hk Hp n Hw) as S. unfold civ_with_capacity.
  destruct (cv_with_capacity c nb p k n) as [v|q|]; [left|right|contradiction]; cbn [bind].
  - destruct S as [S1 S2]. rewrite (check_element_bits_ok c nb k Hc Hnb Hk). cbn [bind]. do 2 eexists. split; [reflexivity|].
    split; [|split; [unfold civ_capacity; cbn [civ_bits civ_base]; eapply cv_capacity_ok; eauto|
                     now apply (capacity_blocks c nb k Hc Hnb Hk)]].
    split; [reflexivity|]. split; [apply S1|constructor].
  - split; [now exists q|exact S].
Qed.
Example C24_int_vector_ex :
  no_wrap rel32 16 (10 * 7) /\
  exists v, civ_with_capacity rel32 16 std_policy 7 10 = Ok v /\ civ_capacity rel32 16 v = Ok 11.
Proof. split; [left; vm_compute; discriminate|]. eexists. split; vm_compute; reflexivity. Qed.
Print Assumptions C24_int_vector_partial.

Theorem C24_bad_width (c : cfg) (nb k : N) (p : policy) (n : N) :
  wf_cfg c -> wf_nb nb -> k = 0 \/ nb < k -> k < 2 ^ ptr c -> n < 2 ^ 64 ->
  panics (civ_with_capacity c nb p k n).
Proof.
  intros Hc Hnb Hk Hk2 Hn. unfold civ_with_capacity, cv_with_capacity, len_to_block_len, checked_mul.
  assert (Hce : forall w, w < 2 ^ 64 -> panics (checked_ceil_div_nbits c nb w) \/ exists o, checked_ceil_div_nbits c nb w = Ok o).
  { intros w Hw. destruct (N.le_gt_cases (w + nb) (2 ^ 64)) as [H|H].
    - right. eexists. apply checked_ceil_div_nbits_ok; auto; lia.
    - rewrite checked_ceil_div_nbits_wrap by auto. destruct (debug c); [left; now eexists|right; now eexists]. }
  assert (Hchk : panics (check_element_bits nb k)).
  { unfold check_element_bits. destruct Hk as [->|Hk]; [now exists PAssert|].
    rewrite assert_true by (destruct (k =? 0) eqn:E; [apply N.eqb_eq in E; lia|reflexivity]).
    cbn [bind]. rewrite assert_false by lia. now exists PAssert. }
  destruct Hchk as [q Hq]. rewrite Hq.
  destruct (n * k <? 2 ^ 64) eqn:E; cbn [bind expect]; [|now exists PExpect].
  destruct (Hce (n * k) ltac:(lia)) as [[r Hr]|[o Ho]]; [rewrite Hr; cbn [bind]; now eexists|].
  rewrite Ho. cbn [bind]. destruct o as [m|]; cbn [expect bind]; [|now eexists].
  unfold cv_block_with_capacity, vec_with_capacity, alloc. dif E2; cbn [bind]; now eexists.
Qed.
Example C24_bad_width_ex : panics (civ_with_capacity rel64 8 std_policy 9 4) /\ panics (civ_with_capacity rel64 8 std_policy 0 4).
Proof. split; eexists; vm_compute; reflexivity. Qed.
Print Assumptions C24_bad_width.

(** C24 refuted: without overflow checks, [BitVector::<u64>::with_capacity(u64::MAX)] returns a
    vector of capacity 0 instead of panicking. *)
Theorem C24_with_capacity_refuted :
  exists v, cbv_with_capacity rel64 64 std_policy (2 ^ 64 - 1) = Ok v /\ cbv_capacity rel64 64 v = Ok 0.
Proof. eexists. split; vm_compute; reflexivity. Qed.
Print Assumptions C24_with_capacity_refuted.

(** C66. Whatever an operation does to the contents (see C13, C16), afterwards the capacity covers
    them; it never shrinks and does not change as long as the new contents fit into it. *)
Theorem C66_any_operation (c : cfg) (nb k : N) (p : policy) (f : vbase -> res vbase) (v : cvb) (l l' : list bool) (b : vbase) :
  wf_cfg c -> wf_nb nb -> 1 <= k <= nb -> lawful_policy p -> holds c nb k v l ->
  f (cv_base v) = Ok b -> Vrep c nb k b l' ->
  (exists v' cap, cv_lift c nb p f v = Ok v' /\ cv_base v' = b /\ holds c nb k v' l' /\
     cv_capacity c nb k v' = Ok cap /\ vb_len b <= cap /\ cv_block_capacity v <= cv_block_capacity v' /\
     (lengthN l' <= cv_block_capacity v * nb -> cv_block_capacity v' = cv_block_capacity v)) \/
  (panics (cv_lift c nb p f v) /\ cv_block_capacity v * nb < lengthN l').
Proof.
  intros Hc Hnb Hk Hp Hv Hf HV. pose proof (wf_nb_pos nb Hnb) as Hpos. unfold cv_block_capacity.
  pose proof (cv_lift_spec c nb k p Hc Hnb Hk Hp f v l b l' Hv Hf HV) as S.
  assert (El : lengthN (vb_vec b) = blocks_for nb (lengthN l')) by (destruct HV as [-> _]; apply lengthN_pack).
  pose proof (blocks_for_le nb (lengthN l') (cv_cap v) Hpos) as Hle. rewrite <- El in Hle.
  destruct (cv_lift c nb p f v) as [v'|q|]; [left|right|contradiction].
  - destruct S as [S1 [S2 [S3 S4]]]. exists v'. eexists. split; [reflexivity|]. split; [exact S1|]. split; [exact S2|].
    split; [eapply cv_capacity_ok; eauto|]. split; [|split; [exact S3|tauto]].
    apply (capacity_blocks c nb k Hc Hnb Hk). destruct HV as [_ [-> _]]. rewrite <- El.
    destruct S2 as [_ [S2 _]]. unfold cv_blocks in S2. now rewrite S1 in S2.
  - split; [now exists q|]. apply N.nle_gt. rewrite <- Hle. lia.
Qed.
Example C66_any_operation_ex :
  exists v, cv_block_with_capacity dbg64 8 std_policy 2 = Ok v /\ holds dbg64 8 1 v [] /\
    exists b, bvec_resize dbg64 8 (cv_base v) 11 true = Ok b /\ Vrep dbg64 8 1 b (repeatN true 11) /\
    exists v', cbv_resize dbg64 8 std_policy v 11 true = Ok v' /\ cv_block_capacity v' = 2.
Proof.
  eexists. split; [vm_compute; reflexivity|]. split.
  { split; [|vm_compute; split; discriminate]. split; [vm_compute; reflexivity|]. split; [vm_compute; reflexivity|].
    vm_compute. discriminate. }
  eexists. split; [vm_compute; reflexivity|]. split.
  { split; [vm_compute; reflexivity|]. split; [vm_compute; reflexivity|]. vm_compute. discriminate. }
  eexists. split; vm_compute; reflexivity.
Qed.
Print Assumptions C66_any_operation.

(** Pushing the elements of a list one by one. *)
Fixpoint push_all {V A} (push : V -> A -> res V) (v : V) (xs : list A) : res V :=
  match xs with
  | [] => Ok v
  | x :: t => bind (push v x) (fun v' => push_all push v' t)
  end.

(** C66. As long as the new length is at most [capacity()], pushing succeeds and does not
    reallocate. *)
Theorem C66_push_bits (c : cfg) (nb : N) (p : policy) (v : cvb) (l bs : list bool) (cap : N) :
  wf_cfg c -> wf_nb nb -> lawful_policy p -> holds c nb 1 v l ->
  cbv_capacity c nb v = Ok cap -> lengthN l + lengthN bs <= cap ->
  exists v', push_all (cbv_push_bit c nb p) v bs = Ok v' /\ R_bv c nb (cv_base v') (l ++ bs) /\
    cbv_block_capacity v' = cbv_block_capacity v.
Proof.
  intros Hc Hnb Hp Hv Hcap Hle. pose proof (wf_nb_range nb Hnb) as Hr. assert (Hk1 : 1 <= 1 <= nb) by lia. pose proof (wf_nb_pos nb Hnb) as Hpos.
  unfold cbv_capacity in Hcap. rewrite (cv_capacity_ok c nb 1 Hc Hnb ltac:(lia) v l Hv) in Hcap. injection Hcap as <-.
  rewrite N.div_1_r in Hle. unfold cbv_block_capacity, cv_block_capacity.
  revert v l Hv Hle. induction bs as [|b t IH]; intros v l Hv Hle.
  - exists v. rewrite app_nil_r. split; [reflexivity|]. split; [apply Hv|reflexivity].
  - rewrite lengthN_cons in Hle. cbn [push_all].
    assert (Hf : fits c nb (lengthN l + 1)).
    { destruct Hv as [_ [_ H2]]. unfold fits. apply N.le_trans with (cv_cap v * nb); [|exact H2].
      apply N.mul_le_mono_r. apply (blocks_for_le nb); lia. }
    destruct (vb_push_bit_ok c nb Hc Hnb (cv_base v) l b (proj1 Hv) Hf) as [u [E HV]].
    pose proof (cv_lift_spec c nb 1 p Hc Hnb Hk1 Hp (fun u => bvec_push_bit c nb u b) v l u _ Hv E HV) as S.
    fold (cbv_push_bit c nb p v b) in S.
    assert (El : lengthN (vb_vec u) <= cv_cap v).
    { destruct HV as [-> _]. rewrite lengthN_pack, lengthN_app. apply (blocks_for_le nb); [lia|].
      unfold lengthN at 2. cbn [length]. lia. }
    destruct (cbv_push_bit c nb p v b) as [v'|q|]; [|lia|contradiction]. cbn [bind].
    destruct S as [S1 [S2 [S3 S4]]]. specialize (S4 El).
    destruct (IH v' (l ++ [b]) S2) as [v'' [H1 [H2 H3]]].
    { rewrite S4, lengthN_app. unfold lengthN at 2. cbn [length]. lia. }
    exists v''. split; [exact H1|]. rewrite <- app_assoc in H2. split; [exact H2|]. congruence.
Qed.
Example C66_push_bits_ex :
  exists v, cbv_with_capacity rel32 8 std_policy 9 = Ok v /\ cbv_capacity rel32 8 v = Ok 16 /\
    holds rel32 8 1 v [] /\ 0 + lengthN (repeatN true 16) <= 16.
Proof.
  eexists. split; [vm_compute; reflexivity|]. split; [vm_compute; reflexivity|]. split; [|vm_compute; discriminate].
  split; [|vm_compute; split; discriminate]. split; [vm_compute; reflexivity|]. split; [vm_compute; reflexivity|].
  vm_compute. discriminate.
Qed.
Print Assumptions C66_push_bits.

Theorem C66_push_ints (c : cfg) (nb k : N) (p : policy) (v : civ) (xs ys : list N) (cap : N) :
  wf_cfg c -> wf_nb nb -> 1 <= k <= nb -> lawful_policy p ->
  R_iv c nb k (civ_vec v) xs -> holds c nb k (civ_base v) (bits_of_blocks k xs) ->
  civ_capacity c nb v = Ok cap -> lengthN xs + lengthN ys <= cap -> Forall (fun y => y < 2 ^ k) ys ->
  exists v', push_all (civ_push c nb p) v ys = Ok v' /\ R_iv c nb k (civ_vec v') (xs ++ ys) /\
    civ_block_capacity v' = civ_block_capacity v.
Proof.
  intros Hc Hnb Hk Hp HR Hv Hcap Hle Hys. pose proof (wf_nb_range nb Hnb) as Hr. pose proof (wf_nb_pos nb Hnb) as Hpos.
  assert (Eb : civ_bits v = k) by apply HR.
  unfold civ_capacity in Hcap. rewrite Eb in Hcap.
  rewrite (cv_capacity_ok c nb k Hc Hnb Hk _ _ Hv) in Hcap. injection Hcap as <-.
  rewrite (capacity_blocks c nb k Hc Hnb Hk) in Hle. unfold civ_block_capacity, cv_block_capacity.
  revert v xs HR Hv Hle Eb. induction ys as [|y t IH]; intros v xs HR Hv Hle Eb.
  - exists v. rewrite app_nil_r. auto.
  - inversion Hys as [|? ? Hy Ht]; subst. rewrite lengthN_cons in Hle. cbn [push_all].
    rewrite (blocks_for_le nb) in Hle by assumption. set (k := civ_bits v) in *.
    assert (Hf : fits c nb ((lengthN xs + 1) * k)).
    { destruct Hv as [_ [_ H2]]. unfold fits. apply N.le_trans with (cv_cap (civ_base v) * nb); [|exact H2].
      apply N.mul_le_mono_r. apply (blocks_for_le nb); [lia|nia]. }
    destruct (iv_push_ok c nb k Hc Hnb Hk (civ_vec v) xs y HR Hy Hf) as [u [E [Hu1 [Hu2 Hu3]]]].
    pose proof (cv_lift_spec c nb k p Hc Hnb Hk Hp
      (fun u => w <- iv_push c nb {| iv_bits := civ_bits v; iv_base := u |} y ;; Ok (iv_base w))
      (civ_base v) _ (iv_base u) (bits_of_blocks k (xs ++ [y])) Hv) as S.
    specialize (S ltac:(cbv beta; change {| iv_bits := civ_bits v; iv_base := cv_base (civ_base v) |} with (civ_vec v);
                        rewrite E; reflexivity) Hu2).
    unfold civ_push, civ_lift, civ_map.
    assert (El : lengthN (vb_vec (iv_base u)) <= cv_cap (civ_base v)).
    { destruct Hu2 as [-> _]. rewrite lengthN_pack. apply (blocks_for_le nb); [lia|].
      rewrite lengthN_bits_of_blocks, lengthN_app. unfold lengthN at 2. cbn [length].  nia. }
    match type of S with match ?r with _ => _ end => destruct r as [v'|q|]; [|lia|contradiction] end. cbn [bind].
    destruct S as [S1 [S2 [S3 S4]]]. specialize (S4 El).
    destruct (IH Ht {| civ_bits := civ_bits v; civ_base := v' |} (xs ++ [y])) as [v'' [H1 [H2 H3]]]; cbn [civ_bits civ_base].
    + split; [reflexivity|]. cbn [civ_vec iv_base]. cbn [civ_base]. rewrite S1. split; [exact Hu2|exact Hu3].
    + exact S2.
    + rewrite S4, lengthN_app. apply (blocks_for_le nb); [lia|]. unfold lengthN at 2. cbn [length]. nia.
    + reflexivity.
    + exists v''. split; [exact H1|]. rewrite <- app_assoc in H2. split; [exact H2|].
      cbn [civ_base] in H3. congruence.
Qed.
Example C66_push_ints_ex :
  exists v, civ_with_capacity dbg64 16 std_policy 5 10 = Ok v /\ civ_capacity dbg64 16 v = Ok 12 /\
    R_iv dbg64 16 5 (civ_vec v) [] /\ holds dbg64 16 5 (civ_base v) (bits_of_blocks 5 []) /\
    0 + lengthN (repeatN 31 12) <= 12 /\ Forall (fun y => y < 2 ^ 5) (repeatN 31 12).
Proof.
  eexists. split; [vm_compute; reflexivity|]. split; [vm_compute; reflexivity|].
  assert (HV : Vrep dbg64 16 5 {| vb_len := 0; vb_vec := [] |} []).
  { split; [vm_compute; reflexivity|]. split; [vm_compute; reflexivity|]. vm_compute. discriminate. }
  split; [split; [reflexivity|]; split; [exact HV|constructor]|].
  split; [split; [exact HV|vm_compute; split; discriminate]|]. split; [vm_compute; discriminate|].
  apply Forall_repeatN. reflexivity.
Qed.
Print Assumptions C66_push_ints.

(** C66. [shrink_to_fit] keeps the contents and enough capacity for them, and never grows. *)
Theorem C66_shrink_to_fit (c : cfg) (nb k : N) (p : policy) (v : cvb) (l : list bool) :
  wf_cfg c -> wf_nb nb -> 1 <= k <= nb -> lawful_policy p -> holds c nb k v l ->
  exists v' cap, cv_shrink_to_fit p v = Ok v' /\ cv_base v' = cv_base v /\ holds c nb k v' l /\
    cv_block_capacity v' <= cv_block_capacity v /\ cv_capacity c nb k v' = Ok cap /\ vb_len (cv_base v) <= cap.
Proof.
  intros Hc Hnb Hk Hp Hv. pose proof Hv as [HV [H1 H2]]. pose proof (wf_nb_pos nb Hnb) as Hpos.
  pose proof (lp_shrink p Hp (cv_blocks v) (cv_cap v) H1) as [H3 H4].
  unfold cv_shrink_to_fit. do 2 eexists. split; [reflexivity|]. split; [reflexivity|].
  assert (Hh : holds c nb k {| cv_base := cv_base v; cv_cap := p_shrink p (cv_blocks v) (cv_cap v) |} l).
  { split; [exact HV|]. split; [exact H3|]. cbn [cv_cap]. nia. }
  split; [exact Hh|]. split; [exact H4|]. split; [eapply cv_capacity_ok; eauto|]. cbn [cv_cap].
  apply (capacity_blocks c nb k Hc Hnb Hk). rewrite <- (blocks_of_rep c nb k (cv_base v) l HV). exact H3.
Qed.
Example C66_shrink_to_fit_ex :
  exists v v', cbv_with_capacity dbg64 8 std_policy 90 = Ok v /\ cbv_block_capacity v = 12 /\
    cbv_shrink_to_fit std_policy v = Ok v' /\ cbv_block_capacity v' = 0.
Proof. eexists. eexists. repeat (split; [vm_compute; reflexivity|]). vm_compute; reflexivity. Qed.
Print Assumptions C66_shrink_to_fit.
