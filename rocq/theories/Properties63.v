(** * What [reserve], [reserve_exact] and [with_capacity] do, for every vector and amount (C23, C24). *)
From Verif Require Import PCapacity SpecCfg Properties10.

(** C23: [have] blocks are allocated, [used] in use, [need] needed.  Nothing happens exactly when [used + need <= 2 * have], and
    otherwise the allocator is asked for the difference of [need] and [have] beyond [used]. *)
Theorem C23_effect (c : cfg) (nb k : N) (p : policy) (exact : bool) (v : cvb) (l : list bool) (n : N) :
  wf_cfg c -> wf_nb nb -> 1 <= k <= nb -> holds c nb k v l ->
  let bits := (vb_len (cv_base v) + n) * k in
  let need := blocks_for nb bits in
  let have := cv_block_capacity v in
  let used := cv_blocks v in
  let cap := growing exact p used have (need - have) in
  let r := reserving exact c nb p k v n in
  (bits + nb <= 2 ^ 64 -> need < 2 ^ ptr c ->
     (used + need <= 2 * have -> r = Ok v) /\
     (2 * have < used + need -> cap * nb <= max_bits c -> r = Ok {| cv_base := cv_base v; cv_cap := cap |}) /\
     (2 * have < used + need -> max_bits c < cap * nb -> panics r)) /\
  (bits + nb <= 2 ^ 64 -> 2 ^ ptr c <= need -> panics r) /\
  (2 ^ 64 <= bits -> panics r) /\
  (bits < 2 ^ 64 -> 2 ^ 64 < bits + nb -> if debug c then panics r else r = Ok v).
Proof.
  intros Hc Hnb Hk [HV [H1 H2]] bits need have used cap r.
  assert (Er : r = bind (cv_additional_blocks c nb k v n) (fun d => bind (vec_reserve c nb (growing exact p) used have d)
    (fun cap => Ok {| cv_base := cv_base v; cv_cap := cap |}))) by (unfold r, reserving, cv_reserve, cv_reserve_exact; destruct exact; reflexivity).
  assert (Same : vec_reserve c nb (growing exact p) used have 0 = Ok have) by (unfold vec_reserve; rewrite (proj2 (N.leb_le 0 (have - used))) by lia; reflexivity).
  assert (Ev : {| cv_base := cv_base v; cv_cap := have |} = v) by now destruct v.
  assert (Ha : bits < 2 ^ 64 -> cv_additional_blocks c nb k v n = bind (checked_ceil_div_nbits c nb bits) (fun o => bind (expect o) (fun m => Ok (m - have)))).
  { intros Hb. unfold cv_additional_blocks, checked_add. rewrite (proj2 (N.ltb_lt (vb_len (cv_base v) + n) (2 ^ 64))) by (subst bits; nia).
    unfold checked_mul. fold bits. rewrite (proj2 (N.ltb_lt bits (2 ^ 64))) by exact Hb. reflexivity. }
  pose proof (wf_nb_range nb Hnb).
  rewrite Er. clear Er r. split; [|split; [|split]].
  - intros Hb Hn. rewrite Ha by lia. rewrite checked_ceil_div_nbits_ok by (auto; lia). fold need. rewrite to_usize_small by exact Hn. cbn [bind expect].
    unfold vec_reserve. fold have used in H1. change (cv_cap v) with have in H1. split; [|split].
    + intros Hd. rewrite (proj2 (N.leb_le (need - have) (have - used))) by lia. cbn [bind]. now rewrite Ev.
    + intros Hd Hm. rewrite (proj2 (N.leb_gt (need - have) (have - used))) by lia. fold cap. unfold alloc. rewrite (proj2 (N.leb_le _ _) Hm). reflexivity.
    + intros Hd Hm. rewrite (proj2 (N.leb_gt (need - have) (have - used))) by lia. fold cap. unfold alloc. rewrite (proj2 (N.leb_gt _ _) Hm). eexists. reflexivity.
  - intros Hb Hn. rewrite Ha by lia. rewrite checked_ceil_div_nbits_ok by (auto; lia). fold need. unfold to_usize. rewrite (proj2 (N.ltb_ge need (2 ^ ptr c))) by exact Hn.
    eexists. reflexivity.
  - intros Hb. unfold cv_additional_blocks, checked_add. destruct (vb_len (cv_base v) + n <? 2 ^ 64); [|eexists; reflexivity].
    unfold checked_mul. fold bits. rewrite (proj2 (N.ltb_ge bits (2 ^ 64))) by exact Hb. eexists. reflexivity.
  - intros Hb Hw. rewrite Ha by exact Hb. rewrite checked_ceil_div_nbits_wrap by auto. destruct (debug c); cbn [bind expect]; [eexists; reflexivity|].
    rewrite N.sub_0_l, Same. cbn [bind]. now rewrite Ev.
Qed.

Example C23_effect_ex :
  exists v w, cbv_block_with_capacity dbg64 64 std_policy 10 = Ok v /\ holds dbg64 64 1 v [] /\
    reserving true dbg64 64 std_policy 1 v 1280 = Ok v /\ cv_capacity dbg64 64 1 v = Ok 640 /\
    reserving true dbg64 64 std_policy 1 v 1281 = Ok w /\ cv_block_capacity w = 11 /\
    panics (reserving false dbg64 64 std_policy 1 v (2 ^ 64 - 2)).
Proof.
  eexists. eexists. split; [vm_compute; reflexivity|].
  split; [split; [split; [vm_compute; reflexivity|]; split; [vm_compute; reflexivity|vm_compute; discriminate]|vm_compute; split; discriminate]|].
  repeat (split; [vm_compute; reflexivity|]). eexists. vm_compute. reflexivity.
Qed.

(** So it falls short of its promise, whatever the allocator, when there is free room but not enough, and the missing blocks are no more than the free ones. *)
Theorem C23_shortfall (c : cfg) (nb k : N) (p : policy) (exact : bool) (v : cvb) (l : list bool) (n : N) :
  wf_cfg c -> wf_nb nb -> 1 <= k <= nb -> holds c nb k v l ->
  let len := vb_len (cv_base v) in
  let need := blocks_for nb ((len + n) * k) in
  let have := cv_block_capacity v in
  (len + n) * k + nb <= 2 ^ 64 -> need < 2 ^ ptr c ->
  exists cap, cv_capacity c nb k v = Ok cap /\
    (len + n <= cap -> reserving exact c nb p k v n = Ok v) /\
    (cap < len + n -> cv_blocks v + need <= 2 * have -> reserving exact c nb p k v n = Ok v) /\
    (lawful_policy p -> cap < len + n -> 2 * have < cv_blocks v + need -> forall v' cap', reserving exact c nb p k v n = Ok v' -> cv_capacity c nb k v' = Ok cap' ->
       cap <= cap' /\ (cv_blocks v = have -> len + n <= cap')).
Proof.
  intros Hc Hnb Hk Hv len need have Hb Hn. pose proof (C23_effect c nb k p exact v l n Hc Hnb Hk Hv) as E. cbv zeta in E. fold len in E. fold need have in E.
  destruct E as (E & _). destruct (E Hb Hn) as (E1 & E2 & E3). clear E.
  exists (cv_cap v * nb / k). split; [eapply cv_capacity_ok; eauto|].
  assert (Hu : cv_blocks v <= have) by apply Hv.
  assert (Hcap : forall cap, len + n <= cap * nb / k <-> need <= cap) by (intros cap0; apply (capacity_blocks c nb k Hc Hnb Hk)).
  split; [|split].
  - intros H. apply Hcap in H. apply E1. change (cv_cap v) with have in H. lia.
  - intros _ H. now apply E1.
  - intros Hp Hs H v' cap' Hr Hc'.
    destruct (N.le_gt_cases (growing exact p (cv_blocks v) have (need - have) * nb) (max_bits c)) as [Hm|Hm].
    + rewrite (E2 H Hm) in Hr. injection Hr as <-.
      assert (G : cv_blocks v + (need - have) <= growing exact p (cv_blocks v) have (need - have)) by (destruct exact; [apply (lp_grow_exact p Hp)|apply (lp_grow p Hp)]).
      set (g := growing exact p (cv_blocks v) have (need - have)) in *.
      assert (Hv' : holds c nb k {| cv_base := cv_base v; cv_cap := g |} l).
      { destruct Hv as [HV _]. split; [exact HV|]. cbn [cv_cap]. split; [|exact Hm]. change (cv_blocks v <= g). lia. }
      rewrite (cv_capacity_ok c nb k Hc Hnb Hk _ _ Hv') in Hc'. injection Hc' as <-. cbn [cv_cap]. split.
      * apply N.div_le_mono; [lia|]. apply N.mul_le_mono_r. change (cv_cap v) with have. lia.
      * intros Hf. apply Hcap. lia.
    + destruct (E3 H Hm) as [q Eq]. congruence.
Qed.
Example C23_shortfall_ex :
  exists v v', civ_with_capacity dbg32 8 std_policy 3 8 = Ok v /\ civ_push dbg32 8 std_policy v 5 = Ok v' /\
    cv_blocks (civ_base v') = 1 /\ cv_block_capacity (civ_base v') = 3 /\ civ_capacity dbg32 8 v' = Ok 8 /\
    civ_reserve dbg32 8 std_policy v' 12 = Ok v' /\ holds dbg32 8 3 (civ_base v') (bits_of 3 5).
Proof.
  eexists. eexists. repeat (split; [vm_compute; reflexivity|]).
  split; [split; [vm_compute; reflexivity|]; split; [vm_compute; reflexivity|vm_compute; discriminate]|vm_compute; split; discriminate].
Qed.

(** C24 *)
Theorem C24_effect (c : cfg) (nb k : N) (p : policy) (n : N) :
  wf_cfg c -> wf_nb nb -> 1 <= k <= nb ->
  let need := blocks_for nb (n * k) in
  let r := cv_with_capacity c nb p k n in
  (n * k + nb <= 2 ^ 64 -> need < 2 ^ ptr c ->
     (p_fresh p need * nb <= max_bits c -> r = Ok {| cv_base := {| vb_len := 0; vb_vec := [] |}; cv_cap := p_fresh p need |}) /\
     (max_bits c < p_fresh p need * nb -> panics r)) /\
  (n * k + nb <= 2 ^ 64 -> 2 ^ ptr c <= need -> panics r) /\
  (2 ^ 64 <= n * k -> panics r) /\
  (n * k < 2 ^ 64 -> 2 ^ 64 < n * k + nb -> if debug c then panics r else r = cv_with_capacity c nb p k 0).
Proof.
  intros Hc Hnb Hk need r. unfold r, cv_with_capacity. split; [|split; [|split]].
  - intros Hb Hn. rewrite (len_to_block_len_ok c nb k Hc Hnb Hk) by exact Hb. fold need. rewrite to_usize_small by exact Hn. cbn [bind expect].
    unfold cv_block_with_capacity, vec_with_capacity, alloc. split; intros Hm; [rewrite (proj2 (N.leb_le _ _) Hm)|rewrite (proj2 (N.leb_gt _ _) Hm); eexists]; reflexivity.
  - intros Hb Hn. rewrite (len_to_block_len_ok c nb k Hc Hnb Hk) by exact Hb. fold need. unfold to_usize. rewrite (proj2 (N.ltb_ge _ _) Hn). eexists. reflexivity.
  - intros Hb. rewrite len_to_block_len_big by assumption. eexists. reflexivity.
  - intros Hb Hw. pose proof (wf_nb_range nb Hnb). assert (E : len_to_block_len c nb k n = if debug c then Panic POverflow else Ok (Some 0)).
    { unfold len_to_block_len, checked_mul. rewrite (proj2 (N.ltb_lt _ _) Hb). now rewrite checked_ceil_div_nbits_wrap by auto. }
    rewrite E. destruct (debug c); cbn [bind expect]; [eexists; reflexivity|].
    rewrite (len_to_block_len_ok c nb k Hc Hnb Hk 0) by (rewrite N.mul_0_l; lia). rewrite N.mul_0_l. unfold blocks_for. rewrite N.div_small by lia.
    rewrite to_usize_small by (pose proof (pow2_pos (ptr c)); lia). reflexivity.
Qed.
Example C24_effect_ex : exists v, cv_with_capacity dbg64 8 std_policy 5 7 = Ok v /\ cv_block_capacity v = 5 /\
  panics (cv_with_capacity dbg32 8 std_policy 5 (2 ^ 33)) /\ panics (cv_with_capacity dbg64 8 std_policy 5 (2 ^ 62)).
Proof. eexists. repeat (split; [vm_compute; reflexivity|]). split; eexists; vm_compute; reflexivity. Qed.

Print Assumptions C23_effect.
Print Assumptions C23_shortfall.
Print Assumptions C24_effect.
