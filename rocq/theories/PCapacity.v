(** * Capacities of [VectorBase], [BitVector] and [IntVector]. *)
From Verif Require Export PIntRun MCapacity.

(** A vector with a capacity that can exist: it holds the bits [l], the blocks in use are at most
    the capacity, the capacity was allocated. *)
Definition holds (c : cfg) (nb k : N) (v : cvb) (l : list bool) : Prop :=
  Vrep c nb k (cv_base v) l /\ cv_blocks v <= cv_cap v /\ cv_cap v * nb <= max_bits c.

Lemma lawful_exact : lawful_policy exact_policy.
Proof. constructor; cbn; intros; lia. Qed.
Lemma lawful_std : lawful_policy std_policy.
Proof. constructor; cbn; intros; lia. Qed.

(** [n] bits fit in [m] blocks iff they need at most [m] blocks. *)
Lemma blocks_for_le nb n m : 0 < nb -> blocks_for nb n <= m <-> n <= m * nb.
Proof.
  intros H. unfold blocks_for. split; intros H1.
  - pose proof (N.div_mod (n + (nb - 1)) nb ltac:(lia)) as E.
    pose proof (N.mod_lt (n + (nb - 1)) nb ltac:(lia)).
    assert (nb * ((n + (nb - 1)) / nb) <= nb * m) by (apply N.mul_le_mono_l; exact H1). lia.
  - apply N.lt_succ_r. apply N.div_lt_upper_bound; lia.
Qed.
Lemma le_div k n m : 0 < k -> n * k <= m <-> n <= m / k.
Proof.
  intros H. split; intros H1.
  - apply N.div_le_lower_bound; lia.
  - pose proof (N.mul_div_le m k ltac:(lia)). nia.
Qed.

Section Capacity.
  Variables (c : cfg) (nb k : N) (p : policy).
  Hypothesis Hc : wf_cfg c.
  Hypothesis Hnb : wf_nb nb.
  Hypothesis Hk : 1 <= k <= nb.
  Hypothesis Hp : lawful_policy p.
  Let nb_range := wf_nb_range nb Hnb.
  Let ptr_range := wf_ptr c Hc.
  Let nb_pos := wf_nb_pos nb Hnb.

  Lemma max_bits_63 : max_bits c <= 2 ^ 63.
  Proof. unfold max_bits. dif E; lia. Qed.

  Lemma fits_sum64 n : fits c nb n -> n + nb <= 2 ^ 64.
  Proof. intros H. apply fits_lt64 in H; lia. Qed.

  Lemma cv_capacity_ok v l : holds c nb k v l -> cv_capacity c nb k v = Ok (cv_cap v * nb / k).
  Proof.
    intros [_ [_ H]]. pose proof max_bits_63. unfold cv_capacity. rewrite mul_nbits_ok by (auto; lia). cbn [bind].
    apply wdiv_ok. lia.
  Qed.
  (** In elements: [n] elements fit in the capacity iff their blocks do. *)
  Lemma capacity_blocks n cap : n <= cap * nb / k <-> blocks_for nb (n * k) <= cap.
  Proof. rewrite blocks_for_le by lia. rewrite (le_div k) by lia. reflexivity. Qed.

  (** *** Vec's contract *)
  Lemma vec_reserve_spec grow len cap add : (forall a b d, a + d <= grow a b d) -> len <= cap -> cap * nb <= max_bits c ->
    match vec_reserve c nb grow len cap add with
    | Ok cap' => len + add <= cap' /\ cap' * nb <= max_bits c /\ (len + add <= cap -> cap' = cap)
    | Panic _ => cap < len + add /\ max_bits c < grow len cap add * nb
    | OutOfFuel => False
    end.
  Proof.
    intros Hg H1 H2. unfold vec_reserve. destruct (add <=? cap - len) eqn:E; [lia|].
    unfold alloc. destruct (grow len cap add * nb <=? max_bits c) eqn:E2; cbn [bind].
    - pose proof (Hg len cap add). lia.
    - lia.
  Qed.

  Lemma blocks_of_rep v l : Vrep c nb k v l -> lengthN (vb_vec v) = blocks_for nb (vb_len v * k).
  Proof. intros [E1 [E2 _]]. rewrite E1, lengthN_pack, E2. reflexivity. Qed.

  (** *** [with_capacity] *)
  Lemma cv_block_with_capacity_spec n :
    match cv_block_with_capacity c nb p n with
    | Ok v => holds c nb k v [] /\ n <= cv_cap v /\ cv_cap v = p_fresh p n
    | Panic _ => max_bits c < p_fresh p n * nb
    | OutOfFuel => False
    end.
  Proof.
    unfold cv_block_with_capacity, vec_with_capacity, alloc.
    destruct (p_fresh p n * nb <=? max_bits c) eqn:E; cbn [bind]; [|lia].
    split; [|split; [apply (lp_fresh p Hp)|reflexivity]].
    split; [apply (V_empty c nb k Hnb)|]. split; cbn; [|lia]. unfold cv_blocks, lengthN. cbn. lia.
  Qed.

  Definition no_wrap (n : N) : Prop := n + nb <= 2 ^ 64 \/ debug c = true \/ 2 ^ 64 <= n.

  Lemma len_to_block_len_no_wrap n : no_wrap (n * k) ->
    panics (len_to_block_len c nb k n) \/ len_to_block_len c nb k n = Ok None \/
    len_to_block_len c nb k n = Ok (Some (blocks_for nb (n * k))).
  Proof.
    intros H. destruct (N.le_gt_cases (2 ^ 64) (n * k)) as [H2|H2].
    - rewrite len_to_block_len_big by assumption. auto.
    - destruct (N.le_gt_cases (n * k + nb) (2 ^ 64)) as [H1|H1].
      + rewrite len_to_block_len_ok by auto. unfold to_usize. dif E; auto.
      + destruct H as [H|[H|H]]; try lia. left. unfold len_to_block_len, checked_mul.
        destruct (n * k <? 2 ^ 64) eqn:E; [|lia]. rewrite checked_ceil_div_nbits_wrap, H by auto. now eexists.
  Qed.
  Lemma cv_with_capacity_spec n : no_wrap (n * k) ->
    match cv_with_capacity c nb p k n with
    | Ok v => holds c nb k v [] /\ blocks_for nb (n * k) <= cv_cap v
    | Panic _ => ~ (fits c nb (n * k) /\ p_fresh p (blocks_for nb (n * k)) * nb <= max_bits c)
    | OutOfFuel => False
    end.
  Proof.
    intros Hw. destruct (len_to_block_len_no_wrap n Hw) as [[q H]|[H|H]]; unfold cv_with_capacity.
    - rewrite H. cbn [bind]. intros [Hf _]. rewrite len_to_block_len_ok in H by (auto using fits_sum64).
      discriminate.
    - rewrite H. cbn [bind expect]. intros [Hf _]. rewrite len_to_block_len_ok in H by (auto using fits_sum64).
      rewrite to_usize_small in H by now apply fits_ptr. discriminate.
    - rewrite H. cbn [bind expect]. pose proof (cv_block_with_capacity_spec (blocks_for nb (n * k))) as S.
      destruct (cv_block_with_capacity c nb p (blocks_for nb (n * k))) as [v|q|]; [|intros [_ X]; lia|contradiction].
      destruct S as [S1 [S2 _]]. auto.
  Qed.

  (** *** [reserve] *)
  Lemma additional_blocks_spec v l n : holds c nb k v l -> let len := vb_len (cv_base v) in no_wrap ((len + n) * k) ->
    match cv_additional_blocks c nb k v n with
    | Ok d => d = blocks_for nb ((len + n) * k) - cv_cap v
    | Panic _ => ~ fits c nb ((len + n) * k)
    | OutOfFuel => False
    end.
  Proof.
    intros Hv len Hw. unfold cv_additional_blocks. fold len. unfold checked_add.
    destruct (len + n <? 2 ^ 64) eqn:E.
    - pose proof (len_to_block_len_no_wrap (len + n) Hw) as S. unfold len_to_block_len in S.
      destruct S as [[q S]|[S|S]]; rewrite S; cbn [bind expect]; try (intros Hf).
      + assert (X : len_to_block_len c nb k (len + n) = Ok (to_usize c (blocks_for nb ((len + n) * k))))
          by (apply len_to_block_len_ok; auto; now apply fits_sum64).
        unfold len_to_block_len in X. congruence.
      + assert (X : len_to_block_len c nb k (len + n) = Ok (to_usize c (blocks_for nb ((len + n) * k))))
          by (apply len_to_block_len_ok; auto; now apply fits_sum64).
        rewrite to_usize_small in X by now apply fits_ptr. unfold len_to_block_len in X. congruence.
      + reflexivity.
    - cbn [bind expect]. intros Hf. apply fits_sum64 in Hf. nia.
  Qed.

  Lemma reserve_spec grow (f : cvb -> N -> res cvb) v l n : (forall a b d, a + d <= grow a b d) ->
    (forall d, f v d = bind (vec_reserve c nb grow (cv_blocks v) (cv_cap v) d)
                         (fun cap => Ok {| cv_base := cv_base v; cv_cap := cap |})) ->
    holds c nb k v l -> let len := vb_len (cv_base v) in no_wrap ((len + n) * k) ->
    let need := blocks_for nb ((len + n) * k) in
    match bind (cv_additional_blocks c nb k v n) (f v) with
    | Ok v' => cv_base v' = cv_base v /\ holds c nb k v' l /\ cv_blocks v + (need - cv_cap v) <= cv_cap v' /\
        cv_cap v <= cv_cap v' /\ (cv_blocks v + (need - cv_cap v) <= cv_cap v -> cv_cap v' = cv_cap v) /\
        (cv_cap v' = cv_cap v \/ cv_cap v' = grow (cv_blocks v) (cv_cap v) (need - cv_cap v))
    | Panic _ => ~ (fits c nb ((len + n) * k) /\ grow (cv_blocks v) (cv_cap v) (need - cv_cap v) * nb <= max_bits c)
    | OutOfFuel => False
    end.
  Proof.
    intros Hg Ef Hv len Hw need. pose proof (additional_blocks_spec v l n Hv Hw) as S. fold len need in S.
    pose proof Hv as [HV [H1 H2]].
    destruct (cv_additional_blocks c nb k v n) as [d|q|]; cbn [bind]; [|intros [X _]; contradiction|contradiction].
    subst d. rewrite Ef. pose proof (vec_reserve_spec grow (cv_blocks v) (cv_cap v) (need - cv_cap v) Hg H1 H2) as S.
    assert (S2 : forall cap', vec_reserve c nb grow (cv_blocks v) (cv_cap v) (need - cv_cap v) = Ok cap' ->
       cap' = cv_cap v \/ cap' = grow (cv_blocks v) (cv_cap v) (need - cv_cap v)).
    { intros cap'. unfold vec_reserve. dif E; [intros [= <-]; auto|]. unfold alloc.
      dif E2; cbn [bind]; [intros [= <-]; auto|discriminate]. }
    destruct (vec_reserve c nb grow (cv_blocks v) (cv_cap v) (need - cv_cap v)) as [cap'|q|]; cbn [bind];
      [|intros [_ X]; lia|contradiction].
    destruct S as [S3 [S4 S5]]. specialize (S2 cap' eq_refl). cbn [cv_base cv_cap].
    assert (Hle : cv_cap v <= cap') by (destruct (N.le_gt_cases (cv_blocks v + (need - cv_cap v)) (cv_cap v)); [rewrite S5; lia|]; lia).
    unfold holds, cv_blocks in *. cbn [cv_base cv_cap] in *. repeat split; try apply HV; auto; lia.
  Qed.

  (** *** Operations that change the length *)
  Lemma cv_lift_spec f v l b l' : holds c nb k v l -> f (cv_base v) = Ok b -> Vrep c nb k b l' ->
    match cv_lift c nb p f v with
    | Ok v' => cv_base v' = b /\ holds c nb k v' l' /\ cv_cap v <= cv_cap v' /\
               (lengthN (vb_vec b) <= cv_cap v -> cv_cap v' = cv_cap v)
    | Panic _ => cv_cap v < lengthN (vb_vec b)
    | OutOfFuel => False
    end.
  Proof.
    intros [HV [H1 H2]] Hf HV'. unfold cv_lift. rewrite Hf. cbn [bind].
    pose proof (vec_reserve_spec (p_grow p) (cv_blocks v) (cv_cap v) (lengthN (vb_vec b) - cv_blocks v)
                  (lp_grow p Hp) H1 H2) as S.
    destruct (vec_reserve c nb (p_grow p) (cv_blocks v) (cv_cap v) (lengthN (vb_vec b) - cv_blocks v)) as [cap'|q|];
      cbn [bind]; [|lia|contradiction].
    destruct S as [S1 [S2 S3]]. cbn [cv_base cv_cap]. unfold holds, cv_blocks. cbn [cv_base cv_cap].
    fold (cv_blocks v).
    assert (lengthN (vb_vec b) <= cap') by lia.
    repeat split; try apply HV'; auto; [|intros; apply S3; lia].
    destruct (N.le_gt_cases (cv_blocks v + (lengthN (vb_vec b) - cv_blocks v)) (cv_cap v)); [rewrite S3; lia|lia].
  Qed.
End Capacity.
