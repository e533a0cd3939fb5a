(** * Property C75: rank and select over slices (src/rank, src/select with a [BitSlice] as the store). *)
From Verif Require Import Machine MStorage MTraits MVectorBase MBitVector MBitSlice MRank MSelect SpecBits SpecCfg SpecLaws SpecRank
  PBase PBits PBlocks PSlice PRank PRank9 PRankSlice PSelect Properties5 Properties6.

(** Full statement: a rank structure can be built over any slice ([Rank9] needs 64-bit blocks, [Jacobson] two bits) and
    answers the ranks of the selected bits.  It holds for slices of whole blocks; building over any other slice panics,
    because the last block of such a slice cannot be read (C28). *)
Lemma slice_new_R {T} c (B : bitvec T) (R : T -> list bool -> Prop) t l r s e sl :
  wf_cfg c -> lawful_bits c B R -> R t l -> bounds r (lengthN l) = (s, e) -> slice_new B t r = Ok sl ->
  R_slice R sl (sub s (e - s) l) /\ lengthN (sub s (e - s) l) = e - s.
Proof.
  intros Hc LB HR Hb E. unfold slice_new in E. rewrite (lb_bit_len _ _ _ LB t l HR) in E. cbn [bind] in E.
  assert (H : into_range r 0 (lengthN l) = (s, e)) by (destruct r; cbn in *; exact Hb). rewrite H in E.
  destruct (e <=? lengthN l) eqn:El; [|discriminate]. cbn in E. injection E as <-. split.
  - destruct (N.le_gt_cases s e) as [Hs|Hs].
    + left. exists l. cbn [sl_data sl_start sl_len]. unfold saturating_sub. repeat split; auto. lia.
    + right. cbn [sl_len]. unfold saturating_sub. split; [lia|]. replace (e - s) with 0 by lia. apply firstnN_0.
  - rewrite lengthN_sub. destruct (N.le_gt_cases s e); lia.
Qed.
Lemma firstn_sub {A} s n p (l : list A) : p <= n -> firstnN p (sub s n l) = sub s p l.
Proof.
  intros H. apply nthN_ext. intros j. rewrite nthN_firstnN, !nthN_sub.
  destruct (j <? p) eqn:E; [|reflexivity]. now replace (j <? n) with true by lia.
Qed.

(** Exact answers about the [n] bits of [l] from position [s]. *)
Section Gen.
  Variable c : cfg.
  Definition rank_answers {S} (K : bitrank S) (j : S) (l : list bool) (s n : N) : Prop :=
    rs_limit (br_rs K) j = Ok n /\
    (forall p, p < n ->
      br_rank1 K j p = Ok (count true (sub s (p + 1) l)) /\ br_rank0 K j p = Ok (count false (sub s (p + 1) l)) /\
      forall v, rs_rank (br_rs K) j p v = Ok (count v (sub s (p + 1) l))) /\
    (forall i v fuel, i < 2 ^ 64 - 1 -> (64 < fuel)%nat ->
      exists o, bss_select c (br_rs K) fuel j i v = Ok o /\
        (if v then bss_select1 c K fuel j i else bss_select0 c K fuel j i) = Ok o /\
        (forall p, o = Some p <-> p < n /\ nthN l (s + p) = Some v /\ count v (sub s p l) = i) /\
        (o = None <-> count v (sub s n l) <= i)).
  Lemma answers_of {S} (K : bitrank S) Rel j l s n : lawful_rank K Rel -> Rel j (sub s n l) -> lengthN (sub s n l) = n ->
    rank_answers K j l s n.
  Proof.
    intros LR HR Hn. split; [rewrite (lr_limit _ _ LR j _ HR); now rewrite Hn|]. split.
    - intros p Hp. rewrite (lr_rank1 _ _ LR j _ p HR), (lr_rank0 _ _ LR j _ p HR) by lia.
      unfold rank_of. rewrite firstn_sub by lia. repeat split. intros v.
      rewrite (lr_rank _ _ LR j _ p v HR) by lia. unfold rank_of. now rewrite firstn_sub by lia.
    - intros i v fuel Hi Hf. destruct (C35_select S c K Rel j _ i v fuel LR HR Hi Hf) as [(o1 & E1 & A1 & N1) (o & E & A & Nn)].
      assert (Eo : o1 = o).
      { destruct o as [p|]; [apply A1, A; reflexivity|]. apply N1, Nn. reflexivity. }
      subst o1. exists o. split; [exact E|]. split; [exact E1|]. split; [|exact Nn].
      intros p. rewrite A. rewrite nthN_sub. destruct (p <? n) eqn:Ep.
      + rewrite firstn_sub by lia. intuition lia.
      + split; [intros [D _]; discriminate|intros [D _]; lia].
  Qed.
End Gen.

Theorem C75_rank9_partial : forall T c (B : bitvec T) (R : T -> list bool -> Prop) t l r s e sl,
  wf_cfg c -> lawful_bits c B R -> R t l -> bounds r (lengthN l) = (s, e) -> slice_new B t r = Ok sl ->
  bv_nb B = 64 -> (e - s) mod 64 = 0 ->
  exists k, rank9_new c (slice_bitvec c B) sl = Ok k /\ rank_answers c (rank9_bitrank c (slice_bitvec c B)) k l s (e - s).
Proof.
  intros T c B R t l r s e sl Hc LB HR Hb E H64 Hm. destruct (slice_new_R c B R t l r s e sl Hc LB HR Hb E) as [HS HL].
  assert (HW : R_whole B R sl (sub s (e - s) l)) by (split; [exact HS|now rewrite HL, H64]).
  destruct (rank9_new_ok c (slice_bitvec c B) _ Hc (whole_bits c B R Hc LB) (whole_reads c B R Hc LB) H64 _ _ HW) as (k & Ek & _ & Hk).
  exists k. split; [exact Ek|]. refine (answers_of c _ _ k l s (e - s) _ Hk HL).
  exact (rank9_lawful c (slice_bitvec c B) _ Hc (whole_bits c B R Hc LB) (whole_reads c B R Hc LB) H64).
Qed.
Theorem C75_rank9_ragged : forall T c (B : bitvec T) (R : T -> list bool -> Prop) t l r s e sl,
  wf_cfg c -> lawful_bits c B R -> R t l -> bounds r (lengthN l) = (s, e) -> slice_new B t r = Ok sl ->
  bv_nb B = 64 -> (e - s) mod 64 <> 0 -> panics (rank9_new c (slice_bitvec c B) sl).
Proof.
  intros T c B R t l r s e sl Hc LB HR Hb E H64 Hm. destruct (slice_new_R c B R t l r s e sl Hc LB HR Hb E) as [HS HL].
  apply (rank9_slice_panics c B R Hc LB sl _ HS H64). now rewrite HL, H64.
Qed.
Theorem C75_jacobson_partial : forall T c (B : bitvec T) (R : T -> list bool -> Prop) t l r s e sl,
  wf_cfg c -> lawful_bits c B R -> R t l -> bounds r (lengthN l) = (s, e) -> slice_new B t r = Ok sl ->
  0 < e - s -> jac_room c (bv_nb B) (e - s) -> (e - s) mod bv_nb B = 0 ->
  exists k, jacobson_new c (slice_bitvec c B) sl = Ok k /\ rank_answers c (jacobson_bitrank c (slice_bitvec c B)) k l s (e - s).
Proof.
  intros T c B R t l r s e sl Hc LB HR Hb E H0 Hmax Hm. destruct (slice_new_R c B R t l r s e sl Hc LB HR Hb E) as [HS HL].
  assert (HW : R_whole B R sl (sub s (e - s) l)) by (split; [exact HS|now rewrite HL]).
  pose proof (wf_nb_range _ (lb_nb _ _ _ LB)) as Hnb.
  assert (H2 : 2 <= e - s) by (destruct (N.eq_dec (e - s) 1) as [E1|]; [rewrite E1, N.mod_small in Hm by lia; lia|lia]).
  destruct (jac_new c (slice_bitvec c B) _ Hc (whole_bits c B R Hc LB) (whole_reads c B R Hc LB) _ _ HW ltac:(lia) ltac:(rewrite HL; exact Hmax)) as (k & Ek & _ & Hk).
  exists k. split; [exact Ek|]. refine (answers_of c _ _ k l s (e - s) _ Hk HL).
  exact (jac_lawful c (slice_bitvec c B) _ Hc (whole_bits c B R Hc LB) (whole_reads c B R Hc LB)).
Qed.
Theorem C75_jacobson_ragged : forall T c (B : bitvec T) (R : T -> list bool -> Prop) t l r s e sl,
  wf_cfg c -> lawful_bits c B R -> R t l -> bounds r (lengthN l) = (s, e) -> slice_new B t r = Ok sl ->
  (e - s) mod bv_nb B <> 0 -> panics (jacobson_new c (slice_bitvec c B) sl).
Proof.
  intros T c B R t l r s e sl Hc LB HR Hb E Hm. destruct (slice_new_R c B R t l r s e sl Hc LB HR Hb E) as [HS HL].
  apply (jac_slice_panics c B R Hc LB sl _ HS); now rewrite HL.
Qed.
Theorem C75_refuted : exists sl,
  slice_new (blocks_bitvec dbg64 64) sample64 (Range 3 100) = Ok sl /\
  panics (rank9_new dbg64 (slice_bitvec dbg64 (blocks_bitvec dbg64 64)) sl) /\
  panics (jacobson_new dbg64 (slice_bitvec dbg64 (blocks_bitvec dbg64 64)) sl).
Proof. eexists. split; [vm_compute; reflexivity|]. split; eexists; vm_compute; reflexivity. Qed.
Example C75_ex : exists sl k j,
  lawful_bits dbg64 (blocks_bitvec dbg64 64) (R_blocks dbg64 64) /\
  R_blocks dbg64 64 sample64 (bits_of_blocks 64 sample64) /\
  bounds (Range 61 253) (lengthN (bits_of_blocks 64 sample64)) = (61, 253) /\
  slice_new (blocks_bitvec dbg64 64) sample64 (Range 61 253) = Ok sl /\
  rank9_new dbg64 (slice_bitvec dbg64 (blocks_bitvec dbg64 64)) sl = Ok k /\
  jacobson_new dbg64 (slice_bitvec dbg64 (blocks_bitvec dbg64 64)) sl = Ok j /\
  br_rank1 (rank9_bitrank dbg64 (slice_bitvec dbg64 (blocks_bitvec dbg64 64))) k 12 = Ok 10 /\
  br_rank1 (jacobson_bitrank dbg64 (slice_bitvec dbg64 (blocks_bitvec dbg64 64))) j 191 = Ok 64 /\
  bss_select1 dbg64 (rank9_bitrank dbg64 (slice_bitvec dbg64 (blocks_bitvec dbg64 64))) 65 k 63 = Ok (Some 66).
Proof.
  do 3 eexists. split; [apply blocks_lawful_bits; auto with wf|].
  split; [split; [reflexivity|]; split; [vm_compute; repeat constructor|vm_compute; congruence]|].
  repeat (split; [vm_compute; reflexivity|]). vm_compute. reflexivity.
Qed.

Print Assumptions C75_rank9_partial.
Print Assumptions C75_rank9_ragged.
Print Assumptions C75_jacobson_partial.
Print Assumptions C75_jacobson_ragged.
Print Assumptions C75_refuted.
