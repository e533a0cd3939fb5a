(** * C92: rank and select over a store whose last block holds more bits than the vector, as the documentation of [BitVec::get_block]
    allows (src/bit_vec/traits.rs:40-43, src/rank/*.rs, src/select/bin_search.rs). *)
From Verif Require Import Machine MStorage MTraits MMinimal MRank MSelect SpecBits SpecLaws SpecRank SpecMinimal SpecCfg
  PBase PBits PDefaults PIntVector PRank PRank9 PRankPad Properties6 Properties38.

Section Pad.
  Context {T : Type} (c : cfg) (B : bitvec T) (R : T -> list bool -> Prop).
  Hypothesis Hc : wf_cfg c.
  Hypothesis LB : lawful_bits c B R.
  Hypothesis HK : right_get_block c (bv_nb B) R (bv_get_block B).
  Let nb := bv_nb B.
  Let Hnb : wf_nb nb := lb_nb c B R LB.
  Lemma shown t l : R t l -> exists lp, shows nb (bv_get_block B) t l lp.
  Proof.
    intros H. assert (HL : right_bit_len c nb R (bv_bit_len B)) by (intros u k Hu; split; [now apply (lb_bit_len _ _ _ LB)|now apply (lb_fits _ _ _ LB u)]).
    destruct (find_extension c nb R (bv_bit_len B) (bv_get_block B) Hc Hnb HL HK t l H) as (lp & [X1 X2] & _ & _ & K). exists lp. split; [exact X1|]. split; [exact X2|].
    intros i Hi. apply K. rewrite X1. pose proof (wf_nb_range nb Hnb). pose proof (blocks_for_spec nb (lengthN l) ltac:(lia)). lia.
  Qed.
  Section One.
    Variables (t : T) (l lp : list bool).
    Hypothesis H : R t l.
    Hypothesis S : shows nb (bv_get_block B) t l lp.
    Definition padR (s : T) (k : list bool) : Prop := s = t /\ k = lp.
    Definition padB : bitvec T := bitvec_of_block c nb (fun _ => Ok (lengthN lp)) (bv_get_block B).
    Lemma pad_len : lengthN l <= lengthN lp /\ blocks_for nb (lengthN lp) = blocks_for nb (lengthN l).
    Proof. pose proof (wf_nb_range nb Hnb). apply extended_len; [lia|]. destruct S as (S1 & S2 & _). now split. Qed.
    Lemma pad_rank v p : p < lengthN l -> rank_of v lp p = rank_of v l p.
    Proof.
      intros Hp. destruct S as (_ & S2 & _). unfold rank_of. f_equal. apply nthN_ext. intros i. rewrite !nthN_firstnN. destruct (i <? p + 1) eqn:E; [|reflexivity].
      rewrite <- S2 at 1. rewrite nthN_firstnN. replace (i <? lengthN l) with true by lia. reflexivity.
    Qed.
    Lemma pad_lawful : lawful_bits c padB padR /\ lawful_blocks c padB padR.
    Proof.
      pose proof (wf_nb_range nb Hnb) as Hr. destruct pad_len as [P1 P2]. destruct S as (S1 & S2 & S3).
      assert (G : forall i, i * nb < lengthN lp -> bv_get_block B t i = Ok (block_of nb i lp)).
      { intros i Hi. apply S3. apply blocks_for_lt; [lia|]. rewrite <- P2. apply blocks_for_lt; [lia|exact Hi]. }
      destruct (C91_get_block T c nb padR (fun _ => Ok (lengthN lp)) (bv_get_block B) Hc Hnb) as (L1 & _ & L2).
      - intros s k [-> ->]. split; [reflexivity|]. unfold fits. rewrite P2. apply (lb_fits _ _ _ LB t l H).
      - intros s k i [-> ->] Hi. pose proof (HK t l i H Hi) as K. fold nb in K. destruct (i * nb <? lengthN lp) eqn:E.
        + exists (block_of nb i lp). split; [apply G; lia|]. split; [apply block_of_lt|]. intros j x Hj Hx. rewrite testbit_block_of.
          replace (j <? nb) with true by lia. cbn [andb]. now apply bit_at_Some.
        + replace (i * nb <? lengthN l) with false in K by lia. exact K.
      - split; [exact L1|]. apply L2. intros s k i [-> ->] Hi. now apply G.
    Qed.
    Lemma pad_jac_rank1 j p : jr_store j = t -> J_pad c B lp j -> p < lengthN l -> jacobson_rank1 c B j p = Ok (rank_of true l p).
    Proof.
      intros Ej HJ Hp. destruct pad_lawful as [L1 L2]. destruct pad_len as [P1 P2].
      transitivity (jacobson_rank1 c padB j p).
      - unfold jacobson_rank1. rewrite Ej, (lb_bit_len _ _ _ LB t l H). cbn [padB bitvec_of_block bv_bit_len bv_get_block bv_nb bind]. rewrite !assert_true by lia. reflexivity.
      - rewrite <- (pad_rank true p Hp). apply (jac_rank1 c padB padR Hc L1 (block_reads c padB padR L2)); [|lia]. split; [now split|exact HJ].
    Qed.
  End One.
End Pad.

(** ** [Rank9]: nothing past the end of the vector is ever counted. *)
Theorem C92_rank9 : forall T c (B : bitvec T) (R : T -> list bool -> Prop) t l,
  wf_cfg c -> lawful_bits c B R -> (forall t l, R t l -> bv_block_len B t = Ok (blocks_for (bv_nb B) (lengthN l))) ->
  right_get_block c (bv_nb B) R (bv_get_block B) -> bv_nb B = 64 -> R t l ->
  exists r, rank9_new c B t = Ok r /\ rs_limit (br_rs (rank9_bitrank c B)) r = Ok (lengthN l) /\
    (forall p v, p < lengthN l -> rs_rank (br_rs (rank9_bitrank c B)) r p v = Ok (count v (firstnN (p + 1) l))) /\
    (forall p, p < lengthN l -> br_rank1 (rank9_bitrank c B) r p = Ok (count true (firstnN (p + 1) l)) /\
       br_rank0 (rank9_bitrank c B) r p = Ok (count false (firstnN (p + 1) l))) /\
    (** past the end, within the last block, the extra bits do show *)
    (forall lp p, shows 64 (bv_get_block B) t l lp -> lengthN l <= p -> p < lengthN lp ->
       br_rank1 (rank9_bitrank c B) r p = Ok (count true (firstnN (p + 1) lp))) /\
    (forall p, blocks_for 64 (lengthN l) * 64 <= p -> panics (br_rank1 (rank9_bitrank c B) r p)).
Proof.
  intros T c B R t l Hc LB HKL HK H64 H. pose proof (lb_nb _ _ _ LB) as Hnb.
  assert (N9 : forall lp, shows 64 (bv_get_block B) t l lp -> exists r, rank9_new c B t = Ok r /\ r9_store r = t /\ R9_rep (padR t lp) r lp).
  { intros lp S. assert (S' : shows (bv_nb B) (bv_get_block B) t l lp) by now rewrite H64.
    destruct (pad_lawful c B R Hc LB HK t l lp H S') as [L1 L2].
    destruct (rank9_new_ok c (padB c B lp) (padR t lp) Hc L1 (block_reads c _ _ L2) H64 t lp ltac:(now split)) as (r & Er & Es & Hr).
    exists r. split; [|split; assumption]. rewrite <- Er. unfold rank9_new. rewrite (HKL t l H), (lk_block_len _ _ _ L2 t lp ltac:(now split)).
    cbn [padB bitvec_of_block bv_nb]. rewrite (proj2 (pad_len c B R LB t l lp S')). reflexivity. }
  destruct (shown c B R Hc LB HK t l H) as [lp0 S0]. rewrite H64 in S0. destruct (N9 lp0 S0) as (r & Er & Es & _). exists r. split; [exact Er|].
  assert (Hall : forall lp p, shows 64 (bv_get_block B) t l lp -> p < lengthN lp -> rank9_rank1 c B r p = Ok (rank_of true lp p)).
  { intros lp p S Hp. assert (S' : shows (bv_nb B) (bv_get_block B) t l lp) by now rewrite H64.
    destruct (pad_lawful c B R Hc LB HK t l lp H S') as [L1 L2]. destruct (N9 lp S) as (r' & Er' & _ & Hr). rewrite Er in Er'. injection Er' as <-.
    change (rank9_rank1 c B r p) with (rank9_rank1 c (padB c B lp) r p).
    apply (rank9_rank1_ok c (padB c B lp) (padR t lp) Hc L1 (block_reads c _ _ L2) H64); assumption. }
  assert (S0' : shows (bv_nb B) (bv_get_block B) t l lp0) by now rewrite H64.
  pose proof (pad_len c B R LB t l lp0 S0') as [P1 P2]. pose proof (lb_fits _ _ _ LB t l H) as F. pose proof (wf_nb_range _ Hnb) as Hr.
  pose proof (fits_lt64 c (bv_nb B) (lengthN l) ltac:(lia) F) as H63.
  assert (H1 : forall p, p < lengthN l -> rank9_rank1 c B r p = Ok (rank_of true l p)).
  { intros p Hp. rewrite <- (pad_rank B t l lp0 S0' true p Hp). apply Hall; [exact S0|lia]. }
  assert (LR : lawful_rank (rank9_bitrank c B) (fun s k => s = r /\ k = l)).
  { apply mk_bitrank_lawful.
    - intros s k [-> ->]. lia.
    - intros s k [-> ->]. rewrite Es. apply (lb_bit_len _ _ _ LB t l H).
    - intros s k p [-> ->]. apply H1. }
  split; [apply (lr_limit _ _ LR); now split|]. split; [intros p v Hp; apply (lr_rank _ _ LR); [now split|exact Hp]|].
  split; [intros p Hp; split; [apply (lr_rank1 _ _ LR)|apply (lr_rank0 _ _ LR)]; [now split|exact Hp|now split|exact Hp]|].
  split; [intros lp p S _ Hp; exact (Hall lp p S Hp)|].
  intros p Hp. destruct (pad_lawful c B R Hc LB HK t l lp0 H S0') as [L1 L2]. destruct (N9 lp0 S0) as (r' & Er' & _ & Hr9). rewrite Er in Er'. injection Er' as <-.
  change (panics (rank9_rank1 c (padB c B lp0) r p)). apply (rank9_rank1_oob c (padB c B lp0) (padR t lp0) Hc L1 H64 r lp0 p L2 Hr9). rewrite H64 in P2. now rewrite P2.
Qed.
(** ** [JacobsonRank].  Full statement: it can be built and answers exactly as if the last block were padded with zeros.  It is false: the
    number of ones in all blocks is stored in as many bits as the length of the vector needs, and extra ones may make it too large.  What
    holds: it can be built exactly when that number fits, and then all answers are right. *)
Theorem C92_jacobson_partial : forall T c (B : bitvec T) (R : T -> list bool -> Prop) t l lp,
  wf_cfg c -> lawful_bits c B R -> (forall t l, R t l -> bv_block_len B t = Ok (blocks_for (bv_nb B) (lengthN l))) ->
  right_get_block c (bv_nb B) R (bv_get_block B) -> R t l -> shows (bv_nb B) (bv_get_block B) t l lp ->
  let ok := 2 <= lengthN l /\ jac_room c (bv_nb B) (lengthN l) /\ count true lp < 2 ^ N.log2_up (lengthN l + 1) in
  (ok -> exists j, jacobson_new c B t = Ok j /\ rs_limit (br_rs (jacobson_bitrank c B)) j = Ok (lengthN l) /\
    (forall p v, p < lengthN l -> rs_rank (br_rs (jacobson_bitrank c B)) j p v = Ok (count v (firstnN (p + 1) l))) /\
    (forall p, p < lengthN l -> br_rank1 (jacobson_bitrank c B) j p = Ok (count true (firstnN (p + 1) l)) /\
       br_rank0 (jacobson_bitrank c B) j p = Ok (count false (firstnN (p + 1) l))) /\
    (forall p, lengthN l <= p -> panics (br_rank1 (jacobson_bitrank c B) j p))) /\
  (~ ok -> panics (jacobson_new c B t)).
Proof.
  intros T c B R t l lp Hc LB HKL HK H S ok. split.
  - intros (H2 & Hroom & Hfit). destruct S as (S1 & S2 & S3).
    destruct (jac_pad_new c B R Hc LB t l lp H (conj S1 S2) (HKL t l H) S3 H2) as [(j & Ej & Es & HJ & _)|[_ F]]; [|destruct F; now split].
    exists j. split; [exact Ej|]. pose proof (wf_nb_range _ (lb_nb _ _ _ LB)) as Hr. pose proof (fits_lt64 c (bv_nb B) (lengthN l) ltac:(lia) (lb_fits _ _ _ LB t l H)) as H63.
    assert (LR : lawful_rank (jacobson_bitrank c B) (fun s k => s = j /\ k = l)).
    { apply mk_bitrank_lawful.
      - intros s k [-> ->]. lia.
      - intros s k [-> ->]. rewrite Es. apply (lb_bit_len _ _ _ LB t l H).
      - intros s k p [-> ->] Hp. apply (pad_jac_rank1 c B R Hc LB HK t l lp H (conj S1 (conj S2 S3)) j p Es HJ Hp). }
    split; [apply (lr_limit _ _ LR); now split|]. split; [intros p v Hp; apply (lr_rank _ _ LR); [now split|exact Hp]|].
    split; [intros p Hp; split; [apply (lr_rank1 _ _ LR)|apply (lr_rank0 _ _ LR)]; [now split|exact Hp|now split|exact Hp]|].
    intros p Hp. change (panics (jacobson_rank1 c B j p)). unfold jacobson_rank1. rewrite Es, (lb_bit_len _ _ _ LB t l H). cbn [bind].
    rewrite assert_false by lia. apply panics_Panic.
  - intros Hn. destruct (N.le_gt_cases (lengthN l) 1) as [H1|H1]; [now apply (jac_new_small c B R t l)|]. destruct S as (S1 & S2 & S3).
    destruct (jac_pad_new c B R Hc LB t l lp H (conj S1 S2) (HKL t l H) S3 ltac:(lia)) as [(j & _ & _ & _ & F1 & F2)|[P _]]; [|exact P].
    exfalso. apply Hn. split; [lia|now split].
Qed.
(** What the blocks show always exists; and the condition holds if they show no extra ones, or if the vector ends where a block ends. *)
Theorem C92_shown : forall T c (B : bitvec T) (R : T -> list bool -> Prop) t l,
  wf_cfg c -> lawful_bits c B R -> right_get_block c (bv_nb B) R (bv_get_block B) -> R t l ->
  (exists lp, shows (bv_nb B) (bv_get_block B) t l lp) /\
  (forall lp, shows (bv_nb B) (bv_get_block B) t l lp -> count true lp <= lengthN l -> count true lp < 2 ^ N.log2_up (lengthN l + 1)) /\
  (forall lp, shows (bv_nb B) (bv_get_block B) t l lp -> lengthN l mod bv_nb B = 0 -> lp = l).
Proof.
  intros T c B R t l Hc LB HK H. pose proof (wf_nb_range _ (lb_nb _ _ _ LB)) as Hr. split; [now apply (shown c B R)|]. split.
  - intros lp _ Hle. pose proof (log2_up_pow (lengthN l + 1)). lia.
  - intros lp (S1 & S2 & _) Hm. pose proof (N.div_mod (lengthN l) (bv_nb B) ltac:(lia)) as Hd. rewrite Hm in Hd.
    assert (E : lengthN lp = lengthN l). { rewrite S1. replace (lengthN l) with (lengthN l / bv_nb B * bv_nb B) at 1 by lia. rewrite blocks_for_mul by lia. lia. }
    rewrite <- S2, <- E. symmetry. apply firstnN_all. lia.
Qed.
(** A witness: three bits in a byte that is all ones. *)
Theorem C92_jacobson_refuted : exists c (t : partial_byte) l,
  wf_cfg c /\ R_byte t l /\ lengthN l = 3 /\
  let B := bitvec_of_block c 8 byte_len byte_get_block in
  lawful_bits c B R_byte /\ right_get_block c 8 R_byte (bv_get_block B) /\ panics (jacobson_new c B t) /\
  (exists j, jacobson_new c B (3, 7) = Ok j) /\ R_byte (3, 7) l.
Proof.
  exists rel64, (3, 0xff), [true; true; true]. split; [auto with wf|]. destruct (byte_right rel64 ltac:(auto with wf)) as (L & K & _).
  assert (HRb : forall x, x < 2 ^ 8 -> x mod 8 = 7 -> R_byte (3, x) [true; true; true]).
  { intros x H1 H2. split; [cbn [fst]; lia|]. split; [exact H1|]. cbn [fst snd]. rewrite <- (bits_of_mod 3 x). change (2 ^ 3) with 8. rewrite H2. reflexivity. }
  split; [apply HRb; [vm_compute; reflexivity|reflexivity]|]. split; [reflexivity|]. cbv zeta. split; [apply C91_get_block; auto with wf|]. split; [exact K|].
  split; [eexists; vm_compute; reflexivity|]. split; [eexists; vm_compute; reflexivity|]. apply HRb; [vm_compute; reflexivity|reflexivity].
Qed.
(** ** Select by binary search over either structure *)
Theorem C92_select : forall T c (B : bitvec T) (R : T -> list bool -> Prop) t l i v fuel,
  wf_cfg c -> lawful_bits c B R -> (forall t l, R t l -> bv_block_len B t = Ok (blocks_for (bv_nb B) (lengthN l))) ->
  right_get_block c (bv_nb B) R (bv_get_block B) -> R t l -> i < 2 ^ 64 - 1 -> (64 < fuel)%nat ->
  let answer o := (forall p, o = Some p <-> nthN l p = Some v /\ count v (firstnN p l) = i) /\ (o = None <-> count v l <= i) in
  (forall r, bv_nb B = 64 -> rank9_new c B t = Ok r -> exists o, bss_select c (br_rs (rank9_bitrank c B)) fuel r i v = Ok o /\ answer o) /\
  (forall j, jacobson_new c B t = Ok j -> exists o, bss_select c (br_rs (jacobson_bitrank c B)) fuel j i v = Ok o /\ answer o).
Proof.
  intros T c B R t l i v fuel Hc LB HKL HK H Hi Hf answer. pose proof (wf_nb_range _ (lb_nb _ _ _ LB)) as Hr.
  pose proof (fits_lt64 c (bv_nb B) (lengthN l) ltac:(lia) (lb_fits _ _ _ LB t l H)) as H63. split.
  - intros r H64 Er. destruct (C92_rank9 T c B R t l Hc LB HKL HK H64 H) as (r' & Er' & A1 & A2 & A3 & _). rewrite Er in Er'. injection Er' as <-.
    apply (C35_select _ c (rank9_bitrank c B) (fun s k => s = r /\ k = l) r l i v fuel); auto.
    split; [intros s k [-> ->]; lia|intros s k [-> ->]; exact A1|intros s k p [-> ->] Hp; now apply A3|intros s k p [-> ->] Hp; now apply A3|intros s k p w [-> ->] Hp; now apply A2].
  - intros j Ej. destruct (shown c B R Hc LB HK t l H) as [lp S]. destruct (C92_jacobson_partial T c B R t l lp Hc LB HKL HK H S) as [P1 P2].
    assert (Hok : 2 <= lengthN l /\ jac_room c (bv_nb B) (lengthN l) /\ count true lp < 2 ^ N.log2_up (lengthN l + 1)).
    { destruct (N.le_gt_cases (lengthN l) 1) as [H1|H1]; [destruct (jac_new_small c B R t l Hc LB H H1) as [k E]; congruence|]. split; [lia|]. destruct S as (S1 & S2 & S3).
      destruct (jac_pad_new c B R Hc LB t l lp H (conj S1 S2) (HKL t l H) S3 ltac:(lia)) as [(j' & _ & _ & _ & F1 & F2)|[[k E] _]]; [now split|congruence]. }
    destruct (P1 Hok) as (j' & Ej' & A1 & A2 & A3 & _). rewrite Ej in Ej'. injection Ej' as <-.
    apply (C35_select _ c (jacobson_bitrank c B) (fun s k => s = j /\ k = l) j l i v fuel); auto.
    split; [intros s k [-> ->]; lia|intros s k [-> ->]; exact A1|intros s k p [-> ->] Hp; now apply A3|intros s k p [-> ->] Hp; now apply A3|intros s k p w [-> ->] Hp; now apply A2].
Qed.
(** ** Examples: two words of which the last one holds more bits than the vector; the byte of C91 *)
Definition two_words : Type := N * N * N.
Definition R_words (t : two_words) (l : list bool) : Prop :=
  let '(n, x, y) := t in 64 < n <= 128 /\ x < 2 ^ 64 /\ y < 2 ^ 64 /\ l = firstnN n (bits_of 64 x ++ bits_of 64 y).
Definition words_len (t : two_words) : res N := let '(n, _, _) := t in Ok n.
Definition words_get_block (t : two_words) (i : N) : res N := let '(_, x, y) := t in if i =? 0 then Ok x else if i =? 1 then Ok y else Panic PIndex.
Lemma words_right c : wf_cfg c -> right_bit_len c 64 R_words words_len /\ right_get_block c 64 R_words words_get_block.
Proof.
  intros Hc. assert (Hlen : forall n x y, n <= 128 -> lengthN (firstnN n (bits_of 64 x ++ bits_of 64 y)) = n).
  { intros n x y Hn. rewrite lengthN_firstnN, lengthN_app, !lengthN_bits_of. lia. }
  split.
  - intros [[n x] y] l (H1 & H2 & H3 & ->). rewrite Hlen by lia. split; [reflexivity|]. unfold fits. pose proof (blocks_for_spec 64 n ltac:(lia)).
    assert (blocks_for 64 n <= 2) by lia. assert (128 <= max_bits c) by (destruct Hc as [E|E]; unfold max_bits; rewrite E; vm_compute; discriminate). lia.
  - intros [[n x] y] l i (H1 & H2 & H3 & ->) Hi. rewrite Hlen by lia. cbn [words_get_block]. destruct (i * 64 <? n) eqn:E.
    + assert (Hi01 : i = 0 \/ i = 1) by lia. destruct Hi01 as [-> | ->]; cbn [N.eqb Pos.eqb]; eexists; (split; [reflexivity|]); (split; [assumption|]);
        intros j b Hj Hb; rewrite nthN_firstnN, nthN_app, lengthN_bits_of, !nthN_bits_of in Hb.
      * destruct (0 * 64 + j <? n); [|discriminate]. replace (0 * 64 + j <? 64) with true in Hb by lia. injection Hb as <-. f_equal.
      * destruct (1 * 64 + j <? n); [|discriminate]. replace (1 * 64 + j <? 64) with false in Hb by lia.
        replace (1 * 64 + j - 64) with j in Hb by lia. replace (j <? 64) with true in Hb by lia. now injection Hb as <-.
    + replace (i =? 0) with false by lia. replace (i =? 1) with false by lia. eexists. reflexivity.
Qed.
Example C92_ex : let B := bitvec_of_block dbg32 64 words_len words_get_block in let t : two_words := (70, 0x8000000000000001, 0xfffffffffffffff1) in
  lawful_bits dbg32 B R_words /\ right_get_block dbg32 64 R_words (bv_get_block B) /\ R_words t (firstnN 70 (bits_of 64 0x8000000000000001 ++ bits_of 64 0xfffffffffffffff1)) /\
  (r <- rank9_new dbg32 B t ;; br_rank1 (rank9_bitrank dbg32 B) r 69) = Ok 5 /\
  (r <- rank9_new dbg32 B t ;; br_rank1 (rank9_bitrank dbg32 B) r 127) = Ok 63 /\
  (r <- rank9_new dbg32 B t ;; bss_select dbg32 (br_rs (rank9_bitrank dbg32 B)) 65 r 4 true) = Ok (Some 69) /\
  (r <- rank9_new dbg32 B t ;; bss_select dbg32 (br_rs (rank9_bitrank dbg32 B)) 65 r 5 true) = Ok None /\
  (j <- jacobson_new dbg32 B t ;; bss_select dbg32 (br_rs (jacobson_bitrank dbg32 B)) 65 j 3 true) = Ok (Some 68).
Proof.
  cbv zeta. destruct (words_right dbg32 ltac:(auto with wf)) as [L K]. split; [apply C91_get_block; auto with wf|]. split; [exact K|].
  split; [split; [lia|]; split; [lia|]; split; [lia|]; vm_compute; reflexivity|]. repeat (split; [vm_compute; reflexivity|]). vm_compute. reflexivity.
Qed.
Print Assumptions C92_rank9.
Print Assumptions C92_jacobson_partial.
Print Assumptions C92_shown.
Print Assumptions C92_jacobson_refuted.
Print Assumptions C92_select.
