(** * Property C101: how much room the rank directories take, next to the bits that they count (src/rank/jacobson.rs,
    src/rank/rank9.rs), and packed integers, next to their values (src/int_vec/int_vector.rs). *)
From Verif Require Import Machine MStorage MTraits MVectorBase MBitVector MIntVector MRank SpecBits SpecLaws SpecCfg SpecOps
  PBase PBits PBlocks PVectorBase PVectorBase2 PIter PIntVector PIntRun PRank PRank9 Properties6 Properties16.

(** The bits of the words that hold the two tables of a [JacobsonRank] ([IntVector<u64>]s). *)
Definition jacobson_directory_bits {T} (j : jacobson T) : N :=
  64 * lengthN (vb_vec (iv_base (jr_large j))) + 64 * lengthN (vb_vec (iv_base (jr_small j))).
(** The bits of the cells of a [RankSupport9]. *)
Definition rank9_directory_bits {T} (r : rank9 T) : N := 128 * lengthN (r9_counts r).

(** Packed integers take no more blocks than their bits need. *)
Theorem C101_int_vector : forall c nb k t ops v, wf_cfg c -> wf_nb nb -> 1 <= k <= nb ->
  iprogram_ok c nb k t ops -> iv_ends c nb k t ops v ->
  exists n, iv_block_len v = Ok n /\ iv_len v * k <= n * nb < iv_len v * k + nb.
Proof.
  intros c nb k t ops v Hc Hnb Hk O E. pose proof (wf_nb_range nb Hnb). destruct (iv_ends_R c nb k Hc Hnb Hk t ops v O E) as [l [_ [B [[V [L _]] _]]]].
  exists (lengthN (vb_vec (iv_base v))). split; [reflexivity|]. rewrite V, lengthN_pack. unfold iv_len. rewrite L. apply blocks_for_spec. lia.
Qed.

Lemma jac_directory : forall T c (B : bitvec T) (R : T -> list bool -> Prop) t l j,
  wf_cfg c -> lawful_bits c B R -> lawful_blocks c B R -> R t l -> jacobson_new c B t = Ok j ->
  2 <= lengthN l /\ lengthN l <= 2 ^ 63 /\
  lengthN (vb_vec (iv_base (jr_large j))) = blocks_for 64 (iv_len (jr_large j) * iv_bits (jr_large j)) /\
  lengthN (vb_vec (iv_base (jr_small j))) = blocks_for 64 (iv_len (jr_small j) * iv_bits (jr_small j)).
Proof.
  intros T c B R t l j Hc LB LK HR Ej.
  destruct (N.le_gt_cases (lengthN l) 1) as [H1|H1]; [destruct (jac_new_small c B R t l Hc LB HR H1) as [k E]; congruence|]. assert (H2 : 2 <= lengthN l) by lia. clear H1.
  destruct (jac_new_exact c B R Hc LB (block_reads c B R LK) t l HR H2) as [(j' & Ej' & _ & J & _)|[[k E] _]]; [|congruence]. rewrite Ej in Ej'. injection Ej' as <-.
  split; [assumption|]. split. { pose proof (wf_nb_range _ (lb_nb c B R LB)). apply (fits_lt64 c (bv_nb B)); [lia|]. apply (lb_fits c B R LB _ _ HR). }
  destruct J as (_ & spl & m & k1 & k2 & _ & _ & _ & _ & _ & [x1 [B1 [[V1 [L1 _]] _]]] & [x2 [B2 [[V2 [L2 _]] _]]]).
  unfold iv_len. rewrite V1, V2, !lengthN_pack, <- L1, <- L2, B1, B2. split; reflexivity.
Qed.

(** [JacobsonRank]: a logarithm for each [log^2] bits, and at most 12 bits for each block. *)
Theorem C101_jacobson : forall T c (B : bitvec T) (R : T -> list bool -> Prop) t l j,
  wf_cfg c -> lawful_bits c B R -> lawful_blocks c B R -> R t l -> jacobson_new c B t = Ok j ->
  let n := lengthN l in let lg := N.log2_up n in
  jacobson_directory_bits j <= (lg + 1) * (n / (lg * lg) + 2) + 12 * (n / bv_nb B + 2) + 126.
Proof.
  intros T c B R t l j Hc LB LK HR Ej. cbv zeta. destruct (jac_directory T c B R t l j Hc LB LK HR Ej) as (Hn2 & Hn63 & EL & ES).
  pose proof (C74_jacobson T c B R t l j Hc LB LK HR Ej) as K. cbv zeta in K. destruct K as (_ & K1 & K2 & K3 & K4).
  unfold jacobson_directory_bits. rewrite EL, ES, K1, K2, K3, K4. clear EL ES K1 K2 K3 K4 Ej HR LK.
  pose proof (jac_width (bv_nb B) (lengthN l) (lb_nb c B R LB) Hn63) as W. pose proof (wf_nb_range _ (lb_nb c B R LB)) as Hr. clear LB.
  set (nb := bv_nb B) in *. set (n := lengthN l) in *. clearbody nb n.
  assert (Hlg1 : 1 <= N.log2_up n) by (apply N.le_succ_l with (n := 0), N.log2_up_pos; lia).
  assert (Hk1a : N.log2_up (n + 1) <= N.log2_up n + 1).
  { apply log2_up_le. rewrite N.pow_add_r. change (2 ^ 1) with 2. pose proof (log2_up_pow n). lia. }
  set (k1 := N.log2_up (n + 1)) in *. set (lg := N.log2_up n) in *. clearbody k1 lg.
  pose proof (blocks_for_spec nb (lg * lg) ltac:(lia)) as Hb. set (spl := blocks_for nb (lg * lg)) in *. set (k2 := N.log2_up (nb * spl + 1)) in *. clearbody k2.
  assert (Hsq : 0 < lg * lg) by nia. set (sq := lg * lg) in *. clearbody sq.
  assert (B1 : blocks_for (nb * spl) n <= n / sq + 1).
  { pose proof (blocks_for_spec (nb * spl) n ltac:(lia)) as [_ H]. set (big := nb * spl) in *. assert (Hbig : sq <= big) by (subst big; lia). clearbody big.
    pose proof (N.div_mod n sq ltac:(lia)) as D. pose proof (N.mod_lt n sq ltac:(lia)) as M. set (q := n / sq) in *. set (r := n mod sq) in *. set (x := blocks_for big n) in *. clearbody x q r.
    destruct (N.le_gt_cases x (q + 1)) as [|G]; [assumption|exfalso]. assert ((q + 2) * big <= x * big) by (apply N.mul_le_mono_r; lia).
    assert ((q + 1) * sq <= (q + 1) * big) by (apply N.mul_le_mono_l; lia). lia. }
  assert (B2 : blocks_for nb n <= n / nb + 1).
  { unfold blocks_for. replace (n + (nb - 1)) with (nb - 1 + n) by lia. etransitivity; [apply N.div_le_mono with (b := n + 1 * nb); lia|]. rewrite N.div_add by lia. lia. }
  set (x1 := blocks_for (nb * spl) n) in *. set (x2 := blocks_for nb n) in *. set (y1 := n / sq) in *. set (y2 := n / nb) in *. clearbody x1 x2 y1 y2.
  pose proof (blocks_for_spec 64 ((x1 + 1) * k1) ltac:(lia)) as S1. pose proof (blocks_for_spec 64 ((x2 + 1) * k2) ltac:(lia)) as S2.
  set (z1 := blocks_for 64 ((x1 + 1) * k1)) in *. set (z2 := blocks_for 64 ((x2 + 1) * k2)) in *. clearbody z1 z2.
  assert ((x1 + 1) * k1 <= (lg + 1) * (y1 + 2)) by (rewrite (N.mul_comm (lg + 1)); apply N.mul_le_mono; lia).
  assert ((x2 + 1) * k2 <= 12 * (y2 + 2)) by (rewrite (N.mul_comm 12); apply N.mul_le_mono; lia). lia.
Qed.

(** Over words of 64 bits: less than three tenths of the data from 2^16 bits on. *)
Theorem C101_jacobson_words : forall T c (B : bitvec T) (R : T -> list bool -> Prop) t l j,
  wf_cfg c -> lawful_bits c B R -> lawful_blocks c B R -> R t l -> jacobson_new c B t = Ok j ->
  bv_nb B = 64 -> 2 ^ 16 <= lengthN l -> 10 * jacobson_directory_bits j < 3 * lengthN l.
Proof.
  intros T c B R t l j Hc LB LK HR Ej H64 Hn. pose proof (C101_jacobson T c B R t l j Hc LB LK HR Ej) as K. cbv zeta in K. rewrite H64 in K.
  destruct (jac_directory T c B R t l j Hc LB LK HR Ej) as (_ & Hn63 & _). clear HR Ej LB LK.
  set (D := jacobson_directory_bits j) in *. set (n := lengthN l) in *. clearbody D n.
  assert (L1 : 16 <= N.log2_up n) by (rewrite <- (N.log2_up_pow2 16) by lia; apply N.log2_up_le_mono; exact Hn).
  assert (L2 : N.log2_up n <= 63) by (apply log2_up_le; exact Hn63). set (lg := N.log2_up n) in *. clearbody lg.
  pose proof (N.mul_div_le n (lg * lg) ltac:(nia)) as D1. pose proof (N.mul_div_le n 64 ltac:(lia)) as D2.
  set (y1 := n / (lg * lg)) in *. set (y2 := n / 64) in *. clearbody y1 y2.
  (* (lg + 1) / lg^2 <= 17 / 256 *)
  assert (D3 : 256 * ((lg + 1) * y1) <= 17 * n).
  { transitivity (17 * (lg * lg * y1)); [|lia]. rewrite !N.mul_assoc. apply N.mul_le_mono_r. nia. }
  change (2 ^ 16) with 65536 in Hn. rewrite N.mul_add_distr_l in K. set (a := (lg + 1) * y1) in *. assert ((lg + 1) * 2 <= 128) by lia. clearbody a. lia.
Qed.

(** Over bytes the directory is larger than the data, from 1025 bits on. *)
Theorem C101_jacobson_bytes : forall T c (B : bitvec T) (R : T -> list bool -> Prop) t l j,
  wf_cfg c -> lawful_bits c B R -> lawful_blocks c B R -> R t l -> jacobson_new c B t = Ok j ->
  bv_nb B = 8 -> 2 ^ 10 < lengthN l -> lengthN l < jacobson_directory_bits j.
Proof.
  intros T c B R t l j Hc LB LK HR Ej H8 Hn. destruct (jac_directory T c B R t l j Hc LB LK HR Ej) as (Hn2 & Hn63 & EL & ES).
  pose proof (C74_jacobson T c B R t l j Hc LB LK HR Ej) as K. cbv zeta in K. rewrite H8 in K. destruct K as (_ & _ & _ & K3 & K4).
  unfold jacobson_directory_bits. rewrite ES, K3, K4. clear EL ES K3 K4 Ej HR LK LB. set (n := lengthN l) in *. clearbody n.
  assert (L1 : 11 <= N.log2_up n). { replace 11 with (N.log2_up (2 ^ 10 + 1)) by reflexivity. apply N.log2_up_le_mono. lia. }
  set (lg := N.log2_up n) in *. clearbody lg. pose proof (blocks_for_spec 8 (lg * lg) ltac:(lia)) as Hb. set (spl := blocks_for 8 (lg * lg)) in *. clearbody spl.
  assert (W : 8 <= N.log2_up (8 * spl + 1)). { replace 8 with (N.log2_up 129) at 1 by reflexivity. apply N.log2_up_le_mono. nia. }
  set (k2 := N.log2_up (8 * spl + 1)) in *. clearbody k2. pose proof (blocks_for_spec 8 n ltac:(lia)) as Hx. set (x := blocks_for 8 n) in *. clearbody x.
  pose proof (blocks_for_spec 64 ((x + 1) * k2) ltac:(lia)) as S2. set (z := blocks_for 64 ((x + 1) * k2)) in *. clearbody z.
  assert ((x + 1) * 8 <= (x + 1) * k2) by (apply N.mul_le_mono_l; lia). lia.
Qed.

(** [RankSupport9]: two words for eight words of data, whatever its length. *)
Theorem C101_rank9 : forall T c (B : bitvec T) (R : T -> list bool -> Prop) t l r,
  wf_cfg c -> bv_nb B = 64 -> lawful_bits c B R -> lawful_blocks c B R -> R t l -> rank9_new c B t = Ok r ->
  lengthN l < 4 * rank9_directory_bits r <= lengthN l + 4 * 144.
Proof.
  intros T c B R t l r Hc H64 LB LK HR Er. destruct (C74_rank9 T c B R t l r Hc H64 LB LK HR Er) as [E1 E2]. unfold rank9_directory_bits. split; [|exact E2].
  rewrite E1. pose proof (blocks_for_spec 64 (lengthN l) ltac:(lia)). set (b := blocks_for 64 (lengthN l)) in *. clearbody b.
  pose proof (N.div_mod b 8 ltac:(lia)). pose proof (N.mod_lt b 8 ltac:(lia)). lia.
Qed.

Example C101_ex : wf_cfg dbg64 /\ R_blocks dbg64 8 (repeatN 5 130) (bits_of_blocks 8 (repeatN 5 130)) /\ 2 ^ 10 < lengthN (bits_of_blocks 8 (repeatN 5 130)) /\
  (exists j, jacobson_new dbg64 (blocks_bitvec dbg64 8) (repeatN 5 130) = Ok j /\ jacobson_directory_bits j = 1216 /\ 1216 > 130 * 8) /\
  R_blocks rel32 64 (repeatN 77 1024) (bits_of_blocks 64 (repeatN 77 1024)) /\ 2 ^ 16 <= lengthN (bits_of_blocks 64 (repeatN 77 1024)) /\
  (exists j, jacobson_new rel32 (blocks_bitvec rel32 64) (repeatN 77 1024) = Ok j /\ jacobson_directory_bits j = 13696 /\ 10 * 13696 < 3 * 2 ^ 16) /\
  (exists r, rank9_new rel32 (blocks_bitvec rel32 64) (repeatN 77 1024) = Ok r /\ rank9_directory_bits r = 16512) /\
  exists v, snd (iv_program dbg64 64 5 100 (IWithFill 30 7) []) = Ok v /\ iv_block_len v = Ok 3 /\ iv_len v * 5 = 150.
Proof.
  split; [auto with wf|]. split; [apply R_blocks_valid; [lia|]; split; [apply Forall_repeatN; reflexivity|vm_compute; congruence]|].
  split; [rewrite lengthN_bits_of_blocks, lengthN_repeatN; reflexivity|]. split; [eexists; split; [vm_compute; reflexivity|]; vm_compute; repeat split|].
  split; [apply R_blocks_valid; [lia|]; split; [apply Forall_repeatN; reflexivity|vm_compute; congruence]|].
  split; [rewrite lengthN_bits_of_blocks, lengthN_repeatN; vm_compute; congruence|]. split; [eexists; split; [vm_compute; reflexivity|]; vm_compute; repeat split|].
  split; eexists; (split; [vm_compute; reflexivity|]); vm_compute; repeat split.
Qed.

Print Assumptions C101_int_vector.
Print Assumptions C101_jacobson.
Print Assumptions C101_jacobson_words.
Print Assumptions C101_jacobson_bytes.
Print Assumptions C101_rank9.
