(** * Properties C73 and C74: alignment predicates of [IntVector] (src/int_vec/int_vector.rs), sizes of the rank
    directories (src/rank). *)
From Verif Require Import Machine MStorage MTraits MVectorBase MBitVector MIntVector MRank SpecBits SpecLaws SpecCfg SpecOps
  PBase PBits PVectorBase PIter PIntVector PIntRun PRank PRank9 Properties6.

(** C73. [is_aligned] says whether no element crosses a block boundary, [is_block_sized] whether elements are blocks. *)
Theorem C73_alignment : forall c nb k t ops v, wf_cfg c -> wf_nb nb -> 1 <= k <= nb ->
  iprogram_ok c nb k t ops -> iv_ends c nb k t ops v ->
  exists a, iv_is_aligned nb v = Ok a /\
    (a = true <-> forall i j j', i * k <= j -> j < (i + 1) * k -> i * k <= j' -> j' < (i + 1) * k -> j / nb = j' / nb) /\
    (iv_is_block_sized nb v = true <-> k = nb) /\
    (iv_is_block_sized nb v = true -> a = true).
Proof.
  intros c nb k t ops v Hc Hnb Hk O E. destruct (iv_ends_R c nb k Hc Hnb Hk t ops v O E) as [l [_ [B _]]].
  unfold iv_is_aligned, iv_is_block_sized. rewrite B. unfold wmod. destruct (k =? 0) eqn:E0; [lia|]. cbn [bind].
  eexists; split; [reflexivity|]. split; [|split; [apply N.eqb_eq|]].
  - rewrite N.eqb_eq. split.
    + intros H i j j' H1 H2 H3 H4. assert (G : forall j, i * k <= j -> j < (i + 1) * k -> j / nb = i / (nb / k)).
      { clear - Hk H. intros j H1 H2. pose proof (N.div_mod nb k ltac:(lia)) as D. rewrite H in D. set (q := nb / k) in *. assert (Eq : nb = k * q) by lia. clearbody q. clear D H.
        assert (q <> 0) by nia. rewrite Eq, <- (N.div_div j k q) by lia. f_equal. symmetry. apply (N.div_unique j k i (j - i * k)); lia. }
      rewrite !G; auto.
    + intros H. pose proof (N.div_mod nb k ltac:(lia)) as D. pose proof (N.mod_lt nb k ltac:(lia)) as L.
      set (q := nb / k) in *. set (r := nb mod k) in *. clearbody q r. destruct (N.eq_dec r 0) as [|Hr]; [assumption|exfalso].
      specialize (H q (q * k) nb ltac:(lia) ltac:(lia) ltac:(lia) ltac:(lia)).
      rewrite N.div_same, N.div_small in H by lia. discriminate.
  - rewrite N.eqb_eq. intros ->. apply N.eqb_eq, N.mod_same. lia.
Qed.
Example C73_ex : exists v w, snd (iv_program dbg64 64 4 100 INew [IPush 5; IPush 2]) = Ok v /\
  snd (iv_program dbg64 64 5 100 (IWithFill 30 7) []) = Ok w /\
  iv_is_aligned 64 v = Ok true /\ iv_is_block_sized 64 v = false /\ iv_is_aligned 64 w = Ok false /\
  12 * 5 / 64 <> (12 * 5 + 4) / 64.
Proof. do 2 eexists. repeat (split; [vm_compute; reflexivity|]). vm_compute. congruence. Qed.

(** C74. Rank9 keeps one cell of 128 bits for each eight blocks and one more: at most a quarter of the size of the
    store and two cells. *)
Theorem C74_rank9 : forall T c (B : bitvec T) (R : T -> list bool -> Prop) t l r,
  wf_cfg c -> bv_nb B = 64 -> lawful_bits c B R -> lawful_blocks c B R -> R t l -> rank9_new c B t = Ok r ->
  lengthN (r9_counts r) = blocks_for 64 (lengthN l) / 8 + 1 /\
  4 * (128 * lengthN (r9_counts r)) <= lengthN l + 4 * 144.
Proof.
  intros T c B R t l r Hc H64 LB LK HR Er.
  destruct (rank9_new_ok c B R Hc LB (block_reads c B R LK) H64 t l HR) as (r' & Er' & _ & _ & HL & _). rewrite Er in Er'. injection Er' as <-.
  assert (E : blocks_for 8 (blocks_for 64 (lengthN l) + 1) = blocks_for 64 (lengthN l) / 8 + 1).
  { unfold blocks_for at 1. replace (blocks_for 64 (lengthN l) + 1 + (8 - 1)) with (blocks_for 64 (lengthN l) + 1 * 8) by lia. apply N.div_add. lia. }
  rewrite HL, E. split; [reflexivity|]. pose proof (blocks_for_spec 64 (lengthN l) ltac:(lia)).
  pose proof (N.mul_div_le (blocks_for 64 (lengthN l)) 8 ltac:(lia)). lia.
Qed.
(** C74. Jacobson: absolute ranks for blocks of [ceil (log2 n) ^ 2] bits rounded up to a multiple of the block size, relative
    ranks for each block, in entries as narrow as their values permit; one more entry in each table. *)
Theorem C74_jacobson : forall T c (B : bitvec T) (R : T -> list bool -> Prop) t l j,
  wf_cfg c -> lawful_bits c B R -> lawful_blocks c B R -> R t l ->
  jacobson_new c B t = Ok j ->
  let n := lengthN l in let nb := bv_nb B in let lg := N.log2_up n in
  let big := nb * blocks_for nb (lg * lg) in
  jr_large_block_size j = big /\
  iv_bits (jr_large j) = N.log2_up (n + 1) /\ iv_len (jr_large j) = blocks_for big n + 1 /\
  iv_bits (jr_small j) = N.log2_up (big + 1) /\ iv_len (jr_small j) = blocks_for nb n + 1.
Proof.
  intros T c B R t l j Hc LB LK HR Ej.
  destruct (N.le_gt_cases (lengthN l) 1) as [H1|H1]; [destruct (jac_new_small c B R t l Hc LB HR H1) as [k E]; congruence|]. assert (H2 : 2 <= lengthN l) by lia. clear H1.
  destruct (jac_new_exact c B R Hc LB (block_reads c B R LK) t l HR H2) as [(j' & Ej' & _ & _ & (S1 & S2 & S3 & S4 & S5) & _)|[[k E] _]]; [|congruence]. rewrite Ej in Ej'. injection Ej' as <-.
  cbv zeta. repeat split; auto. rewrite S3. f_equal.
  pose proof (wf_nb_range _ (lb_nb c B R LB)). set (nb := bv_nb B) in *. set (n := lengthN l) in *.
  assert (1 <= N.log2_up n) by (pose proof (N.log2_up_pos n ltac:(lia)); lia).
  pose proof (blocks_for_spec nb (N.log2_up n * N.log2_up n) ltac:(lia)). set (spl := blocks_for nb (N.log2_up n * N.log2_up n)) in *. clearbody spl.
  assert (Hs : 1 <= spl) by (set (lg := N.log2_up n) in *; clearbody lg; destruct (N.eq_dec spl 0) as [->|]; [nia|lia]). clear S2 S3 S4 S5 S1 Ej HR. unfold blocks_for.
  rewrite <- (N.div_add (n + (nb - 1)) (spl - 1) nb) by lia. rewrite N.div_div by lia. f_equal. clear - Hs H. nia.
Qed.
Example C74_ex : wf_cfg dbg64 /\ R_blocks dbg64 64 (repeatN 5 20) (bits_of_blocks 64 (repeatN 5 20)) /\
  (exists r, rank9_new dbg64 (blocks_bitvec dbg64 64) (repeatN 5 20) = Ok r /\ lengthN (r9_counts r) = 3) /\
  exists j, jacobson_new dbg64 (blocks_bitvec dbg64 64) (repeatN 5 20) = Ok j /\ jr_large_block_size j = 128 /\
    iv_bits (jr_large j) = 11 /\ iv_len (jr_large j) = 11 /\ iv_bits (jr_small j) = 8 /\ iv_len (jr_small j) = 21.
Proof.
  split; [auto with wf|]. split; [split; [reflexivity|]; split; [vm_compute; repeat constructor|vm_compute; congruence]|].
  split; eexists; (split; [vm_compute; reflexivity|]); vm_compute; repeat split.
Qed.

Print Assumptions C73_alignment.
Print Assumptions C74_rank9.
Print Assumptions C74_jacobson.
