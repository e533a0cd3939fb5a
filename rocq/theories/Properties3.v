(** * Properties C13-C15 and C61: [BitVector] (src/bit_vec/bit_vector.rs,
    src/internal/vector_base.rs, src/bit_vec/traits.rs). *)
From Verif Require Import SpecCfg SpecOps PRun PLong.

(** ** C13: a [BitVector] program delivers what a program on a list of booleans delivers.
    [bprogram_ok] bounds the arguments by their Rust types and leaves out the calls that are the
    subject of C11, C15, C24 and C64. *)
Theorem C13_bitvector_is_a_list : forall c nb t ops,
  wf_cfg c -> wf_nb nb -> bprogram_ok c nb t ops ->
  exists n0, forall fuel, (n0 <= fuel)%nat ->
    fst (bvec_program c nb fuel t ops) = fst (spec_bprogram c nb t ops) /\
    match snd (spec_bprogram c nb t ops) with
    | Some l => exists v, snd (bvec_program c nb fuel t ops) = Ok v
    | None => panics (snd (bvec_program c nb fuel t ops))
    end.
Proof.
  intros c nb t ops Hc Hnb Hok. destruct (bvec_program_sim c nb Hc Hnb t ops Hok) as [n0 H].
  exists n0. intros fuel Hf. destruct (H fuel Hf) as [H1 H2]. split; [exact H1|].
  destruct (snd (spec_bprogram c nb t ops)); [|exact H2]. destruct H2 as [v [E _]]. now exists v.
Qed.

Definition C13_ops : list bop :=
  [ BPushBit true; BPushBit false; BPushBlock 181; BSetBits 6 7 85; BGetBits 3 8; BSetBit 15 true;
    BResize 27 true; BSetBlock 3 255; BGetBlock 3; BPopBit; BBitLen; BBlockResize 2 0; BIter;
    BAlignBlock true; BTruncate 11; BPushBit true; BGetBit 11; BBlockLen; BBlockTruncate 1; BGetBit 8 ].
Example C13_ex :
  bprogram_ok dbg32 8 (BWithFill 5 true) C13_ops /\
  bvec_program dbg32 8 100 (BWithFill 5 true) C13_ops =
  ([OUnit; OUnit; OUnit; OUnit; OInt 175; OUnit; OUnit; OUnit; OInt 7; OOptBool (Some true); OInt 26; OUnit;
    OBools [true; true; true; true; true; true; true; false; true; false; true; false; true; true; false; true];
    OUnit; OUnit; OUnit; OBool true; OInt 2; OUnit], Panic PAssert) /\
  spec_bprogram dbg32 8 (BWithFill 5 true) C13_ops = (fst (bvec_program dbg32 8 100 (BWithFill 5 true) C13_ops), None).
Proof. split; [|split; vm_compute; reflexivity]. split; vm_compute; intuition congruence. Qed.

(** ** C14: equality (derived, over the representation) is equality of the bits, whatever the
    histories; the unused bits of the last block are zero. *)
Theorem C14_bitvector_eq : forall c nb t1 ops1 v1 l1 t2 ops2 v2 l2,
  wf_cfg c -> wf_nb nb ->
  bprogram_ok c nb t1 ops1 -> bvec_ends c nb t1 ops1 v1 -> snd (spec_bprogram c nb t1 ops1) = Some l1 ->
  bprogram_ok c nb t2 ops2 -> bvec_ends c nb t2 ops2 v2 -> snd (spec_bprogram c nb t2 ops2) = Some l2 ->
  (bvec_eq v1 v2 = true <-> l1 = l2).
Proof.
  intros c nb t1 ops1 v1 l1 t2 ops2 v2 l2 Hc Hnb O1 E1 S1 O2 E2 S2. pose proof (wf_nb_range nb Hnb).
  destruct (bvec_ends_R c nb t1 ops1 v1 Hc Hnb O1 E1) as [l1' [S1' R1]]. rewrite S1 in S1'. injection S1' as <-.
  destruct (bvec_ends_R c nb t2 ops2 v2 Hc Hnb O2 E2) as [l2' [S2' R2]]. rewrite S2 in S2'. injection S2' as <-.
  unfold bvec_eq. rewrite vb_eq_spec. split.
  - intros ->. eapply (Vrep_inj c nb 1); eauto; lia.
  - intros ->. eapply (Vrep_fun c nb 1); eauto; lia.
Qed.

Theorem C14_unused_bits_are_zero : forall c nb t ops v l,
  wf_cfg c -> wf_nb nb ->
  bprogram_ok c nb t ops -> bvec_ends c nb t ops v -> snd (spec_bprogram c nb t ops) = Some l ->
  lengthN (vb_vec v) = blocks_for nb (lengthN l) /\
  bits_of_blocks nb (vb_vec v) = l ++ repeatN false (padding nb (lengthN l)).
Proof.
  intros c nb t ops v l Hc Hnb O E S. pose proof (wf_nb_range nb Hnb).
  destruct (bvec_ends_R c nb t ops v Hc Hnb O E) as [l' [S' [R _]]]. rewrite S in S'. injection S' as <-.
  rewrite R, lengthN_pack. split; [reflexivity|]. rewrite bits_of_blocks_pack by lia. apply full_app. lia.
Qed.

Example C14_ex : exists v1 v2,
  snd (bvec_program rel64 16 100 BNew [BPushBit true; BPushBit true; BPushBit false; BPushBit true; BTruncate 3]) = Ok v1 /\
  snd (bvec_program rel64 16 100 (BBlockWithFill 2 65535) [BResize 2 false; BPushBit false]) = Ok v2 /\
  bvec_eq v1 v2 = true /\ vb_vec v1 = [3].
Proof. do 2 eexists. repeat (split; [vm_compute; reflexivity|]). vm_compute; reflexivity. Qed.

(** ** C15: sizes are honoured or rejected, except for the sizes within a block of 2^64 in
    builds without overflow checks. *)
Theorem C15_with_fill_partial : forall c nb n b,
  wf_cfg c -> wf_nb nb -> n < 2 ^ 64 -> n + nb <= 2 ^ 64 \/ debug c = true ->
  (exists v, bvec_with_fill c nb n b = Ok v /\ bvec_bit_len v = Ok n) \/ panics (bvec_with_fill c nb n b).
Proof.
  intros c nb n b Hc Hnb Hn Ho. destruct (fits_dec c nb Hc Hnb n) as [F|F].
  - left. destruct (bvec_with_fill_ok c nb Hc Hnb n b F) as [v [E R]]. exists v. split; [exact E|].
    rewrite (bvec_bit_len_ok c nb Hc Hnb v _ R). now rewrite lengthN_repeatN.
  - right. now apply bvec_with_fill_full.
Qed.
Theorem C15_resize_partial : forall c nb t ops v n b,
  wf_cfg c -> wf_nb nb -> bprogram_ok c nb t ops -> bvec_ends c nb t ops v ->
  n < 2 ^ 64 -> n + nb <= 2 ^ 64 \/ debug c = true ->
  (exists v', bvec_resize c nb v n b = Ok v' /\ bvec_bit_len v' = Ok n) \/ panics (bvec_resize c nb v n b).
Proof.
  intros c nb t ops v n b Hc Hnb O E Hn Ho.
  destruct (bvec_ends_R c nb t ops v Hc Hnb O E) as [l [_ R]]. destruct (fits_dec c nb Hc Hnb n) as [F|F].
  - left. destruct (bvec_resize_ok c nb Hc Hnb v l n b R F) as [v' [E' R']]. exists v'. split; [exact E'|].
    rewrite (bvec_bit_len_ok c nb Hc Hnb v' _ R'). now rewrite lengthN_fit.
  - right. now apply (bvec_resize_full c nb Hc Hnb v l).
Qed.
Theorem C15_with_fill_refuted : exists c nb n b v,
  wf_cfg c /\ wf_nb nb /\ n < 2 ^ 64 /\ bvec_with_fill c nb n b = Ok v /\ bvec_bit_len v <> Ok n.
Proof.
  exists rel64, 64, (2 ^ 64 - 1), true, {| vb_len := 0; vb_vec := [] |}.
  repeat split; auto with wf; vm_compute; congruence.
Qed.
Theorem C15_resize_refuted : exists c nb n b v v',
  wf_cfg c /\ wf_nb nb /\ n < 2 ^ 64 /\ bvec_ends c nb BNew [BPushBit true; BPushBit false] v /\
  bvec_resize c nb v n b = Ok v' /\ bvec_bit_len v' = Ok 0.
Proof.
  exists rel64, 32, (2 ^ 64 - 1), false, {| vb_len := 2; vb_vec := [1] |}, {| vb_len := 0; vb_vec := [] |}.
  repeat split; auto with wf. exists 0%nat. intros. vm_compute. reflexivity.
Qed.
Example C15_ex :
  bvec_with_fill dbg32 64 (2 ^ 64 - 1) true = Panic POverflow /\
  (exists v, bvec_with_fill rel32 8 19 true = Ok v /\ vb_vec v = [255; 255; 7]).
Proof. split; [vm_compute; reflexivity|]. eexists; split; vm_compute; reflexivity. Qed.

(** ** C61: [push_block] (overridden for [BitVector]) and the default bit-by-bit one have the same
    effect, the one of padding with zeros and appending the bits; [align_block] terminates. *)
Theorem C61_push_block : forall c nb t ops v l x,
  wf_cfg c -> wf_nb nb -> bprogram_ok c nb t ops -> bvec_ends c nb t ops v ->
  snd (spec_bprogram c nb t ops) = Some l -> x < 2 ^ nb ->
  let l' := l ++ repeatN false (padding nb (lengthN l)) ++ bits_of nb x in
  if fitsb c nb (lengthN l') then
    exists v', bvec_push_block c nb v x = Ok v' /\
      bvec_bit_len v' = Ok (lengthN l') /\
      (forall i b, nthN l' i = Some b -> bvec_get_bit c nb v' i = Ok b) /\
      exists n0, forall fuel, (n0 <= fuel)%nat ->
        default_push_block c nb bvec_bit_len (bvec_push_bit c nb) fuel v x = Ok v'
  else
    panics (bvec_push_block c nb v x) /\
      exists n0, forall fuel, (n0 <= fuel)%nat ->
        panics (default_push_block c nb bvec_bit_len (bvec_push_bit c nb) fuel v x).
Proof.
  intros c nb t ops v l x Hc Hnb O E S Hx l'. pose proof (wf_nb_range nb Hnb) as Hr.
  destruct (bvec_ends_R c nb t ops v Hc Hnb O E) as [l0 [S' HR]]. rewrite S in S'. injection S' as <-.
  assert (El : lengthN l' = blocks_for nb (lengthN l) * nb + nb).
  { unfold l'. rewrite !lengthN_app, lengthN_repeatN, lengthN_bits_of. rewrite N.add_assoc, padding_spec; lia. }
  assert (Eb : blocks_for nb (lengthN l') = blocks_for nb (lengthN l) + 1).
  { rewrite El. replace (blocks_for nb (lengthN l) * nb + nb) with ((blocks_for nb (lengthN l) + 1) * nb) by lia.
    apply blocks_for_mul. lia. }
  pose proof (R_bv_fits c nb v l HR) as Hfit.
  assert (Epad : lengthN l + padding nb (lengthN l) + nb = lengthN l') by (rewrite padding_spec; lia).
  assert (Hmono : forall m n, m <= n -> fits c nb n -> fits c nb m).
  { intros m n Hmn Hn. apply (fits_mono c nb m n); auto. lia. }
  destruct (fitsb c nb (lengthN l')) eqn:F.
  - apply fitsb_spec in F. destruct (bvec_push_block_ok c nb Hc Hnb v l x HR Hx) as [v' [E' R']].
    { unfold fits in F. rewrite Eb in F. exact F. }
    fold l' in R'. exists v'. split; [exact E'|]. split; [now apply (bvec_bit_len_ok c nb Hc Hnb)|].
    split; [intros i b Hi; eapply vb_get_bit_ok; eauto|].
    exists 65%nat. intros fuel Hf.
    destruct (def_push_block c nb Hc Hnb bvec_bit_len (bvec_push_bit c nb) (R_bv c nb) (fits c nb)
      (bvec_bit_len_ok c nb Hc Hnb) (fun t0 l1 b0 => vb_push_bit_ok c nb Hc Hnb t0 l1 b0) Hmono fuel v l x HR) as [v2 [E2 R2]].
    + pose proof (padding_lt c nb Hc Hnb (lengthN l)). lia.
    + now rewrite Epad.
    + rewrite E2. f_equal. eapply (Vrep_fun c nb 1); eauto. lia.
  - apply fitsb_false in F. split.
    + eapply vb_push_block_full; eauto; try lia. unfold fits in F. rewrite Eb in F. lia.
    + exists 65%nat. intros fuel Hf.
      eapply (def_push_block_full c nb Hc Hnb bvec_bit_len (bvec_push_bit c nb) (R_bv c nb) (fits c nb)); eauto.
      * apply bvec_bit_len_ok; auto.
      * intros. now apply vb_push_bit_ok.
      * intros. eapply vb_push_bit_full; eauto.
      * apply (fits_dec c nb Hc Hnb).
      * pose proof (padding_lt c nb Hc Hnb (lengthN l)). lia.
      * now rewrite Epad.
Qed.
Theorem C61_align_block : forall c nb t ops v l b,
  wf_cfg c -> wf_nb nb -> bprogram_ok c nb t ops -> bvec_ends c nb t ops v ->
  snd (spec_bprogram c nb t ops) = Some l ->
  exists v' n0, forall fuel, (n0 <= fuel)%nat -> bvec_align_block c nb fuel v b = Ok v' /\
    lengthN (l ++ repeatN b (padding nb (lengthN l))) mod nb = 0 /\
    bvec_bit_len v' = Ok (lengthN (l ++ repeatN b (padding nb (lengthN l)))) /\
    (forall i x, nthN (l ++ repeatN b (padding nb (lengthN l))) i = Some x -> bvec_get_bit c nb v' i = Ok x).
Proof.
  intros c nb t ops v l b Hc Hnb O E S. pose proof (wf_nb_range nb Hnb) as Hr.
  destruct (bvec_ends_R c nb t ops v Hc Hnb O E) as [l0 [S' HR]]. rewrite S in S'. injection S' as <-.
  pose proof (padding_lt c nb Hc Hnb (lengthN l)) as Hp.
  destruct (bvec_align_block_ok c nb Hc Hnb 65 v l b HR) as [v' [_ R']]; [lia|].
  exists v', 65%nat. intros fuel Hf.
  destruct (bvec_align_block_ok c nb Hc Hnb fuel v l b HR) as [v2 [E2 R2]]; [lia|].
  assert (v2 = v') as -> by (eapply (Vrep_fun c nb 1); eauto; lia).
  split; [exact E2|]. split; [|split].
  - rewrite lengthN_app, lengthN_repeatN, padding_spec by lia. now rewrite N.mod_mul by lia.
  - now apply (bvec_bit_len_ok c nb Hc Hnb).
  - intros i x Hi. eapply vb_get_bit_ok; eauto.
Qed.
Example C61_ex : exists v v',
  snd (bvec_program rel64 8 100 BNew [BPushBit true; BPushBit false; BPushBit true]) = Ok v /\
  bvec_push_block rel64 8 v 181 = Ok v' /\ vb_vec v' = [5; 181] /\
  default_push_block rel64 8 bvec_bit_len (bvec_push_bit rel64 8) 10 v 181 = Ok v' /\
  (exists v2, bvec_align_block rel64 8 10 v true = Ok v2 /\ vb_vec v2 = [253]).
Proof. do 2 eexists. repeat (split; [vm_compute; reflexivity|]). eexists; split; vm_compute; reflexivity. Qed.

(** ** C64: spans longer than a block.  They are rejected when they reach into a third block, and
    with overflow checks also when they start at a block boundary; other spans longer than a
    block are silently cut to a block (or garbled, without overflow checks, when they start at a
    block boundary). *)
Theorem C64_long_spans_partial : forall c nb t ops v l s n x,
  wf_cfg c -> wf_nb nb -> bprogram_ok c nb t ops -> bvec_ends c nb t ops v ->
  snd (spec_bprogram c nb t ops) = Some l ->
  s + n <= lengthN l -> nb < n -> n < 2 ^ ptr c ->
  2 * nb < s mod nb + n \/ (s mod nb = 0 /\ debug c = true) ->
  panics (bvec_get_bits c nb v s n) /\ panics (bvec_set_bits c nb v s n x).
Proof.
  intros c nb t ops v l s n x Hc Hnb O E S H1 H2 H3 H4.
  destruct (bvec_ends_R c nb t ops v Hc Hnb O E) as [l0 [S' HR]]. rewrite S in S'. injection S' as <-.
  assert (Hblk : forall i, i * nb < lengthN l -> bvec_get_block v i = Ok (block_of nb i l))
    by (intros i Hi; eapply vb_get_block_ok; eauto).
  pose proof (bvec_bit_len_ok c nb Hc Hnb v l HR). pose proof (R_bv_fits c nb v l HR).
  split; [apply (long_get c nb bvec_bit_len bvec_get_block (bvec_set_block c nb) v l)|apply (long_set c nb bvec_bit_len bvec_get_block (bvec_set_block c nb) v l)];
    auto; tauto.
Qed.
Theorem C64_long_spans_refuted : exists c nb v l s n r,
  wf_cfg c /\ wf_nb nb /\ bvec_ends c nb (BBlockWithFill 3 165) [] v /\
  snd (spec_bprogram c nb (BBlockWithFill 3 165) []) = Some l /\
  s + n <= lengthN l /\ nb < n /\
  bvec_get_bits c nb v s n = Ok r /\ r <> int_of (sub s n l).
Proof.
  exists dbg64, 8, {| vb_len := 24; vb_vec := [165; 165; 165] |}, (bits_of_blocks 8 [165; 165; 165]), 3, 12, 180.
  repeat split; auto with wf; try (vm_compute; congruence). exists 0%nat. intros. vm_compute. reflexivity.
Qed.
Theorem C64_long_write_refuted : exists c nb v v' s n x i,
  wf_cfg c /\ wf_nb nb /\ bvec_ends c nb (BWithFill 24 true) [] v /\ s + n <= 24 /\ nb < n /\
  bvec_set_bits c nb v s n x = Ok v' /\ i < n /\ bvec_get_bit c nb v' (s + i) <> Ok (N.testbit x i).
Proof.
  exists rel64, 8, {| vb_len := 24; vb_vec := [255; 255; 255] |}, {| vb_len := 24; vb_vec := [1; 1; 255] |}, 0, 16, 1, 8.
  repeat split; auto with wf; try (vm_compute; congruence). exists 0%nat. intros. vm_compute. reflexivity.
Qed.
Example C64_ex : panics (bvec_get_bits rel64 8 {| vb_len := 24; vb_vec := [165; 165; 165] |} 3 14).
Proof. eexists. vm_compute. reflexivity. Qed.

Print Assumptions C13_bitvector_is_a_list.
Print Assumptions C14_bitvector_eq.
Print Assumptions C14_unused_bits_are_zero.
Print Assumptions C15_with_fill_partial.
Print Assumptions C15_resize_partial.
Print Assumptions C15_with_fill_refuted.
Print Assumptions C15_resize_refuted.
Print Assumptions C61_push_block.
Print Assumptions C61_align_block.
Print Assumptions C64_long_spans_partial.
Print Assumptions C64_long_spans_refuted.
Print Assumptions C64_long_write_refuted.
