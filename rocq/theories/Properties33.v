(** * A release build answers whatever a debug build answers (C86): the builds differ only where an overflow check or a [debug_assert!]
    stops the debug build.  Nothing is assumed of arguments, of the contents of structures, or of user-supplied implementations of the
    traits beyond the same for them. *)
From Coq Require Import String.
From Verif Require Import Machine MStorage MTraits MVectorBase MBitVector MIntVector MBitSlice MStream
  MRank MSelect MSearchGen MBroadword MCoding MSigned MIO MCapacity MDerive MSpace MQuickCheck SpecOps SpecBuffer SpecAgree PAgree.

(** What agreement says: a result of the debug build is the result of the release build, and where the release build panics so does the
    debug build. *)
Theorem C86_meaning : forall A (r1 r2 : res A), agree r1 r2 <->
  ((forall a, r1 = Ok a -> r2 = Ok a) /\
   (r1 = OutOfFuel -> r2 = OutOfFuel) /\
   (forall k, r1 = Panic k -> k <> POverflow -> k <> PDebug -> r2 = Panic k)).
Proof.
  intros A r1 r2. split.
  - intros [-> | [-> | ->]]; repeat split; intros; congruence.
  - intros (H1 & H2 & H3). destruct r1 as [a|k|].
    + right; right; symmetry; auto.
    + destruct k; first [left; reflexivity | right; left; reflexivity | right; right; symmetry; apply H3; auto; discriminate].
    + right; right; symmetry; auto.
Qed.
Theorem C86_panics : forall A (r1 r2 : res A), agree r1 r2 -> panics r2 -> panics r1.
Proof. intros A r1 r2 [-> | [-> | ->]] H; [eexists; reflexivity..|exact H]. Qed.

(** Programs on [BitVector] and [IntVector], from the constructor on. *)
Theorem C86_bit_vector : forall p nb fuel k ops,
  agree_run (bvec_program (DC p) nb fuel k ops) (bvec_program (RC p) nb fuel k ops).
Proof.
  intros. unfold bvec_program.
  destruct (bvec_make_agree p nb k) as [-> | [-> | ->]];
    [right; split; [auto|eexists; reflexivity].. |].
  destruct (bvec_make (RC p) nb k); [|left; reflexivity..]. apply run_agree, bvec_step_agree.
Qed.
Theorem C86_int_vector : forall p nb k fuel t ops,
  agree_run (iv_program (DC p) nb k fuel t ops) (iv_program (RC p) nb k fuel t ops).
Proof.
  intros. unfold iv_program.
  destruct (iv_make_agree p nb k t) as [-> | [-> | ->]];
    [right; split; [auto|eexists; reflexivity].. |].
  destruct (iv_make (RC p) nb k t); [|left; reflexivity..]. apply run_agree, iv_step_agree.
Qed.
(** Their iterators, in any state. *)
Theorem C86_iterators : forall p nb it ops,
  agree_run (run (it_step (bit_next (DC p) nb) (bit_next_back (DC p) nb) (bit_nth (DC p) nb)) it ops)
            (run (it_step (bit_next (RC p) nb) (bit_next_back (RC p) nb) (bit_nth (RC p) nb)) it ops) /\
  agree_run (run (it_step (it_next (DC p) nb) (it_next_back (DC p) nb) (it_nth (DC p) nb)) it ops)
            (run (it_step (it_next (RC p) nb) (it_next_back (RC p) nb) (it_nth (RC p) nb)) it ops) /\
  agree (it_len (DC p) it) (it_len (RC p) it) /\ agree (it_size_hint (DC p) it) (it_size_hint (RC p) it) /\
  agree (it_count (DC p) it) (it_count (RC p) it) /\ agree (it_last (DC p) nb it) (it_last (RC p) nb it) /\
  agree (bit_last (DC p) nb it) (bit_last (RC p) nb it).
Proof.
  intros. repeat split; auto with agree; apply run_agree; apply it_step_agree; auto with agree.
Qed.

(** The implementations of [BitVec], [BitVecMut] and [BitVecPush], and the wrappers around one. *)
Theorem C86_stores : forall p nb,
  agree_bm (blocks_bitvecmut (DC p) nb) (blocks_bitvecmut (RC p) nb) /\
  agree_bp (vecbool_bitvecpush (DC p)) (vecbool_bitvecpush (RC p)) /\
  agree_bm (prim_bitvecmut (DC p) nb) (prim_bitvecmut (RC p) nb) /\
  agree_bp (bvec_bitvecpush (DC p) nb) (bvec_bitvecpush (RC p) nb) /\
  agree_bm (iv_bitvecmut (DC p) nb) (iv_bitvecmut (RC p) nb).
Proof.
  intros p nb. split; [exact (blocks_bm_agree p nb)|]. split; [exact (vecbool_bp_agree p)|]. split; [exact (prim_bm_agree p nb)|].
  split; [exact (bvec_bp_agree p nb)|exact (iv_bm_agree p nb)].
Qed.
Theorem C86_wrappers : forall p T (B1 B2 : bitvec T), agree_bv B1 B2 ->
  agree_bv (slice_bitvec (DC p) B1) (slice_bitvec (RC p) B2) /\
  (forall t r, agree (slice_new B1 t r) (slice_new B2 t r)) /\
  (forall (s : slice T) r, agree (slice_slice (DC p) s r) (slice_slice (RC p) s r)) /\
  agree_bv (bb_bitvec (DC p) B1) (bb_bitvec (RC p) B2) /\
  agree_bv (jacobson_bitvec B1) (jacobson_bitvec B2) /\
  agree_bv (rank9_bitvec B1) (rank9_bitvec B2) /\
  agree_bv (bss_bitvec B1) (bss_bitvec B2).
Proof.
  intros p T B1 B2 H.
  split; [apply slice_bv_agree, H|]. split; [intros; apply slice_new_agree, H|]. split; [intros; apply slice_slice_agree|].
  split; [apply bb_bv_agree, H|]. split; [apply jacobson_bv_agree, H|]. split; [apply rank9_bv_agree, H|]. apply bss_bv_agree, H.
Qed.
Theorem C86_wrappers_mut : forall p T (M1 M2 : bitvecmut T), agree_bm M1 M2 ->
  agree_bm (slicemut_bitvecmut (DC p) M1) (slicemut_bitvecmut (RC p) M2) /\
  agree_bm (bb_bitvecmut (DC p) M1) (bb_bitvecmut (RC p) M2).
Proof. intros p T M1 M2 H. split; [apply slice_bm_agree, H | apply bb_bm_agree, H]. Qed.
Theorem C86_defaults : forall p nb T (bl1 bl2 kl1 kl2 : T -> res N) gt1 gt2 gk1 gk2 st1 st2 sk1 sk2 pb1 pb2,
  (forall t, agree (bl1 t) (bl2 t)) -> (forall t, agree (kl1 t) (kl2 t)) ->
  (forall t i, agree (gt1 t i) (gt2 t i)) -> (forall t i, agree (gk1 t i) (gk2 t i)) ->
  (forall t i b, agree (st1 t i b) (st2 t i b)) -> (forall t i x, agree (sk1 t i x) (sk2 t i x)) ->
  (forall t b, agree (pb1 t b) (pb2 t b)) ->
  forall t i n x b f,
  agree (default_block_len (DC p) nb bl1 t) (default_block_len (RC p) nb bl2 t) /\
  agree (default_get_bit (DC p) nb bl1 gk1 t i) (default_get_bit (RC p) nb bl2 gk2 t i) /\
  agree (default_get_block (DC p) nb bl1 kl1 gt1 t i) (default_get_block (RC p) nb bl2 kl2 gt2 t i) /\
  agree (default_get_bits (DC p) nb bl1 gk1 t i n) (default_get_bits (RC p) nb bl2 gk2 t i n) /\
  agree (default_set_bit (DC p) nb bl1 gk1 sk1 t i b) (default_set_bit (RC p) nb bl2 gk2 sk2 t i b) /\
  agree (default_set_block (DC p) nb bl1 kl1 st1 t i x) (default_set_block (RC p) nb bl2 kl2 st2 t i x) /\
  agree (default_set_bits (DC p) nb bl1 gk1 sk1 t i n x) (default_set_bits (RC p) nb bl2 gk2 sk2 t i n x) /\
  agree (default_align_block (DC p) nb bl1 pb1 f t b) (default_align_block (RC p) nb bl2 pb2 f t b) /\
  agree (default_push_block (DC p) nb bl1 pb1 f t x) (default_push_block (RC p) nb bl2 pb2 f t x).
Proof. intros. repeat split; auto with agree. Qed.

(** Rank and select: construction, queries, and binary search over anything that answers rank queries. *)
Theorem C86_rank : forall p T (B1 B2 : bitvec T), agree_bv B1 B2 ->
  (forall t, agree (jacobson_new (DC p) B1 t) (jacobson_new (RC p) B2 t)) /\
  agree_br (jacobson_bitrank (DC p) B1) (jacobson_bitrank (RC p) B2) /\
  (forall t, agree (rank9_new (DC p) B1 t) (rank9_new (RC p) B2 t)) /\
  agree_br (rank9_bitrank (DC p) B1) (rank9_bitrank (RC p) B2).
Proof.
  intros p T B1 B2 H. split; [intros; apply jacobson_new_agree, H|]. split; [apply jacobson_br_agree, H|].
  split; [intros; apply rank9_new_agree, H | apply rank9_br_agree, H].
Qed.
Theorem C86_word_rank : forall p nb,
  agree_br (prim_bitrank (DC p) nb) (prim_bitrank (RC p) nb) /\
  agree_br (broadword_bitrank (DC p)) (broadword_bitrank (RC p)) /\
  (forall x i, agree (broadword_select1 (DC p) x i) (broadword_select1 (RC p) x i)) /\
  (forall r x, agree (bw_select1 (DC p) r x) (bw_select1 (RC p) r x)) /\
  (forall x, agree (bw_count_ones (DC p) x) (bw_count_ones (RC p) x)).
Proof.
  intros. split; [apply prim_br_agree|]. split; [apply broadword_br_agree|]. split; [intros; apply broadword_select1_agree|].
  split; intros; [apply bw_select1_agree | apply bw_count_ones_agree].
Qed.
Theorem C86_select : forall p T (R1 R2 : bitrank T), agree_br R1 R2 ->
  agree_br (bss_bitrank R1) (bss_bitrank R2) /\
  (forall fuel t i, agree (bss_select1 (DC p) R1 fuel t i) (bss_select1 (RC p) R2 fuel t i)) /\
  (forall fuel t i, agree (bss_select0 (DC p) R1 fuel t i) (bss_select0 (RC p) R2 fuel t i)) /\
  (forall fuel t i v, agree (bss_select (DC p) (br_rs R1) fuel t i v) (bss_select (RC p) (br_rs R2) fuel t i v)).
Proof.
  intros p T R1 R2 H. split; [apply bss_br_agree, H|]. split; [intros; apply bss_select1_agree, H|].
  split; [intros; apply bss_select0_agree, H | intros; apply bss_select_agree, (ar_rs _ _ H)].
Qed.
Theorem C86_search : forall p D S R (ge lt : R -> R -> bool) fuel a b x (f1 f2 : Z -> S -> res (R * S)) s,
  (forall i s, agree (f1 i s) (f2 i s)) ->
  agree (binary_search_gen (DC p) D ge lt fuel a b x f1 s) (binary_search_gen (RC p) D ge lt fuel a b x f2 s).
Proof. intros. now apply binary_search_gen_agree. Qed.

(** Streams: programs on a [BitBuffer] over any [BitVecPush], integers of every width and sign over any source and sink, every code. *)
Theorem C86_buffer : forall p T (P1 P2 : bitvecpush T), agree_bp P1 P2 -> forall fuel bb ops,
  agree_run (run (bb_step (DC p) P1 fuel) bb ops) (run (bb_step (RC p) P2 fuel) bb ops) /\
  agree_source (bb_source (DC p) (bm_bv (bp_bm P1))) (bb_source (RC p) (bm_bv (bp_bm P2))) /\
  agree_sink (bb_sink (DC p) P1 fuel) (bb_sink (RC p) P2 fuel).
Proof.
  intros p T P1 P2 H fuel bb ops. split; [apply run_agree, bb_step_agree, H|].
  split; [apply bb_source_agree, (am_bv _ _ (ap_bm _ _ H)) | apply bb_sink_agree, H].
Qed.
Theorem C86_read_int : forall p S (s1 s2 : source S) w n, agree_source s1 s2 ->
  agree_io (read_int (DC p) s1 w n) (read_int (RC p) s2 w n) /\
  agree_io (read_int_be (DC p) s1 w n) (read_int_be (RC p) s2 w n) /\
  agree_io (read_sint (DC p) s1 w n) (read_sint (RC p) s2 w n) /\
  agree_io (read_sint_be (DC p) s1 w n) (read_sint_be (RC p) s2 w n).
Proof. intros. auto with agree. Qed.
Theorem C86_write_int : forall p S (k1 k2 : sink S) w n, agree_sink k1 k2 ->
  (forall x, agree_io (write_int (DC p) k1 w n x) (write_int (RC p) k2 w n x)) /\
  (forall x, agree_io (write_int_be (DC p) k1 w n x) (write_int_be (RC p) k2 w n x)) /\
  (forall z, agree_io (write_sint (DC p) k1 w n z) (write_sint (RC p) k2 w n z)) /\
  (forall z, agree_io (write_sint_be (DC p) k1 w n z) (write_sint_be (RC p) k2 w n z)).
Proof. intros. auto with agree. Qed.
Theorem C86_codes : forall p,
  agree_code (unary (DC p)) (unary (RC p)) /\ agree_code (gamma (DC p)) (gamma (RC p)) /\
  agree_code (delta (DC p)) (delta (RC p)) /\ agree_code (omega (DC p)) (omega (RC p)) /\
  agree_code (fibonacci (DC p)) (fibonacci (RC p)) /\ (forall n, agree_code (comma (DC p) n) (comma (RC p) n)) /\
  (forall C1 C2, agree_code C1 C2 -> agree_code (lift0 (DC p) C1) (lift0 (RC p) C2) /\ agree_code (elias (DC p) C1) (elias (RC p) C2)).
Proof.
  intros. split; [apply unary_agree|]. split; [apply gamma_agree|]. split; [apply delta_agree|]. split; [apply omega_agree|].
  split; [apply fibonacci_agree|]. split; [apply comma_agree|]. intros; split; [now apply lift0_agree | now apply elias_agree].
Qed.

(** The arithmetic of [BlockType]. *)
Theorem C86_block_type : forall p nb w x y i b v,
  agree (floor_lg (DC p) w x) (floor_lg (RC p) w x) /\ agree (ceil_lg (DC p) w x) (ceil_lg (RC p) w x) /\
  agree (ceil_div (DC p) w x y) (ceil_div (RC p) w x y) /\ agree (lg_nbits (DC p) nb) (lg_nbits (RC p) nb) /\
  agree (div_nbits (DC p) nb i) (div_nbits (RC p) nb i) /\ agree (mod_nbits (DC p) nb i) (mod_nbits (RC p) nb i) /\
  agree (mul_nbits (DC p) nb i) (mul_nbits (RC p) nb i) /\ agree (ceil_div_nbits (DC p) nb i) (ceil_div_nbits (RC p) nb i) /\
  agree (checked_div_nbits (DC p) nb i) (checked_div_nbits (RC p) nb i) /\
  agree (checked_ceil_div_nbits (DC p) nb i) (checked_ceil_div_nbits (RC p) nb i) /\
  agree (last_block_bits (DC p) nb i) (last_block_bits (RC p) nb i) /\ agree (low_mask (DC p) nb i) (low_mask (RC p) nb i) /\
  agree (default_low_mask (DC p) nb i) (default_low_mask (RC p) nb i) /\
  agree (nth_mask (DC p) nb i) (nth_mask (RC p) nb i) /\ agree (blk_get_bit (DC p) nb b i) (blk_get_bit (RC p) nb b i) /\
  agree (blk_with_bit (DC p) nb b i v) (blk_with_bit (RC p) nb b i v) /\
  agree (blk_get_bits (DC p) nb b i x) (blk_get_bits (RC p) nb b i x) /\
  agree (blk_with_bits (DC p) nb b i x y) (blk_with_bits (RC p) nb b i x y) /\
  agree (address_new (DC p) nb i) (address_new (RC p) nb i) /\
  (forall a, agree (address_bit_index (DC p) nb a) (address_bit_index (RC p) nb a)).
Proof. intros. repeat (split; [auto with agree|]). auto with agree. Qed.

(** Memory: capacities (whatever the growth policy of [Vec]), the sizes reported, formatting through any formatter. *)
Theorem C86_capacity : forall p nb pol k n v,
  agree (cv_with_capacity (DC p) nb pol k n) (cv_with_capacity (RC p) nb pol k n) /\
  agree (cv_block_with_capacity (DC p) nb pol n) (cv_block_with_capacity (RC p) nb pol n) /\
  agree (cv_capacity (DC p) nb k v) (cv_capacity (RC p) nb k v) /\
  agree (cv_reserve (DC p) nb pol k v n) (cv_reserve (RC p) nb pol k v n) /\
  agree (cv_reserve_exact (DC p) nb pol k v n) (cv_reserve_exact (RC p) nb pol k v n) /\
  agree (cv_block_reserve (DC p) nb pol v n) (cv_block_reserve (RC p) nb pol v n) /\
  agree (cv_block_reserve_exact (DC p) nb pol v n) (cv_block_reserve_exact (RC p) nb pol v n).
Proof. intros. repeat (split; [auto with agree|]). auto with agree. Qed.
Theorem C86_space : forall p size_of t v,
  agree (heap_bytes (DC p) size_of t v) (heap_bytes (RC p) size_of t v) /\
  agree (total_bytes (DC p) size_of t v) (total_bytes (RC p) size_of t v).
Proof. intros. split; [apply heap_bytes_agree | apply total_bytes_agree]. Qed.
Theorem C86_format : forall p nb S (w1 w2 : formatter S), (forall x s, agree (w1 x s) (w2 x s)) -> forall fuel s,
  (forall v, agree (bvec_fmt_binary (DC p) nb w1 fuel v s) (bvec_fmt_binary (RC p) nb w2 fuel v s)) /\
  (forall v, agree (iv_fmt_debug (DC p) nb w1 fuel v s) (iv_fmt_debug (RC p) nb w2 fuel v s)).
Proof. intros. split; intros; [now apply bvec_fmt_binary_agree | now apply iv_fmt_debug_agree]. Qed.

(** So a QuickCheck property of the crate's test modules that holds of an input in a debug build holds of it in a release build. *)
Theorem C86_quickcheck : forall p n m fuel r,
  agree (prop_floor_lg (DC p) n) (prop_floor_lg (RC p) n) /\ agree (prop_ceil_lg (DC p) n) (prop_ceil_lg (RC p) n) /\
  agree (prop_ceil_div (DC p) n m) (prop_ceil_div (RC p) n m) /\ agree (count_ones_prop (DC p) n) (count_ones_prop (RC p) n) /\
  agree (select1_prop (DC p) fuel r n) (select1_prop (RC p) fuel r n) /\ agree (u_nz8_prop (DC p) n) (u_nz8_prop (RC p) n) /\
  agree (u_le8_prop (DC p) n m) (u_le8_prop (RC p) n m) /\
  (forall C1 C2 vec, agree_code C1 C2 -> agree (code_decode (DC p) C1 fuel vec) (code_decode (RC p) C2 fuel vec)).
Proof.
  intros. split; [apply prop_floor_lg_agree|]. split; [apply prop_ceil_lg_agree|]. split; [apply prop_ceil_div_agree|].
  split; [apply count_ones_prop_agree|]. split; [apply select1_prop_agree|]. split; [apply u_nz8_prop_agree|].
  split; [apply u_le8_prop_agree|]. intros; now apply code_decode_agree.
Qed.

(** A program that both builds run to the end, and one that a check stops after two operations in the debug build only. *)
Example C86_ex :
  bvec_program (DC 64) 8 20 (BWithFill 10 true) [BSetBit 3 false; BGetBits 1 7; BPushBlock 5; BIter; BPopBit] =
  bvec_program (RC 64) 8 20 (BWithFill 10 true) [BSetBit 3 false; BGetBits 1 7; BPushBlock 5; BIter; BPopBit] /\
  fst (bvec_program (RC 64) 8 20 (BWithFill 10 true) [BSetBit 3 false; BGetBits 1 7; BPopBit]) = [OUnit; OInt 123; OOptBool (Some true)] /\
  bvec_program (DC 64) 8 20 (BWithFill 40 true) [BSetBit 3 false; BBitLen; BGetBits 8 12; BBitLen] = ([OUnit; OInt 40], Panic POverflow) /\
  fst (bvec_program (RC 64) 8 20 (BWithFill 40 true) [BSetBit 3 false; BBitLen; BGetBits 8 12; BBitLen]) = [OUnit; OInt 40; OInt 255; OInt 40].
Proof. vm_compute. repeat split. Qed.
Example C86_other_ex :
  ceil_div (DC 64) 64 (2 ^ 64 - 1) 8 = Panic POverflow /\ ceil_div (RC 64) 64 (2 ^ 64 - 1) 8 = Ok 0 /\
  low_mask (DC 32) 8 9 = Panic PDebug /\ low_mask (RC 32) 8 9 = Ok 255 /\
  prim_rank1 (DC 64) 8 255 8 = Panic PDebug /\ bv_get_bit (bvec_bitvec (DC 64) 8) {| vb_len := 3; vb_vec := [5] |} 3 = Panic PAssert.
Proof. vm_compute. repeat split. Qed.

(** The hypotheses met by a tower of wrappers: select by binary search over Rank9 over a slice of a bit vector, a buffer over a bit
    vector as sink and source of the Delta code; and what the two builds give on it. *)
Example C86_tower_ex :
  agree_bv (bm_bv (bp_bm (bvec_bitvecpush (DC 64) 8))) (bm_bv (bp_bm (bvec_bitvecpush (RC 64) 8))) /\
   agree_br (bss_bitrank (rank9_bitrank (DC 64) (slice_bitvec (DC 64) (bvec_bitvec (DC 64) 8)))) (bss_bitrank (rank9_bitrank (RC 64) (slice_bitvec (RC 64) (bvec_bitvec (RC 64) 8)))) /\
   agree_sink (bb_sink (DC 64) (bvec_bitvecpush (DC 64) 8) 30) (bb_sink (RC 64) (bvec_bitvecpush (RC 64) 8) 30) /\
   (forall x bb, agree (encode (delta (DC 64)) (bb_sink (DC 64) (bvec_bitvecpush (DC 64) 8) 30) 30 x bb) (encode (delta (RC 64)) (bb_sink (RC 64) (bvec_bitvecpush (RC 64) 8) 30) 30 x bb)) /\
   encode (delta (DC 64)) (bb_sink (DC 64) (bvec_bitvecpush (DC 64) 8) 30) 30 9 {| bb_data := {| vb_len := 0; vb_vec := [] |}; bb_pos := 0 |} =
    Ok (IOk tt, {| bb_data := {| vb_len := 8; vb_vec := [36] |}; bb_pos := 8 |}) /\
   encode (delta (RC 64)) (bb_sink (RC 64) (bvec_bitvecpush (RC 64) 8) 30) 30 9 {| bb_data := {| vb_len := 0; vb_vec := [] |}; bb_pos := 0 |} =
    Ok (IOk tt, {| bb_data := {| vb_len := 8; vb_vec := [36] |}; bb_pos := 8 |}).
Proof.
  destruct (C86_stores 64 8) as (_ & _ & _ & HP & _). pose proof (am_bv _ _ (ap_bm _ _ HP)) as HB.
  split; [exact HB|]. split; [apply (C86_select 64), (C86_rank 64), (C86_wrappers 64); exact HB|].
  pose proof (proj2 (proj2 (C86_buffer 64 _ _ _ HP 30 {| bb_data := {| vb_len := 0; vb_vec := [] |}; bb_pos := 0 |} []))) as HS.
  split; [exact HS|]. split; [|split; vm_compute; reflexivity].
  intros x bb. destruct (C86_codes 64) as (_ & _ & HD & _). exact (proj1 (HD _) _ _ 30%nat x HS bb).
Qed.

Print Assumptions C86_meaning.
Print Assumptions C86_panics.
Print Assumptions C86_bit_vector.
Print Assumptions C86_int_vector.
Print Assumptions C86_iterators.
Print Assumptions C86_stores.
Print Assumptions C86_wrappers.
Print Assumptions C86_wrappers_mut.
Print Assumptions C86_defaults.
Print Assumptions C86_rank.
Print Assumptions C86_word_rank.
Print Assumptions C86_select.
Print Assumptions C86_search.
Print Assumptions C86_buffer.
Print Assumptions C86_read_int.
Print Assumptions C86_write_int.
Print Assumptions C86_codes.
Print Assumptions C86_block_type.
Print Assumptions C86_capacity.
Print Assumptions C86_space.
Print Assumptions C86_format.
Print Assumptions C86_quickcheck.
