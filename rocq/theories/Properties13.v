(** * Property C68: primitive integers as bit vectors (src/bit_vec/prim.rs). *)
From Verif Require Import Machine MStorage MTraits SpecBits SpecCfg PBase PStorage PDefaults.

(** C68. Reads: the vector is the binary representation, least significant bit first, in one block. *)
Theorem C68_reads : forall c nb x, wf_cfg c -> wf_nb nb -> x < 2 ^ nb ->
  let B := prim_bitvec c nb in
  bv_nb B = nb /\ bv_bit_len B x = Ok nb /\ bv_block_len B x = Ok 1 /\ bv_get_block B x 0 = Ok x /\
  (forall i, i < nb -> bv_get_bit B x i = Ok (N.testbit x i)) /\
  (forall s n, s + n <= nb -> bv_get_bits B x s n = Ok ((x / 2 ^ s) mod 2 ^ n)).
Proof.
  intros c nb x Hc Hnb Hx. pose proof (wf_nb_range nb Hnb). pose proof (wf_ptr c Hc). cbv zeta. cbn. repeat (split; [reflexivity|]). split.
  - intros i Hi. unfold prim_get_bit. rewrite assert_true by lia. cbn [bind]. rewrite as_usize_small by lia.
    now apply blk_get_bit_ok.
  - intros s n Hs. unfold prim_get_bits. rewrite wadd_ok by lia. cbn [bind]. rewrite assert_true by lia. cbn [bind].
    rewrite as_usize_small by lia. rewrite blk_get_bits_ok by auto. f_equal. unfold field.
    now rewrite N.land_ones, N.shiftr_div_pow2.
Qed.

(** C68. Writes change the addressed bits and no others. *)
Theorem C68_writes : forall c nb x, wf_cfg c -> wf_nb nb -> x < 2 ^ nb ->
  let M := prim_bitvecmut c nb in
  (forall v, bm_set_block M x 0 v = Ok v) /\
  (forall i b, i < nb -> exists y, bm_set_bit M x i b = Ok y /\ y < 2 ^ nb /\
     forall j, N.testbit y j = if j =? i then b else N.testbit x j) /\
  (forall s n v, s + n <= nb -> v < 2 ^ nb -> exists y, bm_set_bits M x s n v = Ok y /\ y < 2 ^ nb /\
     forall j, N.testbit y j = if (s <=? j) && (j <? s + n) then N.testbit v (j - s) else N.testbit x j).
Proof.
  intros c nb x Hc Hnb Hx. pose proof (wf_nb_range nb Hnb). pose proof (wf_ptr c Hc). cbv zeta. cbn. split; [reflexivity|]. split.
  - intros i b Hi. unfold prim_set_bit. rewrite assert_true by lia. cbn [bind]. rewrite as_usize_small by lia.
    rewrite blk_with_bit_ok by auto. eexists; split; [reflexivity|]. split; [now apply setbit_lt|]. intros j. apply testbit_setbit_.
  - intros s n v Hs Hv. unfold prim_set_bits. rewrite wadd_ok by lia. cbn [bind]. rewrite assert_true by lia. cbn [bind].
    rewrite as_usize_small by lia. rewrite blk_with_bits_ok by auto. eexists; split; [reflexivity|].
    split; [now apply with_field_lt|]. apply testbit_with_field.
Qed.

(** C68. Everything else panics; ends of spans that do not fit in a u64 are the subject of C62. *)
Theorem C68_out_of_bounds : forall c nb x, wf_cfg c -> wf_nb nb ->
  let B := prim_bitvec c nb in let M := prim_bitvecmut c nb in
  (forall i b, nb <= i -> panics (bv_get_bit B x i) /\ panics (bm_set_bit M x i b)) /\
  (forall i v, i <> 0 -> panics (bv_get_block B x i) /\ panics (bm_set_block M x i v)) /\
  (forall s n v, nb < s + n -> s + n < 2 ^ 64 \/ debug c = true ->
     panics (bv_get_bits B x s n) /\ panics (bm_set_bits M x s n v)).
Proof.
  intros c nb x Hc Hnb. pose proof (wf_nb_range nb Hnb). pose proof (wf_ptr c Hc). cbv zeta. cbn. repeat split; try (rename H2 into Ho).
  - unfold prim_get_bit. rewrite assert_false by lia. cbn [bind]. auto.
  - unfold prim_set_bit. rewrite assert_false by lia. cbn [bind]. auto.
  - unfold prim_get_block. rewrite assert_false by lia. cbn [bind]. auto.
  - unfold prim_set_block. rewrite assert_false by lia. cbn [bind]. auto.
  - unfold prim_get_bits, wadd, wrap. destruct (s + n <? 2 ^ 64) eqn:E.
    + cbn [bind]. rewrite assert_false by lia. cbn [bind]. auto.
    + destruct Ho as [?| ->]; [lia|]. cbn [bind]. auto.
  - unfold prim_set_bits, wadd, wrap. destruct (s + n <? 2 ^ 64) eqn:E.
    + cbn [bind]. rewrite assert_false by lia. cbn [bind]. auto.
    + destruct Ho as [?| ->]; [lia|]. cbn [bind]. auto.
Qed.
Example C68_ex : wf_cfg dbg32 /\ wf_nb 16 /\ 0xbeef < 2 ^ 16 /\
  bv_get_bits (prim_bitvec dbg32 16) 0xbeef 4 8 = Ok 0xee /\ bv_get_bit (prim_bitvec dbg32 16) 0xbeef 14 = Ok false /\
  bm_set_bits (prim_bitvecmut dbg32 16) 0xbeef 3 6 0xff15 = Ok 0xbeaf /\
  bv_get_bits (prim_bitvec dbg32 16) 0xbeef 9 8 = Panic PAssert /\ bv_get_bit (prim_bitvec dbg32 16) 0xbeef (2 ^ 32) = Panic PAssert.
Proof. split; [auto with wf|]. split; [unfold wf_nb; lia|]. vm_compute. repeat split; congruence. Qed.

Print Assumptions C68_reads.
Print Assumptions C68_writes.
Print Assumptions C68_out_of_bounds.
