(** * What it means for an implementation of the bit-vector traits to be a bit sequence.
    [R t l] reads "the value [t] represents the sequence [l]". *)
From Verif Require Import Machine SpecBits MTraits.

(** Bit-level reads: bit_len, get_bit, get_bits. *)
Record lawful_bits {T} (c : cfg) (B : bitvec T) (R : T -> list bool -> Prop) : Prop := {
  lb_nb : wf_nb (bv_nb B);
  lb_fits : forall t l, R t l -> fits c (bv_nb B) (lengthN l);
  lb_bit_len : forall t l, R t l -> bv_bit_len B t = Ok (lengthN l);
  lb_get_bit : forall t l i b, R t l -> nthN l i = Some b -> bv_get_bit B t i = Ok b;
  lb_get_bit_oob : forall t l i, R t l -> lengthN l <= i -> i < 2 ^ 64 -> panics (bv_get_bit B t i);
  lb_get_bits : forall t l s n, R t l -> s + n <= lengthN l -> n <= bv_nb B ->
    1 <= n \/ s < lengthN l ->
    bv_get_bits B t s n = Ok (int_of (sub s n l));
  lb_get_bits_oob : forall t l s n, R t l -> lengthN l < s + n -> s + n < 2 ^ 64 -> n < 2 ^ ptr c ->
    panics (bv_get_bits B t s n) }.

(** Block-level reads: block_len, get_block; the last block is padded with zeros. *)
Record lawful_blocks {T} (c : cfg) (B : bitvec T) (R : T -> list bool -> Prop) : Prop := {
  lk_block_len : forall t l, R t l -> bv_block_len B t = Ok (blocks_for (bv_nb B) (lengthN l));
  lk_get_block : forall t l i, R t l -> i * bv_nb B < lengthN l ->
    bv_get_block B t i = Ok (block_of (bv_nb B) i l);
  lk_get_block_oob : forall t l i, R t l -> lengthN l <= i * bv_nb B -> i < 2 ^ ptr c ->
    panics (bv_get_block B t i) }.

(** Bit-level writes: set_bit, set_bits. *)
Record lawful_mut {T} (c : cfg) (M : bitvecmut T) (R : T -> list bool -> Prop) : Prop := {
  lm_set_bit : forall t l i b, R t l -> i < lengthN l ->
    exists t', bm_set_bit M t i b = Ok t' /\ R t' (updN l i b);
  lm_set_bit_oob : forall t l i b, R t l -> lengthN l <= i -> i < 2 ^ 64 -> panics (bm_set_bit M t i b);
  lm_set_bits : forall t l s n v, R t l -> s + n <= lengthN l -> n <= bv_nb (bm_bv M) ->
    v < 2 ^ bv_nb (bm_bv M) -> 1 <= n \/ s < lengthN l ->
    exists t', bm_set_bits M t s n v = Ok t' /\ R t' (put s (bits_of n v) l);
  lm_set_bits_oob : forall t l s n v, R t l -> lengthN l < s + n -> s + n < 2 ^ 64 -> n < 2 ^ ptr c ->
    panics (bm_set_bits M t s n v) }.

(** Block-level writes: set_block. *)
Record lawful_mutblocks {T} (c : cfg) (M : bitvecmut T) (R : T -> list bool -> Prop) : Prop := {
  lmk_set_block : forall t l i v, R t l -> i * bv_nb (bm_bv M) < lengthN l -> v < 2 ^ bv_nb (bm_bv M) ->
    exists t', bm_set_block M t i v = Ok t' /\ R t' (set_block_of (bv_nb (bm_bv M)) i v l);
  lmk_set_block_oob : forall t l i v, R t l -> lengthN l <= i * bv_nb (bm_bv M) -> i < 2 ^ ptr c ->
    panics (bm_set_block M t i v) }.

(** Pushing and popping bits; a push fails only when memory is exhausted, and never
    as long as [room] holds for the new length. *)
Record lawful_push {T} (c : cfg) (P : bitvecpush T) (R : T -> list bool -> Prop)
    (room : N -> Prop) : Prop := {
  lp_push_bit : forall t l b, R t l -> room (lengthN l + 1) ->
    exists t', bp_push_bit P t b = Ok t' /\ R t' (l ++ [b]);
  lp_push_bit_full : forall t l b, R t l -> ~ room (lengthN l + 1) -> panics (bp_push_bit P t b);
  lp_pop_bit : forall t l b, R t (l ++ [b]) ->
    exists t', bp_pop_bit P t = Ok (Some b, t') /\ R t' l;
  lp_pop_bit_empty : forall t, R t [] -> bp_pop_bit P t = Ok (None, t) }.
