(** * Specification vocabulary for rank and select. *)
From Verif Require Import Machine SpecBits SpecLaws MTraits MRank.

(** The number of bits equal to [v] at the positions [0 ..= p] of [l]. *)
Definition rank_of (v : bool) (l : list bool) (p : N) : N := count v (firstnN (p + 1) l).

(** [p] is the position of the bit [v] of [l] that has exactly [i] such bits before it. *)
Definition is_select (v : bool) (l : list bool) (i p : N) : Prop :=
  nthN l p = Some v /\ count v (firstnN p l) = i.

(** A rank structure that answers exactly, for the sequences related to its values by [Rel]. *)
Record lawful_rank {T} (K : bitrank T) (Rel : T -> list bool -> Prop) : Prop := {
  lr_len : forall t l, Rel t l -> lengthN l < 2 ^ 64;
  lr_limit : forall t l, Rel t l -> rs_limit (br_rs K) t = Ok (lengthN l);
  lr_rank1 : forall t l p, Rel t l -> p < lengthN l -> br_rank1 K t p = Ok (rank_of true l p);
  lr_rank0 : forall t l p, Rel t l -> p < lengthN l -> br_rank0 K t p = Ok (rank_of false l p);
  lr_rank : forall t l p v, Rel t l -> p < lengthN l -> rs_rank (br_rs K) t p v = Ok (rank_of v l p) }.

(** Block-level reads of existing blocks only ([lawful_blocks] also says what happens past the end). *)
Record lawful_block_reads {T} (B : bitvec T) (R : T -> list bool -> Prop) : Prop := {
  lkr_block_len : forall t l, R t l -> bv_block_len B t = Ok (blocks_for (bv_nb B) (lengthN l));
  lkr_get_block : forall t l i, R t l -> i * bv_nb B < lengthN l ->
    bv_get_block B t i = Ok (block_of (bv_nb B) i l) }.

(** The directory of relative ranks of a JacobsonRank over [n] bits in blocks of [nb] bits can be allocated: one entry per block and
    one more, each wide enough to count the bits of a large block, which are at least [ceil (log2 n) ^ 2]. *)
Definition jac_room (c : cfg) (nb n : N) : Prop :=
  fits c 64 ((blocks_for nb n + 1) * N.log2_up (nb * blocks_for nb (N.log2_up n * N.log2_up n) + 1)).
