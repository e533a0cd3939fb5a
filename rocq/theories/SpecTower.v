(** * Structures built on structures, to any depth.  [R t l]: the value [t] stands for the bits [l]. *)
From Verif Require Import Machine SpecBits SpecLaws SpecRank MTraits MBitSlice MStream MRank MBroadword MSelect MAdapter Properties5.

(** A bit vector: a lawful store, or one of the types of the crate that contain or borrow a bit vector, or a type of the user's own
    with the exported macro, over such a bit vector.  Slices must consist of whole blocks (C28, C75). *)
Inductive tower (c : cfg) : forall T, bitvec T -> (T -> list bool -> Prop) -> Prop :=
| tw_store : forall T B R, lawful_bits c B R -> lawful_block_reads B R -> tower c T B R
| tw_rank9 : forall T B R, tower c T B R -> bv_nb B = 64 -> tower c _ (rank9_bitvec B) (fun r l => exists t, R t l /\ rank9_new c B t = Ok r)
| tw_jacobson : forall T B R, tower c T B R -> tower c _ (jacobson_bitvec B) (fun j l => exists t, R t l /\ jacobson_new c B t = Ok j)
| tw_select : forall T B R, tower c T B R -> tower c _ (bss_bitvec B) R
| tw_buffer : forall T B R, tower c T B R -> tower c _ (bb_bitvec c B) (fun b l => R (bb_data b) l)
| tw_slice : forall T B R, tower c T B R -> tower c _ (slice_bitvec c B) (fun sl l => exists t L r s e,
    R t L /\ bounds r (lengthN L) = (s, e) /\ slice_new B t r = Ok sl /\ l = sub s (e - s) L /\ (e - s) mod bv_nb B = 0)
| tw_user : forall T F (field : T -> F) B R, tower c F B R -> tower c T (adapt_bitvec field B) (fun t l => R (field t) l).

(** A rank structure: one of the crate's, or a type of the user's own with the exported macros. *)
Inductive ranked (c : cfg) : forall T, bitrank T -> (T -> list bool -> Prop) -> Prop :=
| rk_prim : forall nb, wf_nb nb -> ranked c N (prim_bitrank c nb) (fun x l => x < 2 ^ nb /\ l = bits_of nb x)
| rk_word : ranked c N (broadword_bitrank c) (fun x l => x < 2 ^ 64 /\ l = bits_of 64 x)
| rk_rank9 : forall T B R, tower c T B R -> bv_nb B = 64 -> ranked c _ (rank9_bitrank c B) (fun r l => exists t, R t l /\ rank9_new c B t = Ok r)
| rk_jacobson : forall T B R, tower c T B R -> ranked c _ (jacobson_bitrank c B) (fun j l => exists t, R t l /\ jacobson_new c B t = Ok j)
| rk_select : forall T K R, ranked c T K R -> ranked c T (bss_bitrank K) R
| rk_user : forall T F (field : T -> F) K R, ranked c F K R -> ranked c T (adapt_bitrank field K) (fun t l => R (field t) l).

(** A select structure: a [BinSearchSelect] over a rank structure, or a type of the user's own with the exported macros. *)
Inductive selecting (c : cfg) (fuel : nat) : forall T, select1sup T -> select0sup T -> selectsup bool T -> (T -> list bool -> Prop) -> Prop :=
| sl_search : forall T K R, ranked c T K R ->
    selecting c fuel T (bss_select1sup c K fuel) (bss_select0sup c K fuel) (bss_selectsup c (br_rs K) fuel) R
| sl_user : forall T F (field : T -> F) S1 S0 SS R, selecting c fuel F S1 S0 SS R ->
    selecting c fuel T (adapt_select1 field S1) (adapt_select0 field S0) (adapt_select field SS) (fun t l => R (field t) l).
