(** * Model of src/internal/search.rs and of src/select: [BinSearchSelect]. *)
From Verif Require Import Machine MStorage MTraits MRank.

Section Search.
  (** [w] is the width of the unsigned type [D] *)
  Variables (c : cfg) (w : N).

  (** src/internal/search.rs:4-9 [average] *)
  Definition average (x y : N) : res N :=
    hx <- wshr c w x 1 ;; hy <- wshr c w y 1 ;;
    almost <- wadd c w hx hy ;;
    t <- wadd c w (N.land x 1) (N.land y 1) ;;
    extra <- wshr c w t 1 ;;
    wadd c w almost extra.

  (** src/internal/search.rs:16-44 [binary_search_function], for an [R] ordered like [N]; [f] may panic.
      The [while] loop, 29-41, runs on [fuel]. *)
  Definition search_loop (value : N) (f : N -> res N) (fuel : nat) (start limit : N)
    : res (option N) :=
    loop_fuel fuel (fun st : N * N =>
      let (start, limit) := st in
      if start <? limit then
        mid <- average start limit ;;
        fm <- f mid ;;
        if value <=? fm then
          m1 <- wsub c w mid 1 ;;
          fm1 <- f m1 ;;
          Ok (if fm1 <? value then Return (Some mid) else Continue (start, mid))
        else s <- wadd c w mid 1 ;; Ok (Continue (s, limit))
      else Ok (Return None)) (start, limit).

  Definition binary_search_function (fuel : nat) (start limit value : N) (f : N -> res N)
    : res (option N) :=
    if limit <=? start then Ok None
    else
      fs <- f start ;;
      if value <=? fs then Ok (Some start)
      else s <- wadd c w start 1 ;; search_loop value f fuel s limit.
End Search.

(** ** [BinSearchSelect] (select/bin_search.rs); the newtype over the rank structure is
    transparent: [new], [inner], [into_inner] (16-30) are identities *)
Section Select.
  Context {T : Type} (c : cfg).

  (** src/select/bin_search.rs:53-59, 63: [select1] *)
  Definition bss_select1 (R : bitrank T) (fuel : nat) (t : T) (i : N) : res (option N) :=
    l <- rs_limit (br_rs R) t ;; i1 <- wadd c 64 i 1 ;;
    binary_search_function c 64 fuel 0 l i1 (fun p => br_rank1 R t p).
  (** src/select/bin_search.rs:53-59, 64: [select0] *)
  Definition bss_select0 (R : bitrank T) (fuel : nat) (t : T) (i : N) : res (option N) :=
    l <- rs_limit (br_rs R) t ;; i1 <- wadd c 64 i 1 ;;
    binary_search_function c 64 fuel 0 l i1 (fun p => br_rank0 R t p).
  (** src/select/bin_search.rs:66-73 [select], for any [Over] type *)
  Definition bss_select {A : Type} (R : ranksup A T) (fuel : nat) (t : T) (i : N) (v : A)
    : res (option N) :=
    l <- rs_limit R t ;; i1 <- wadd c 64 i 1 ;;
    binary_search_function c 64 fuel 0 l i1 (fun p => rs_rank R t p v).

  (** src/select/bin_search.rs:33-35 with src/macros.rs:35-57: the [BitVec] of the wrapper *)
  Definition bss_bitvec (B : bitvec T) : bitvec T := {|
    bv_nb := bv_nb B;
    bv_bit_len := fun t => bv_bit_len B t;
    bv_block_len := fun t => bv_block_len B t;
    bv_get_bit := fun t => bv_get_bit B t;
    bv_get_block := fun t => bv_get_block B t;
    bv_get_bits := fun t => bv_get_bits B t |}.
  (** src/select/bin_search.rs:37-43 with src/macros.rs:61-92: the rank of the wrapper *)
  Definition bss_bitrank (R : bitrank T) : bitrank T := {|
    br_rs := {| rs_rank := fun t => rs_rank (br_rs R) t; rs_limit := fun t => rs_limit (br_rs R) t |};
    br_rank1 := fun t => br_rank1 R t;
    br_rank0 := fun t => br_rank0 R t |}.
End Select.
