(** * Model of src/bit_vec/traits.rs and src/bit_vec/prim.rs: the traits [BitVec], [BitVecMut],
    [BitVecPush], their default methods, and the implementations for slices/vectors of
    blocks, for [Vec<bool>] and for the primitive integers. *)
From Verif Require Import Machine MStorage.

(** src/bit_vec/traits.rs:11-99 trait [BitVec], as a record of its methods.  [bv_nb] is [Self::Block::nbits()]. *)
Record bitvec (T : Type) := {
  bv_nb : N;
  bv_bit_len : T -> res N;
  bv_block_len : T -> res N;
  bv_get_bit : T -> N -> res bool;
  bv_get_block : T -> N -> res N;
  bv_get_bits : T -> N -> N -> res N }.
Arguments bv_nb {T} _.
Arguments bv_bit_len {T} _ _.
Arguments bv_block_len {T} _ _.
Arguments bv_get_bit {T} _ _ _.
Arguments bv_get_block {T} _ _ _.
Arguments bv_get_bits {T} _ _ _ _.

(** src/bit_vec/traits.rs:107-187 trait [BitVecMut: BitVec] *)
Record bitvecmut (T : Type) := {
  bm_bv : bitvec T;
  bm_set_bit : T -> N -> bool -> res T;
  bm_set_block : T -> N -> N -> res T;
  bm_set_bits : T -> N -> N -> N -> res T }.
Arguments bm_bv {T} _.
Arguments bm_set_bit {T} _ _ _ _.
Arguments bm_set_block {T} _ _ _ _.
Arguments bm_set_bits {T} _ _ _ _ _.

(** src/bit_vec/traits.rs:190-220 trait [BitVecPush: BitVecMut].  [align_block] takes fuel because its loop
    is bounded only by the behaviour of [push_bit]. *)
Record bitvecpush (T : Type) := {
  bp_bm : bitvecmut T;
  bp_push_bit : T -> bool -> res T;
  bp_pop_bit : T -> res (option bool * T);
  bp_align_block : nat -> T -> bool -> res T;
  bp_push_block : nat -> T -> N -> res T }.
Arguments bp_bm {T} _.
Arguments bp_push_bit {T} _ _ _.
Arguments bp_pop_bit {T} _ _.
Arguments bp_align_block {T} _ _ _ _.
Arguments bp_push_block {T} _ _ _ _.

Section Defaults.
  Context {T : Type} (c : cfg) (nb : N).
  Variable bit_len : T -> res N.
  Variable block_len : T -> res N.
  Variable get_bit : T -> N -> res bool.
  Variable get_block : T -> N -> res N.

  (** src/bit_vec/traits.rs:19-21 default [block_len]: [bit_len().ceil_div(nbits as u64) as usize] *)
  Definition default_block_len (t : T) : res N :=
    bl <- bit_len t ;; q <- ceil_div c 64 bl nb ;; Ok (as_usize c q).

  (** src/bit_vec/traits.rs:31-37 default [get_bit] *)
  Definition default_get_bit (t : T) (position : N) : res bool :=
    bl <- bit_len t ;;
    assert_ (position <? bl) ;;;
    a <- address_new c nb position ;;
    b <- get_block t (block_index a) ;;
    blk_get_bit c nb b (bit_offset a).

  (** src/bit_vec/traits.rs:52-69 default [get_block]: assembles the block bit by bit *)
  Definition default_get_block (t : T) (position : N) : res N :=
    n <- block_len t ;;
    assert_ (position <? n) ;;;
    bit_position <- wmul c 64 position nb ;;
    rm <- for_range 0 nb (fun i (st : N * N) =>
      let (result, mask) := st in
      p <- wadd c 64 bit_position i ;;
      bl <- bit_len t ;;
      b <- (if p <? bl then get_bit t p else Ok false) ;;
      mask' <- wshl c nb mask 1 ;;
      Ok (if b then N.lor result mask else result, mask')) (0, 1) ;;
    Ok (fst rm).

  (** src/bit_vec/traits.rs:77-98 default [get_bits] *)
  Definition default_get_bits (t : T) (start count : N) : res N :=
    limit <- wadd c 64 start count ;;
    bl <- bit_len t ;;
    assert_ (limit <=? bl) ;;;
    a <- address_new c nb start ;;
    margin <- wsub c (ptr c) nb (bit_offset a) ;;
    if count <=? margin then
      b <- get_block t (block_index a) ;;
      blk_get_bits c nb b (bit_offset a) count
    else
      extra <- wsub c (ptr c) count margin ;;
      block1 <- get_block t (block_index a) ;;
      i2 <- wadd c (ptr c) (block_index a) 1 ;;
      block2 <- get_block t i2 ;;
      low_bits <- blk_get_bits c nb block1 (bit_offset a) margin ;;
      high_bits <- blk_get_bits c nb block2 0 extra ;;
      h <- wshl c nb high_bits margin ;;
      Ok (N.lor h low_bits).

  Variable set_bit : T -> N -> bool -> res T.
  Variable set_block : T -> N -> N -> res T.

  (** src/bit_vec/traits.rs:115-122 default [set_bit] *)
  Definition default_set_bit (t : T) (position : N) (value : bool) : res T :=
    bl <- bit_len t ;;
    assert_ (position <? bl) ;;;
    a <- address_new c nb position ;;
    old <- get_block t (block_index a) ;;
    new <- blk_with_bit c nb old (bit_offset a) value ;;
    set_block t (block_index a) new.

  (** src/bit_vec/traits.rs:138-151 default [set_block] *)
  Definition default_set_block (t : T) (position value : N) : res T :=
    p1 <- wadd c (ptr c) position 1 ;;
    n <- block_len t ;;
    limit <- (if p1 =? n then bl <- bit_len t ;; last_block_bits c nb bl else Ok nb) ;;
    start <- mul_nbits c nb position ;;
    tv <- for_range 0 limit (fun i (st : T * N) =>
      let (t, value) := st in
      p <- wadd c 64 start i ;;
      t' <- set_bit t p (negb (N.land value 1 =? 0)) ;;
      v' <- wshr c nb value 1 ;;
      Ok (t', v')) (t, value) ;;
    Ok (fst tv).

  (** src/bit_vec/traits.rs:159-186 default [set_bits] *)
  Definition default_set_bits (t : T) (start count value : N) : res T :=
    limit <- wadd c 64 start count ;;
    bl <- bit_len t ;;
    assert_ (limit <=? bl) ;;;
    a <- address_new c nb start ;;
    margin <- wsub c (ptr c) nb (bit_offset a) ;;
    if count <=? margin then
      old <- get_block t (block_index a) ;;
      new <- blk_with_bits c nb old (bit_offset a) count value ;;
      set_block t (block_index a) new
    else
      extra <- wsub c (ptr c) count margin ;;
      old1 <- get_block t (block_index a) ;;
      i2 <- wadd c (ptr c) (block_index a) 1 ;;
      old2 <- get_block t i2 ;;
      high_bits <- wshr c nb value margin ;;
      new1 <- blk_with_bits c nb old1 (bit_offset a) margin value ;;
      new2 <- blk_with_bits c nb old2 0 extra high_bits ;;
      t1 <- set_block t (block_index a) new1 ;;
      i2' <- wadd c (ptr c) (block_index a) 1 ;;
      set_block t1 i2' new2.

  Variable push_bit : T -> bool -> res T.

  (** src/bit_vec/traits.rs:199-203 default [align_block]; loop on explicit fuel *)
  Definition default_align_block (fuel : nat) (t : T) (value : bool) : res T :=
    loop_fuel fuel (fun t =>
      bl <- bit_len t ;;
      m <- mod_nbits c nb bl ;;
      if m =? 0 then Ok (Return t)
      else t' <- push_bit t value ;; Ok (Continue t')) t.

  (** src/bit_vec/traits.rs:212-219 default [push_block] *)
  Definition default_push_block (fuel : nat) (t : T) (value : N) : res T :=
    t0 <- default_align_block fuel t false ;;
    tv <- for_range 0 nb (fun _ (st : T * N) =>
      let (t, value) := st in
      t' <- push_bit t (negb (N.land value 1 =? 0)) ;;
      v' <- wshr c nb value 1 ;;
      Ok (t', v')) (t0, value) ;;
    Ok (fst tv).
End Defaults.

(** ** [[Block]], [&[Block]], [&mut [Block]], [Vec<Block>] (src/bit_vec/traits.rs:222-317) as [list N];
    the five implementations have identical bodies. *)
Section Blocks.
  Variables (c : cfg) (nb : N).

  (** src/bit_vec/traits.rs:226-228 [self.len() as u64 * Block::nbits() as u64] *)
  Definition blocks_bit_len (l : list N) : res N := wmul c 64 (lengthN l) nb.
  (** src/bit_vec/traits.rs:231-233 *)
  Definition blocks_block_len (l : list N) : res N := Ok (lengthN l).
  (** src/bit_vec/traits.rs:236-238 *)
  Definition blocks_get_block (l : list N) (i : N) : res N := index l i.
  (** src/bit_vec/traits.rs:243-245 *)
  Definition blocks_set_block (l : list N) (i v : N) : res (list N) := index_set l i v.

  Definition blocks_get_bit : list N -> N -> res bool :=
    default_get_bit c nb blocks_bit_len blocks_get_block.
  Definition blocks_get_bits : list N -> N -> N -> res N :=
    default_get_bits c nb blocks_bit_len blocks_get_block.
  Definition blocks_set_bit : list N -> N -> bool -> res (list N) :=
    default_set_bit c nb blocks_bit_len blocks_get_block blocks_set_block.
  Definition blocks_set_bits : list N -> N -> N -> N -> res (list N) :=
    default_set_bits c nb blocks_bit_len blocks_get_block blocks_set_block.

  Definition blocks_bitvec : bitvec (list N) := {|
    bv_nb := nb;
    bv_bit_len := blocks_bit_len;
    bv_block_len := blocks_block_len;
    bv_get_bit := blocks_get_bit;
    bv_get_block := blocks_get_block;
    bv_get_bits := blocks_get_bits |}.

  Definition blocks_bitvecmut : bitvecmut (list N) := {|
    bm_bv := blocks_bitvec;
    bm_set_bit := blocks_set_bit;
    bm_set_block := blocks_set_block;
    bm_set_bits := blocks_set_bits |}.
End Blocks.

(** ** [Vec<bool>] (src/bit_vec/traits.rs:319-348); its [Block] is u8 *)
Section VecBool.
  Variable c : cfg.
  Let nb := 8.

  (** src/bit_vec/traits.rs:323-325 *)
  Definition vb8_bit_len (l : list bool) : res N := Ok (lengthN l).
  (** src/bit_vec/traits.rs:327-329 *)
  Definition vb8_get_bit (l : list bool) (i : N) : res bool :=
    p <- expect (to_usize c i) ;; index l p.
  (** src/bit_vec/traits.rs:333-337 *)
  Definition vb8_set_bit (l : list bool) (i : N) (v : bool) : res (list bool) :=
    p <- expect (to_usize c i) ;; index_set l p v.
  (** src/bit_vec/traits.rs:341-343; a [bool] occupies a byte *)
  Definition vb8_push_bit (l : list bool) (v : bool) : res (list bool) := vec_push c 8 l v.
  (** src/bit_vec/traits.rs:345-347 *)
  Definition vb8_pop_bit (l : list bool) : res (option bool * list bool) := Ok (vec_pop l).

  Definition vb8_block_len : list bool -> res N := default_block_len c nb vb8_bit_len.
  Definition vb8_get_block : list bool -> N -> res N :=
    default_get_block c nb vb8_bit_len vb8_block_len vb8_get_bit.
  Definition vb8_get_bits : list bool -> N -> N -> res N :=
    default_get_bits c nb vb8_bit_len vb8_get_block.
  Definition vb8_set_block : list bool -> N -> N -> res (list bool) :=
    default_set_block c nb vb8_bit_len vb8_block_len vb8_set_bit.
  Definition vb8_set_bits : list bool -> N -> N -> N -> res (list bool) :=
    default_set_bits c nb vb8_bit_len vb8_get_block vb8_set_block.

  Definition vecbool_bitvec : bitvec (list bool) := {|
    bv_nb := nb;
    bv_bit_len := vb8_bit_len;
    bv_block_len := vb8_block_len;
    bv_get_bit := vb8_get_bit;
    bv_get_block := vb8_get_block;
    bv_get_bits := vb8_get_bits |}.

  Definition vecbool_bitvecmut : bitvecmut (list bool) := {|
    bm_bv := vecbool_bitvec;
    bm_set_bit := vb8_set_bit;
    bm_set_block := vb8_set_block;
    bm_set_bits := vb8_set_bits |}.

  Definition vecbool_bitvecpush : bitvecpush (list bool) := {|
    bp_bm := vecbool_bitvecmut;
    bp_push_bit := vb8_push_bit;
    bp_pop_bit := vb8_pop_bit;
    bp_align_block := default_align_block c nb vb8_bit_len vb8_push_bit;
    bp_push_block := default_push_block c nb vb8_bit_len vb8_push_bit |}.
End VecBool.

(** ** Primitive integers as bit vectors (src/bit_vec/prim.rs:4-64) *)
Section Prim.
  Variables (c : cfg) (nb : N).

  (** src/bit_vec/prim.rs:12-14 *)
  Definition prim_bit_len (_ : N) : res N := Ok nb.
  (** src/bit_vec/prim.rs:17-19 *)
  Definition prim_block_len (_ : N) : res N := Ok 1.
  (** src/bit_vec/prim.rs:22-26 *)
  Definition prim_get_bit (x position : N) : res bool :=
    assert_ (position <? nb) ;;; blk_get_bit c nb x (as_usize c position).
  (** src/bit_vec/prim.rs:29-32 *)
  Definition prim_get_block (x position : N) : res N :=
    assert_ (position =? 0) ;;; Ok x.
  (** src/bit_vec/prim.rs:35-39 *)
  Definition prim_get_bits (x start count : N) : res N :=
    e <- wadd c 64 start count ;;
    assert_ (e <=? nb) ;;;
    blk_get_bits c nb x (as_usize c start) count.
  (** src/bit_vec/prim.rs:44-48 *)
  Definition prim_set_bit (x position : N) (v : bool) : res N :=
    assert_ (position <? nb) ;;; blk_with_bit c nb x (as_usize c position) v.
  (** src/bit_vec/prim.rs:51-54 *)
  Definition prim_set_block (x position v : N) : res N :=
    assert_ (position =? 0) ;;; Ok v.
  (** src/bit_vec/prim.rs:57-61 *)
  Definition prim_set_bits (x start count v : N) : res N :=
    e <- wadd c 64 start count ;;
    assert_ (e <=? nb) ;;;
    blk_with_bits c nb x (as_usize c start) count v.

  Definition prim_bitvec : bitvec N := {|
    bv_nb := nb;
    bv_bit_len := prim_bit_len;
    bv_block_len := prim_block_len;
    bv_get_bit := prim_get_bit;
    bv_get_block := prim_get_block;
    bv_get_bits := prim_get_bits |}.

  Definition prim_bitvecmut : bitvecmut N := {|
    bm_bv := prim_bitvec;
    bm_set_bit := prim_set_bit;
    bm_set_block := prim_set_block;
    bm_set_bits := prim_set_bits |}.
End Prim.
