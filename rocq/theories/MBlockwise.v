(** * User code: set operations on bit vectors, a block at a time, through the block methods of [BitVec] and [BitVecMut]
    (src/bit_vec/traits.rs) and the operators of [BlockType] (src/storage.rs).
<<
    fn combine<A: BitVecMut, B: BitVec<Block = A::Block>>(a: &mut A, b: &B, op: fn(A::Block, A::Block) -> A::Block) {
        for i in 0 .. a.block_len() { let x = op(a.get_block(i), b.get_block(i)); a.set_block(i, x); }
    }
    fn union(a, b) { combine(a, b, |x, y| x | y) }        fn intersection(a, b) { combine(a, b, |x, y| x & y) }
    fn difference(a, b) { combine(a, b, |x, y| x & !y) }  fn symmetric_difference(a, b) { combine(a, b, |x, y| x ^ y) }
    fn complement<A: BitVecMut>(a: &mut A) {
        for i in 0 .. a.block_len() { let x = !a.get_block(i); a.set_block(i, x); }
    }
    fn size<A: BitVec>(a: &A) -> u64 {
        let mut n = 0;
        for i in 0 .. a.block_len() { n += a.get_block(i).count_ones() as u64; }
        n
    }
    fn distance<A: BitVec, B: BitVec<Block = A::Block>>(a: &A, b: &B) -> u64 {
        let mut n = 0;
        for i in 0 .. a.block_len() { n += (a.get_block(i) ^ b.get_block(i)).count_ones() as u64; }
        n
    }
    fn is_subset<A: BitVec, B: BitVec<Block = A::Block>>(a: &A, b: &B) -> bool {
        for i in 0 .. a.block_len() { if a.get_block(i) & !b.get_block(i) != A::Block::zero() { return false; } }
        true
    }
>> *)
From Verif Require Import Machine MStorage MTraits.

Inductive set_op := Union | Intersection | Difference | SymmetricDifference.

Section Blockwise.
  Variable c : cfg.
  Definition block_op (nb : N) (o : set_op) (x y : N) : N :=
    match o with
    | Union => N.lor x y
    | Intersection => N.land x y
    | Difference => N.land x (wnot nb y)
    | SymmetricDifference => N.lxor x y
    end.
  Definition combine_blocks {T U} (M : bitvecmut T) (B : bitvec U) (o : set_op) (a : T) (b : U) : res T :=
    n <- bv_block_len (bm_bv M) a ;;
    for_range 0 n (fun i a =>
      x <- bv_get_block (bm_bv M) a i ;;
      y <- bv_get_block B b i ;;
      bm_set_block M a i (block_op (bv_nb B) o x y)) a.
  Definition complement_blocks {T} (M : bitvecmut T) (a : T) : res T :=
    n <- bv_block_len (bm_bv M) a ;;
    for_range 0 n (fun i a => x <- bv_get_block (bm_bv M) a i ;; bm_set_block M a i (wnot (bv_nb (bm_bv M)) x)) a.
  Definition size_blocks {T} (A : bitvec T) (a : T) : res N :=
    n <- bv_block_len A a ;;
    for_range 0 n (fun i s => x <- bv_get_block A a i ;; wadd c 64 s (count_ones x)) 0.
  Definition distance_blocks {T U} (A : bitvec T) (B : bitvec U) (a : T) (b : U) : res N :=
    n <- bv_block_len A a ;;
    for_range 0 n (fun i s => x <- bv_get_block A a i ;; y <- bv_get_block B b i ;; wadd c 64 s (count_ones (N.lxor x y))) 0.
  (** the loop of [is_subset] with [n] more blocks from [i] on *)
  Fixpoint subset_loop {T U} (A : bitvec T) (B : bitvec U) (a : T) (b : U) (n : nat) (i : N) : res bool :=
    match n with
    | O => Ok true
    | S n =>
        x <- bv_get_block A a i ;;
        y <- bv_get_block B b i ;;
        if negb (N.land x (wnot (bv_nb B) y) =? 0) then Ok false else subset_loop A B a b n (i + 1)
    end.
  Definition subset_blocks {T U} (A : bitvec T) (B : bitvec U) (a : T) (b : U) : res bool :=
    n <- bv_block_len A a ;; subset_loop A B a b (N.to_nat n) 0.
End Blockwise.
