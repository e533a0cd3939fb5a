(** * User code: a sequence of symbols with rank, select, access and order statistics (a wavelet tree), written with the interface of
    the crate: [BitVector] (src/bit_vec/bit_vector.rs), [Rank9] (src/rank/rank9.rs), the bit vector of a [u64]
    (src/bit_vec/prim.rs), an implementation of [RankSupport] (src/rank/traits.rs:6-23) over symbols and [BinSearchSelect]
    (src/select/bin_search.rs) over it.
<<
    enum Tree {
        Leaf,
        Node { shift: u64, marks: Rank9<BitVector<u64>>, zero: Box<Tree>, one: Box<Tree> },
    }

    impl Tree {
        fn new(width: usize, symbols: &[u64]) -> Tree {
            if width == 0 { return Leaf; }
            let shift = width as u64 - 1;
            let (mut bits, mut zero, mut one) = (BitVector::new(), Vec::new(), Vec::new());
            for &x in symbols {
                let b = x.get_bit(shift);
                bits.push_bit(b);
                if b { one.push(x) } else { zero.push(x) }
            }
            Node { shift, marks: Rank9::new(bits),
                   zero: Box::new(Tree::new(width - 1, &zero)), one: Box::new(Tree::new(width - 1, &one)) }
        }
        fn before(&self, end: u64, value: u64) -> u64 {
            match *self {
                Leaf => end,
                Node { shift, ref marks, ref zero, ref one } => {
                    if end == 0 { return 0; }
                    let b = value.get_bit(shift);
                    (if b { one } else { zero }).before(marks.rank(end - 1, b), value)
                }
            }
        }
        fn get(&self, p: u64) -> u64 {
            match *self {
                Leaf => 0,
                Node { shift, ref marks, ref zero, ref one } => {
                    let b = marks.get_bit(p);
                    let mut x = (if b { one } else { zero }).get(marks.rank(p, b) - 1);
                    x.set_bit(shift, b);
                    x
                }
            }
        }
        fn nth_smallest(&self, start: u64, end: u64, k: u64) -> u64 {
            match *self {
                Leaf => 0,
                Node { shift, ref marks, ref zero, ref one } => {
                    let zeros = |p| if p == 0 { 0 } else { marks.rank0(p - 1) };
                    let (zs, ze) = (zeros(start), zeros(end));
                    let n = ze - zs;
                    if k < n { zero.nth_smallest(zs, ze, k) }
                    else {
                        let mut x = one.nth_smallest(start - zs, end - ze, k - n);
                        x.set_bit(shift, true);
                        x
                    }
                }
            }
        }
    }

    struct Wavelet { tree: Tree, len: u64 }
    impl RankSupport for Wavelet {
        type Over = u64;
        fn rank(&self, position: u64, value: u64) -> u64 { self.tree.before(position + 1, value) }
        fn limit(&self) -> u64 { self.len }
    }
>> *)
From Verif Require Import Machine MStorage MTraits MVectorBase MBitVector MRank MSelect.

Inductive wtree := WLeaf | WNode (shift : N) (marks : rank9 vbase) (zero one : wtree).
Record wavelet := { wl_tree : wtree; wl_len : N }.

Section Wavelet.
  Variable c : cfg.
  Let B := bvec_bitvec c 64.
  Let K := rank9_bitrank c B.

  (** the [for] loop of [new] *)
  Fixpoint wt_split (shift : N) (symbols : list N) (bits : vbase) (zero one : list N) : res (vbase * list N * list N) :=
    match symbols with
    | [] => Ok (bits, zero, one)
    | x :: r =>
        b <- bv_get_bit (prim_bitvec c 64) x shift ;;
        bits <- bp_push_bit (bvec_bitvecpush c 64) bits b ;;
        if b then wt_split shift r bits zero (one ++ [x]) else wt_split shift r bits (zero ++ [x]) one
    end.
  Fixpoint wt_new (width : nat) (symbols : list N) : res wtree :=
    match width with
    | O => Ok WLeaf
    | S w =>
        bits <- bvec_new c 64 ;;
        '(bits, zero, one) <- wt_split (N.of_nat w) symbols bits [] [] ;;
        d <- rank9_new c B bits ;;
        z <- wt_new w zero ;;
        o <- wt_new w one ;;
        Ok (WNode (N.of_nat w) d z o)
    end.
  Fixpoint wt_before (t : wtree) (e value : N) : res N :=
    match t with
    | WLeaf => Ok e
    | WNode shift d z o =>
        if e =? 0 then Ok 0 else
        b <- bv_get_bit (prim_bitvec c 64) value shift ;;
        q <- wsub c 64 e 1 ;;
        n <- rs_rank (br_rs K) d q b ;;
        if b then wt_before o n value else wt_before z n value
    end.
  Fixpoint wt_get (t : wtree) (p : N) : res N :=
    match t with
    | WLeaf => Ok 0
    | WNode shift d z o =>
        b <- bv_get_bit (rank9_bitvec B) d p ;;
        n <- rs_rank (br_rs K) d p b ;;
        i <- wsub c 64 n 1 ;;
        x <- (if b then wt_get o i else wt_get z i) ;;
        bm_set_bit (prim_bitvecmut c 64) x shift b
    end.
  Definition wt_zeros (d : rank9 vbase) (p : N) : res N :=
    if p =? 0 then Ok 0 else q <- wsub c 64 p 1 ;; br_rank0 K d q.
  Fixpoint wt_nth_smallest (t : wtree) (s e k : N) : res N :=
    match t with
    | WLeaf => Ok 0
    | WNode shift d z o =>
        zs <- wt_zeros d s ;;
        ze <- wt_zeros d e ;;
        n <- wsub c 64 ze zs ;;
        if k <? n then wt_nth_smallest z zs ze k
        else
          s' <- wsub c 64 s zs ;;
          e' <- wsub c 64 e ze ;;
          k' <- wsub c 64 k n ;;
          x <- wt_nth_smallest o s' e' k' ;;
          bm_set_bit (prim_bitvecmut c 64) x shift true
    end.

  Definition wavelet_new (width : nat) (symbols : list N) : res wavelet :=
    t <- wt_new width symbols ;; Ok {| wl_tree := t; wl_len := lengthN symbols |}.
  (** the [impl RankSupport] *)
  Definition wavelet_ranksup : ranksup N wavelet := {|
    rs_rank := fun t p v => e <- wadd c 64 p 1 ;; wt_before (wl_tree t) e v;
    rs_limit := fun t => Ok (wl_len t) |}.
End Wavelet.
