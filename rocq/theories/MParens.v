(** * User code: a tree in two bits per node (balanced parentheses, a wish of TODO.md), written with the interface of the crate:
    [BitVector] (src/bit_vec/bit_vector.rs), [Rank9] (src/rank/rank9.rs) and [BinSearchSelect] (src/select/bin_search.rs).
<<
    enum Forest { Nil, Cons(Box<Forest>, Box<Forest>) }  // the children of the first node, and the nodes after it

    struct Parens { bits: BinSearchSelect<Rank9<BitVector<u64>>> }

    fn push(f: &Forest, bits: &mut BitVector<u64>) {
        if let Cons(children, siblings) = f {
            bits.push_bit(true);
            push(children, bits);
            bits.push_bit(false);
            push(siblings, bits);
        }
    }
    fn new(f: &Forest) -> Self {
        let mut bits = BitVector::new();
        push(f, &mut bits);
        Parens { bits: BinSearchSelect::new(Rank9::new(bits)) }
    }
    /// the i-th node, in the order of the text
    fn node(&self, i: u64) -> Option<u64> { self.bits.select1(i) }
    fn index(&self, p: u64) -> u64 { self.bits.rank1(p) - 1 }
    fn depth(&self, p: u64) -> u64 { self.bits.rank1(p) - self.bits.rank0(p) }
    fn find_close(&self, p: u64) -> Option<u64> {
        let mut q = p;
        let mut excess = 0;
        while q < self.bits.bit_len() {
            if self.bits.get_bit(q) {
                excess += 1;
            } else {
                excess -= 1;
                if excess == 0 { return Some(q); }
            }
            q += 1;
        }
        None
    }
    /// the parent of the node at p; the node itself if p is where it is closed
    fn enclosing(&self, p: u64) -> Option<u64> {
        let mut q = p;
        let mut excess = 0;
        while q > 0 {
            q -= 1;
            if !self.bits.get_bit(q) {
                excess += 1;
            } else if excess == 0 {
                return Some(q);
            } else {
                excess -= 1;
            }
        }
        None
    }
    fn node_at(&self, p: u64) -> Option<u64> {
        if p < self.bits.bit_len() && self.bits.get_bit(p) { Some(p) } else { None }
    }
    fn first_child(&self, p: u64) -> Option<u64> { self.node_at(p + 1) }
    fn next_sibling(&self, p: u64) -> Option<u64> {
        match self.find_close(p) { Some(q) => self.node_at(q + 1), None => None }
    }
    fn subtree_size(&self, p: u64) -> u64 {
        match self.find_close(p) { Some(q) => (q - p + 1) / 2, None => 0 }
    }
    fn is_ancestor(&self, p: u64, q: u64) -> bool {
        match self.find_close(p) { Some(r) => p < q && q < r, None => false }
    }
>> *)
From Verif Require Import Machine MStorage MTraits MVectorBase MBitVector MRank MSelect.

Inductive forest := Nil | Cons (children siblings : forest).

Section Parens.
  Variable c : cfg.
  Let B := bvec_bitvec c 64.
  Let P := bvec_bitvecpush c 64.
  Let V := bss_bitvec (rank9_bitvec B).
  Let K := bss_bitrank (rank9_bitrank c B).

  Fixpoint parens_push (f : forest) (bits : vbase) : res vbase :=
    match f with
    | Nil => Ok bits
    | Cons children siblings =>
        bits <- bp_push_bit P bits true ;;
        bits <- parens_push children bits ;;
        bits <- bp_push_bit P bits false ;;
        parens_push siblings bits
    end.
  Definition parens_new (f : forest) : res (rank9 vbase) :=
    bits <- bvec_new c 64 ;;
    bits <- parens_push f bits ;;
    rank9_new c B bits.
  Definition parens_node (fuel : nat) (t : rank9 vbase) (i : N) : res (option N) :=
    bss_select1 c (rank9_bitrank c B) fuel t i.
  Definition parens_index (t : rank9 vbase) (p : N) : res N :=
    r <- br_rank1 K t p ;; wsub c 64 r 1.
  Definition parens_depth (t : rank9 vbase) (p : N) : res N :=
    r1 <- br_rank1 K t p ;; r0 <- br_rank0 K t p ;; wsub c 64 r1 r0.
  Definition parens_find_close (fuel : nat) (t : rank9 vbase) (p : N) : res (option N) :=
    loop_fuel fuel (fun '(q, excess) =>
      n <- bv_bit_len V t ;;
      if q <? n then
        b <- bv_get_bit V t q ;;
        if b then
          excess <- wadd c 64 excess 1 ;; q <- wadd c 64 q 1 ;; Ok (Continue (q, excess))
        else
          excess <- wsub c 64 excess 1 ;;
          if excess =? 0 then Ok (Return (Some q)) else q <- wadd c 64 q 1 ;; Ok (Continue (q, excess))
      else Ok (Return None)) (p, 0).
  Definition parens_enclosing (fuel : nat) (t : rank9 vbase) (p : N) : res (option N) :=
    loop_fuel fuel (fun '(q, excess) =>
      if 0 <? q then
        q <- wsub c 64 q 1 ;;
        b <- bv_get_bit V t q ;;
        if negb b then excess <- wadd c 64 excess 1 ;; Ok (Continue (q, excess))
        else if excess =? 0 then Ok (Return (Some q))
        else excess <- wsub c 64 excess 1 ;; Ok (Continue (q, excess))
      else Ok (Return None)) (p, 0).
  Definition parens_node_at (t : rank9 vbase) (p : N) : res (option N) :=
    n <- bv_bit_len V t ;;
    if p <? n then b <- bv_get_bit V t p ;; Ok (if b then Some p else None) else Ok None.
  Definition parens_first_child (t : rank9 vbase) (p : N) : res (option N) :=
    p <- wadd c 64 p 1 ;; parens_node_at t p.
  Definition parens_next_sibling (fuel : nat) (t : rank9 vbase) (p : N) : res (option N) :=
    o <- parens_find_close fuel t p ;;
    match o with Some q => q <- wadd c 64 q 1 ;; parens_node_at t q | None => Ok None end.
  Definition parens_subtree_size (fuel : nat) (t : rank9 vbase) (p : N) : res N :=
    o <- parens_find_close fuel t p ;;
    match o with Some q => d <- wsub c 64 q p ;; d <- wadd c 64 d 1 ;; Ok (d / 2) | None => Ok 0 end.
  Definition parens_is_ancestor (fuel : nat) (t : rank9 vbase) (p q : N) : res bool :=
    o <- parens_find_close fuel t p ;;
    match o with Some r => Ok ((p <? q) && (q <? r)) | None => Ok false end.
End Parens.
