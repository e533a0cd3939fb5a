(** * User code: a sparse array, written with the interface of the crate: [BitVector] (src/bit_vec/bit_vector.rs), [Rank9]
    (src/rank/rank9.rs), [BinSearchSelect] (src/select/bin_search.rs) and [IntVector] (src/int_vec/int_vector.rs).
<<
    struct Sparse<Block> { marks: BinSearchSelect<Rank9<BitVector<u64>>>, values: IntVector<Block> }

    fn new(len: u64, width: usize, items: &[(u64, Block)]) -> Self {
        let mut marks = BitVector::with_fill(len, false);
        let mut values = IntVector::new(width);
        for &(p, x) in items {
            marks.set_bit(p, true);
            values.push(x);
        }
        Sparse { marks: BinSearchSelect::new(Rank9::new(marks)), values }
    }
    fn get(&self, p: u64) -> Option<Block> {
        if self.marks.get_bit(p) { Some(self.values.get(self.marks.rank1(p) - 1)) } else { None }
    }
    fn nth(&self, i: u64) -> Option<(u64, Block)> { self.marks.select1(i).map(|p| (p, self.values.get(i))) }
    fn floor(&self, p: u64) -> Option<(u64, Block)> {
        match self.marks.rank1(p) { 0 => None, n => self.nth(n - 1) }
    }
    fn ceiling(&self, p: u64) -> Option<(u64, Block)> {
        self.nth(if p == 0 { 0 } else { self.marks.rank1(p - 1) })
    }
>> *)
From Verif Require Import Machine MStorage MTraits MVectorBase MBitVector MIntVector MRank MSelect.

Record sparse := { sp_marks : rank9 vbase; sp_values : intvec }.

Section Sparse.
  (** [nb]: the block size of the values *)
  Variables (c : cfg) (nb : N).
  Let B := bvec_bitvec c 64.

  (** the [for] loop *)
  Fixpoint sparse_fill (items : list (N * N)) (marks : vbase) (values : intvec) : res (vbase * intvec) :=
    match items with
    | [] => Ok (marks, values)
    | (p, x) :: r =>
        marks <- bm_set_bit (bvec_bitvecmut c 64) marks p true ;;
        values <- iv_push c nb values x ;;
        sparse_fill r marks values
    end.
  Definition sparse_new (len width : N) (items : list (N * N)) : res sparse :=
    marks <- bvec_with_fill c 64 len false ;;
    values <- iv_new c nb width ;;
    '(marks, values) <- sparse_fill items marks values ;;
    d <- rank9_new c B marks ;;
    Ok {| sp_marks := d; sp_values := values |}.
  Definition sparse_get (s : sparse) (p : N) : res (option N) :=
    b <- bv_get_bit (bss_bitvec (rank9_bitvec B)) (sp_marks s) p ;;
    if b then
      n <- br_rank1 (bss_bitrank (rank9_bitrank c B)) (sp_marks s) p ;;
      i <- wsub c 64 n 1 ;;
      x <- iv_get c nb (sp_values s) i ;;
      Ok (Some x)
    else Ok None.
  Definition sparse_nth (fuel : nat) (s : sparse) (i : N) : res (option (N * N)) :=
    o <- bss_select1 c (rank9_bitrank c B) fuel (sp_marks s) i ;;
    match o with
    | Some p => x <- iv_get c nb (sp_values s) i ;; Ok (Some (p, x))
    | None => Ok None
    end.
  Definition sparse_floor (fuel : nat) (s : sparse) (p : N) : res (option (N * N)) :=
    n <- br_rank1 (bss_bitrank (rank9_bitrank c B)) (sp_marks s) p ;;
    if n =? 0 then Ok None else i <- wsub c 64 n 1 ;; sparse_nth fuel s i.
  Definition sparse_ceiling (fuel : nat) (s : sparse) (p : N) : res (option (N * N)) :=
    n <- (if p =? 0 then Ok 0 else q <- wsub c 64 p 1 ;; br_rank1 (bss_bitrank (rank9_bitrank c B)) (sp_marks s) q) ;;
    sparse_nth fuel s n.
End Sparse.
