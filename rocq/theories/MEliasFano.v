(** * User code: a compressed sorted sequence (Elias and Fano), written with the interface of the crate: [BitVector]
    (src/bit_vec/bit_vector.rs), [Rank9] (src/rank/rank9.rs), [BinSearchSelect] (src/select/bin_search.rs), [IntVector]
    (src/int_vec/int_vector.rs) and [BlockType::low_mask] (src/storage.rs).
<<
    struct EliasFano { k: usize, high: BinSearchSelect<Rank9<BitVector<u64>>>, low: IntVector<u64> }

    fn new(k: usize, xs: &[u64]) -> Self {
        let mut high = BitVector::new();
        let mut low = IntVector::new(k);
        let mut h = 0;
        for &x in xs {
            low.push(x & u64::low_mask(k));
            for _ in h .. x >> k { high.push_bit(false); }
            high.push_bit(true);
            h = x >> k;
        }
        EliasFano { k, high: BinSearchSelect::new(Rank9::new(high)), low }
    }
    fn get(&self, i: u64) -> Option<u64> {
        self.high.select1(i).map(|p| (p - i) << self.k | self.low.get(i))
    }
    /// how many elements are smaller than x
    fn rank(&self, x: u64) -> u64 {
        let h = x >> self.k;
        let y = x & u64::low_mask(self.k);
        let mut i = if h == 0 { 0 } else {
            match self.high.select0(h - 1) { Some(p) => p + 1 - h, None => return self.low.len() }
        };
        while i + h < self.high.bit_len() && self.high.get_bit(i + h) && self.low.get(i) < y { i += 1; }
        i
    }
>> *)
From Verif Require Import Machine MStorage MTraits MVectorBase MBitVector MIntVector MRank MSelect.

Record elias_fano := { ef_k : N; ef_high : rank9 vbase; ef_low : intvec }.

Section EliasFano.
  Variable c : cfg.
  Let B := bvec_bitvec c 64.
  Let P := bvec_bitvecpush c 64.

  (** the outer [for] loop *)
  Fixpoint ef_fill (k : N) (xs : list N) (h : N) (high : vbase) (low : intvec) : res (vbase * intvec) :=
    match xs with
    | [] => Ok (high, low)
    | x :: r =>
        m <- low_mask c 64 k ;;
        low <- iv_push c 64 low (N.land x m) ;;
        e <- wshr c 64 x k ;;
        high <- for_range h e (fun _ high => bp_push_bit P high false) high ;;
        high <- bp_push_bit P high true ;;
        ef_fill k r e high low
    end.
  Definition ef_new (k : N) (xs : list N) : res elias_fano :=
    high <- bvec_new c 64 ;;
    low <- iv_new c 64 k ;;
    '(high, low) <- ef_fill k xs 0 high low ;;
    d <- rank9_new c B high ;;
    Ok {| ef_k := k; ef_high := d; ef_low := low |}.
  Definition ef_get (fuel : nat) (e : elias_fano) (i : N) : res (option N) :=
    o <- bss_select1 c (rank9_bitrank c B) fuel (ef_high e) i ;;
    match o with
    | Some p =>
        d <- wsub c 64 p i ;; s <- wshl c 64 d (ef_k e) ;; x <- iv_get c 64 (ef_low e) i ;; Ok (Some (N.lor s x))
    | None => Ok None
    end.
  (** the condition of the [while] loop *)
  Definition ef_smaller (e : elias_fano) (h y i : N) : res bool :=
    p <- wadd c 64 i h ;;
    n <- bv_bit_len (bss_bitvec (rank9_bitvec B)) (ef_high e) ;;
    if p <? n then
      p <- wadd c 64 i h ;;
      b <- bv_get_bit (bss_bitvec (rank9_bitvec B)) (ef_high e) p ;;
      if b then x <- iv_get c 64 (ef_low e) i ;; Ok (x <? y) else Ok false
    else Ok false.
  Definition ef_rank (fuel : nat) (e : elias_fano) (x : N) : res N :=
    h <- wshr c 64 x (ef_k e) ;;
    m <- low_mask c 64 (ef_k e) ;;
    let loop i := loop_fuel fuel (fun i =>
      b <- ef_smaller e h (N.land x m) i ;;
      if b then i <- wadd c 64 i 1 ;; Ok (Continue i) else Ok (Return i)) i in
    if h =? 0 then loop 0
    else
      h1 <- wsub c 64 h 1 ;;
      o <- bss_select0 c (rank9_bitrank c B) fuel (ef_high e) h1 ;;
      match o with
      | Some p => p1 <- wadd c 64 p 1 ;; i <- wsub c 64 p1 h ;; loop i
      | None => Ok (iv_len (ef_low e))
      end.
End EliasFano.
