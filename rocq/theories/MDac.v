(** * User code: integers of varying size with direct access, in chunks of [k] bits by levels, written with the interface of the
    crate: [IntVector] (src/int_vec/int_vector.rs), [BitVector] (src/bit_vec/bit_vector.rs), [Rank9] (src/rank/rank9.rs) and
    [BlockType::low_mask] (src/storage.rs).  A level holds the chunks of the numbers that reach it and marks those that go on.
<<
    struct Level { chunks: IntVector<u64>, more: Rank9<BitVector<u64>> }
    struct Dac { k: usize, levels: Vec<Level> }

    fn new(k: usize, xs: &[u64]) -> Dac {
        let mut levels = Vec::new();
        let mut xs = xs.to_vec();
        while !xs.is_empty() {
            let mut chunks = IntVector::new(k);
            let mut more = BitVector::new();
            let mut rest = Vec::new();
            for &x in &xs {
                chunks.push(x & u64::low_mask(k));
                let y = x >> k;
                more.push_bit(y != 0);
                if y != 0 { rest.push(y); }
            }
            levels.push(Level { chunks: chunks, more: Rank9::new(more) });
            xs = rest;
        }
        Dac { k: k, levels: levels }
    }
    fn get(&self, mut i: u64) -> u64 {
        let (mut x, mut shift) = (0, 0);
        for level in &self.levels {
            x |= level.chunks.get(i) << shift;
            if !level.more.get_bit(i) { break; }
            i = level.more.rank1(i) - 1;
            shift += self.k;
        }
        x
    }
>> *)
From Verif Require Import Machine MStorage MTraits MVectorBase MBitVector MIntVector MRank.

Record dac_level := { dl_chunks : intvec; dl_more : rank9 vbase }.
Record dac := { dac_k : N; dac_levels : list dac_level }.

Section Dac.
  Variable c : cfg.
  Let B := bvec_bitvec c 64.

  (** the [for] loop of [new] *)
  Fixpoint dac_split (k : N) (xs : list N) (chunks : intvec) (more : vbase) (rest : list N) : res (intvec * vbase * list N) :=
    match xs with
    | [] => Ok (chunks, more, rest)
    | x :: r =>
        m <- low_mask c 64 k ;;
        chunks <- iv_push c 64 chunks (N.land x m) ;;
        y <- wshr c 64 x k ;;
        more <- bp_push_bit (bvec_bitvecpush c 64) more (negb (y =? 0)) ;;
        dac_split k r chunks more (if negb (y =? 0) then rest ++ [y] else rest)
    end.
  (** the [while] loop, which runs on [fuel]: the levels from here on *)
  Fixpoint dac_fill (fuel : nat) (k : N) (xs : list N) : res (list dac_level) :=
    match xs, fuel with
    | [], _ => Ok []
    | _, O => OutOfFuel
    | _, S fuel =>
        chunks <- iv_new c 64 k ;;
        more <- bvec_new c 64 ;;
        '(chunks, more, rest) <- dac_split k xs chunks more [] ;;
        d <- rank9_new c B more ;;
        ls <- dac_fill fuel k rest ;;
        Ok ({| dl_chunks := chunks; dl_more := d |} :: ls)
    end.
  Definition dac_new (fuel : nat) (k : N) (xs : list N) : res dac :=
    ls <- dac_fill fuel k xs ;; Ok {| dac_k := k; dac_levels := ls |}.
  (** the [for] loop of [get] *)
  Fixpoint dac_walk (k : N) (ls : list dac_level) (i x shift : N) : res N :=
    match ls with
    | [] => Ok x
    | l :: r =>
        y <- iv_get c 64 (dl_chunks l) i ;;
        z <- wshl c 64 y shift ;;
        let x := N.lor x z in
        b <- bv_get_bit (rank9_bitvec B) (dl_more l) i ;;
        if negb b then Ok x
        else
          n <- br_rank1 (rank9_bitrank c B) (dl_more l) i ;;
          i <- wsub c 64 n 1 ;;
          shift <- wadd c (ptr c) shift k ;;
          dac_walk k r i x shift
    end.
  Definition dac_get (d : dac) (i : N) : res N := dac_walk (dac_k d) (dac_levels d) i 0 0.
End Dac.
