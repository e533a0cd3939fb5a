(** * User code: a list with long runs of equal numbers, written with the interface of the crate: [BitVector]
    (src/bit_vec/bit_vector.rs), [Rank9] (src/rank/rank9.rs), [BinSearchSelect] (src/select/bin_search.rs) and [IntVector]
    (src/int_vec/int_vector.rs).  Of every run, the first position is marked and the number is kept once.
<<
    struct Runs { starts: BinSearchSelect<Rank9<BitVector<u64>>>, heads: IntVector<u64> }

    fn new(k: usize, xs: &[u64]) -> Runs {
        let mut starts = BitVector::new();
        let mut heads = IntVector::new(k);
        let mut last = None;
        for &x in xs {
            let fresh = last != Some(x);
            starts.push_bit(fresh);
            if fresh { heads.push(x); }
            last = Some(x);
        }
        Runs { starts: BinSearchSelect::new(Rank9::new(starts)), heads: heads }
    }
    fn get(&self, i: u64) -> u64 { self.heads.get(self.starts.rank1(i) - 1) }
    /// the run that holds position i: its first position and the first one after it
    fn run(&self, i: u64) -> (u64, u64) {
        let r = self.starts.rank1(i);
        (self.starts.select1(r - 1).unwrap(), self.starts.select1(r).unwrap_or(self.starts.bit_len()))
    }
>> *)
From Verif Require Import Machine MStorage MTraits MVectorBase MBitVector MIntVector MRank MSelect.

Record runs := { rn_starts : rank9 vbase; rn_heads : intvec }.

Section Runs.
  Variable c : cfg.
  Let B := bvec_bitvec c 64.
  Let K := rank9_bitrank c B.

  (** [last != Some(x)] *)
  Definition rn_fresh (last : option N) (x : N) : bool := match last with Some y => negb (y =? x) | None => true end.
  (** the [for] loop of [new] *)
  Fixpoint rn_fill (xs : list N) (last : option N) (starts : vbase) (heads : intvec) : res (vbase * intvec) :=
    match xs with
    | [] => Ok (starts, heads)
    | x :: r =>
        let fresh := rn_fresh last x in
        starts <- bp_push_bit (bvec_bitvecpush c 64) starts fresh ;;
        heads <- (if fresh then iv_push c 64 heads x else Ok heads) ;;
        rn_fill r (Some x) starts heads
    end.
  Definition rn_new (k : N) (xs : list N) : res runs :=
    starts <- bvec_new c 64 ;;
    heads <- iv_new c 64 k ;;
    '(starts, heads) <- rn_fill xs None starts heads ;;
    d <- rank9_new c B starts ;;
    Ok {| rn_starts := d; rn_heads := heads |}.
  Definition rn_get (t : runs) (i : N) : res N :=
    r <- br_rank1 (bss_bitrank K) (rn_starts t) i ;; q <- wsub c 64 r 1 ;; iv_get c 64 (rn_heads t) q.
  Definition rn_run (fuel : nat) (t : runs) (i : N) : res (N * N) :=
    r <- br_rank1 (bss_bitrank K) (rn_starts t) i ;;
    q <- wsub c 64 r 1 ;;
    o <- bss_select1 c K fuel (rn_starts t) q ;;
    s <- expect o ;;
    o' <- bss_select1 c K fuel (rn_starts t) r ;;
    n <- bv_bit_len (bss_bitvec (rank9_bitvec B)) (rn_starts t) ;;
    Ok (s, match o' with Some e => e | None => n end).
End Runs.
