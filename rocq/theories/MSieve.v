(** * User code: the sieve of Eratosthenes in any [BitVecMut] (src/bit_vec/traits.rs:107-188), and the primes of a
    [BitVector] counted and found with [Rank9] and [BinSearchSelect] (src/rank/rank9.rs:133-150, src/select/bin_search.rs:49-64).
<<
    fn sieve<V: BitVecMut>(v: &mut V) {
        let n = v.bit_len();
        for i in 0 .. n { v.set_bit(i, i >= 2); }
        let mut i = 2;
        while i <= n / i {
            if v.get_bit(i) {
                let mut j = i * i;
                while j < n { v.set_bit(j, false); j += i; }
            }
            i += 1;
        }
    }

    type Primes = BinSearchSelect<Rank9<BitVector<u64>>>;
    fn primes(n: u64) -> Primes {
        let mut v = BitVector::with_fill(n, false);
        sieve(&mut v);
        BinSearchSelect::new(Rank9::new(v))
    }
    fn is_prime(t: &Primes, p: u64) -> bool { t.get_bit(p) }
    fn count_up_to(t: &Primes, p: u64) -> u64 { t.rank1(p) }
    fn nth_prime(t: &Primes, i: u64) -> Option<u64> { t.select1(i) }
>> *)
From Verif Require Import Machine MStorage MTraits MVectorBase MBitVector MRank MSelect.

Section Sieve.
  Context {T : Type} (c : cfg) (M : bitvecmut T).

  (** the inner [while] *)
  Definition cross_out (fuel : nat) (n i j : N) (v : T) : res T :=
    loop_fuel fuel (fun '(j, v) =>
      if j <? n then
        v <- bm_set_bit M v j false ;; j <- wadd c 64 j i ;; Ok (Continue (j, v))
      else Ok (Return v)) (j, v).
  Definition sieve (fuel : nat) (v : T) : res T :=
    n <- bv_bit_len (bm_bv M) v ;;
    v <- for_range 0 n (fun i v => bm_set_bit M v i (2 <=? i)) v ;;
    loop_fuel fuel (fun '(i, v) =>
      q <- wdiv n i ;;
      if i <=? q then
        b <- bv_get_bit (bm_bv M) v i ;;
        v <- (if b then j <- wmul c 64 i i ;; cross_out fuel n i j v else Ok v) ;;
        i <- wadd c 64 i 1 ;;
        Ok (Continue (i, v))
      else Ok (Return v)) (2, v).
End Sieve.

Section Primes.
  Variable c : cfg.
  Let B := bvec_bitvec c 64.
  Definition primes (fuel : nat) (n : N) : res (rank9 vbase) :=
    v <- bvec_with_fill c 64 n false ;;
    v <- sieve c (bvec_bitvecmut c 64) fuel v ;;
    rank9_new c B v.
  Definition is_prime (t : rank9 vbase) (p : N) : res bool := bv_get_bit (bss_bitvec (rank9_bitvec B)) t p.
  Definition count_up_to (t : rank9 vbase) (p : N) : res N := br_rank1 (rank9_bitrank c B) t p.
  Definition nth_prime (fuel : nat) (t : rank9 vbase) (i : N) : res (option N) := bss_select1 c (rank9_bitrank c B) fuel t i.
End Primes.
