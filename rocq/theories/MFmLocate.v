(** * User code: the places of a pattern in the index of [MFmIndex.v], from the positions of some of the suffixes: a [Rank9]
    (src/rank/rank9.rs) over a [BitVector] (src/bit_vec/bit_vector.rs) marks their rows and an [IntVector]
    (src/int_vec/int_vector.rs) holds them, in [k] bits each.
<<
    struct Located { fm: Fm<Wavelet>, marks: Rank9<BitVector<u64>>, samples: IntVector<u64> }

    fn new(width: usize, sigma: u64, every: usize, k: usize, text: &[u64]) -> Located {
        let fm = Fm::new(width, sigma, text);
        let suffixes = /* as in Fm::new */;
        let mut marks = BitVector::new();
        let mut samples = IntVector::new(k);
        for &i in &suffixes {
            let sampled = i % every == 0;
            marks.push_bit(sampled);
            if sampled { samples.push(i as u64); }
        }
        Located { fm: fm, marks: Rank9::new(marks), samples: samples }
    }
    fn position(&self, mut p: u64) -> u64 {
        let mut d = 0;
        while !self.marks.get_bit(p) {
            let x = self.fm.last.tree.get(p);
            p = self.fm.step(x, p);
            d += 1;
        }
        self.samples.get(self.marks.rank1(p) - 1) + d
    }
    fn locate(&self, pattern: &[u64]) -> Vec<u64> {
        let (mut s, mut e) = (0, self.fm.last.limit());
        for &x in pattern.iter().rev() { s = self.fm.step(x, s); e = self.fm.step(x, e); }
        (s .. e).map(|p| self.position(p)).collect()
    }
>> *)
From Verif Require Import Machine MStorage MTraits MVectorBase MBitVector MIntVector MRank MWavelet MFmIndex.

Record located := { lo_fm : fm wavelet; lo_marks : rank9 vbase; lo_samples : intvec }.

Section Locate.
  Variable c : cfg.
  Let B := bvec_bitvec c 64.
  Let R := wavelet_ranksup c.

  (** the [for] loop of [new]; [i % 0] panics *)
  Fixpoint lo_fill (every : N) (suffixes : list N) (marks : vbase) (samples : intvec) : res (vbase * intvec) :=
    match suffixes with
    | [] => Ok (marks, samples)
    | i :: r =>
        m <- wmod i every ;;
        marks <- bp_push_bit (bvec_bitvecpush c 64) marks (m =? 0) ;;
        samples <- (if m =? 0 then iv_push c 64 samples i else Ok samples) ;;
        lo_fill every r marks samples
    end.
  Definition lo_new (width : nat) (sigma every k : N) (text : list N) : res located :=
    f <- fm_new c width sigma text ;;
    marks <- bvec_new c 64 ;;
    samples <- iv_new c 64 k ;;
    '(marks, samples) <- lo_fill every (fm_suffixes (text ++ [0])) marks samples ;;
    d <- rank9_new c B marks ;;
    Ok {| lo_fm := f; lo_marks := d; lo_samples := samples |}.
  Definition lo_position (fuel : nat) (x : located) (p : N) : res N :=
    loop_fuel fuel (fun '(p, d) =>
      b <- bv_get_bit (rank9_bitvec B) (lo_marks x) p ;;
      if b then
        r <- br_rank1 (rank9_bitrank c B) (lo_marks x) p ;;
        q <- wsub c 64 r 1 ;;
        s <- iv_get c 64 (lo_samples x) q ;;
        r <- wadd c 64 s d ;;
        Ok (Return r)
      else
        y <- wt_get c (wl_tree (fm_last (lo_fm x))) p ;;
        p <- fm_step c R (lo_fm x) y p ;;
        d <- wadd c 64 d 1 ;;
        Ok (Continue (p, d))) (p, 0).
  Definition lo_locate (fuel : nat) (x : located) (pattern : list N) : res (list N) :=
    n <- rs_limit R (fm_last (lo_fm x)) ;;
    '(s, e) <- fm_steps c R (lo_fm x) (rev pattern) 0 n ;;
    for_range s e (fun p acc => i <- lo_position fuel x p ;; Ok (acc ++ [i])) [].
End Locate.
