(** * User code: an array of code words of different lengths, with a directory of marks, written with the interface of
    the crate: [BitBuffer] (src/stream/bit_buffer.rs), any [UniversalCode] (src/coding/traits.rs:7-17), [BitVector]
    (src/bit_vec/bit_vector.rs), [Rank9] (src/rank/rank9.rs) and [BinSearchSelect] (src/select/bin_search.rs).
<<
    struct Archive<Code, Block> { code: Code, bits: BitBuffer<BitVector<Block>>, starts: BinSearchSelect<Rank9<BitVector<u64>>> }

    fn new(code: Code, values: &[u64]) -> io::Result<Self> {
        let mut bits = BitBuffer::new();
        let mut marks = BitVector::new();
        for v in values {
            marks.push_bit(true);
            try!(code.encode(&mut bits, v));
            while marks.bit_len() < bits.position() { marks.push_bit(false); }
        }
        Ok(Archive { code, bits, starts: BinSearchSelect::new(Rank9::new(marks)) })
    }

    fn get(&mut self, i: u64) -> io::Result<Option<u64>> {
        match self.starts.select1(i) {
            None => Ok(None),
            Some(p) => { try!(self.bits.seek(p)); self.code.decode(&mut self.bits) }
        }
    }
>> *)
From Verif Require Import Machine MStorage MTraits MVectorBase MBitVector MRank MSelect MStream MCoding.

Record archive := { ar_bits : bitbuf vbase; ar_starts : rank9 vbase }.

Section Archive.
  (** [nb]: the block size of the bit buffer *)
  Variables (c : cfg) (nb : N) (C : code).

  (** the [while] loop *)
  Definition pad_marks (fuel : nat) (marks : vbase) (p : N) : res vbase :=
    loop_fuel fuel (fun m =>
      n <- bv_bit_len (bvec_bitvec c 64) m ;;
      if n <? p then m' <- bp_push_bit (bvec_bitvecpush c 64) m false ;; Ok (Continue m')
      else Ok (Return m)) marks.
  (** the [for] loop *)
  Fixpoint pack_codes (fuel : nat) (values : list N) (bits : bitbuf vbase) (marks : vbase) : res (ioR unit * bitbuf vbase * vbase) :=
    match values with
    | [] => Ok (IOk tt, bits, marks)
    | v :: r =>
        m1 <- bp_push_bit (bvec_bitvecpush c 64) marks true ;;
        x <- encode C (bb_sink c (bvec_bitvecpush c nb) fuel) fuel v bits ;;
        match x with
        | (IErr e, bits') => Ok (IErr e, bits', m1)
        | (IOk _, bits') => m2 <- pad_marks fuel m1 (bb_position bits') ;; pack_codes fuel r bits' m2
        end
    end.
  Definition archive_new (fuel : nat) (values : list N) : res (ioR archive) :=
    bits <- bb_new c nb ;;
    marks <- bvec_new c 64 ;;
    x <- pack_codes fuel values bits marks ;;
    match x with
    | (IErr e, _, _) => Ok (IErr e)
    | (IOk _, bits', marks') =>
        d <- rank9_new c (bvec_bitvec c 64) marks' ;; Ok (IOk {| ar_bits := bits'; ar_starts := d |})
    end.
  Definition archive_get (fuel : nat) (i : N) : io archive (option N) := fun a =>
    s <- bss_select1 c (rank9_bitrank c (bvec_bitvec c 64)) fuel (ar_starts a) i ;;
    match s with
    | None => Ok (IOk None, a)
    | Some p =>
        x <- try_ (bb_seek (bvec_bitvec c nb) p) (fun _ => decode C (bb_source c (bvec_bitvec c nb)) fuel) (ar_bits a) ;;
        Ok (fst x, {| ar_bits := snd x; ar_starts := ar_starts a |})
    end.
  (** a sequence of accesses *)
  Fixpoint archive_gets (fuel : nat) (is : list N) : io archive (list (option N)) :=
    match is with
    | [] => ret []
    | i :: r => try_ (archive_get fuel i) (fun o => try_ (archive_gets fuel r) (fun os => ret (o :: os)))
    end.
End Archive.
