(** * Operation language for [BitBuffer]: what a program can do with one, what the model of the
    code does, and what a list of bits with a cursor does. *)
From Verif Require Import Machine SpecBits SpecLaws SpecOps MStorage MTraits MStream.

Inductive fop :=
| FRead | FWrite (b : bool) | FSeek (p : N) | FPosition
| FBitLen | FBlockLen | FGetBit (i : N) | FGetBlock (i : N) | FGetBits (s n : N)
| FSetBit (i : N) (b : bool) | FSetBlock (i x : N) | FSetBits (s n x : N).

(** What operations deliver: a value, or an [io::Result]. *)
Inductive fout := FVal (x : out) | FIo (r : ioR out).

Section BufferRun.
  Context {T : Type} (c : cfg) (P : bitvecpush T) (roomb : N -> bool).
  Let M := bp_bm P.
  Let B := bm_bv M.
  Let nb := bv_nb B.

  Definition io_map {A X} (f : A -> X) (r : ioR A) : ioR X :=
    match r with IOk a => IOk (f a) | IErr e => IErr e end.
  Definition io_out {A} (f : A -> out) (r : res (ioR A * bitbuf T)) : res (bitbuf T * fout) :=
    x <- r ;; Ok (snd x, FIo (io_map f (fst x))).
  Definition val_out {A} (bb : bitbuf T) (f : A -> out) (r : res A) : res (bitbuf T * fout) :=
    x <- r ;; Ok (bb, FVal (f x)).
  Definition upd_out (r : res (bitbuf T)) : res (bitbuf T * fout) := bb <- r ;; Ok (bb, FVal OUnit).

  Definition bb_step (fuel : nat) (bb : bitbuf T) (op : fop) : res (bitbuf T * fout) :=
    let BB := bb_bitvecmut c M in
    match op with
    | FRead => io_out OOptBool (bb_read_bit c B bb)
    | FWrite b => io_out (fun _ => OUnit) (bb_write_bit c P fuel b bb)
    | FSeek p => io_out (fun _ => OUnit) (bb_seek B p bb)
    | FPosition => Ok (bb, FVal (OInt (bb_position bb)))
    | FBitLen => val_out bb OInt (bv_bit_len (bm_bv BB) bb)
    | FBlockLen => val_out bb OInt (bv_block_len (bm_bv BB) bb)
    | FGetBit i => val_out bb OBool (bv_get_bit (bm_bv BB) bb i)
    | FGetBlock i => val_out bb OInt (bv_get_block (bm_bv BB) bb i)
    | FGetBits s n => val_out bb OInt (bv_get_bits (bm_bv BB) bb s n)
    | FSetBit i b => upd_out (bm_set_bit BB bb i b)
    | FSetBlock i x => upd_out (bm_set_block BB bb i x)
    | FSetBits s n x => upd_out (bm_set_bits BB bb s n x)
    end.

  (** A file: its bits and the position of the cursor.  [None] means "panics"; [roomb n] says
      whether memory holds [n] bits. *)
  Definition spec_fstep (f : list bool * N) (op : fop) : option ((list bool * N) * fout) :=
    let (l, p) := f in
    match op with
    | FRead => match nthN l p with
               | Some b => Some ((l, p + 1), FIo (IOk (OOptBool (Some b))))
               | None => Some ((l, p), FIo (IOk (OOptBool None)))
               end
    | FWrite b =>
        if p <? lengthN l then Some ((updN l p b, p + 1), FIo (IOk OUnit))
        else if roomb (lengthN l + 1) then Some ((l ++ [b], p + 1), FIo (IOk OUnit)) else None
    | FSeek q => if q <=? lengthN l then Some ((l, q), FIo (IOk OUnit)) else Some ((l, p), FIo (IErr NotFound))
    | FPosition => Some ((l, p), FVal (OInt p))
    | FBitLen => Some ((l, p), FVal (OInt (lengthN l)))
    | FBlockLen => Some ((l, p), FVal (OInt (blocks_for nb (lengthN l))))
    | FGetBit i => match nthN l i with Some b => Some ((l, p), FVal (OBool b)) | None => None end
    | FGetBlock i => if i * nb <? lengthN l then Some ((l, p), FVal (OInt (int_of (sub (i * nb) nb l)))) else None
    | FGetBits s n => if s + n <=? lengthN l then Some ((l, p), FVal (OInt (int_of (sub s n l)))) else None
    | FSetBit i b => if i <? lengthN l then Some ((updN l i b, p), FVal OUnit) else None
    | FSetBlock i x => if i * nb <? lengthN l then Some ((set_block_of nb i x l, p), FVal OUnit) else None
    | FSetBits s n x => if s + n <=? lengthN l then Some ((put s (bits_of n x) l, p), FVal OUnit) else None
    end.

  (** Arguments in the range of their Rust types; as for [BitVector], spans that are in bounds
      are no longer than a block (C64) and not empty at the very end (C11), spans do not
      overflow u64, and block numbers do not overflow u64 when counted in bits (C63). *)
  Definition fspan_ok (l : list bool) (s n : N) : Prop := s + n < 2 ^ 64 /\ n < 2 ^ ptr c /\
    (s + n <= lengthN l -> n <= nb /\ (1 <= n \/ s < lengthN l)).
  Definition fop_ok (f : list bool * N) (op : fop) : Prop :=
    match op with
    | FSeek i | FGetBit i | FSetBit i _ => i < 2 ^ 64
    | FGetBlock i => i < 2 ^ ptr c
    | FSetBlock i x => i < 2 ^ ptr c /\ i * nb < 2 ^ 64 /\ x < 2 ^ nb
    | FGetBits s n => fspan_ok (fst f) s n
    | FSetBits s n x => fspan_ok (fst f) s n /\ x < 2 ^ nb
    | FRead | FWrite _ | FPosition | FBitLen | FBlockLen => True
    end.
End BufferRun.

(** Writing blocks, as far as [BitBuffer] needs it: [Vec<bool>] satisfies this one, too, while
    its [set_block] accepts some huge block numbers (C63). *)
Record lawful_setblock {T} (c : cfg) (M : bitvecmut T) (R : T -> list bool -> Prop) : Prop := {
  ls_set_block : forall t l i v, R t l -> i * bv_nb (bm_bv M) < lengthN l -> v < 2 ^ bv_nb (bm_bv M) ->
    exists t', bm_set_block M t i v = Ok t' /\ R t' (set_block_of (bv_nb (bm_bv M)) i v l);
  ls_set_block_oob : forall t l i v, R t l -> lengthN l <= i * bv_nb (bm_bv M) -> i < 2 ^ ptr c ->
    i * bv_nb (bm_bv M) < 2 ^ 64 -> panics (bm_set_block M t i v) }.
