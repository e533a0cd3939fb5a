(** * User code that keeps bit stores in files, on top of [BlockType::read_block] and [BlockType::write_block]
    (src/storage.rs:231-237) and of the block-level methods of [BitVec] and [BitVecMut] (src/bit_vec/traits.rs:19-21,
    59, 110).  Nothing of this is in the crate: it is what the documentation of these methods is for. *)
From Verif Require Import Machine MStorage MTraits MVectorBase MBitVector MIntVector MStream MIO.

Section Save.
  Context {S T : Type}.
  Variables (c : cfg) (t : block_type) (o : byte_order).
  Local Open Scope io_scope.

  (** [for i in i .. i + k { try!(v.get_block(i).write_block::<_, O>(&mut w)) }] *)
  Fixpoint save_from (B : bitvec T) (sink : byte_sink S) (v : T) (k i : nat) : io S unit :=
    match k with
    | O => ret tt
    | Datatypes.S k' =>
        x <-- lift (bv_get_block B v (N.of_nat i)) ;;
        _ <-- write_block c S t sink o x ;;
        save_from B sink v k' (Datatypes.S i)
    end.
  (** All blocks of a store. *)
  Definition save_store (B : bitvec T) (sink : byte_sink S) (v : T) : io S unit :=
    n <-- lift (bv_block_len B v) ;; save_from B sink v (N.to_nat n) 0.

  (** [for i in i .. i + k { v.set_block(i, try!(Block::read_block::<_, O>(&mut r))) }] *)
  Fixpoint load_from (M : bitvecmut T) (src : byte_source S) (v : T) (k i : nat) : io S T :=
    match k with
    | O => ret v
    | Datatypes.S k' =>
        x <-- read_block c S t src o ;;
        v' <-- lift (bm_set_block M v (N.of_nat i) x) ;;
        load_from M src v' k' (Datatypes.S i)
    end.
  (** All blocks of a store are replaced. *)
  Definition load_store (M : bitvecmut T) (src : byte_source S) (v : T) : io S T :=
    n <-- lift (bv_block_len (bm_bv M) v) ;; load_from M src v (N.to_nat n) 0.
End Save.

Section SaveVectors.
  Context {S : Type}.
  Variables (c : cfg) (nb : N) (t : block_type) (o : byte_order).
  Local Open Scope io_scope.

  (** A bit vector: its length as a u64, then its blocks. *)
  Definition save_bit_vector (sink : byte_sink S) (v : vbase) : io S unit :=
    n <-- lift (bvec_bit_len v) ;;
    _ <-- write_block c S U64 sink o n ;;
    save_store c t o (bvec_bitvec c nb) sink v.
  Definition load_bit_vector (src : byte_source S) : io S vbase :=
    n <-- read_block c S U64 src o ;;
    v <-- lift (bvec_with_fill c nb n false) ;;
    load_store c t o (bvec_bitvecmut c nb) src v.

  (** An integer vector: the width of its elements and their number as u64, then its blocks. *)
  Definition save_int_vector (sink : byte_sink S) (v : intvec) : io S unit :=
    _ <-- write_block c S U64 sink o (iv_bits v) ;;
    _ <-- write_block c S U64 sink o (iv_len v) ;;
    save_store c t o (iv_bitvec c nb) sink v.
  Definition load_int_vector (src : byte_source S) : io S intvec :=
    k <-- read_block c S U64 src o ;;
    n <-- read_block c S U64 src o ;;
    v <-- lift (iv_with_fill c nb (as_usize c k) n 0) ;;
    load_store c t o (iv_bitvecmut c nb) src v.
End SaveVectors.
