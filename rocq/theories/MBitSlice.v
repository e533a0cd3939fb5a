(** * Model of src/bit_vec/bit_slice.rs: [BitSlice], [BitSliceMut], [IntoRange].
    A slice holds its base by value.  For [BitSlice] (a shared borrow) this is exact.  A
    [BitSliceMut] is the exclusive borrower of its base, so its updates are modelled as
    updates of its own copy of the base, which the owner gets back when the borrow ends
    ([sl_data]). *)
From Verif Require Import Machine MStorage MTraits.

(** src/bit_vec/bit_slice.rs:8-13 [struct BitSlice], 15-21 [struct BitSliceMut] *)
Record slice (T : Type) := { sl_data : T; sl_start : N; sl_len : N }.
Arguments sl_data {T} _.
Arguments sl_start {T} _.
Arguments sl_len {T} _.

(** The range types accepted through [IntoRange]: [a..b], [..b], [a..], [..] *)
Inductive range := Range (a b : N) | RangeTo (b : N) | RangeFrom (a : N) | RangeFull.

(** src/bit_vec/bit_slice.rs:192-206 [into_range] *)
Definition into_range (r : range) (start limit : N) : N * N :=
  match r with
  | Range a b => (a, b)
  | RangeTo b => (start, b)
  | RangeFrom a => (a, limit)
  | RangeFull => (start, limit)
  end.

Section Slice.
  Context {T : Type} (c : cfg) (B : bitvec T).
  Let nb := bv_nb B.

  (** src/bit_vec/bit_slice.rs:25-33 [BitSlice::new]; 52-60 [BitSliceMut::new] *)
  Definition slice_new (base : T) (r : range) : res (slice T) :=
    bl <- bv_bit_len B base ;;
    let (s, e) := into_range r 0 bl in
    assert_ (e <=? bl) ;;;
    Ok {| sl_data := base; sl_start := s; sl_len := saturating_sub e s |}.

  (** src/bit_vec/bit_slice.rs:39-47 [BitSlice::slice]; 66-75 [slice_mut], 78-86 [BitSliceMut::slice] *)
  Definition slice_slice (sl : slice T) (r : range) : res (slice T) :=
    let (s, e) := into_range r 0 (sl_len sl) in
    assert_ (e <=? sl_len sl) ;;;
    st <- wadd c 64 (sl_start sl) s ;;
    Ok {| sl_data := sl_data sl; sl_start := st; sl_len := saturating_sub e s |}.

  (** src/bit_vec/bit_slice.rs:93-95, 119-121 [bit_len] *)
  Definition slice_bit_len (sl : slice T) : res N := Ok (sl_len sl).
  (** src/bit_vec/bit_slice.rs:98-101, 124-127 [get_bit] *)
  Definition slice_get_bit (sl : slice T) (p : N) : res bool :=
    assert_ (p <? sl_len sl) ;;;
    q <- wadd c 64 (sl_start sl) p ;; bv_get_bit B (sl_data sl) q.
  (** src/bit_vec/bit_slice.rs:103-108, 129-134 [get_bits] *)
  Definition slice_get_bits (sl : slice T) (p count : N) : res N :=
    e <- expect (checked_add 64 p count) ;;
    assert_ (e <=? sl_len sl) ;;;
    q <- wadd c 64 (sl_start sl) p ;; bv_get_bits B (sl_data sl) q count.
  (** src/bit_vec/bit_slice.rs:110-112, 136-138 [get_block] *)
  Definition slice_get_block (sl : slice T) (p : N) : res N :=
    m <- mul_nbits c nb p ;; slice_get_bits sl m nb.
  (** [block_len] is the default (src/bit_vec/traits.rs:19-21) *)
  Definition slice_block_len : slice T -> res N := default_block_len c nb slice_bit_len.

  Definition slice_bitvec : bitvec (slice T) := {|
    bv_nb := nb;
    bv_bit_len := slice_bit_len;
    bv_block_len := slice_block_len;
    bv_get_bit := slice_get_bit;
    bv_get_block := slice_get_block;
    bv_get_bits := slice_get_bits |}.
End Slice.

Section SliceMut.
  Context {T : Type} (c : cfg) (M : bitvecmut T).
  Let B := bm_bv M.
  Let nb := bv_nb B.

  Definition with_data (sl : slice T) (d : T) : slice T :=
    {| sl_data := d; sl_start := sl_start sl; sl_len := sl_len sl |}.

  (** src/bit_vec/bit_slice.rs:143-146 [set_bit] *)
  Definition slice_set_bit (sl : slice T) (p : N) (v : bool) : res (slice T) :=
    assert_ (p <? sl_len sl) ;;;
    q <- wadd c 64 (sl_start sl) p ;;
    d <- bm_set_bit M (sl_data sl) q v ;; Ok (with_data sl d).
  (** src/bit_vec/bit_slice.rs:148-153 [set_bits] *)
  Definition slice_set_bits (sl : slice T) (p count v : N) : res (slice T) :=
    e <- expect (checked_add 64 p count) ;;
    assert_ (e <=? sl_len sl) ;;;
    q <- wadd c 64 (sl_start sl) p ;;
    d <- bm_set_bits M (sl_data sl) q count v ;; Ok (with_data sl d).
  (** src/bit_vec/bit_slice.rs:155-158 [set_block] *)
  Definition slice_set_block (sl : slice T) (p v : N) : res (slice T) :=
    m <- mul_nbits c nb p ;; slice_set_bits sl m nb v.

  Definition slicemut_bitvecmut : bitvecmut (slice T) := {|
    bm_bv := slice_bitvec c B;
    bm_set_bit := slice_set_bit;
    bm_set_block := slice_set_block;
    bm_set_bits := slice_set_bits |}.
End SliceMut.
