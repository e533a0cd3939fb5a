(** * Model of src/int_vec/int_vector.rs: [IntVector], and of the traits [IntVec] and
    [IntVecMut] (src/int_vec/traits.rs) for it. *)
From Verif Require Import Machine MStorage MTraits MVectorBase.

(** src/int_vec/int_vector.rs:15-19 [struct IntVector] *)
Record intvec := { iv_bits : N; iv_base : vbase }.

Section IntVector.
  Variables (c : cfg) (nb : N).

  (** src/int_vec/int_vector.rs:23-28 [check_element_bits] *)
  Definition check_element_bits (k : N) : res unit :=
    assert_ (negb (k =? 0)) ;;; assert_ (k <=? nb).
  (** src/int_vec/int_vector.rs:30-33 [check_value_random] *)
  Definition check_value_random (k value : N) : res unit :=
    m <- low_mask c nb k ;; assert_ (value <=? m).
  (** src/int_vec/int_vector.rs:35-37 [check_value] *)
  Definition check_value (v : intvec) (value : N) : res unit :=
    check_value_random (iv_bits v) value.
  (** src/int_vec/int_vector.rs:40-46 [create]; the base was computed before the check *)
  Definition iv_create (k : N) (base : res vbase) : res intvec :=
    b <- base ;; check_element_bits k ;;; Ok {| iv_bits := k; iv_base := b |}.
  (** src/int_vec/int_vector.rs:49-55 [compute_address_random] *)
  Definition compute_address_random (bit_offset k i : N) : res N :=
    expect (match checked_mul 64 i k with
            | Some o => checked_add 64 o bit_offset | None => None end).
  (** src/int_vec/int_vector.rs:58-62 [compute_address] *)
  Definition compute_address (v : intvec) (i : N) : res N :=
    expect (checked_mul 64 i (iv_bits v)).

  (** src/int_vec/int_vector.rs:74-76 [new] *)
  Definition iv_new (k : N) : res intvec := iv_create k (vb_new c nb).
  (** src/int_vec/int_vector.rs:80-83 [with_capacity] *)
  Definition iv_with_capacity (k capacity : N) : res intvec :=
    iv_create k (vb_with_capacity c nb k capacity).
  (** src/int_vec/int_vector.rs:87-91 [block_with_capacity] *)
  Definition iv_block_with_capacity (k block_capacity : N) : res intvec :=
    iv_create k (vb_block_with_capacity c nb block_capacity).
  (** src/int_vec/int_vector.rs:94-97 [with_fill] *)
  Definition iv_with_fill (k len value : N) : res intvec :=
    iv_create k (vb_with_fill c nb k len value).
  (** src/int_vec/int_vector.rs:104-110 [block_with_fill] *)
  Definition iv_block_with_fill (k block_len value : N) : res intvec :=
    iv_create k (vb_block_with_fill c nb k block_len value).

  (** src/int_vec/int_vector.rs:125-133 [get_random] *)
  Definition iv_get_random (v : intvec) (bit_offset k i : N) : res N :=
    a <- compute_address_random bit_offset k i ;;
    vb_get_bits c nb (iv_bits v) (iv_base v) a k.
  (** src/int_vec/int_vector.rs:151-160 [set_random] *)
  Definition iv_set_random (v : intvec) (bit_offset k i value : N) : res intvec :=
    check_value_random k value ;;;
    a <- compute_address_random bit_offset k i ;;
    b <- vb_set_bits c nb (iv_bits v) (iv_base v) a k value ;;
    Ok {| iv_bits := iv_bits v; iv_base := b |}.
  (** src/int_vec/int_vector.rs:164-167 [push] *)
  Definition iv_push (v : intvec) (value : N) : res intvec :=
    check_value v value ;;;
    b <- vb_push_bits c nb (iv_bits v) (iv_base v) value ;;
    Ok {| iv_bits := iv_bits v; iv_base := b |}.
  (** src/int_vec/int_vector.rs:170-172 [pop] *)
  Definition iv_pop (v : intvec) : res (option N * intvec) :=
    r <- vb_pop_bits c nb (iv_bits v) (iv_base v) ;;
    Ok (fst r, {| iv_bits := iv_bits v; iv_base := snd r |}).
  (** src/int_vec/int_vector.rs:186-188 [resize] *)
  Definition iv_resize (v : intvec) (n fill : N) : res intvec :=
    b <- vb_resize c nb (iv_bits v) (iv_base v) n fill ;;
    Ok {| iv_bits := iv_bits v; iv_base := b |}.
  (** src/int_vec/int_vector.rs:191-193 [block_resize] *)
  Definition iv_block_resize (v : intvec) (n fill : N) : res intvec :=
    b <- vb_block_resize c nb (iv_bits v) (iv_base v) n fill ;;
    Ok {| iv_bits := iv_bits v; iv_base := b |}.
  (** src/int_vec/int_vector.rs:264-266 [truncate] *)
  Definition iv_truncate (v : intvec) (n : N) : res intvec :=
    b <- vb_truncate c nb (iv_bits v) (iv_base v) n ;;
    Ok {| iv_bits := iv_bits v; iv_base := b |}.
  (** src/int_vec/int_vector.rs:271-273 [block_truncate] *)
  Definition iv_block_truncate (v : intvec) (n : N) : res intvec :=
    b <- vb_block_truncate c nb (iv_bits v) (iv_base v) n ;;
    Ok {| iv_bits := iv_bits v; iv_base := b |}.
  (** src/int_vec/int_vector.rs:276-278 [clear] *)
  Definition iv_clear (v : intvec) : res intvec :=
    b <- vb_clear (iv_base v) ;; Ok {| iv_bits := iv_bits v; iv_base := b |}.
  (** src/int_vec/int_vector.rs:281-283 [iter]; [into_iter], 400-407.  The iterator (358-398) delegates
      to the one of [VectorBase] *)
  Definition iv_iter (v : intvec) : vbiter := it_new (iv_bits v) (iv_base v).
  (** src/int_vec/int_vector.rs:287-289 [is_block_sized] *)
  Definition iv_is_block_sized (v : intvec) : bool := iv_bits v =? nb.
  (** src/int_vec/int_vector.rs:293-295 [is_aligned] *)
  Definition iv_is_aligned (v : intvec) : res bool :=
    m <- wmod nb (iv_bits v) ;; Ok (m =? 0).

  (** src/int_vec/int_vector.rs:301-303 [len] *)
  Definition iv_len (v : intvec) : N := vb_len (iv_base v).
  (** src/int_vec/traits.rs:13-15 [is_empty] *)
  Definition iv_is_empty (v : intvec) : bool := iv_len v =? 0.
  (** src/int_vec/int_vector.rs:305-312 [get] *)
  Definition iv_get (v : intvec) (i : N) : res N :=
    if iv_is_block_sized v then vb_get_block (iv_base v) (as_usize c i)
    else a <- compute_address v i ;; vb_get_bits c nb (iv_bits v) (iv_base v) a (iv_bits v).
  (** src/int_vec/int_vector.rs:320-333 [set] *)
  Definition iv_set (v : intvec) (i value : N) : res intvec :=
    if iv_is_block_sized v then
      b <- vb_set_block c nb (iv_bits v) (iv_base v) (as_usize c i) value ;;
      Ok {| iv_bits := iv_bits v; iv_base := b |}
    else
      check_value v value ;;;
      a <- compute_address v i ;;
      b <- vb_set_bits c nb (iv_bits v) (iv_base v) a (iv_bits v) value ;;
      Ok {| iv_bits := iv_bits v; iv_base := b |}.

  (** src/int_vec/int_vector.rs:15 [#[derive(PartialEq)]] *)
  Definition iv_eq (a b : intvec) : bool :=
    (iv_bits a =? iv_bits b) && vb_eq (iv_base a) (iv_base b).

  (** src/int_vec/int_vector.rs:336-350 [BitVec for IntVector]: the defaults except [block_len],
      [bit_len], [get_block] *)
  Definition iv_bit_len (v : intvec) : res N := wmul c 64 (iv_bits v) (vb_len (iv_base v)).
  Definition iv_block_len (v : intvec) : res N := vb_block_len (iv_base v).
  Definition iv_get_block (v : intvec) (i : N) : res N := vb_get_block (iv_base v) i.
  Definition iv_bitvec : bitvec intvec := {|
    bv_nb := nb;
    bv_bit_len := iv_bit_len;
    bv_block_len := iv_block_len;
    bv_get_bit := default_get_bit c nb iv_bit_len iv_get_block;
    bv_get_block := iv_get_block;
    bv_get_bits := default_get_bits c nb iv_bit_len iv_get_block |}.
  (** src/int_vec/int_vector.rs:352-356 [BitVecMut for IntVector]: the defaults except [set_block] *)
  Definition iv_set_block (v : intvec) (i value : N) : res intvec :=
    b <- vb_set_block c nb (iv_bits v) (iv_base v) i value ;;
    Ok {| iv_bits := iv_bits v; iv_base := b |}.
  Definition iv_bitvecmut : bitvecmut intvec := {|
    bm_bv := iv_bitvec;
    bm_set_bit := default_set_bit c nb iv_bit_len iv_get_block iv_set_block;
    bm_set_block := iv_set_block;
    bm_set_bits := default_set_bits c nb iv_bit_len iv_get_block iv_set_block |}.
End IntVector.
