(** * Model of src/bit_vec/bit_vector.rs: [BitVector].  The newtype over [VectorBase] is
    transparent: a [BitVector] is a [vbase] used with [element_bits = 1]. *)
From Verif Require Import Machine MStorage MTraits MVectorBase.

Section BitVector.
  Variables (c : cfg) (nb : N).

  (** src/bit_vec/bit_vector.rs:17-19 [new]; also [default], 246-250 *)
  Definition bvec_new : res vbase := vb_new c nb.
  (** src/bit_vec/bit_vector.rs:29-31 [with_capacity] *)
  Definition bvec_with_capacity (capacity : N) : res vbase := vb_with_capacity c nb 1 capacity.
  (** src/bit_vec/bit_vector.rs:35-37 [block_with_capacity] *)
  Definition bvec_block_with_capacity (capacity : N) : res vbase :=
    vb_block_with_capacity c nb capacity.
  (** src/bit_vec/bit_vector.rs:56-58 [block_with_fill] *)
  Definition bvec_block_with_fill (block_len value : N) : res vbase :=
    vb_block_with_fill c nb 1 block_len value.
  (** src/bit_vec/bit_vector.rs:46-53 [with_fill] *)
  Definition bvec_with_fill (len : N) (value : bool) : res vbase :=
    o <- checked_ceil_div_nbits c nb len ;; block_size <- expect o ;;
    let block_value := if value then wnot nb 0 else 0 in
    r <- bvec_block_with_fill block_size block_value ;;
    vb_truncate c nb 1 r len.

  (** src/bit_vec/bit_vector.rs:188-190 [bit_len] *)
  Definition bvec_bit_len (v : vbase) : res N := Ok (vb_len v).
  (** src/bit_vec/bit_vector.rs:192-194 [get_bit] *)
  Definition bvec_get_bit (v : vbase) (i : N) : res bool := vb_get_bit c nb v i.
  (** src/bit_vec/bit_vector.rs:197-199 [get_block] *)
  Definition bvec_get_block (v : vbase) (i : N) : res N := vb_get_block v i.
  (** [block_len] and [get_bits] are the defaults of the trait (src/bit_vec/traits.rs:19-21, 77-98) *)
  Definition bvec_block_len : vbase -> res N := default_block_len c nb bvec_bit_len.
  Definition bvec_get_bits : vbase -> N -> N -> res N :=
    default_get_bits c nb bvec_bit_len bvec_get_block.

  (** src/bit_vec/bit_vector.rs:203-205 [set_bit] *)
  Definition bvec_set_bit (v : vbase) (i : N) (b : bool) : res vbase := vb_set_bit c nb v i b.
  (** src/bit_vec/bit_vector.rs:208-210 [set_block] *)
  Definition bvec_set_block (v : vbase) (i x : N) : res vbase := vb_set_block c nb 1 v i x.
  (** [set_bits] is the default of the trait (src/bit_vec/traits.rs:159-186) *)
  Definition bvec_set_bits : vbase -> N -> N -> N -> res vbase :=
    default_set_bits c nb bvec_bit_len bvec_get_block bvec_set_block.

  (** src/bit_vec/bit_vector.rs:214-216 [push_bit] *)
  Definition bvec_push_bit (v : vbase) (b : bool) : res vbase := vb_push_bit c nb v b.
  (** src/bit_vec/bit_vector.rs:218-220 [pop_bit] *)
  Definition bvec_pop_bit (v : vbase) : res (option bool * vbase) := vb_pop_bit c nb v.
  (** src/bit_vec/bit_vector.rs:222-224 [push_block] *)
  Definition bvec_push_block (v : vbase) (x : N) : res vbase := vb_push_block c nb 1 v x.
  (** [align_block] is the default of the trait (src/bit_vec/traits.rs:199-203) *)
  Definition bvec_align_block (fuel : nat) : vbase -> bool -> res vbase :=
    default_align_block c nb bvec_bit_len bvec_push_bit fuel.

  (** src/bit_vec/bit_vector.rs:98-100 [block_resize] *)
  Definition bvec_block_resize (v : vbase) (n x : N) : res vbase := vb_block_resize c nb 1 v n x.
  (** src/bit_vec/bit_vector.rs:78-94 [resize] *)
  Definition bvec_resize (v : vbase) (new_len : N) (value : bool) : res vbase :=
    o <- checked_ceil_div_nbits c nb new_len ;; new_block_len <- expect o ;;
    v1 <- (if (new_len <? vb_len v) || negb value then bvec_block_resize v new_block_len 0
           else
             trailing <- last_block_bits c nb (vb_len v) ;;
             remaining <- wsub c (ptr c) nb trailing ;;
             v' <- for_range 0 remaining (fun _ v => vb_push_bit c nb v true) v ;;
             bvec_block_resize v' new_block_len (wnot nb 0)) ;;
    vb_truncate c nb 1 v1 new_len.

  (** src/bit_vec/bit_vector.rs:162-164 [truncate] *)
  Definition bvec_truncate (v : vbase) (len : N) : res vbase := vb_truncate c nb 1 v len.
  (** src/bit_vec/bit_vector.rs:169-171 [block_truncate] *)
  Definition bvec_block_truncate (v : vbase) (n : N) : res vbase := vb_block_truncate c nb 1 v n.
  (** src/bit_vec/bit_vector.rs:174-176 [clear] *)
  Definition bvec_clear (v : vbase) : res vbase := vb_clear v.
  (** src/bit_vec/bit_vector.rs:12 [#[derive(PartialEq)]] *)
  Definition bvec_eq (a b : vbase) : bool := vb_eq a b.

  (** src/bit_vec/bit_vector.rs:179-181 [iter]; [into_iter], 294-301 *)
  Definition bvec_iter (v : vbase) : vbiter := it_new 1 v.
  (** src/bit_vec/bit_vector.rs:257-292: the iterator of [BitVector] maps [|bit| bit != 0] over the one of
      [VectorBase] *)
  Definition to_bit (r : option N * vbiter) : option bool * vbiter :=
    (match fst r with Some x => Some (negb (x =? 0)) | None => None end, snd r).
  Definition bit_next (it : vbiter) : res (option bool * vbiter) :=
    r <- it_next c nb it ;; Ok (to_bit r).
  Definition bit_next_back (it : vbiter) : res (option bool * vbiter) :=
    r <- it_next_back c nb it ;; Ok (to_bit r).
  Definition bit_nth (it : vbiter) (n : N) : res (option bool * vbiter) :=
    r <- it_nth c nb it n ;; Ok (to_bit r).
  Definition bit_last (it : vbiter) : res (option bool) :=
    r <- it_last c nb it ;;
    Ok (match r with Some x => Some (negb (x =? 0)) | None => None end).

  Definition bvec_bitvec : bitvec vbase := {|
    bv_nb := nb;
    bv_bit_len := bvec_bit_len;
    bv_block_len := bvec_block_len;
    bv_get_bit := bvec_get_bit;
    bv_get_block := bvec_get_block;
    bv_get_bits := bvec_get_bits |}.
  Definition bvec_bitvecmut : bitvecmut vbase := {|
    bm_bv := bvec_bitvec;
    bm_set_bit := bvec_set_bit;
    bm_set_block := bvec_set_block;
    bm_set_bits := bvec_set_bits |}.
  Definition bvec_bitvecpush : bitvecpush vbase := {|
    bp_bm := bvec_bitvecmut;
    bp_push_bit := bvec_push_bit;
    bp_pop_bit := bvec_pop_bit;
    bp_align_block := bvec_align_block;
    bp_push_block := fun _ => bvec_push_block |}.
End BitVector.
