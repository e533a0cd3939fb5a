(** * Model of what a type gets from the bit-vector traits (src/bit_vec/traits.rs:5-220) when it implements as little as it may:
    the methods it does not define are the default ones. *)
From Verif Require Import Machine MStorage MTraits.

Section Minimal.
  Context {T : Type} (c : cfg) (nb : N) (bit_len : T -> res N).

  (** src/bit_vec/traits.rs:11-99, only [bit_len] and [get_bit] defined *)
  Definition bitvec_of_bit (get_bit : T -> N -> res bool) : bitvec T :=
    let block_len := default_block_len c nb bit_len in
    let get_block := default_get_block c nb bit_len block_len get_bit in
    {| bv_nb := nb; bv_bit_len := bit_len; bv_block_len := block_len; bv_get_bit := get_bit; bv_get_block := get_block;
       bv_get_bits := default_get_bits c nb bit_len get_block |}.
  (** src/bit_vec/traits.rs:11-99, only [bit_len] and [get_block] defined *)
  Definition bitvec_of_block (get_block : T -> N -> res N) : bitvec T :=
    {| bv_nb := nb; bv_bit_len := bit_len; bv_block_len := default_block_len c nb bit_len;
       bv_get_bit := default_get_bit c nb bit_len get_block; bv_get_block := get_block;
       bv_get_bits := default_get_bits c nb bit_len get_block |}.
  (** src/bit_vec/traits.rs:11-99, only [bit_len] defined: [get_bit] and [get_block] call each other.  The fuel bounds the depth of the calls. *)
  Fixpoint neither (fuel : nat) : (T -> N -> res bool) * (T -> N -> res N) :=
    match fuel with
    | O => (fun _ _ => OutOfFuel, fun _ _ => OutOfFuel)
    | S fuel' => (default_get_bit c nb bit_len (snd (neither fuel')),
                  default_get_block c nb bit_len (default_block_len c nb bit_len) (fst (neither fuel')))
    end.
End Minimal.
Section MinimalMut.
  Context {T : Type} (c : cfg) (B : bitvec T).
  (** src/bit_vec/traits.rs:107-187, only [set_bit] defined *)
  Definition bitvecmut_of_bit (set_bit : T -> N -> bool -> res T) : bitvecmut T :=
    let set_block := default_set_block c (bv_nb B) (bv_bit_len B) (bv_block_len B) set_bit in
    {| bm_bv := B; bm_set_bit := set_bit; bm_set_block := set_block;
       bm_set_bits := default_set_bits c (bv_nb B) (bv_bit_len B) (bv_get_block B) set_block |}.
  (** src/bit_vec/traits.rs:107-187, only [set_block] defined *)
  Definition bitvecmut_of_block (set_block : T -> N -> N -> res T) : bitvecmut T :=
    {| bm_bv := B; bm_set_bit := default_set_bit c (bv_nb B) (bv_bit_len B) (bv_get_block B) set_block; bm_set_block := set_block;
       bm_set_bits := default_set_bits c (bv_nb B) (bv_bit_len B) (bv_get_block B) set_block |}.
  (** src/bit_vec/traits.rs:107-187, neither [set_bit] nor [set_block] defined *)
  Fixpoint neither_set (fuel : nat) : (T -> N -> bool -> res T) * (T -> N -> N -> res T) :=
    match fuel with
    | O => (fun _ _ _ => OutOfFuel, fun _ _ _ => OutOfFuel)
    | S fuel' => (default_set_bit c (bv_nb B) (bv_bit_len B) (bv_get_block B) (snd (neither_set fuel')),
                  default_set_block c (bv_nb B) (bv_bit_len B) (bv_block_len B) (fst (neither_set fuel')))
    end.
End MinimalMut.
(** src/bit_vec/traits.rs:190-220, only [push_bit] and [pop_bit] defined (they have no default) *)
Definition bitvecpush_of_bit {T} (c : cfg) (M : bitvecmut T) (push_bit : T -> bool -> res T) (pop_bit : T -> res (option bool * T)) : bitvecpush T :=
  {| bp_bm := M; bp_push_bit := push_bit; bp_pop_bit := pop_bit;
     bp_align_block := default_align_block c (bv_nb (bm_bv M)) (bv_bit_len (bm_bv M)) push_bit;
     bp_push_block := default_push_block c (bv_nb (bm_bv M)) (bv_bit_len (bm_bv M)) push_bit |}.
