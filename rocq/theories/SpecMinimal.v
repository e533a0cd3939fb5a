(** * What the few methods that a type must implement itself have to do.  [R t l] reads "the value [t] represents the sequence [l]". *)
From Verif Require Import Machine SpecBits.

Section Minimal.
  Context {T : Type} (c : cfg) (nb : N) (R : T -> list bool -> Prop).
  Definition right_bit_len (bit_len : T -> res N) : Prop := forall t l, R t l -> bit_len t = Ok (lengthN l) /\ fits c nb (lengthN l).
  Definition right_get_bit (get_bit : T -> N -> res bool) : Prop := forall t l i, R t l ->
    match nthN l i with Some b => get_bit t i = Ok b | None => i < 2 ^ 64 -> panics (get_bit t i) end.
  (** The bits of the last block past the end of the vector may be anything. *)
  Definition right_get_block (get_block : T -> N -> res N) : Prop := forall t l i, R t l -> i < 2 ^ ptr c ->
    if i * nb <? lengthN l then
      exists b, get_block t i = Ok b /\ b < 2 ^ nb /\
        forall j x, j < nb -> nthN l (i * nb + j) = Some x -> N.testbit b j = x
    else panics (get_block t i).
  Definition right_set_bit (set_bit : T -> N -> bool -> res T) : Prop := forall t l i b, R t l -> i < 2 ^ 64 ->
    if i <? lengthN l then exists t', set_bit t i b = Ok t' /\ R t' (updN l i b) else panics (set_bit t i b).
  (** Only the bits of the block that belong to the vector are written. *)
  Definition right_set_block (set_block : T -> N -> N -> res T) : Prop := forall t l i v, R t l -> i < 2 ^ ptr c ->
    if i * nb <? lengthN l then v < 2 ^ nb -> exists t', set_block t i v = Ok t' /\ R t' (set_block_of nb i v l) else panics (set_block t i v).
  Definition right_push_bit (room : N -> Prop) (push_bit : T -> bool -> res T) : Prop := forall t l b, R t l ->
    (room (lengthN l + 1) -> exists t', push_bit t b = Ok t' /\ R t' (l ++ [b])) /\
    (~ room (lengthN l + 1) -> panics (push_bit t b)).
End Minimal.

(** [lp] is what the blocks of [t] show, bit by bit: the sequence [l] and then whatever the last block holds past its end. *)
Definition shows {T} (nb : N) (get_block : T -> N -> res N) (t : T) (l lp : list bool) : Prop :=
  lengthN lp = blocks_for nb (lengthN l) * nb /\ firstnN (lengthN l) lp = l /\
  forall i, i * nb < lengthN l -> get_block t i = Ok (block_of nb i lp).
