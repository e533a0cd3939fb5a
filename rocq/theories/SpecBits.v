(** * Specification vocabulary: bit sequences as plain lists of booleans. *)
From Verif Require Import Machine.

(** The low [w] bits of [x], least significant first. *)
Definition bits_of (w x : N) : list bool :=
  map (fun i => N.testbit x (N.of_nat i)) (seq 0 (N.to_nat w)).

(** The integer whose bits, least significant first, are [l]. *)
Fixpoint int_of (l : list bool) : N :=
  match l with
  | [] => 0
  | b :: t => (if b then 1 else 0) + 2 * int_of t
  end.

(** [count] elements of [l] starting at [start]. *)
Definition sub {A} (start count : N) (l : list A) : list A := firstnN count (skipnN start l).

(** [l] with the elements from [start] on replaced by those of [x]. *)
Definition put {A} (start : N) (x l : list A) : list A :=
  firstnN start l ++ x ++ skipnN (start + lengthN x) l.

(** [n] bits made from [l]: cut or padded with [b]. *)
Definition fit {A} (n : N) (b : A) (l : list A) : list A :=
  firstnN n l ++ repeatN b (n - lengthN l).

(** The [i]-th block of [nb] bits of [l], padded with zeros at the end of [l]. *)
Definition block_of (nb i : N) (l : list bool) : N := int_of (sub (i * nb) nb l).

(** How many blocks of [nb] bits are needed for [n] bits. *)
Definition blocks_for (nb n : N) : N := (n + (nb - 1)) / nb.

(** The blocks holding the bit sequence [l]; the last one is padded with zeros. *)
Definition pack (nb : N) (l : list bool) : list N :=
  map (fun i => block_of nb (N.of_nat i) l) (seq 0 (N.to_nat (blocks_for nb (lengthN l)))).

(** [l] with its [i]-th block of [nb] bits overwritten by (as much as fits of) [v]. *)
Definition set_block_of (nb i v : N) (l : list bool) : list bool :=
  put (i * nb) (firstnN (lengthN l - i * nb) (bits_of nb v)) l.

(** [n] bits stored in blocks of [nb] bits fit in memory. *)
Definition fits (c : cfg) (nb n : N) : Prop := blocks_for nb n * nb <= max_bits c.

(** The number of bits to add to [n] to reach a multiple of [nb]. *)
Definition padding (nb n : N) : N := (nb - n mod nb) mod nb.

(** The bit sequence stored in a vector of blocks. *)
Definition bits_of_blocks (nb : N) (l : list N) : list bool := flat_map (bits_of nb) l.

(** A vector of blocks that can exist: blocks in range, memory limit respected. *)
Definition valid_blocks (c : cfg) (nb : N) (v : list N) : Prop :=
  Forall (fun b => b < 2 ^ nb) v /\ lengthN v * nb <= max_bits c.

(** The number of occurrences of [v] in [l]. *)
Fixpoint count (v : bool) (l : list bool) : N :=
  match l with
  | [] => 0
  | b :: t => (if eqb b v then 1 else 0) + count v t
  end.

(** A computation that should give [a] / should panic. *)
Definition agrees {A} (r : res A) (o : option A) : Prop :=
  match o with Some a => r = Ok a | None => panics r end.
