(** * Model of the remaining derived implementations: [Eq], [Ord] and [Hash] of [Address] and of the iterators, and [Debug] of all types
    that derive it, as the text it produces with default flags. *)
From Coq Require Import String.
From Verif Require Import Machine MStorage MVectorBase MBitVector MIntVector MBitSlice MStream MRank MDerive.
Local Open Scope list_scope.
Local Open Scope N_scope.

(** src/storage.rs:336-342 [#[derive(PartialEq, Ord, Hash)]] of [Address]: [block_index] and [bit_offset] *)
Definition addr_eq (a b : address) : bool := (block_index a =? block_index b) && (bit_offset a =? bit_offset b).
Definition addr_cmp (a b : address) : comparison :=
  match block_index a ?= block_index b with Eq => bit_offset a ?= bit_offset b | r => r end.
Definition addr_hash (a : address) : list hash_item := [HUsize (block_index a); HUsize (bit_offset a)].

(** src/internal/vector_base.rs:329-335 [#[derive(PartialEq, Ord, Hash)]] of [Iter]: [start], [limit], [element_bits], and [data], a reference, by
    the vector it refers to.  src/bit_vec/bit_vector.rs:253-255 and src/int_vec/int_vector.rs:359-361 wrap it *)
Definition it_eq (a b : vbiter) : bool :=
  (it_start a =? it_start b) && (it_limit a =? it_limit b) && (it_bits a =? it_bits b) && vb_eq (it_data a) (it_data b).
Definition it_cmp (a b : vbiter) : comparison :=
  match it_start a ?= it_start b with
  | Eq => match it_limit a ?= it_limit b with
          | Eq => match it_bits a ?= it_bits b with
                  | Eq => vb_cmp (it_data a) (it_data b)
                  | r => r end
          | r => r end
  | r => r end.
Definition it_hash (a : vbiter) : list hash_item :=
  HU64 (it_start a) :: HU64 (it_limit a) :: HUsize (it_bits a) :: vb_hash (it_data a).

(** ** [#[derive(Debug)]] (standard library: [debug_struct], [debug_tuple], [debug_list] without the alternate flag) *)
Local Open Scope string_scope.
Fixpoint commas (l : list string) : string :=
  match l with
  | [] => ""
  | [x] => x
  | x :: t => x ++ ", " ++ commas t
  end.
Definition debug_struct (name : string) (fields : list (string * string)) : string :=
  name ++ " { " ++ commas (map (fun f => fst f ++ ": " ++ snd f) fields) ++ " }".
Definition debug_tuple (name : string) (fields : list string) : string := name ++ "(" ++ commas fields ++ ")".
(** [Debug for Vec<A>] *)
Definition debug_list {A} (text : A -> string) (l : list A) : string := "[" ++ commas (map text l) ++ "]".

(** src/storage.rs:336-342 *)
Definition addr_debug (a : address) : string :=
  debug_struct "Address" [("block_index", decimal (block_index a)); ("bit_offset", decimal (bit_offset a))].
(** src/internal/vector_base.rs:24-28 *)
Definition vb_debug (v : vbase) : string :=
  debug_struct "VectorBase" [("len", decimal (vb_len v)); ("vec", debug_list decimal (vb_vec v))].
(** src/bit_vec/bit_vector.rs:12-13 *)
Definition bvec_debug (v : vbase) : string := debug_tuple "BitVector" [vb_debug v].
(** src/internal/vector_base.rs:329-335 *)
Definition it_debug (it : vbiter) : string :=
  debug_struct "Iter" [("start", decimal (it_start it)); ("limit", decimal (it_limit it)); ("element_bits", decimal (it_bits it)); ("data", vb_debug (it_data it))].
(** src/bit_vec/bit_vector.rs:253-255, src/int_vec/int_vector.rs:359-361 *)
Definition iter_debug (it : vbiter) : string := debug_tuple "Iter" [it_debug it].
(** src/int_vec/int_vector.rs:409-422 [Debug for IntVector], which is not derived: the text that [iv_fmt_debug] writes *)
Definition iv_debug (k : N) (xs : list N) : string :=
  "IntVector { element_bits: " ++ decimal k ++ ", elements: { " ++ fold_right (fun x s => decimal x ++ ", " ++ s) "} }" xs.
(** src/stream/bit_buffer.rs:9-13, for a store with the text [inner] *)
Definition bb_debug {T} (inner : T -> string) (b : bitbuf T) : string :=
  debug_struct "BitBuffer" [("data", inner (bb_data b)); ("pos", decimal (bb_pos b))].
(** src/bit_vec/bit_slice.rs:8-13, 16-21 *)
Definition slice_debug {T} (name : string) (inner : T -> string) (s : slice T) : string :=
  debug_struct name [("data", inner (sl_data s)); ("start", decimal (sl_start s)); ("len", decimal (sl_len s))].
(** src/rank/rank9.rs:9-24 *)
Definition cell_debug (x : cell) : string :=
  debug_struct "Rank9Cell" [("level1", decimal (level1 x)); ("level2", debug_tuple "Level2" [decimal (level2 x)])].
Definition rank9_debug {T} (inner : T -> string) (r : rank9 T) : string :=
  debug_struct "Rank9" [("bit_store", inner (r9_store r)); ("counts", debug_list cell_debug (r9_counts r))].
(** src/rank/jacobson.rs:13-19; [ints] is the text of an [IntVector<u64>] *)
Definition jacobson_debug {T} (inner : T -> string) (ints : intvec -> string) (j : jacobson T) : string :=
  debug_struct "JacobsonRank" [("bit_store", inner (jr_store j)); ("large_block_size", decimal (jr_large_block_size j));
    ("large_block_ranks", ints (jr_large j)); ("small_block_ranks", ints (jr_small j))].
