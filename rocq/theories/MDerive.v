(** * Model of the derived implementations of [Ord] and [Hash] (and of [fmt::Binary] and [fmt::Debug]) of
    [VectorBase], [BitVector] and [IntVector]. *)
From Coq Require Import String DecimalString.
From Verif Require Import Machine MVectorBase MBitVector MIntVector.

(** [Ord for Vec<Block>] (standard library): lexicographic *)
Fixpoint vec_cmp (a b : list N) : comparison :=
  match a, b with
  | [], [] => Eq
  | [], _ :: _ => Lt
  | _ :: _, [] => Gt
  | x :: a', y :: b' => match x ?= y with Eq => vec_cmp a' b' | r => r end
  end.

(** src/internal/vector_base.rs:24-28 [#[derive(Ord)]]: the fields in the order of their declaration, [len] and [vec] *)
Definition vb_cmp (a b : vbase) : comparison :=
  match vb_len a ?= vb_len b with Eq => vec_cmp (vb_vec a) (vb_vec b) | r => r end.
(** src/bit_vec/bit_vector.rs:12-13 [#[derive(Ord)]] *)
Definition bvec_cmp (a b : vbase) : comparison := vb_cmp a b.
(** src/int_vec/int_vector.rs:15-19 [#[derive(Ord)]]: [element_bits] and [base] *)
Definition iv_cmp (a b : intvec) : comparison :=
  match iv_bits a ?= iv_bits b with Eq => vb_cmp (iv_base a) (iv_base b) | r => r end.

(** What a [Hasher] is given: integers of some width, and slices of integers of the block type (one call of
    [Hash::hash_slice]). *)
Inductive hash_item := HU64 (x : N) | HUsize (x : N) | HSlice (l : list N).
(** [Hash for Vec<Block>] (standard library): the length, then the elements *)
Definition vec_hash (l : list N) : list hash_item := [HUsize (lengthN l); HSlice l].
(** src/internal/vector_base.rs:24-28 [#[derive(Hash)]] *)
Definition vb_hash (a : vbase) : list hash_item := HU64 (vb_len a) :: vec_hash (vb_vec a).
(** src/bit_vec/bit_vector.rs:12-13 [#[derive(Hash)]] *)
Definition bvec_hash (a : vbase) : list hash_item := vb_hash a.
(** src/int_vec/int_vector.rs:15-19 [#[derive(Hash)]] *)
Definition iv_hash (a : intvec) : list hash_item := HUsize (iv_bits a) :: vb_hash (iv_base a).

(** ** Formatting.  A formatter is what [write_str] does: accept a piece of text or fail. *)
Definition formatter (S : Type) := string -> S -> res (bool * S).

Section Fmt.
  Context {S : Type} (c : cfg) (nb : N) (w : formatter S).

  (** [try!(formatter.write_str(s))] and what follows *)
  Definition fmt_then (s : string) (k : S -> res (bool * S)) (st : S) : res (bool * S) :=
    r <- w s st ;;
    let '(ok, st') := r in if ok then k st' else Ok (false, st').

  (** src/bit_vec/bit_vector.rs:227-236 [fmt::Binary for BitVector]: the [for] loop over the iterator of the vector *)
  Fixpoint fmt_bits (fuel : nat) (it : vbiter) (st : S) : res (bool * S) :=
    match fuel with
    | O => OutOfFuel
    | Datatypes.S fuel' =>
        r <- bit_next c nb it ;;
        let '(ob, it') := r in
        match ob with
        | Some bit => fmt_then (if bit then "1" else "0")%string (fmt_bits fuel' it') st
        | None => Ok (true, st)
        end
    end.
  Definition bvec_fmt_binary (fuel : nat) (v : vbase) (st : S) : res (bool * S) :=
    fmt_bits fuel (bvec_iter v) st.

  (** [{}] and [{:?}] of an unsigned integer with default flags: its decimal digits *)
  Definition decimal (x : N) : string := NilZero.string_of_uint (N.to_uint x).

  (** src/int_vec/int_vector.rs:409-422 [fmt::Debug for IntVector]; the pieces of each [write!] are written one by one *)
  Fixpoint fmt_ints (fuel : nat) (it : vbiter) (st : S) : res (bool * S) :=
    match fuel with
    | O => OutOfFuel
    | Datatypes.S fuel' =>
        r <- it_next c nb it ;;
        let '(ox, it') := r in
        match ox with
        | Some x => fmt_then (decimal x) (fmt_then ", " (fmt_ints fuel' it')) st
        | None => w "} }"%string st
        end
    end.
  Definition iv_fmt_debug (fuel : nat) (v : intvec) (st : S) : res (bool * S) :=
    fmt_then "IntVector { element_bits: " (fmt_then (decimal (iv_bits v)) (fmt_then ", elements: { "
      (fmt_ints fuel (iv_iter v)))) st.
End Fmt.
