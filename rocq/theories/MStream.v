(** * Model of src/stream (BitRead, BitWrite, their instances for [VecDeque<bool>], and
    [BitBuffer]) and of src/internal/errors.rs. *)
From Verif Require Import Machine MStorage MTraits MVectorBase MBitVector.

(** [std::io::Result]; only the kind of an error is kept.  [IoOther] stands for any error
    raised by a user-supplied source or sink. *)
Inductive io_error := UnexpectedEof | InvalidData | NotFound | IoOther.
Inductive ioR (A : Type) := IOk (a : A) | IErr (e : io_error).
Arguments IOk {A} a.
Arguments IErr {A} e.

(** src/internal/errors.rs:3-7 [out_of_bits], 9-12 [too_many_bits] *)
Definition out_of_bits {A} : ioR A := IErr UnexpectedEof.
Definition too_many_bits {A} : ioR A := IErr InvalidData.

(** Computations that work on a stream [S]: they may panic, and otherwise return an
    [io::Result] together with the new state of the stream. *)
Definition io (S A : Type) := S -> res (ioR A * S).

Definition ret {S A} (a : A) : io S A := fun s => Ok (IOk a, s).
Definition fail {S A} (e : io_error) : io S A := fun s => Ok (IErr e, s).
Definition lift {S A} (m : res A) : io S A := fun s => a <- m ;; Ok (IOk a, s).
(** [try!]: errors are returned to the caller *)
Definition try_ {S A B} (m : io S A) (f : A -> io S B) : io S B := fun s =>
  r <- m s ;;
  match r with
  | (IOk a, s') => f a s'
  | (IErr e, s') => Ok (IErr e, s')
  end.
Declare Scope io_scope.
Delimit Scope io_scope with io.
Notation "x <-- m ;; k" := (try_ m (fun x => k))
  (at level 61, m at next level, right associativity) : io_scope.

(** [for _ in 0 .. n]: the body continues with a new local state or returns early *)
Fixpoint for_io {S L R} (n : nat) (body : L -> io S (flow L R)) (done : L -> io S R) (l : L)
  : io S R :=
  match n with
  | O => done l
  | Datatypes.S n' =>
      try_ (body l) (fun x => match x with
                              | Continue l' => for_io n' body done l'
                              | Return r => ret r
                              end)
  end.

(** [loop]/[while] with fuel *)
Fixpoint loop_io {S L R} (fuel : nat) (body : L -> io S (flow L R)) (l : L) : io S R :=
  match fuel with
  | O => fun _ => OutOfFuel
  | Datatypes.S n' =>
      try_ (body l) (fun x => match x with
                              | Continue l' => loop_io n' body l'
                              | Return r => ret r
                              end)
  end.

(** src/stream/traits.rs:8-12 trait [BitRead]; [read_int], [read_int_be] are never overridden *)
Record source (S : Type) := { read_bit : io S (option bool) }.
Arguments read_bit {S} _ _.
(** src/stream/traits.rs:65-67 trait [BitWrite]; [write_int], [write_int_be] are never overridden *)
Record sink (S : Type) := { write_bit : bool -> io S unit }.
Arguments write_bit {S} _ _ _.

Section ReadInt.
  Context {S : Type} (c : cfg) (src : source S).
  Local Open Scope io_scope.

  (** src/stream/traits.rs:15-37 [read_int] for an unsigned type of [w] bits.  Local state:
      result, mask, consumed *)
  Definition read_int (w nbits : N) : io S (option N) :=
    for_io (N.to_nat nbits) (fun st : N * N * bool =>
      let '(result, mask, consumed) := st in
      ob <-- read_bit src ;;
      match ob with
      | Some bit =>
          mask' <-- lift (wshl c w mask 1) ;;
          ret (Continue (if bit then N.lor result mask else result, mask', true))
      | None => if consumed then fail UnexpectedEof else ret (Return None)
      end)
      (fun st => ret (Some (fst (fst st)))) (0, 1, false).

  (** src/stream/traits.rs:40-61 [read_int_be].  Local state: result, consumed *)
  Definition read_int_be (w nbits : N) : io S (option N) :=
    for_io (N.to_nat nbits) (fun st : N * bool =>
      let '(result, consumed) := st in
      ob <-- read_bit src ;;
      match ob with
      | Some bit =>
          r <-- lift (wshl c w result 1) ;;
          ret (Continue (if bit then N.lor r 1 else r, true))
      | None => if consumed then fail UnexpectedEof else ret (Return None)
      end)
      (fun st => ret (Some (fst st))) (0, false).
End ReadInt.

Section WriteInt.
  Context {S : Type} (c : cfg) (snk : sink S).
  Local Open Scope io_scope.

  (** src/stream/traits.rs:70-77 [write_int] for an unsigned type of [w] bits *)
  Definition write_int (w nbits value : N) : io S unit :=
    for_io (N.to_nat nbits) (fun value : N =>
      _ <-- write_bit snk (negb (N.land value 1 =? 0)) ;;
      v <-- lift (wshr c w value 1) ;;
      ret (Continue v))
      (fun _ => ret tt) value.

  (** src/stream/traits.rs:80-90 [write_int_be]; [nbits] is a usize *)
  Definition write_int_be (w nbits value : N) : io S unit :=
    n1 <-- lift (wsub c (ptr c) nbits 1) ;;
    mask <-- lift (wshl c w 1 n1) ;;
    for_io (N.to_nat nbits) (fun mask : N =>
      _ <-- write_bit snk (negb (N.land value mask =? 0)) ;;
      m <-- lift (wshr c w mask 1) ;;
      ret (Continue m))
      (fun _ => ret tt) mask.
End WriteInt.

(** ** [VecDeque<bool>] as a list, front first (src/stream/traits.rs:98-109) *)
Definition deque_source : source (list bool) := {|
  read_bit := fun l => Ok (match l with
                           | [] => (IOk None, [])
                           | b :: t => (IOk (Some b), t) end) |}.
Definition deque_sink : sink (list bool) := {|
  write_bit := fun b l => Ok (IOk tt, l ++ [b]) |}.

(** ** [BitBuffer] (stream/bit_buffer.rs) *)

(** src/stream/bit_buffer.rs:10-13 [struct BitBuffer] *)
Record bitbuf (T : Type) := { bb_data : T; bb_pos : N }.
Arguments bb_data {T} _.
Arguments bb_pos {T} _.

(** src/stream/bit_buffer.rs:24-29 [with_capacity], 18-20 [new] *)
Definition bb_with_capacity (c : cfg) (nb capacity : N) : res (bitbuf vbase) :=
  v <- bvec_with_capacity c nb capacity ;; Ok {| bb_data := v; bb_pos := 0 |}.
Definition bb_new (c : cfg) (nb : N) : res (bitbuf vbase) := bb_with_capacity c nb 0.

Section BitBuffer.
  Context {T : Type} (c : cfg).

  (** src/stream/bit_buffer.rs:34-39 [from] *)
  Definition bb_from (input : T) : bitbuf T := {| bb_data := input; bb_pos := 0 |}.
  (** src/stream/bit_buffer.rs:42-48 [append] *)
  Definition bb_append (B : bitvec T) (v : T) : res (bitbuf T) :=
    len <- bv_bit_len B v ;; Ok {| bb_data := v; bb_pos := len |}.
  (** src/stream/bit_buffer.rs:51-59 [seek] *)
  Definition bb_seek (B : bitvec T) (p : N) : io (bitbuf T) unit := fun bb =>
    bl <- bv_bit_len B (bb_data bb) ;;
    if p <=? bl then Ok (IOk tt, {| bb_data := bb_data bb; bb_pos := p |})
    else Ok (IErr NotFound, bb).
  (** src/stream/bit_buffer.rs:65-73 [into_inner], [inner]; 78-80 [position] *)
  Definition bb_inner (bb : bitbuf T) : T := bb_data bb.
  Definition bb_position (bb : bitbuf T) : N := bb_pos bb.

  (** src/stream/bit_buffer.rs:83-100 [BitVec for BitBuffer]: [get_bit] and [get_bits] are the defaults
      over [get_block] *)
  Definition bb_bit_len (B : bitvec T) (bb : bitbuf T) : res N := bv_bit_len B (bb_data bb).
  Definition bb_get_block (B : bitvec T) (bb : bitbuf T) (i : N) : res N :=
    bv_get_block B (bb_data bb) i.
  Definition bb_get_bit (B : bitvec T) : bitbuf T -> N -> res bool :=
    default_get_bit c (bv_nb B) (bb_bit_len B) (bb_get_block B).
  Definition bb_bitvec (B : bitvec T) : bitvec (bitbuf T) := {|
    bv_nb := bv_nb B;
    bv_bit_len := bb_bit_len B;
    bv_block_len := fun bb => bv_block_len B (bb_data bb);
    bv_get_bit := bb_get_bit B;
    bv_get_block := bb_get_block B;
    bv_get_bits := default_get_bits c (bv_nb B) (bb_bit_len B) (bb_get_block B) |}.

  Definition bb_with (bb : bitbuf T) (d : T) : bitbuf T := {| bb_data := d; bb_pos := bb_pos bb |}.
  (** src/stream/bit_buffer.rs:102-107 [BitVecMut for BitBuffer]: [set_bit] and [set_bits] are the
      defaults over [get_block] and [set_block] *)
  Definition bb_set_block (M : bitvecmut T) (bb : bitbuf T) (i v : N) : res (bitbuf T) :=
    d <- bm_set_block M (bb_data bb) i v ;; Ok (bb_with bb d).
  Definition bb_set_bit (M : bitvecmut T) : bitbuf T -> N -> bool -> res (bitbuf T) :=
    default_set_bit c (bv_nb (bm_bv M)) (bb_bit_len (bm_bv M)) (bb_get_block (bm_bv M))
      (bb_set_block M).
  Definition bb_bitvecmut (M : bitvecmut T) : bitvecmut (bitbuf T) := {|
    bm_bv := bb_bitvec (bm_bv M);
    bm_set_bit := bb_set_bit M;
    bm_set_block := bb_set_block M;
    bm_set_bits := default_set_bits c (bv_nb (bm_bv M)) (bb_bit_len (bm_bv M))
                     (bb_get_block (bm_bv M)) (bb_set_block M) |}.

  (** src/stream/bit_buffer.rs:109-119 [read_bit] *)
  Definition bb_read_bit (B : bitvec T) : io (bitbuf T) (option bool) := fun bb =>
    bl <- bb_bit_len B bb ;;
    if bb_pos bb <? bl then
      b <- bb_get_bit B bb (bb_pos bb) ;;
      p <- wadd c 64 (bb_pos bb) 1 ;;
      Ok (IOk (Some b), {| bb_data := bb_data bb; bb_pos := p |})
    else Ok (IOk None, bb).
  Definition bb_source (B : bitvec T) : source (bitbuf T) := {| read_bit := bb_read_bit B |}.

  (** src/stream/bit_buffer.rs:121-133 [write_bit]; the [while] loop (123-125) runs on fuel *)
  Definition bb_write_bit (P : bitvecpush T) (fuel : nat) (value : bool) : io (bitbuf T) unit :=
    fun bb =>
      d <- loop_fuel fuel (fun d =>
             bl <- bv_bit_len (bm_bv (bp_bm P)) d ;;
             if bl <=? bb_pos bb then d' <- bp_push_bit P d false ;; Ok (Continue d')
             else Ok (Return d)) (bb_data bb) ;;
      bb' <- bb_set_bit (bp_bm P) (bb_with bb d) (bb_pos bb) value ;;
      p <- wadd c 64 (bb_pos bb) 1 ;;
      Ok (IOk tt, {| bb_data := bb_data bb'; bb_pos := p |}).
  Definition bb_sink (P : bitvecpush T) (fuel : nat) : sink (bitbuf T) :=
    {| write_bit := bb_write_bit P fuel |}.
End BitBuffer.
