(** * Model of [BlockType::read_block] and [BlockType::write_block] (src/storage.rs), on top of
    the [ReadBytesExt]/[WriteBytesExt] traits of the byteorder crate. *)
From Verif Require Import Machine MStream.

(** The implementations of [BlockType]: src/storage.rs:259-273 u8, 297-299 u16, u32, u64 (macro 275-295),
    301-332 usize *)
Inductive block_type := U8 | U16 | U32 | U64 | Usize.

(** [Block::nbits()] *)
Definition type_bits (c : cfg) (t : block_type) : N :=
  match t with U8 => 8 | U16 => 16 | U32 => 32 | U64 => 64 | Usize => ptr c end.

(** byteorder's [ByteOrder] implementations *)
Inductive byte_order := LittleEndian | BigEndian.

(** A byte sink ([io::Write]) is its [write_all], a byte source ([io::Read]) its [read_exact]. *)
Definition byte_sink (S : Type) := list N -> io S unit.
Definition byte_source (S : Type) := N -> io S (list N).

(** The [n] low bytes of [x], least significant first. *)
Fixpoint low_bytes (n : nat) (x : N) : list N :=
  match n with
  | O => []
  | Datatypes.S m => N.land x 255 :: low_bytes m (N.shiftr x 8)
  end.
(** [T::write_u16], [T::write_u32], [T::write_u64]: a [w]-bit integer as bytes *)
Definition to_bytes (o : byte_order) (w x : N) : list N :=
  let l := low_bytes (N.to_nat (w / 8)) x in
  match o with LittleEndian => l | BigEndian => rev l end.
(** [T::read_u16], [T::read_u32], [T::read_u64] *)
Fixpoint of_low_bytes (l : list N) : N :=
  match l with [] => 0 | b :: t => N.lor b (N.shiftl (of_low_bytes t) 8) end.
Definition of_bytes (o : byte_order) (l : list N) : N :=
  of_low_bytes (match o with LittleEndian => l | BigEndian => rev l end).

Section BlockIO.
  Variables (c : cfg) (S : Type).
  (** [WriteBytesExt]: the bytes of the integer are given to [write_all] in one call *)
  Definition write_uint (sink : byte_sink S) (o : byte_order) (w x : N) : io S unit := sink (to_bytes o w x).
  Definition read_uint (src : byte_source S) (o : byte_order) (w : N) : io S N :=
    (l <-- src (w / 8) ;; ret (of_bytes o l))%io.

  (** src/storage.rs:266-270 (u8: a single byte, whatever the order), 286-290, 316-328 (usize is written as
      a u64 or u32, depending on the target) *)
  Definition write_block (t : block_type) (sink : byte_sink S) (o : byte_order) (x : N) : io S unit :=
    match t with
    | U8 => sink [x]
    | U16 => write_uint sink o 16 x
    | U32 => write_uint sink o 32 x
    | U64 => write_uint sink o 64 x
    | Usize => if ptr c =? 64 then write_uint sink o 64 x else write_uint sink o 32 (x mod 2 ^ 32)
    end.
  (** src/storage.rs:260-264, 280-284, 302-314 *)
  Definition read_block (t : block_type) (src : byte_source S) (o : byte_order) : io S N :=
    match t with
    | U8 => (l <-- src 1 ;; ret (of_low_bytes l))%io
    | U16 => read_uint src o 16
    | U32 => read_uint src o 32
    | U64 => read_uint src o 64
    | Usize => if ptr c =? 64 then (x <-- read_uint src o 64 ;; ret (as_usize c x))%io
               else (x <-- read_uint src o 32 ;; ret (as_usize c x))%io
    end.
End BlockIO.

(** [Vec<u8>] as a sink: bytes are appended, never an error *)
Definition bytes_sink : byte_sink (list N) := fun l s => Ok (IOk tt, s ++ l).
(** [&[u8]] as a source: the bytes are consumed; if there are too few, the error is
    [UnexpectedEof] and nothing is said about what was consumed (here: everything) *)
Definition bytes_source : byte_source (list N) := fun n s =>
  if n <=? lengthN s then Ok (IOk (firstnN n s), skipnN n s) else Ok (IErr UnexpectedEof, []).
