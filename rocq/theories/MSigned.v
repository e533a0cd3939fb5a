(** * Model of [read_int], [read_int_be], [write_int] and [write_int_be] (src/stream/traits.rs) at the
    signed types i8, i16, i32, i64 and isize: the same source as in MStream.v, instantiated at a signed
    [N : PrimInt].  A value of the [w]-bit signed type is an integer between [- 2 ^ (w - 1)] and
    [2 ^ (w - 1) - 1]. *)
From Verif Require Import Machine MStream.

(** The value of the [w]-bit signed type that is congruent to [z] modulo [2 ^ w]. *)
Definition swrap (w : N) (z : Z) : Z :=
  let h := (2 ^ Z.of_N (w - 1))%Z in ((z + h) mod (2 * h) - h)%Z.

(** [a << k] on a signed type: bits shifted out are lost silently, the sign bit is whatever arrives
    there; shift amounts as for unsigned types ([wshl]) *)
Definition sshl (c : cfg) (w : N) (a : Z) (k : N) : res Z :=
  if k <? w then Ok (swrap w (Z.shiftl a (Z.of_N k)))
  else if debug c then Panic POverflow else Ok (swrap w (Z.shiftl a (Z.of_N (k mod w)))).
(** [a >> k] on a signed type: an arithmetic shift, the sign bit is copied in *)
Definition sshr (c : cfg) (w : N) (a : Z) (k : N) : res Z :=
  if k <? w then Ok (Z.shiftr a (Z.of_N k))
  else if debug c then Panic POverflow else Ok (Z.shiftr a (Z.of_N (k mod w))).

Section ReadSigned.
  Context {S : Type} (c : cfg) (src : source S).
  Local Open Scope io_scope.

  (** src/stream/traits.rs:15-37 [read_int].  Local state: result, mask, consumed *)
  Definition read_sint (w nbits : N) : io S (option Z) :=
    for_io (N.to_nat nbits) (fun st : Z * Z * bool =>
      let '(result, mask, consumed) := st in
      ob <-- read_bit src ;;
      match ob with
      | Some bit =>
          mask' <-- lift (sshl c w mask 1) ;;
          ret (Continue (if bit then Z.lor result mask else result, mask', true))
      | None => if consumed then fail UnexpectedEof else ret (Return None)
      end)
      (fun st => ret (Some (fst (fst st)))) (0%Z, 1%Z, false).

  (** src/stream/traits.rs:40-61 [read_int_be].  Local state: result, consumed *)
  Definition read_sint_be (w nbits : N) : io S (option Z) :=
    for_io (N.to_nat nbits) (fun st : Z * bool =>
      let '(result, consumed) := st in
      ob <-- read_bit src ;;
      match ob with
      | Some bit =>
          r <-- lift (sshl c w result 1) ;;
          ret (Continue (if bit then Z.lor r 1 else r, true))
      | None => if consumed then fail UnexpectedEof else ret (Return None)
      end)
      (fun st => ret (Some (fst st))) (0%Z, false).
End ReadSigned.

Section WriteSigned.
  Context {S : Type} (c : cfg) (snk : sink S).
  Local Open Scope io_scope.

  (** src/stream/traits.rs:70-77 [write_int] *)
  Definition write_sint (w nbits : N) (value : Z) : io S unit :=
    for_io (N.to_nat nbits) (fun value : Z =>
      _ <-- write_bit snk (negb (Z.land value 1 =? 0)%Z) ;;
      v <-- lift (sshr c w value 1) ;;
      ret (Continue v))
      (fun _ => ret tt) value.

  (** src/stream/traits.rs:80-90 [write_int_be]; [nbits] is a usize *)
  Definition write_sint_be (w nbits : N) (value : Z) : io S unit :=
    n1 <-- lift (wsub c (ptr c) nbits 1) ;;
    mask <-- lift (sshl c w 1 n1) ;;
    for_io (N.to_nat nbits) (fun mask : Z =>
      _ <-- write_bit snk (negb (Z.land value mask =? 0)%Z) ;;
      m <-- lift (sshr c w mask 1) ;;
      ret (Continue m))
      (fun _ => ret tt) mask.
End WriteSigned.
