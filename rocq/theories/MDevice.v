(** * Readers and writers that work in pieces: [io::Read::read_exact] and [io::Write::write_all] as the standard
    library provides them, under [BlockType::read_block] and [BlockType::write_block] (src/storage.rs:231-237,
    259-332), which call them once per block through the byteorder crate. *)
From Verif Require Import Machine MStream MIO.

(** The answer of one call of [read] or [write]: success, [ErrorKind::Interrupted], or another error. *)
Inductive reply (A : Type) := Done (a : A) | Interrupted | Failed (e : io_error).
Arguments Done {A} a.
Arguments Interrupted {A}.
Arguments Failed {A} e.

(** [io::Read::read] on a buffer of [n] bytes: the bytes that were put into it *)
Definition reader (S : Type) := N -> S -> res (reply (list N) * S).
(** [io::Write::write]: how many bytes were taken *)
Definition writer (S : Type) := list N -> S -> res (reply N * S).

Section Device.
  Context {S : Type}.
  (** The standard library's [default_read_exact]: calls [read] with what is left of the buffer until it is
      full; goes on after an interruption; no bytes means the end of the file; the slice [buf[n..]] panics if
      more bytes are reported than there was room. *)
  Definition read_exact (fuel : nat) (rd : reader S) : byte_source S := fun n s =>
    loop_fuel fuel (fun st : list N * S =>
      let (got, s) := st in
      if lengthN got =? n then Ok (Return (IOk got, s))
      else
        '(r, s') <- rd (n - lengthN got) s ;;
        match r with
        | Done [] => Ok (Return (IErr UnexpectedEof, s'))
        | Done l => if n - lengthN got <? lengthN l then Panic PIndex else Ok (Continue (got ++ l, s'))
        | Interrupted => Ok (Continue (got, s'))
        | Failed e => Ok (Return (IErr e, s'))
        end) ([], s).

  (** The standard library's [Write::write_all]: calls [write] with what is left; goes on after an interruption;
      [ErrorKind::WriteZero] (here [IoOther]) if nothing was taken. *)
  Definition write_all (fuel : nat) (wr : writer S) : byte_sink S := fun buf s =>
    loop_fuel fuel (fun st : list N * S =>
      let (buf, s) := st in
      match buf with
      | [] => Ok (Return (IOk tt, s))
      | _ =>
          '(r, s') <- wr buf s ;;
          match r with
          | Done n => if n =? 0 then Ok (Return (IErr IoOther, s'))
                      else if lengthN buf <? n then Panic PIndex else Ok (Continue (skipnN n buf, s'))
          | Interrupted => Ok (Continue (buf, s'))
          | Failed e => Ok (Return (IErr e, s'))
          end
      end) (buf, s).

  (** User code: [for (x) in items { try!(x.write_block::<_, O>(&mut w)) }], the items of any block types and
      byte orders. *)
  Fixpoint write_blocks (c : cfg) (sink : byte_sink S) (items : list (block_type * byte_order * N)) : io S unit :=
    match items with
    | [] => ret tt
    | (t, o, x) :: rest => (_ <-- write_block c S t sink o x ;; write_blocks c sink rest)%io
    end.

  (** User code: blocks of the given types and byte orders are read until the end or the first error; what was
      read is kept.  The result is [Some] error if there was one. *)
  Fixpoint read_blocks (c : cfg) (src : byte_source S) (formats : list (block_type * byte_order)) (s : S)
    : res (list N * option io_error * S) :=
    match formats with
    | [] => Ok ([], None, s)
    | (t, o) :: rest =>
        '(r, s1) <- read_block c S t src o s ;;
        match r with
        | IOk x => '(xs, e, s2) <- read_blocks c src rest s1 ;; Ok (x :: xs, e, s2)
        | IErr e => Ok ([], Some e, s1)
        end
    end.
End Device.
