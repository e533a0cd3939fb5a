(** * Model of src/coding: the universal codes.  Values are u64.  Loops whose number of
    iterations is not a constant run on explicit fuel. *)
From Verif Require Import Machine MStorage MStream.
Local Open Scope io_scope.

(** src/coding/traits.rs:7-17 trait [UniversalCode]: both methods are polymorphic in the stream *)
Record code := {
  encode : forall S, sink S -> nat -> N -> io S unit;
  decode : forall S, source S -> nat -> io S (option N) }.
Arguments encode _ {S} _ _ _ _.
Arguments decode _ {S} _ _ _.

Section Codes.
  Variable c : cfg.

  (** ** Unary (coding/unary.rs) *)
  Section U.
    Context {S : Type}.
    (** src/coding/unary.rs:9-18 [encode] *)
    Definition unary_encode (snk : sink S) (fuel : nat) (value : N) : io S unit :=
      _ <-- loop_io fuel (fun value =>
        if 0 <? value then
          _ <-- write_bit snk false ;;
          v <-- lift (wsub c 64 value 1) ;;
          ret (Continue v)
        else ret (Return tt)) value ;;
      _ <-- write_bit snk true ;;
      ret tt.
    (** src/coding/unary.rs:20-37 [decode].  Local state: result, consumed *)
    Definition unary_decode (src : source S) (fuel : nat) : io S (option N) :=
      loop_io fuel (fun st : N * bool =>
        let '(result, consumed) := st in
        ob <-- read_bit src ;;
        match ob with
        | Some bit =>
            if bit then ret (Return (Some result))
            else r <-- lift (wadd c 64 result 1) ;; ret (Continue (r, true))
        | None => if consumed then fail UnexpectedEof else ret (Return None)
        end) (0, false).
  End U.
  Definition unary : code := {| encode := @unary_encode; decode := @unary_decode |}.

  (** ** Lift0 (coding/trans.rs) *)
  Section L.
    Variable inner : code.
    Context {S : Type}.
    (** src/coding/trans.rs:12-18 [encode] *)
    Definition lift0_encode (snk : sink S) (fuel : nat) (value : N) : io S unit :=
      match checked_add 64 value 1 with
      | Some v => encode inner snk fuel v
      | None => fail InvalidData
      end.
    (** src/coding/trans.rs:20-25 [decode] *)
    Definition lift0_decode (src : source S) (fuel : nat) : io S (option N) :=
      o <-- decode inner src fuel ;;
      match o with
      | Some n => m <-- lift (wsub c 64 n 1) ;; ret (Some m)
      | None => ret None
      end.
  End L.
  Definition lift0 (inner : code) : code :=
    {| encode := @lift0_encode inner; decode := @lift0_decode inner |}.

  (** ** Elias (coding/elias.rs) *)
  Section E.
    Variable header : code.
    Context {S : Type}.
    (** src/coding/elias.rs:31-37 [encode]; [nbits] is a u32 *)
    Definition elias_encode (snk : sink S) (fuel : nat) (value : N) : io S unit :=
      _ <-- lift (assert_ (negb (value =? 0))) ;;
      t <-- lift (wsub c 32 64 1) ;;
      nbits <-- lift (wsub c 32 t (leading_zeros 64 value)) ;;
      _ <-- encode header snk fuel nbits ;;
      write_int c snk 64 nbits value.
    (** src/coding/elias.rs:39-54 [decode] *)
    Definition elias_decode (src : source S) (fuel : nat) : io S (option N) :=
      o <-- decode header src fuel ;;
      match o with
      | Some nbits =>
          if 63 <? nbits then fail InvalidData
          else
            o2 <-- read_int c src 64 (as_usize c nbits) ;;
            match o2 with
            | Some low_bits =>
                h <-- lift (wshl c 64 1 nbits) ;; ret (Some (N.lor low_bits h))
            | None => fail UnexpectedEof
            end
      | None => ret None
      end.
  End E.
  Definition elias (header : code) : code :=
    {| encode := @elias_encode header; decode := @elias_decode header |}.
  (** src/coding/elias.rs:14-17 [Gamma], [GAMMA]; 20-23 [Delta], [DELTA] *)
  Definition gamma : code := elias unary.
  Definition delta : code := elias (lift0 gamma).

  (** ** Omega (src/coding/elias.rs:25-26, 57-95) *)
  Section O.
    Context {S : Type}.
    (** src/coding/elias.rs:61-65: the loop that fills the stack (top first in the list); it does not touch
        the sink *)
    Definition omega_stack (fuel : nat) (value : N) : res (list (N * N)) :=
      loop_fuel fuel (fun st : N * list (N * N) =>
        let (value, stack) := st in
        if 1 <? value then
          (nbits <- wsub c 32 64 (leading_zeros 64 value) ;;
           v <- wsub c 64 nbits 1 ;;
           Ok (Continue (v, (nbits, value) :: stack)))%res
        else Ok (Return stack)) (value, []).
    (** src/coding/elias.rs:67-69: the loop that empties the stack *)
    Fixpoint omega_write (snk : sink S) (stack : list (N * N)) : io S unit :=
      match stack with
      | [] => ret tt
      | (nbits, value) :: t =>
          _ <-- write_int_be c snk 64 nbits value ;; omega_write snk t
      end.
    (** src/coding/elias.rs:58-73 [encode] *)
    Definition omega_encode (snk : sink S) (fuel : nat) (value : N) : io S unit :=
      stack <-- lift (omega_stack fuel value) ;;
      _ <-- omega_write snk stack ;;
      _ <-- write_bit snk false ;;
      ret tt.
    (** src/coding/elias.rs:75-94 [decode]; [result as usize], [result as u32] *)
    Definition omega_decode (src : source S) (fuel : nat) : io S (option N) :=
      loop_io fuel (fun result : N =>
        ob <-- read_bit src ;;
        match ob with
        | Some bit =>
            if negb bit then ret (Return (Some result))
            else
              o <-- read_int_be c src 64 (as_usize c result) ;;
              match o with
              | Some next =>
                  h <-- lift (wshl c 64 1 (result mod 2 ^ 32)) ;;
                  ret (Continue (N.lor next h))
              | None => fail UnexpectedEof
              end
        | None => if result =? 1 then ret (Return None) else fail UnexpectedEof
        end) 1.
  End O.
  Definition omega : code := {| encode := @omega_encode; decode := @omega_decode |}.

  (** ** Fibonacci (coding/fib.rs) *)

  (** src/coding/fib.rs:10-13 [struct Fib] *)
  Record fib := { fi_1 : N; fi : N }.
  (** src/coding/fib.rs:16-21 [new] *)
  Definition fib_new : fib := {| fi_1 := 1; fi := 1 |}.
  (** src/coding/fib.rs:23-31 [next] *)
  Definition fib_next (f : fib) : ioR fib :=
    match checked_add 64 (fi_1 f) (fi f) with
    | Some n => IOk {| fi_1 := fi f; fi := n |}
    | None => too_many_bits
    end.
  (** src/coding/fib.rs:33-36 [prev] *)
  Definition fib_prev (f : fib) : res fib :=
    (d <- wsub c 64 (fi f) (fi_1 f) ;; Ok {| fi_1 := d; fi := fi_1 f |})%res.

  Section F.
    Context {S : Type}.
    Definition lift_io {A} (r : ioR A) : io S A := fun s => Ok (r, s).
    (** src/coding/fib.rs:46-48: the search for the largest Fibonacci number *)
    Definition fib_search (fuel : nat) (value : N) : io S fib :=
      loop_io fuel (fun f =>
        if fi f <=? value then f' <-- lift_io (fib_next f) ;; ret (Continue f')
        else ret (Return f)) fib_new.
    (** src/coding/fib.rs:52-62: filling the stack (top first in the list) *)
    Definition fib_stack (fuel : nat) (f : fib) (value : N) : res (list bool) :=
      loop_fuel fuel (fun st : fib * N * list bool =>
        let '(f, value, stack) := st in
        if 1 <? fi f then
          (vs <- (if fi_1 f <=? value then
                   v <- wsub c 64 value (fi_1 f) ;; Ok (v, true :: stack)
                 else Ok (value, false :: stack)) ;;
           f' <- fib_prev f ;;
           Ok (Continue (f', fst vs, snd vs)))%res
        else Ok (Return stack)) (f, value, [true]).
    (** src/coding/fib.rs:64-66: emptying the stack *)
    Fixpoint write_stack (snk : sink S) (stack : list bool) : io S unit :=
      match stack with
      | [] => ret tt
      | b :: t => _ <-- write_bit snk b ;; write_stack snk t
      end.
    (** src/coding/fib.rs:40-69 [encode] *)
    Definition fib_encode (snk : sink S) (fuel : nat) (value : N) : io S unit :=
      _ <-- lift (assert_ (negb (value =? 0))) ;;
      f <-- fib_search fuel value ;;
      stack <-- lift (fib_stack fuel f value) ;;
      write_stack snk stack.
    (** src/coding/fib.rs:71-94 [decode].  Local state: result, fib, previous *)
    Definition fib_decode (src : source S) (fuel : nat) : io S (option N) :=
      loop_io fuel (fun st : N * fib * bool =>
        let '(result, f, previous) := st in
        ob <-- read_bit src ;;
        match ob with
        | Some bit =>
            if bit && previous then ret (Return (Some result))
            else
              r <-- lift (if bit then wadd c 64 result (fi f) else Ok result) ;;
              f' <-- lift_io (fib_next f) ;;
              ret (Continue (r, f', bit))
        | None => if result =? 0 then ret (Return None) else fail UnexpectedEof
        end) (0, fib_new, false).
  End F.
  Definition fibonacci : code := {| encode := @fib_encode; decode := @fib_decode |}.

  (** ** Comma (coding/comma.rs); [n] is a u8 *)
  Section C.
    Variable n : N.
    Context {S : Type}.
    (** src/coding/comma.rs:13, 31: [(1 << self.0) - 1] *)
    Definition comma_base : res N := (s <- wshl c 64 1 n ;; wsub c 64 s 1)%res.
    (** src/coding/comma.rs:16-19: filling the stack (top first in the list) *)
    Definition comma_stack (fuel : nat) (base value : N) : res (list N) :=
      loop_fuel fuel (fun st : N * list N =>
        let (value, stack) := st in
        if 0 <? value then
          (d <- wmod value base ;; v <- wdiv value base ;; Ok (Continue (v, d :: stack)))%res
        else Ok (Return stack)) (value, []).
    (** src/coding/comma.rs:21-23: emptying the stack *)
    Fixpoint comma_write (snk : sink S) (stack : list N) : io S unit :=
      match stack with
      | [] => ret tt
      | d :: t => _ <-- write_int c snk 64 n d ;; comma_write snk t
      end.
    (** src/coding/comma.rs:12-28 [encode] *)
    Definition comma_encode (snk : sink S) (fuel : nat) (value : N) : io S unit :=
      base <-- lift comma_base ;;
      stack <-- lift (comma_stack fuel base value) ;;
      _ <-- comma_write snk stack ;;
      _ <-- write_int c snk 64 n base ;;
      ret tt.
    (** src/coding/comma.rs:30-47 [decode].  Local state: result, consumed *)
    Definition comma_decode (src : source S) (fuel : nat) : io S (option N) :=
      base <-- lift comma_base ;;
      loop_io fuel (fun st : N * bool =>
        let '(result, consumed) := st in
        o <-- read_int c src 64 n ;;
        match o with
        | Some digit =>
            if digit =? base then ret (Return (Some result))
            else
              m <-- lift (wmul c 64 result base) ;;
              r <-- lift (wadd c 64 m digit) ;;
              ret (Continue (r, true))
        | None => if consumed then fail UnexpectedEof else ret (Return None)
        end) (0, false).
  End C.
  Definition comma (n : N) : code :=
    {| encode := @comma_encode n; decode := @comma_decode n |}.
End Codes.
