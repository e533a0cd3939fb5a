(** * What each code reads in a finite stretch of bits, in every build and on every target. *)
From Verif Require Import Machine SpecBits.

(** The value [v], with the bits [q] left; an error, with the bits [q] left; more bits are wanted than there are ([clean]: the end of the
    data is no error here); a panic. *)
Inductive parsed :=
| Value (v : N) (q : list bool)
| Refused (q : list bool)
| Cut (clean : bool)
| Breaks.

(** The first [n] bits, if there are that many. *)
Definition chunk (n : N) (l : list bool) : option (list bool * list bool) :=
  if n <=? lengthN l then Some (firstnN n l, skipnN n l) else None.

(** [k] zeroes were read.  From 2^64 on the count overflows. *)
Fixpoint parse_unary (c : cfg) (k : N) (l : list bool) : parsed :=
  match l with
  | [] => Cut (k =? 0)
  | true :: q => Value (k mod 2 ^ 64) q
  | false :: q => if debug c && (2 ^ 64 <=? k + 1) then Breaks else parse_unary c (k + 1) q
  end.
(** One less; below 0 there is 2^64 - 1. *)
Definition parse_lift0 (c : cfg) (p : parsed) : parsed :=
  match p with
  | Value v q => if 0 <? v then Value (v - 1) q else if debug c then Breaks else Value (2 ^ 64 - 1) q
  | _ => p
  end.
(** The number of bits after the first, then these, the lowest first. *)
Definition parse_elias (p : parsed) : parsed :=
  match p with
  | Value n q => if 63 <? n then Refused q else match chunk n q with Some (x, q') => Value (2 ^ n + int_of x) q' | None => Cut false end
  | _ => p
  end.
(** Groups, the highest bit first: a group of [v] bits after the number [v].  On 32-bit targets [v] is taken modulo 2^32; the bit put before
    the group has position [v], modulo 2^32 and modulo 64, or panics above 63; and the end of the data is no error after the number 1. *)
Fixpoint parse_omega (c : cfg) (k : nat) (v : N) (l : list bool) : parsed :=
  match k with
  | O => Breaks
  | S k =>
    match l with
    | [] => Cut (v =? 1)
    | false :: q => Value v q
    | true :: q =>
        match chunk (v mod 2 ^ ptr c) q with
        | None => Cut false
        | Some (x, q') =>
            let r := v mod 2 ^ 32 in
            if debug c && (64 <=? r) then Breaks
            else parse_omega c k (N.lor (int_of (rev x) mod 2 ^ 64) (2 ^ (r mod 64))) q'
        end
    end
  end.
(** [b] is the Fibonacci number of the next bit and [a] the one before; [sum] the sum so far. *)
Fixpoint parse_fibonacci (c : cfg) (a b sum : N) (prev : bool) (l : list bool) : parsed :=
  match l with
  | [] => Cut (sum =? 0)
  | x :: q =>
      if x && prev then Value sum q
      else let sum' := if x then sum + b else sum in
        if debug c && (2 ^ 64 <=? sum') then Breaks
        else if 2 ^ 64 <=? a + b then Refused q
        else parse_fibonacci c b (a + b) (sum' mod 2 ^ 64) x q
  end.
(** Digits of [n] bits, of which 64 count, to the base 2^n - 1, which is itself the comma; a shift by 64 or more wraps around. *)
Definition comma_radix (n : N) : N := 2 ^ (n mod 64) - 1.
Fixpoint parse_digits (c : cfg) (n : N) (k : nat) (v : N) (started : bool) (l : list bool) : parsed :=
  match k with
  | O => Breaks
  | S k =>
    match chunk n l with
    | None => Cut (negb started && (lengthN l =? 0))
    | Some (x, q) =>
        let d := int_of x mod 2 ^ 64 in
        if d =? comma_radix n then Value v q
        else if debug c && (2 ^ 64 <=? v * comma_radix n + d) then Breaks
        else parse_digits c n k ((v * comma_radix n + d) mod 2 ^ 64) true q
    end
  end.
Definition parse_comma (c : cfg) (n : N) (l : list bool) : parsed :=
  if debug c && (64 <=? n) then Breaks else parse_digits c n (S (length l)) 0 false l.
