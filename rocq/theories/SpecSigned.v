(** * Specification vocabulary for signed integers. *)
From Coq Require Import ZArith NArith List Bool.
Import ListNotations.

(** The [n] low bits of an integer in two's complement, least significant first. *)
Definition zbits_of (n : N) (z : Z) : list bool := map (fun i => Z.testbit z (Z.of_nat i)) (seq 0 (N.to_nat n)).

(** The values of the signed type of [w] bits. *)
Definition signed_range (w : N) (z : Z) : Prop := (- 2 ^ (Z.of_N w - 1) <= z < 2 ^ (Z.of_N w - 1))%Z.
