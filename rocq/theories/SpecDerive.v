(** * Specification vocabulary for orders and formatting. *)
From Coq Require Import String.
From Verif Require Import Machine SpecBits.

(** The order of bit sequences stored in blocks of [nb] bits: the shorter one first; among those of one
    length the first block in which they differ decides, by its numerical value. *)
Definition block_less (nb : N) (l1 l2 : list bool) : Prop :=
  lengthN l1 < lengthN l2 \/
  (lengthN l1 = lengthN l2 /\
   exists i, (forall j, j < i -> block_of nb j l1 = block_of nb j l2) /\ block_of nb i l1 < block_of nb i l2).

(** Shorter first, then lexicographic. *)
Definition shortlex (xs ys : list N) : Prop :=
  lengthN xs < lengthN ys \/
  (lengthN xs = lengthN ys /\
   exists p x y xs' ys', xs = p ++ x :: xs' /\ ys = p ++ y :: ys' /\ x < y).

(** Writing the texts one after another, stopping at the first failure. *)
Fixpoint emit {S} (w : string -> S -> res (bool * S)) (l : list string) (s : S) : res (bool * S) :=
  match l with
  | [] => Ok (true, s)
  | t :: l' =>
      match w t s with
      | Ok (true, s') => emit w l' s'
      | r => r
      end
  end.
