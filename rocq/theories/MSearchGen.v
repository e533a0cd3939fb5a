(** * Model of src/internal/search.rs in full generality: the positions range over any primitive
    integer type, signed or not, the values over any type with the comparisons [>=] and [<], and the
    function may have effects ([F: Fn(D) -> R] can change state by interior mutability).  MSelect.v has
    the instance that the library uses. *)
From Verif Require Import Machine.

(** A primitive integer type is given by its least and its greatest value. *)
Record pint := { pi_min : Z; pi_max : Z }.
Definition unsigned (w : N) : pint := {| pi_min := 0; pi_max := (2 ^ Z.of_N w - 1)%Z |}.
Definition signed (w : N) : pint := {| pi_min := (- 2 ^ Z.of_N (w - 1))%Z; pi_max := (2 ^ Z.of_N (w - 1) - 1)%Z |}.

(** The result [z] of an addition or subtraction *)
Definition pi_wrap (c : cfg) (D : pint) (z : Z) : res Z :=
  if (pi_min D <=? z)%Z && (z <=? pi_max D)%Z then Ok z
  else if debug c then Panic POverflow
  else Ok ((z - pi_min D) mod (pi_max D - pi_min D + 1) + pi_min D)%Z.

Section Search.
  Variables (c : cfg) (D : pint).

  (** src/internal/search.rs:4-9 [average]; [>>] is arithmetic on signed types.  All types have more than one bit. *)
  Definition average_gen (x y : Z) : res Z :=
    almost <- pi_wrap c D (Z.shiftr x 1 + Z.shiftr y 1) ;;
    t <- pi_wrap c D (Z.land x 1 + Z.land y 1) ;;
    pi_wrap c D (almost + Z.shiftr t 1).

  Context {S R : Type} (ge lt : R -> R -> bool).

  (** src/internal/search.rs:16-44 [binary_search_function]; the [while] loop, 29-41, runs on [fuel] *)
  Definition search_loop_gen (value : R) (f : Z -> S -> res (R * S)) (fuel : nat) (start limit : Z) (s : S)
    : res (option Z * S) :=
    loop_fuel fuel (fun st : Z * Z * S =>
      let '(start, limit, s) := st in
      if (start <? limit)%Z then
        mid <- average_gen start limit ;;
        '(fm, s) <- f mid s ;;
        if ge fm value then
          m1 <- pi_wrap c D (mid - 1) ;;
          '(fm1, s) <- f m1 s ;;
          Ok (if lt fm1 value then Return (Some mid, s) else Continue (start, mid, s))
        else st <- pi_wrap c D (mid + 1) ;; Ok (Continue (st, limit, s))
      else Ok (Return (None, s))) (start, limit, s).

  Definition binary_search_gen (fuel : nat) (start limit : Z) (value : R) (f : Z -> S -> res (R * S)) (s : S)
    : res (option Z * S) :=
    if (limit <=? start)%Z then Ok (None, s)
    else
      '(fs, s) <- f start s ;;
      if ge fs value then Ok (Some start, s)
      else st <- pi_wrap c D (start + 1) ;; search_loop_gen value f fuel st limit s.
End Search.
