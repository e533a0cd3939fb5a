(** * The machine layer: outcomes, build configuration, fixed-width integers,
    vectors and loops.  Everything else in the model is written on top of it. *)
From Coq Require Export List NArith ZArith Bool Lia.
Export ListNotations.
Global Open Scope N_scope.
Global Open Scope bool_scope.

(** ** Outcomes of a Rust computation *)

(** The reason of a panic, for documentation: [PAssert] an [assert!], [PDebug] a
    [debug_assert!], [POverflow] an arithmetic overflow check, [PIndex] a slice
    bounds check, [PDiv] a division by zero, [PExpect] an [Option::expect],
    [PAlloc] a failed allocation (capacity overflow panic or allocation-failure abort). *)
Inductive panic_kind := PAssert | PDebug | POverflow | PIndex | PDiv | PExpect | PAlloc.

(** [Ok a]: returns [a]; [Panic p]: panics; [OutOfFuel]: the model's loop bound
    was exhausted (a real execution would still be running). *)
Inductive res (A : Type) : Type :=
| Ok (a : A)
| Panic (p : panic_kind)
| OutOfFuel.
Arguments Ok {A} a.
Arguments Panic {A} p.
Arguments OutOfFuel {A}.

Definition bind {A B} (m : res A) (f : A -> res B) : res B :=
  match m with
  | Ok a => f a
  | Panic p => Panic p
  | OutOfFuel => OutOfFuel
  end.

Declare Scope res_scope.
Delimit Scope res_scope with res.
Notation "x <- m ;; k" := (bind m (fun x => k))
  (at level 61, m at next level, right associativity) : res_scope.
Notation "' pat <- m ;; k" := (bind m (fun x => match x with pat => k end))
  (at level 61, pat pattern, m at next level, right associativity) : res_scope.
Notation "m ;;; k" := (bind m (fun _ => k))
  (at level 61, right associativity) : res_scope.
Global Open Scope res_scope.

Definition panics {A} (r : res A) : Prop := exists p, r = Panic p.

(** [assert!(b)] *)
Definition assert_ (b : bool) : res unit := if b then Ok tt else Panic PAssert.

(** [Option::expect] / [Option::unwrap] *)
Definition expect {A} (o : option A) : res A :=
  match o with Some a => Ok a | None => Panic PExpect end.

(** ** Build configuration *)

(** [debug]: overflow checks and [debug_assert!] enabled (the dev profile);
    [ptr]: [target_pointer_width]. *)
Record cfg := { debug : bool; ptr : N }.

Definition wf_cfg (c : cfg) : Prop := ptr c = 32 \/ ptr c = 64.

(** The widths of the five block types u8, u16, u32, u64, usize. *)
Definition wf_nb (nb : N) : Prop := nb = 8 \/ nb = 16 \/ nb = 32 \/ nb = 64.

(** [debug_assert!(b)] *)
Definition debug_assert (c : cfg) (b : bool) : res unit :=
  if debug c then (if b then Ok tt else Panic PDebug) else Ok tt.

(** ** Fixed-width unsigned arithmetic.  [w] is the width of the type. *)

(** Result [x] of an arithmetic operation at width [w]: fits, or overflows. *)
Definition wrap (c : cfg) (w x : N) : res N :=
  if x <? 2 ^ w then Ok x
  else if debug c then Panic POverflow else Ok (x mod 2 ^ w).

Definition wadd (c : cfg) (w a b : N) : res N := wrap c w (a + b).
Definition wmul (c : cfg) (w a b : N) : res N := wrap c w (a * b).
Definition wsub (c : cfg) (w a b : N) : res N :=
  if b <=? a then Ok (a - b)
  else if debug c then Panic POverflow else Ok ((a + 2 ^ w - b) mod 2 ^ w).

(** [a << k]: bits shifted out are lost silently; a shift amount of at least the
    width panics with overflow checks and is reduced modulo the width without. *)
Definition wshl (c : cfg) (w a k : N) : res N :=
  if k <? w then Ok (N.shiftl a k mod 2 ^ w)
  else if debug c then Panic POverflow else Ok (N.shiftl a (k mod w) mod 2 ^ w).
Definition wshr (c : cfg) (w a k : N) : res N :=
  if k <? w then Ok (N.shiftr a k)
  else if debug c then Panic POverflow else Ok (N.shiftr a (k mod w)).

Definition wdiv (a b : N) : res N := if b =? 0 then Panic PDiv else Ok (a / b).
Definition wmod (a b : N) : res N := if b =? 0 then Panic PDiv else Ok (a mod b).

(** [!a] *)
Definition wnot (w a : N) : N := N.lnot a w.

Definition wrapping_mul (w a b : N) : N := (a * b) mod 2 ^ w.
Definition wrapping_add (w a b : N) : N := (a + b) mod 2 ^ w.
Definition wrapping_sub (w a b : N) : N := (a + 2 ^ w - b) mod 2 ^ w.
Definition wrapping_shl (w a k : N) : N := N.shiftl a (k mod w) mod 2 ^ w.
Definition wrapping_shr (w a k : N) : N := N.shiftr a (k mod w).

Definition checked_add (w a b : N) : option N :=
  if a + b <? 2 ^ w then Some (a + b) else None.
Definition checked_mul (w a b : N) : option N :=
  if a * b <? 2 ^ w then Some (a * b) else None.
(** [saturating_sub] on an unsigned type is truncated subtraction. *)
Definition saturating_sub (a b : N) : N := a - b.

(** [x as usize], [x.to_usize()] for [x : u64] *)
Definition as_usize (c : cfg) (x : N) : N := x mod 2 ^ ptr c.
Definition to_usize (c : cfg) (x : N) : option N :=
  if x <? 2 ^ ptr c then Some x else None.

(** [leading_zeros] and [count_ones] of a [w]-bit integer. *)
Definition leading_zeros (w x : N) : N := w - N.size x.

Fixpoint pos_popcount (p : positive) : N :=
  match p with
  | xH => 1
  | xO q => pos_popcount q
  | xI q => 1 + pos_popcount q
  end.
Definition count_ones (x : N) : N :=
  match x with N0 => 0 | Npos p => pos_popcount p end.

(** ** Vectors as lists, indexed by [N] *)

Definition lengthN {A} (l : list A) : N := N.of_nat (length l).

Fixpoint nthN {A} (l : list A) (i : N) : option A :=
  match l with
  | [] => None
  | x :: t => if i =? 0 then Some x else nthN t (i - 1)
  end.

Fixpoint updN {A} (l : list A) (i : N) (a : A) : list A :=
  match l with
  | [] => []
  | x :: t => if i =? 0 then a :: t else x :: updN t (i - 1) a
  end.

Definition repeatN {A} (a : A) (n : N) : list A := repeat a (N.to_nat n).
Definition firstnN {A} (n : N) (l : list A) : list A := firstn (N.to_nat n) l.
Definition skipnN {A} (n : N) (l : list A) : list A := skipn (N.to_nat n) l.

(** [self[i]] on a slice *)
Definition index {A} (l : list A) (i : N) : res A :=
  match nthN l i with Some a => Ok a | None => Panic PIndex end.

(** [self[i] = a] on a slice *)
Definition index_set {A} (l : list A) (i : N) (a : A) : res (list A) :=
  if i <? lengthN l then Ok (updN l i a) else Panic PIndex.

(** [Vec::pop]: the popped element and the shorter vector *)
Definition vec_pop {A} (l : list A) : option A * list A :=
  match rev l with
  | [] => (None, [])
  | x :: t => (Some x, rev t)
  end.

(** [Vec::truncate(n)]: a no-op when [n] is not smaller. *)
Definition vec_truncate {A} (l : list A) (n : N) : list A :=
  if n <? lengthN l then firstnN n l else l.

(** The largest number of bits one allocation can hold: isize::MAX bytes on 32-bit
    targets (larger requests panic with "capacity overflow"); 2^60 bytes on 64-bit
    targets (no supported target has a larger address space, so a larger request is
    refused by the allocator). *)
Definition max_bits (c : cfg) : N := if ptr c =? 32 then 8 * (2 ^ 31 - 1) else 2 ^ 63.

(** Allocating a buffer of [n] elements of [w] bits each. *)
Definition alloc (c : cfg) (w n : N) : res unit :=
  if n * w <=? max_bits c then Ok tt else Panic PAlloc.

(** [vec![a; n]] *)
Definition vec_fill (c : cfg) (w : N) (a : N) (n : N) : res (list N) :=
  alloc c w n ;;; Ok (repeatN a n).

(** [Vec::push(a)]; an allocation of the exact new length is required to succeed, the
    amortised growth of the capacity is in MCapacity.v *)
Definition vec_push {A} (c : cfg) (w : N) (l : list A) (a : A) : res (list A) :=
  alloc c w (lengthN l + 1) ;;; Ok (l ++ [a]).

(** [Vec::resize(n, a)] *)
Definition vec_resize {A} (c : cfg) (w : N) (l : list A) (n : N) (a : A) : res (list A) :=
  if n <=? lengthN l then Ok (firstnN n l)
  else alloc c w n ;;; Ok (l ++ repeatN a (n - lengthN l)).

(** ** Loops *)

(** [n] iterations of [body], with counter [i], [i+1], ... *)
Fixpoint for_loop {S} (n : nat) (i : N) (body : N -> S -> res S) (s : S) : res S :=
  match n with
  | O => Ok s
  | Datatypes.S n' => s' <- body i s ;; for_loop n' (i + 1) body s'
  end.

(** [for i in a .. b { body }] *)
Definition for_range {S} (a b : N) (body : N -> S -> res S) (s : S) : res S :=
  for_loop (N.to_nat (b - a)) a body s.

(** A sum type for loop bodies that may leave the loop. *)
Inductive flow (S R : Type) := Continue (s : S) | Return (r : R).
Arguments Continue {S R} s.
Arguments Return {S R} r.

(** [loop { body }] with explicit fuel; the body continues or returns. *)
Fixpoint loop_fuel {S R} (fuel : nat) (body : S -> res (flow S R)) (s : S) : res R :=
  match fuel with
  | O => OutOfFuel
  | Datatypes.S f =>
      x <- body s ;;
      match x with
      | Continue s' => loop_fuel f body s'
      | Return r => Ok r
      end
  end.
