(** * What a value owns: the specification of [SpaceUsage]. *)
From Verif Require Import Machine MSpace.

(** [v] is a value of type [t].  The blocks of a [BitVector] or [IntVector] are plain integers. *)
Fixpoint typed (t : ty) (v : val) {struct t} : Prop :=
  match t, v with
  | TFlat _, VFlat | TRef _, VFlat | TSlice _, VFlat | TBitSlice _, VFlat => True
  | TTuple ts, VTuple vs =>
      (fix go ts vs := match ts, vs with
         | [], [] => True
         | t :: ts', v :: vs' => typed t v /\ go ts' vs'
         | _, _ => False
         end) ts vs
  | TVec e, VVec cap vs => lengthN vs <= cap /\ (fix all vs := match vs with [] => True | v :: r => typed e v /\ all r end) vs
  | TBox t, VBox v => typed t v
  | TVectorBase b, VVec cap vs | TBitVector b, VVec cap vs | TIntVector b, VVec cap vs =>
      (exists n, b = TFlat n) /\ lengthN vs <= cap /\ Forall (fun v => v = VFlat) vs
  | TJacobson s, VTuple [VVec cl l; VVec cs sm; st] =>
      lengthN l <= cl /\ lengthN sm <= cs /\ typed s st
  | TRank9 s, VTuple [st; VVec cap cells] => typed s st /\ lengthN cells <= cap
  | TBinSearch r, v => typed r v
  | _, _ => False
  end.

(** The sizes of the heap blocks a value of type [t] owns, directly or indirectly: a vector owns
    one for its buffer, a box one for its content.  An entry of the directory of a [Rank9] is two 64-bit words. *)
Fixpoint allocations (size_of : ty -> N) (t : ty) (v : val) {struct t} : list N :=
  match t, v with
  | TTuple ts, VTuple vs =>
      (fix go ts vs := match ts, vs with
         | t :: ts', v :: vs' => allocations size_of t v ++ go ts' vs'
         | _, _ => []
         end) ts vs
  | TVec e, VVec cap vs => cap * size_of e :: flat_map (allocations size_of e) vs
  | TBox t, VBox v => size_of t :: allocations size_of t v
  | TVectorBase b, VVec cap _ | TBitVector b, VVec cap _ | TIntVector b, VVec cap _ => [cap * size_of b]
  | TJacobson s, VTuple [VVec cl _; VVec cs _; st] =>
      cl * size_of TU64 :: cs * size_of TU64 :: allocations size_of s st
  | TRank9 s, VTuple [st; VVec cap _] => cap * size_of (TFlat 16) :: allocations size_of s st
  | TBinSearch r, v => allocations size_of r v
  | _, _ => []
  end.

Fixpoint sum (l : list N) : N := match l with [] => 0 | x :: t => x + sum t end.
