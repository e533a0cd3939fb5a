(** * Model of src/space_usage.rs and of the [SpaceUsage] implementations of the crate, by a deep
    embedding of the types that have one and of their values. *)
From Verif Require Import Machine.

(** Types with a [SpaceUsage] implementation. *)
Inductive ty :=
| TFlat (size : N)        (** src/space_usage.rs:72-84 (), integers and floats; src/rank/rank9.rs:168-169; the macro
                              impl_stack_only_space_usage!, src/macros.rs:22-31 *)
| TRef (t : ty)           (** src/space_usage.rs:86-89 [&T] *)
| TSlice (t : ty)         (** src/space_usage.rs:91-94 [&[T]] *)
| TBitSlice (t : ty)      (** src/bit_vec/bit_slice.rs:161-169 [BitSlice], [BitSliceMut] over a base of type [t] *)
| TTuple (ts : list ty)   (** src/space_usage.rs:96-125 tuples (of 1 to 12 components) *)
| TVec (t : ty)           (** src/space_usage.rs:127-142 *)
| TBox (t : ty)           (** src/space_usage.rs:144-156 *)
| TVectorBase (block : ty)   (** src/internal/vector_base.rs:427-435 *)
| TBitVector (block : ty)    (** src/bit_vec/bit_vector.rs:238-244 *)
| TIntVector (block : ty)    (** src/int_vec/int_vector.rs:424-432 *)
| TJacobson (store : ty)     (** src/rank/jacobson.rs:119-128 *)
| TRank9 (store : ty)        (** src/rank/rank9.rs:171-177 *)
| TBinSearch (rank : ty).    (** src/select/bin_search.rs:75-78 *)

(** [u64], and the cells of src/rank/rank9.rs:15-24 (two [u64]s, [repr(C)]) *)
Definition TU64 : ty := TFlat 8.
Definition TCell : ty := TFlat 16.

(** Values: all that matters is what they own. *)
Inductive val :=
| VFlat                                (** a value without heap memory, or borrowing it *)
| VTuple (vs : list val)               (** a tuple or struct, component by component *)
| VVec (capacity : N) (vs : list val)  (** a [Vec] *)
| VBox (v : val).

Section Space.
  Variable c : cfg.
  (** [mem::size_of::<T>()], the default [stack_bytes] (src/space_usage.rs:58-60, 150-152); the layout
      of types is the compiler's business *)
  Variable size_of : ty -> N.
  Definition stack_bytes (t : ty) : N := size_of t.

  (** [is_stack_only] *)
  Fixpoint is_stack_only (t : ty) : bool :=
    match t with
    | TFlat _ | TRef _ | TSlice _ | TBitSlice _ => true
    | TTuple ts => (fix all ts := match ts with [] => true | t :: r => is_stack_only t && all r end) ts
    | TVec _ | TBox _ | TVectorBase _ | TBitVector _ | TIntVector _ | TJacobson _ | TRank9 _ => false
    | TBinSearch r => is_stack_only r
    end.

  (** src/space_usage.rs:132-142 [Vec::heap_bytes], for elements with the given functions *)
  Definition vec_heap_bytes (elt : ty) (stack_only : bool) (heap : val -> res N) (capacity : N) (vs : list val) : res N :=
    result <- wmul c (ptr c) capacity (stack_bytes elt) ;;
    if stack_only then Ok result
    else (fix go vs result := match vs with
            | [] => Ok result
            | each :: t => h <- heap each ;; r <- wadd c (ptr c) result h ;; go t r
            end) vs result.

  (** [heap_bytes]; a struct is the tuple of its fields that own memory.  (The last case, a value that
      is not of the type, does not exist in the program.) *)
  Fixpoint heap_bytes (t : ty) (v : val) {struct t} : res N :=
    match t, v with
    | TFlat _, _ | TRef _, _ | TSlice _, _ | TBitSlice _, _ => Ok 0
    | TTuple ts, VTuple vs =>
        (fix go ts vs result := match ts, vs with
           | t :: ts', v :: vs' => h <- heap_bytes t v ;; r <- wadd c (ptr c) result h ;; go ts' vs' r
           | _, _ => Ok result
           end) ts vs 0
    | TVec e, VVec cap vs => vec_heap_bytes e (is_stack_only e) (heap_bytes e) cap vs
    | TBox t, VBox v => (* total_bytes, src/space_usage.rs:39-41 *)
        h <- heap_bytes t v ;; wadd c (ptr c) (stack_bytes t) h
    | TVectorBase b, VVec cap vs | TBitVector b, VVec cap vs | TIntVector b, VVec cap vs =>
        vec_heap_bytes b (is_stack_only b) (heap_bytes b) cap vs
    | TJacobson s, VTuple [VVec cl l; VVec cs sm; st] =>
        a <- vec_heap_bytes TU64 true (fun _ => Ok 0) cl l ;;
        b <- vec_heap_bytes TU64 true (fun _ => Ok 0) cs sm ;;
        ab <- wadd c (ptr c) a b ;; h <- heap_bytes s st ;; wadd c (ptr c) ab h
    | TRank9 s, VTuple [st; VVec cap cells] =>
        h <- heap_bytes s st ;;
        b <- vec_heap_bytes TCell true (fun _ => Ok 0) cap cells ;; wadd c (ptr c) h b
    | TBinSearch r, v => heap_bytes r v
    | _, _ => Ok 0
    end.

  (** src/space_usage.rs:39-41 [total_bytes] *)
  Definition total_bytes (t : ty) (v : val) : res N :=
    h <- heap_bytes t v ;; wadd c (ptr c) (stack_bytes t) h.
End Space.
