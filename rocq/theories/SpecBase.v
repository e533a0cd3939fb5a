(** * Programs over [VectorBase] (src/internal/vector_base.rs), the common base of both vectors: elements of
    any width [k], elements and whole blocks mixed. *)
From Verif Require Import Machine SpecBits MStorage MTraits MVectorBase SpecOps.

Inductive vctor := VNew | VWithCapacity (n : N) | VBlockWithCapacity (n : N) | VWithFill (n x : N) | VBlockWithFill (n x : N).
Inductive vop :=
| VPush (x : N) | VPop | VPushBlock (x : N) | VPopBlock
| VGetBits (s n : N) | VSetBits (s n x : N) | VGetBlock (i : N) | VSetBlock (i x : N)
| VTruncate (n : N) | VBlockTruncate (n : N) | VResize (n x : N) | VBlockResize (n x : N) | VClear
| VLen | VBlockLen | VIsEmpty.

Section VectorBaseRun.
  Variables (c : cfg) (nb k : N).

  Definition vb_make (t : vctor) : res vbase :=
    match t with
    | VNew => vb_new c nb
    | VWithCapacity n => vb_with_capacity c nb k n
    | VBlockWithCapacity n => vb_block_with_capacity c nb n
    | VWithFill n x => vb_with_fill c nb k n x
    | VBlockWithFill n x => vb_block_with_fill c nb k n x
    end.
  Definition vb_step (v : vbase) (op : vop) : res (vbase * out) :=
    match op with
    | VPush x => unit_ (vb_push_bits c nb k v x)
    | VPop => r <- vb_pop_bits c nb k v ;; Ok (snd r, OOptInt (fst r))
    | VPushBlock x => unit_ (vb_push_block c nb k v x)
    | VPopBlock => r <- vb_pop_block c nb k v ;; Ok (snd r, OOptInt (fst r))
    | VGetBits s n => x <- vb_get_bits c nb k v s n ;; Ok (v, OInt x)
    | VSetBits s n x => unit_ (vb_set_bits c nb k v s n x)
    | VGetBlock i => x <- vb_get_block v i ;; Ok (v, OInt x)
    | VSetBlock i x => unit_ (vb_set_block c nb k v i x)
    | VTruncate n => unit_ (vb_truncate c nb k v n)
    | VBlockTruncate n => unit_ (vb_block_truncate c nb k v n)
    | VResize n x => unit_ (vb_resize c nb k v n x)
    | VBlockResize n x => unit_ (vb_block_resize c nb k v n x)
    | VClear => unit_ (vb_clear v)
    | VLen => Ok (v, OInt (vb_len v))
    | VBlockLen => n <- vb_block_len v ;; Ok (v, OInt n)
    | VIsEmpty => Ok (v, OBool (vb_is_empty v))
    end.

  (** The same on the list of all bits: elements of [k] bits one after the other, the first bit of each the
      least significant.  After an operation on whole blocks an incomplete element at the end is dropped. *)
  Definition whole (l : list bool) : list bool := firstnN (lengthN l / k * k) l.
  Definition padded (l : list bool) : list bool := l ++ repeatN false (padding nb (lengthN l)).
  Definition spec_vmake (t : vctor) : option (list bool) :=
    match t with
    | VNew => Some []
    | VWithCapacity n => if fitsb c nb (n * k) then Some [] else None
    | VBlockWithCapacity n => if n * nb <=? max_bits c then Some [] else None
    | VWithFill n x => if fitsb c nb (n * k) then Some (bits_of_blocks k (repeatN x n)) else None
    | VBlockWithFill n x => if n * nb <=? max_bits c then Some (whole (bits_of_blocks nb (repeatN x n))) else None
    end.
  Definition spec_vstep (l : list bool) (op : vop) : option (list bool * out) :=
    let last_block := (blocks_for nb (lengthN l) - 1) * nb in
    match op with
    | VPush x => if fitsb c nb (lengthN l + k) then Some (l ++ bits_of k x, OUnit) else None
    | VPop => Some (firstnN (lengthN l - k) l,
        OOptInt (if lengthN l =? 0 then None else Some (int_of (skipnN (lengthN l - k) l))))
    | VPushBlock x => if (blocks_for nb (lengthN l) + 1) * nb <=? max_bits c then Some (whole (padded l ++ bits_of nb x), OUnit) else None
    | VPopBlock => Some (whole (firstnN last_block l), OOptInt (if lengthN l =? 0 then None else Some (int_of (skipnN last_block l))))
    | VGetBits s n => if s + n <=? lengthN l then Some (l, OInt (int_of (sub s n l))) else None
    | VSetBits s n x => if s + n <=? lengthN l then Some (put s (bits_of n x) l, OUnit) else None
    | VGetBlock i => if i * nb <? lengthN l then Some (l, OInt (int_of (sub (i * nb) nb l))) else None
    | VSetBlock i x => if i * nb <? lengthN l then Some (set_block_of nb i x l, OUnit) else None
    | VTruncate n => Some (firstnN (n * k) l, OUnit)
    | VBlockTruncate n => Some (whole (firstnN (n * nb) l), OUnit)
    | VResize n x => if fitsb c nb (n * k) then Some (firstnN (n * k) (l ++ bits_of_blocks k (repeatN x (n - lengthN l / k))), OUnit) else None
    | VBlockResize n x => if n * nb <=? max_bits c then Some (whole (resize_blocks_of nb n x l), OUnit) else None
    | VClear => Some ([], OUnit)
    | VLen => Some (l, OInt (lengthN l / k))
    | VBlockLen => Some (l, OInt (blocks_for nb (lengthN l)))
    | VIsEmpty => Some (l, OBool (match l with [] => true | _ => false end))
    end.

  (** Arguments in the range of their types, and the exclusions of [bop_ok]. *)
  Definition vmake_ok (t : vctor) : Prop :=
    match t with
    | VNew => True
    | VWithCapacity n => n < 2 ^ 64 /\ (n * k + nb <= 2 ^ 64 \/ debug c = true \/ 2 ^ 64 <= n * k)
    | VBlockWithCapacity n => n < 2 ^ ptr c
    | VWithFill n x => n < 2 ^ 64 /\ x < 2 ^ nb
    | VBlockWithFill n x => n < 2 ^ ptr c /\ x < 2 ^ nb
    end.
  Definition vop_ok (l : list bool) (op : vop) : Prop :=
    match op with
    | VPush x | VPushBlock x => x < 2 ^ nb
    | VGetBits s n => span_ok c nb l s n
    | VSetBits s n x => span_ok c nb l s n /\ x < 2 ^ nb
    | VGetBlock i => i < 2 ^ ptr c
    | VSetBlock i x => i < 2 ^ ptr c /\ x < 2 ^ nb
    | VTruncate n => n < 2 ^ 64
    | VBlockTruncate n => n < 2 ^ ptr c
    | VResize n x => n < 2 ^ 64 /\ x < 2 ^ nb
    | VBlockResize n x => n < 2 ^ ptr c /\ x < 2 ^ nb
    | VPop | VPopBlock | VClear | VLen | VBlockLen | VIsEmpty => True
    end.
  Definition vb_program (t : vctor) (ops : list vop) : list out * res vbase :=
    match vb_make t with
    | Ok v => run vb_step v ops
    | Panic p => ([], Panic p)
    | OutOfFuel => ([], OutOfFuel)
    end.
  Definition spec_vprogram (t : vctor) (ops : list vop) : list out * option (list bool) :=
    match spec_vmake t with Some l => spec_run spec_vstep l ops | None => ([], None) end.
  Definition vprogram_ok (t : vctor) (ops : list vop) : Prop :=
    vmake_ok t /\ match spec_vmake t with Some l => along spec_vstep vop_ok l ops | None => True end.
End VectorBaseRun.
