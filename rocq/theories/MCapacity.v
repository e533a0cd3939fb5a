(** * Model of the capacity of [VectorBase] (src/internal/vector_base.rs), [BitVector] and
    [IntVector].  The contents are those of MVectorBase.v; the capacity of the underlying
    [Vec] is kept next to them, and how far an allocation grows is left to a policy. *)
From Verif Require Import Machine MStorage MTraits MVectorBase MBitVector MIntVector.

(** The choices the standard library makes for the capacity of a [Vec], counted in elements:
    for a new vector of the given size, for a vector of the given length and capacity that must
    hold the given number of further elements ([reserve] and everything that grows a vector
    implicitly; [reserve_exact]), and when shrinking a vector of the given length and capacity. *)
Record policy := {
  p_fresh : N -> N;
  p_grow : N -> N -> N -> N;
  p_grow_exact : N -> N -> N -> N;
  p_shrink : N -> N -> N }.

(** The contract documented for [Vec]: at least what was asked for, never less than the length. *)
Record lawful_policy (p : policy) : Prop := {
  lp_fresh : forall n, n <= p_fresh p n;
  lp_grow : forall len cap add, len + add <= p_grow p len cap add;
  lp_grow_exact : forall len cap add, len + add <= p_grow_exact p len cap add;
  lp_shrink : forall len cap, len <= cap -> len <= p_shrink p len cap <= cap }.

(** src/internal/vector_base.rs:24-28 [struct VectorBase], with the capacity of [vec] *)
Record cvb := { cv_base : vbase; cv_cap : N }.

(** The number of blocks in use. *)
Definition cv_blocks (v : cvb) : N := lengthN (vb_vec (cv_base v)).

Section Capacity.
  Variables (c : cfg) (nb : N) (p : policy).

  (** [Vec::with_capacity(n)] *)
  Definition vec_with_capacity (n : N) : res N :=
    alloc c nb (p_fresh p n) ;;; Ok (p_fresh p n).
  (** [Vec::reserve(additional)], [Vec::reserve_exact(additional)]: nothing happens when there is
      room; [additional] counts from the length, not from the capacity *)
  Definition vec_reserve (grow : N -> N -> N -> N) (len cap additional : N) : res N :=
    if additional <=? cap - len then Ok cap
    else alloc c nb (grow len cap additional) ;;; Ok (grow len cap additional).

  (** src/internal/vector_base.rs:60-65 [block_with_capacity] *)
  Definition cv_block_with_capacity (block_capacity : N) : res cvb :=
    cap <- vec_with_capacity block_capacity ;;
    Ok {| cv_base := {| vb_len := 0; vb_vec := [] |}; cv_cap := cap |}.
  (** src/internal/vector_base.rs:68-72 [with_capacity] *)
  Definition cv_with_capacity (k capacity : N) : res cvb :=
    o <- len_to_block_len c nb k capacity ;; n <- expect o ;; cv_block_with_capacity n.
  (** src/internal/vector_base.rs:233-235 [block_capacity] *)
  Definition cv_block_capacity (v : cvb) : N := cv_cap v.
  (** src/internal/vector_base.rs:238-240 [capacity] *)
  Definition cv_capacity (k : N) (v : cvb) : res N :=
    m <- mul_nbits c nb (cv_cap v) ;; wdiv m k.
  (** src/internal/vector_base.rs:267-269 [shrink_to_fit] *)
  Definition cv_shrink_to_fit (v : cvb) : res cvb :=
    Ok {| cv_base := cv_base v; cv_cap := p_shrink p (cv_blocks v) (cv_cap v) |}.
  (** src/internal/vector_base.rs:272-274 [block_reserve] *)
  Definition cv_block_reserve (v : cvb) (additional : N) : res cvb :=
    cap <- vec_reserve (p_grow p) (cv_blocks v) (cv_cap v) additional ;;
    Ok {| cv_base := cv_base v; cv_cap := cap |}.
  (** src/internal/vector_base.rs:277-279 [block_reserve_exact] *)
  Definition cv_block_reserve_exact (v : cvb) (additional : N) : res cvb :=
    cap <- vec_reserve (p_grow_exact p) (cv_blocks v) (cv_cap v) additional ;;
    Ok {| cv_base := cv_base v; cv_cap := cap |}.
  (** src/internal/vector_base.rs:281-288 [additional_blocks] *)
  Definition cv_additional_blocks (k : N) (v : cvb) (additional : N) : res N :=
    o <- match checked_add 64 (vb_len (cv_base v)) additional with
         | Some e => match checked_mul 64 e k with
                     | Some b => checked_ceil_div_nbits c nb b
                     | None => Ok None
                     end
         | None => Ok None
         end ;;
    n <- expect o ;; Ok (saturating_sub n (cv_cap v)).
  (** src/internal/vector_base.rs:291-294 [reserve] *)
  Definition cv_reserve (k : N) (v : cvb) (additional : N) : res cvb :=
    d <- cv_additional_blocks k v additional ;; cv_block_reserve v d.
  (** src/internal/vector_base.rs:297-300 [reserve_exact] *)
  Definition cv_reserve_exact (k : N) (v : cvb) (additional : N) : res cvb :=
    d <- cv_additional_blocks k v additional ;; cv_block_reserve_exact v d.

  (** Every other operation changes the length of [vec] by at most one growing call ([push] or
      [resize]; [pop], [truncate] and [clear] never touch the capacity), so its effect on the
      capacity is that of reserving the blocks it adds. *)
  Definition cv_lift (f : vbase -> res vbase) (v : cvb) : res cvb :=
    b <- f (cv_base v) ;;
    cap <- vec_reserve (p_grow p) (cv_blocks v) (cv_cap v) (lengthN (vb_vec b) - cv_blocks v) ;;
    Ok {| cv_base := b; cv_cap := cap |}.

  (** src/bit_vec/bit_vector.rs:29-31, 35-37 *)
  Definition cbv_with_capacity := cv_with_capacity 1.
  Definition cbv_block_with_capacity := cv_block_with_capacity.
  (** src/bit_vec/bit_vector.rs:61-63, 66-68 *)
  Definition cbv_capacity := cv_capacity 1.
  Definition cbv_block_capacity := cv_block_capacity.
  (** src/bit_vec/bit_vector.rs:111-113, 124-126, 137-139, 150-152, 155-157 *)
  Definition cbv_reserve := cv_reserve 1.
  Definition cbv_block_reserve := cv_block_reserve.
  Definition cbv_reserve_exact := cv_reserve_exact 1.
  Definition cbv_block_reserve_exact := cv_block_reserve_exact.
  Definition cbv_shrink_to_fit := cv_shrink_to_fit.
  (** src/bit_vec/bit_vector.rs:214-216 [push_bit], 222-224 [push_block], 78-94 [resize] *)
  Definition cbv_push_bit (v : cvb) (b : bool) : res cvb := cv_lift (fun u => bvec_push_bit c nb u b) v.
  Definition cbv_push_block (v : cvb) (x : N) : res cvb := cv_lift (fun u => bvec_push_block c nb u x) v.
  Definition cbv_resize (v : cvb) (n : N) (b : bool) : res cvb := cv_lift (fun u => bvec_resize c nb u n b) v.
  (** src/bit_vec/bit_vector.rs:218-220 [pop_bit], 162-164 [truncate], 174-176 [clear] *)
  Definition cbv_pop_bit (v : cvb) : res cvb :=
    cv_lift (fun u => r <- bvec_pop_bit c nb u ;; Ok (snd r)) v.
  Definition cbv_truncate (v : cvb) (n : N) : res cvb := cv_lift (fun u => bvec_truncate c nb u n) v.
  Definition cbv_clear (v : cvb) : res cvb := cv_lift bvec_clear v.

  (** src/int_vec/int_vector.rs:15-19 [struct IntVector], with the capacity *)
  Record civ := { civ_bits : N; civ_base : cvb }.
  Definition civ_vec (v : civ) : intvec := {| iv_bits := civ_bits v; iv_base := cv_base (civ_base v) |}.
  (** src/int_vec/int_vector.rs:80-83 [with_capacity], 87-91 [block_with_capacity] *)
  Definition civ_with_capacity (k capacity : N) : res civ :=
    b <- cv_with_capacity k capacity ;; check_element_bits nb k ;;; Ok {| civ_bits := k; civ_base := b |}.
  Definition civ_block_with_capacity (k block_capacity : N) : res civ :=
    b <- cv_block_with_capacity block_capacity ;; check_element_bits nb k ;;;
    Ok {| civ_bits := k; civ_base := b |}.
  (** src/int_vec/int_vector.rs:175-177 [capacity], 181-183 [block_capacity] *)
  Definition civ_capacity (v : civ) : res N := cv_capacity (civ_bits v) (civ_base v).
  Definition civ_block_capacity (v : civ) : N := cv_block_capacity (civ_base v).
  (** src/int_vec/int_vector.rs:207-209, 220-222, 236-238, 252-254, 257-259 *)
  Definition civ_map (f : cvb -> res cvb) (v : civ) : res civ :=
    b <- f (civ_base v) ;; Ok {| civ_bits := civ_bits v; civ_base := b |}.
  Definition civ_reserve (v : civ) (n : N) : res civ := civ_map (fun b => cv_reserve (civ_bits v) b n) v.
  Definition civ_block_reserve (v : civ) (n : N) : res civ := civ_map (fun b => cv_block_reserve b n) v.
  Definition civ_reserve_exact (v : civ) (n : N) : res civ :=
    civ_map (fun b => cv_reserve_exact (civ_bits v) b n) v.
  Definition civ_block_reserve_exact (v : civ) (n : N) : res civ :=
    civ_map (fun b => cv_block_reserve_exact b n) v.
  Definition civ_shrink_to_fit (v : civ) : res civ := civ_map cv_shrink_to_fit v.
  (** src/int_vec/int_vector.rs:164-167 [push], 170-172 [pop], 264-266 [truncate] *)
  Definition civ_lift (f : intvec -> res intvec) (v : civ) : res civ :=
    civ_map (cv_lift (fun u => w <- f {| iv_bits := civ_bits v; iv_base := u |} ;; Ok (iv_base w))) v.
  Definition civ_push (v : civ) (x : N) : res civ := civ_lift (fun u => iv_push c nb u x) v.
  Definition civ_pop (v : civ) : res civ := civ_lift (fun u => r <- iv_pop c nb u ;; Ok (snd r)) v.
  Definition civ_truncate (v : civ) (n : N) : res civ := civ_lift (fun u => iv_truncate c nb u n) v.
End Capacity.

(** The policy of a library that allocates exactly what is asked for and shrinks fully. *)
Definition exact_policy : policy := {|
  p_fresh := fun n => n;
  p_grow := fun len cap add => len + add;
  p_grow_exact := fun len cap add => len + add;
  p_shrink := fun len cap => len |}.
(** The policy of the current standard library for blocks of at least 2 bytes: [reserve] at
    least doubles and allocates at least 4 elements. *)
Definition std_policy : policy := {|
  p_fresh := fun n => n;
  p_grow := fun len cap add => N.max 4 (N.max (2 * cap) (len + add));
  p_grow_exact := fun len cap add => len + add;
  p_shrink := fun len cap => len |}.
