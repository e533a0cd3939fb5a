(** * What a mutating method leaves behind when it panics.

    In the rest of the model a panic discards the state, which is right for a program that dies of it.  A program can also catch a panic
    ([std::panic::catch_unwind]) and go on using the value, and then it matters how far the method had got.  Here the mutating methods are
    modelled a second time, statement by statement, as computations that yield the state also when they panic; that they are otherwise the
    methods of the model is proved ([C88_same_...]). *)
From Verif Require Import Machine MStorage MTraits MVectorBase MBitVector MIntVector MBitSlice MStream.

(** A method body working on [&mut S]: its outcome and the state it leaves. *)
Definition pm (S A : Type) := S -> res A * S.
Definition pret {S A} (a : A) : pm S A := fun s => (Ok a, s).
(** a computation that does not involve [self] *)
Definition pure {S A} (r : res A) : pm S A := fun s => (r, s).
(** a computation that only reads [self] *)
Definition look {S A} (f : S -> res A) : pm S A := fun s => (f s, s).
(** an assignment *)
Definition store {S} (f : S -> S) : pm S unit := fun s => (Ok tt, f s).
Definition pbind {S A B} (m : pm S A) (f : A -> pm S B) : pm S B := fun s =>
  match m s with
  | (Ok a, s') => f a s'
  | (Panic p, s') => (Panic p, s')
  | (OutOfFuel, s') => (OutOfFuel, s')
  end.
Declare Scope pm_scope.
Delimit Scope pm_scope with pm.
Notation "x <~ m ;; k" := (pbind m (fun x => k)) (at level 61, m at next level, right associativity) : pm_scope.
Notation "m ~; k" := (pbind m (fun _ => k)) (at level 61, right associativity) : pm_scope.
Local Open Scope pm_scope.
(** Operations of the standard library that change nothing when they panic: [v[i] = x], [Vec::push], [Vec::resize] (the capacity is
    acquired first). *)
Definition atomic {S} (f : S -> res S) : pm S unit := fun s =>
  match f s with
  | Ok s' => (Ok tt, s')
  | Panic p => (Panic p, s)
  | OutOfFuel => (OutOfFuel, s)
  end.
(** a method call on a field *)
Definition within {S T A} (get : S -> T) (put : S -> T -> S) (m : pm T A) : pm S A := fun s =>
  let (r, t) := m (get s) in (r, put s t).
(** [for i in a .. b], with local variables [L] besides [self] *)
Fixpoint pfor {S L} (n : nat) (i : N) (body : N -> L -> pm S L) (l : L) : pm S L :=
  match n with
  | O => pret l
  | Datatypes.S n' => l' <~ body i l ;; pfor n' (i + 1) body l'
  end.
Definition pfor_range {S L} (a b : N) (body : N -> L -> pm S L) (l : L) : pm S L := pfor (N.to_nat (b - a)) a body l.
(** [while], on fuel; the body says whether to go on *)
Fixpoint pwhile {S} (fuel : nat) (body : pm S bool) : pm S unit :=
  match fuel with
  | O => pure OutOfFuel
  | Datatypes.S n => go <~ body ;; if go then pwhile n body else pret tt
  end.

(** ** The traits (src/bit_vec/traits.rs:107-220) *)
Record pbitvecmut (T : Type) := {
  pm_bv : bitvec T;
  pm_set_bit : N -> bool -> pm T unit;
  pm_set_block : N -> N -> pm T unit;
  pm_set_bits : N -> N -> N -> pm T unit }.
Arguments pm_bv {T} _.
Arguments pm_set_bit {T} _ _ _ _.
Arguments pm_set_block {T} _ _ _ _.
Arguments pm_set_bits {T} _ _ _ _ _.
Record pbitvecpush (T : Type) := {
  pp_bm : pbitvecmut T;
  pp_push_bit : bool -> pm T unit;
  pp_pop_bit : pm T (option bool);
  pp_align_block : nat -> bool -> pm T unit;
  pp_push_block : nat -> N -> pm T unit }.
Arguments pp_bm {T} _.
Arguments pp_push_bit {T} _ _ _.
Arguments pp_pop_bit {T} _ _.
Arguments pp_align_block {T} _ _ _ _.
Arguments pp_push_block {T} _ _ _ _.

Section PDefaults.
  Context {T : Type} (c : cfg) (nb : N).
  Variable bit_len : T -> res N.
  Variable block_len : T -> res N.
  Variable get_block : T -> N -> res N.
  Variable set_bit : N -> bool -> pm T unit.
  Variable set_block : N -> N -> pm T unit.
  Variable push_bit : bool -> pm T unit.

  (** src/bit_vec/traits.rs:115-122 default [set_bit] *)
  Definition pdefault_set_bit (position : N) (value : bool) : pm T unit :=
    bl <~ look bit_len ;;
    pure (assert_ (position <? bl)) ~;
    a <~ pure (address_new c nb position) ;;
    old <~ look (fun t => get_block t (block_index a)) ;;
    new <~ pure (blk_with_bit c nb old (bit_offset a) value) ;;
    set_block (block_index a) new.

  (** src/bit_vec/traits.rs:138-151 default [set_block]; the local variable is [value] *)
  Definition pdefault_set_block (position value : N) : pm T unit :=
    p1 <~ pure (wadd c (ptr c) position 1) ;;
    n <~ look block_len ;;
    limit <~ (if p1 =? n then bl <~ look bit_len ;; pure (last_block_bits c nb bl) else pret nb) ;;
    start <~ pure (mul_nbits c nb position) ;;
    pfor_range 0 limit (fun i value =>
      p <~ pure (wadd c 64 start i) ;;
      set_bit p (negb (N.land value 1 =? 0)) ~;
      pure (wshr c nb value 1)) value ~;
    pret tt.

  (** src/bit_vec/traits.rs:159-186 default [set_bits] *)
  Definition pdefault_set_bits (start count value : N) : pm T unit :=
    limit <~ pure (wadd c 64 start count) ;;
    bl <~ look bit_len ;;
    pure (assert_ (limit <=? bl)) ~;
    a <~ pure (address_new c nb start) ;;
    margin <~ pure (wsub c (ptr c) nb (bit_offset a)) ;;
    if count <=? margin then
      old <~ look (fun t => get_block t (block_index a)) ;;
      new <~ pure (blk_with_bits c nb old (bit_offset a) count value) ;;
      set_block (block_index a) new
    else
      extra <~ pure (wsub c (ptr c) count margin) ;;
      old1 <~ look (fun t => get_block t (block_index a)) ;;
      i2 <~ pure (wadd c (ptr c) (block_index a) 1) ;;
      old2 <~ look (fun t => get_block t i2) ;;
      high_bits <~ pure (wshr c nb value margin) ;;
      new1 <~ pure (blk_with_bits c nb old1 (bit_offset a) margin value) ;;
      new2 <~ pure (blk_with_bits c nb old2 0 extra high_bits) ;;
      set_block (block_index a) new1 ~;
      i2' <~ pure (wadd c (ptr c) (block_index a) 1) ;;
      set_block i2' new2.

  (** src/bit_vec/traits.rs:199-203 default [align_block] *)
  Definition pdefault_align_block (fuel : nat) (value : bool) : pm T unit :=
    pwhile fuel (
      bl <~ look bit_len ;;
      m <~ pure (mod_nbits c nb bl) ;;
      if m =? 0 then pret false else push_bit value ~; pret true).

  (** src/bit_vec/traits.rs:212-219 default [push_block] *)
  Definition pdefault_push_block (fuel : nat) (value : N) : pm T unit :=
    pdefault_align_block fuel false ~;
    pfor_range 0 nb (fun _ value =>
      push_bit (negb (N.land value 1 =? 0)) ~;
      pure (wshr c nb value 1)) value ~;
    pret tt.
End PDefaults.

(** src/bit_vec/traits.rs:242-246, 286-290, 312-316: [[Block]], [&mut [Block]], [Vec<Block>] *)
Section PBlocks.
  Variables (c : cfg) (nb : N).
  Definition pblocks_set_block (i v : N) : pm (list N) unit := atomic (fun l => index_set l i v).
  Definition pblocks_set_bit : N -> bool -> pm (list N) unit :=
    pdefault_set_bit c nb (blocks_bit_len c nb) blocks_get_block pblocks_set_block.
  Definition pblocks_set_bits : N -> N -> N -> pm (list N) unit :=
    pdefault_set_bits c nb (blocks_bit_len c nb) blocks_get_block pblocks_set_block.
  Definition pblocks_mut : pbitvecmut (list N) := {|
    pm_bv := blocks_bitvec c nb; pm_set_bit := pblocks_set_bit; pm_set_block := pblocks_set_block; pm_set_bits := pblocks_set_bits |}.
End PBlocks.

(** src/bit_vec/traits.rs:332-348: [Vec<bool>] *)
Section PVecBool.
  Variable c : cfg.
  Definition pvb8_set_bit (i : N) (v : bool) : pm (list bool) unit :=
    p <~ pure (expect (to_usize c i)) ;; atomic (fun l => index_set l p v).
  Definition pvb8_set_block : N -> N -> pm (list bool) unit :=
    pdefault_set_block c 8 vb8_bit_len (vb8_block_len c) pvb8_set_bit.
  Definition pvb8_set_bits : N -> N -> N -> pm (list bool) unit :=
    pdefault_set_bits c 8 vb8_bit_len (vb8_get_block c) pvb8_set_block.
  Definition pvb8_push_bit (v : bool) : pm (list bool) unit := atomic (fun l => vec_push c 8 l v).
  Definition pvb8_pop_bit : pm (list bool) (option bool) := fun l => let (r, l') := vec_pop l in (Ok r, l').
  Definition pvecbool_mut : pbitvecmut (list bool) := {|
    pm_bv := vecbool_bitvec c; pm_set_bit := pvb8_set_bit; pm_set_block := pvb8_set_block; pm_set_bits := pvb8_set_bits |}.
  Definition pvecbool_push : pbitvecpush (list bool) := {|
    pp_bm := pvecbool_mut; pp_push_bit := pvb8_push_bit; pp_pop_bit := pvb8_pop_bit;
    pp_align_block := pdefault_align_block c 8 vb8_bit_len pvb8_push_bit;
    pp_push_block := pdefault_push_block c 8 vb8_bit_len pvb8_push_bit |}.
End PVecBool.

(** src/bit_vec/prim.rs:43-62: the new value is computed and then assigned *)
Section PPrim.
  Variables (c : cfg) (nb : N).
  Definition pprim_set_bit (position : N) (v : bool) : pm N unit :=
    x <~ look (fun x => prim_set_bit c nb x position v) ;; store (fun _ => x).
  Definition pprim_set_block (position v : N) : pm N unit :=
    pure (assert_ (position =? 0)) ~; store (fun _ => v).
  Definition pprim_set_bits (start count v : N) : pm N unit :=
    x <~ look (fun x => prim_set_bits c nb x start count v) ;; store (fun _ => x).
  Definition pprim_mut : pbitvecmut N := {|
    pm_bv := prim_bitvec c nb; pm_set_bit := pprim_set_bit; pm_set_block := pprim_set_block; pm_set_bits := pprim_set_bits |}.
End PPrim.

(** ** [VectorBase] (internal/vector_base.rs) *)
Section PVectorBase.
  Variables (c : cfg) (nb : N).
  Definition put_vec (v : vbase) (vec : list N) : vbase := {| vb_len := vb_len v; vb_vec := vec |}.
  Definition put_len (len : N) (v : vbase) : vbase := {| vb_len := len; vb_vec := vb_vec v |}.
  (** a method call on [self.vec] *)
  Definition in_vec {A} (m : pm (list N) A) : pm vbase A := within vb_vec put_vec m.
  Definition blocks (v : vbase) : res N := Ok (lengthN (vb_vec v)).

  (** src/internal/vector_base.rs:39-45 [clear_extra_bits] *)
  Definition p_clear_extra_bits (k : N) : pm vbase unit :=
    bit_len <~ look (fun v => wmul c 64 (vb_len v) k) ;;
    n <~ look blocks ;;
    if n =? 0 then pret tt
    else
      lb <~ pure (last_block_bits c nb bit_len) ;;
      mask <~ pure (low_mask c nb lb) ;;
      in_vec (store (fun l => map_last l (fun b => N.land b mask))).
  (** src/internal/vector_base.rs:49-52 [set_len_from_blocks] *)
  Definition p_set_len_from_blocks (k : N) : pm vbase unit :=
    n <~ look blocks ;;
    m <~ pure (mul_nbits c nb n) ;;
    len <~ pure (wdiv m k) ;;
    store (put_len len) ~;
    p_clear_extra_bits k.
  (** src/internal/vector_base.rs:109-115 [set_block] *)
  Definition p_vb_set_block (k i value : N) : pm vbase unit :=
    in_vec (pblocks_set_block i value) ~;
    i1 <~ pure (wadd c (ptr c) i 1) ;;
    n <~ look blocks ;;
    if i1 =? n then p_clear_extra_bits k else pret tt.
  (** src/internal/vector_base.rs:127-133 [set_bits] *)
  Definition p_vb_set_bits (k i count value : N) : pm vbase unit :=
    e <~ pure (wadd c 64 i count) ;;
    m <~ look (fun v => wmul c 64 (vb_len v) k) ;;
    pure (assert_ (e <=? m)) ~;
    in_vec (pblocks_set_bits c nb i count value).
  (** src/internal/vector_base.rs:144-147 [set_bit] *)
  Definition p_vb_set_bit (i : N) (value : bool) : pm vbase unit :=
    len <~ look (fun v => Ok (vb_len v)) ;;
    pure (assert_ (i <? len)) ~;
    in_vec (pblocks_set_bit c nb i value).
  (** src/internal/vector_base.rs:150-153 [push_block] *)
  Definition p_vb_push_block (k value : N) : pm vbase unit :=
    in_vec (atomic (fun l => vec_push c nb l value)) ~;
    p_set_len_from_blocks k.
  (** src/internal/vector_base.rs:156-160 [pop_block] *)
  Definition p_vb_pop_block (k : N) : pm vbase (option N) :=
    result <~ in_vec (fun l => let (r, l') := vec_pop l in (Ok r, l')) ;;
    p_set_len_from_blocks k ~;
    pret result.
  (** src/internal/vector_base.rs:163-172 [push_bits] *)
  Definition p_vb_push_bits (k value : N) : pm vbase unit :=
    l1 <~ look (fun v => wadd c 64 (vb_len v) 1) ;;
    need <~ pure (wmul c 64 k l1) ;;
    n <~ look blocks ;;
    have <~ pure (mul_nbits c nb n) ;;
    (if have <? need then in_vec (atomic (fun l => vec_push c nb l 0)) else pret tt) ~;
    pos <~ look (fun v => Ok (vb_len v)) ;;
    l2 <~ pure (wadd c 64 pos 1) ;;
    store (put_len l2) ~;
    p <~ pure (wmul c 64 pos k) ;;
    p_vb_set_bits k p k value.
  (** src/internal/vector_base.rs:175-188 [pop_bits] *)
  Definition p_vb_pop_bits (k : N) : pm vbase (option N) :=
    len <~ look (fun v => Ok (vb_len v)) ;;
    if len =? 0 then pret None
    else
      l1 <~ pure (wsub c 64 len 1) ;;
      bit_len <~ pure (wmul c 64 k l1) ;;
      block_len <~ pure (ceil_div_nbits c nb bit_len) ;;
      result <~ look (fun v => vb_get_bits c nb k v bit_len k) ;;
      p_vb_set_bits k bit_len k 0 ~;
      l2 <~ look (fun v => wsub c 64 (vb_len v) 1) ;;
      store (put_len l2) ~;
      n <~ look blocks ;;
      (if block_len <? n then in_vec (store (fun l => snd (vec_pop l))) else pret tt) ~;
      pret (Some result).
  (** src/internal/vector_base.rs:192-200 [push_bit] *)
  Definition p_vb_push_bit (value : bool) : pm vbase unit :=
    l1 <~ look (fun v => wadd c 64 (vb_len v) 1) ;;
    n <~ look blocks ;;
    have <~ pure (mul_nbits c nb n) ;;
    (if have <? l1 then in_vec (atomic (fun l => vec_push c nb l 0)) else pret tt) ~;
    pos <~ look (fun v => Ok (vb_len v)) ;;
    l2 <~ pure (wadd c 64 pos 1) ;;
    store (put_len l2) ~;
    p_vb_set_bit pos value.
  (** src/internal/vector_base.rs:203-215 [pop_bit] *)
  Definition p_vb_pop_bit : pm vbase (option bool) :=
    len <~ look (fun v => Ok (vb_len v)) ;;
    if len =? 0 then pret None
    else
      new_len <~ pure (wsub c 64 len 1) ;;
      result <~ look (fun v => vb_get_bit c nb v new_len) ;;
      p_vb_set_bit new_len false ~;
      store (put_len new_len) ~;
      block_len <~ pure (ceil_div_nbits c nb new_len) ;;
      n <~ look blocks ;;
      (if block_len <? n then in_vec (store (fun l => snd (vec_pop l))) else pret tt) ~;
      pret (Some result).
  (** src/internal/vector_base.rs:243-248 [block_truncate] *)
  Definition p_vb_block_truncate (k block_len : N) : pm vbase unit :=
    n <~ look blocks ;;
    if block_len <? n then
      in_vec (store (fun l => vec_truncate l block_len)) ~;
      p_set_len_from_blocks k
    else pret tt.
  (** src/internal/vector_base.rs:251-258 [truncate] *)
  Definition p_vb_truncate (k len : N) : pm vbase unit :=
    len0 <~ look (fun v => Ok (vb_len v)) ;;
    if len <? len0 then
      bits <~ pure (wmul c 64 len k) ;;
      block_len <~ pure (ceil_div_nbits c nb bits) ;;
      in_vec (store (fun l => vec_truncate l block_len)) ~;
      store (put_len len) ~;
      p_clear_extra_bits k
    else pret tt.
  (** src/internal/vector_base.rs:261-264 [clear] *)
  Definition p_vb_clear : pm vbase unit :=
    in_vec (store (fun _ => [])) ~; store (put_len 0).
  (** src/internal/vector_base.rs:303-307 [block_resize] *)
  Definition p_vb_block_resize (k block_len fill : N) : pm vbase unit :=
    in_vec (atomic (fun l => vec_resize c nb l block_len fill)) ~;
    p_set_len_from_blocks k.
  (** src/internal/vector_base.rs:310-326 [resize] *)
  Definition p_vb_resize (k len fill : N) : pm vbase unit :=
    o <~ pure (len_to_block_len c nb k len) ;;
    block_len <~ pure (expect o) ;;
    in_vec (atomic (fun l => vec_resize c nb l block_len 0)) ~;
    old_len <~ look (fun v => Ok (vb_len v)) ;;
    store (put_len len) ~;
    if len <=? old_len then p_clear_extra_bits k
    else
      pfor_range old_len len (fun i _ =>
        p <~ pure (wmul c 64 i k) ;;
        p_vb_set_bits k p k fill) tt.
End PVectorBase.

(** ** [BitVector] (bit_vec/bit_vector.rs) *)
Section PBitVector.
  Variables (c : cfg) (nb : N).
  (** src/bit_vec/bit_vector.rs:202-210 [set_bit], [set_block]; [set_bits] is the default *)
  Definition p_bvec_set_bit : N -> bool -> pm vbase unit := p_vb_set_bit c nb.
  Definition p_bvec_set_block : N -> N -> pm vbase unit := p_vb_set_block c nb 1.
  Definition p_bvec_set_bits : N -> N -> N -> pm vbase unit :=
    pdefault_set_bits c nb bvec_bit_len bvec_get_block p_bvec_set_block.
  (** src/bit_vec/bit_vector.rs:213-224 [push_bit], [pop_bit], [push_block]; [align_block] is the default *)
  Definition p_bvec_push_bit : bool -> pm vbase unit := p_vb_push_bit c nb.
  Definition p_bvec_pop_bit : pm vbase (option bool) := p_vb_pop_bit c nb.
  Definition p_bvec_push_block : N -> pm vbase unit := p_vb_push_block c nb 1.
  Definition p_bvec_align_block (fuel : nat) : bool -> pm vbase unit :=
    pdefault_align_block c nb bvec_bit_len p_bvec_push_bit fuel.
  (** src/bit_vec/bit_vector.rs:98-100 [block_resize]; 162-176 [truncate], [block_truncate], [clear] *)
  Definition p_bvec_block_resize (n x : N) : pm vbase unit := p_vb_block_resize c nb 1 n x.
  Definition p_bvec_truncate (n : N) : pm vbase unit := p_vb_truncate c nb 1 n.
  Definition p_bvec_block_truncate (n : N) : pm vbase unit := p_vb_block_truncate c nb 1 n.
  Definition p_bvec_clear : pm vbase unit := p_vb_clear.
  (** src/bit_vec/bit_vector.rs:78-94 [resize] *)
  Definition p_bvec_resize (new_len : N) (value : bool) : pm vbase unit :=
    o <~ pure (checked_ceil_div_nbits c nb new_len) ;;
    new_block_len <~ pure (expect o) ;;
    len <~ look (fun v => Ok (vb_len v)) ;;
    (if (new_len <? len) || negb value then p_bvec_block_resize new_block_len 0
     else
       trailing <~ pure (last_block_bits c nb len) ;;
       remaining <~ pure (wsub c (ptr c) nb trailing) ;;
       pfor_range 0 remaining (fun _ _ => p_vb_push_bit c nb true) tt ~;
       p_bvec_block_resize new_block_len (wnot nb 0)) ~;
    p_vb_truncate c nb 1 new_len.
  Definition p_bvec_mut : pbitvecmut vbase := {|
    pm_bv := bvec_bitvec c nb; pm_set_bit := p_bvec_set_bit; pm_set_block := p_bvec_set_block; pm_set_bits := p_bvec_set_bits |}.
  Definition p_bvec_push : pbitvecpush vbase := {|
    pp_bm := p_bvec_mut; pp_push_bit := p_bvec_push_bit; pp_pop_bit := p_bvec_pop_bit;
    pp_align_block := p_bvec_align_block; pp_push_block := fun _ => p_bvec_push_block |}.
End PBitVector.

(** ** [IntVector] (int_vec/int_vector.rs) *)
Section PIntVector.
  Variables (c : cfg) (nb : N).
  Definition put_base (v : intvec) (b : vbase) : intvec := {| iv_bits := iv_bits v; iv_base := b |}.
  Definition in_base {A} (m : pm vbase A) : pm intvec A := within iv_base put_base m.
  Definition width (v : intvec) : res N := Ok (iv_bits v).
  (** src/int_vec/int_vector.rs:151-160 [set_random] *)
  Definition p_iv_set_random (bit_offset k i value : N) : pm intvec unit :=
    pure (check_value_random c nb k value) ~;
    a <~ pure (compute_address_random bit_offset k i) ;;
    w <~ look width ;;
    in_base (p_vb_set_bits c nb w a k value).
  (** src/int_vec/int_vector.rs:164-167 [push], 170-172 [pop] *)
  Definition p_iv_push (value : N) : pm intvec unit :=
    look (fun v => check_value c nb v value) ~;
    w <~ look width ;;
    in_base (p_vb_push_bits c nb w value).
  Definition p_iv_pop : pm intvec (option N) := w <~ look width ;; in_base (p_vb_pop_bits c nb w).
  (** src/int_vec/int_vector.rs:186-193 [resize], [block_resize]; 264-278 [truncate], [block_truncate], [clear] *)
  Definition p_iv_resize (n fill : N) : pm intvec unit := w <~ look width ;; in_base (p_vb_resize c nb w n fill).
  Definition p_iv_block_resize (n fill : N) : pm intvec unit := w <~ look width ;; in_base (p_vb_block_resize c nb w n fill).
  Definition p_iv_truncate (n : N) : pm intvec unit := w <~ look width ;; in_base (p_vb_truncate c nb w n).
  Definition p_iv_block_truncate (n : N) : pm intvec unit := w <~ look width ;; in_base (p_vb_block_truncate c nb w n).
  Definition p_iv_clear : pm intvec unit := in_base p_vb_clear.
  (** src/int_vec/int_vector.rs:320-333 [set] *)
  Definition p_iv_set (i value : N) : pm intvec unit :=
    sized <~ look (fun v => Ok (iv_is_block_sized nb v)) ;;
    w <~ look width ;;
    if sized then in_base (p_vb_set_block c nb w (as_usize c i) value)
    else
      look (fun v => check_value c nb v value) ~;
      a <~ look (fun v => compute_address v i) ;;
      in_base (p_vb_set_bits c nb w a w value).
  (** src/int_vec/int_vector.rs:352-356 [set_block]; the other methods of [BitVecMut] are the defaults *)
  Definition p_iv_set_block (i value : N) : pm intvec unit :=
    w <~ look width ;; in_base (p_vb_set_block c nb w i value).
  Definition p_iv_mut : pbitvecmut intvec := {|
    pm_bv := iv_bitvec c nb;
    pm_set_bit := pdefault_set_bit c nb (iv_bit_len c) iv_get_block p_iv_set_block;
    pm_set_block := p_iv_set_block;
    pm_set_bits := pdefault_set_bits c nb (iv_bit_len c) iv_get_block p_iv_set_block |}.
End PIntVector.

(** ** [BitSliceMut] (bit_vec/bit_slice.rs) *)
Section PSliceMut.
  Context {T : Type} (c : cfg) (M : pbitvecmut T).
  Let nb := bv_nb (pm_bv M).
  Definition in_data {A} (m : pm T A) : pm (slice T) A := within sl_data with_data m.
  (** src/bit_vec/bit_slice.rs:143-146 [set_bit] *)
  Definition p_slice_set_bit (p : N) (v : bool) : pm (slice T) unit :=
    look (fun sl => assert_ (p <? sl_len sl)) ~;
    q <~ look (fun sl => wadd c 64 (sl_start sl) p) ;;
    in_data (pm_set_bit M q v).
  (** src/bit_vec/bit_slice.rs:148-153 [set_bits] *)
  Definition p_slice_set_bits (p count v : N) : pm (slice T) unit :=
    e <~ pure (expect (checked_add 64 p count)) ;;
    look (fun sl => assert_ (e <=? sl_len sl)) ~;
    q <~ look (fun sl => wadd c 64 (sl_start sl) p) ;;
    in_data (pm_set_bits M q count v).
  (** src/bit_vec/bit_slice.rs:155-158 [set_block] *)
  Definition p_slice_set_block (p v : N) : pm (slice T) unit :=
    m <~ pure (mul_nbits c nb p) ;; p_slice_set_bits m nb v.
  Definition p_slice_mut : pbitvecmut (slice T) := {|
    pm_bv := slice_bitvec c (pm_bv M); pm_set_bit := p_slice_set_bit; pm_set_block := p_slice_set_block; pm_set_bits := p_slice_set_bits |}.
End PSliceMut.

(** ** [BitBuffer] (stream/bit_buffer.rs) *)
Section PBitBuffer.
  Context {T : Type} (c : cfg).
  Definition in_buf {A} (m : pm T A) : pm (bitbuf T) A := within bb_data bb_with m.
  (** src/stream/bit_buffer.rs:102-107 *)
  Definition p_bb_mut (M : pbitvecmut T) : pbitvecmut (bitbuf T) :=
    let set_block i v := in_buf (pm_set_block M i v) in {|
    pm_bv := bb_bitvec c (pm_bv M);
    pm_set_bit := pdefault_set_bit c (bv_nb (pm_bv M)) (bb_bit_len (pm_bv M)) (bb_get_block (pm_bv M)) set_block;
    pm_set_block := set_block;
    pm_set_bits := pdefault_set_bits c (bv_nb (pm_bv M)) (bb_bit_len (pm_bv M)) (bb_get_block (pm_bv M)) set_block |}.
  (** src/stream/bit_buffer.rs:51-59 [seek] *)
  Definition p_bb_seek (B : bitvec T) (p : N) : pm (bitbuf T) (ioR unit) :=
    bl <~ look (fun bb => bv_bit_len B (bb_data bb)) ;;
    if p <=? bl then store (fun bb => {| bb_data := bb_data bb; bb_pos := p |}) ~; pret (IOk tt)
    else pret (IErr NotFound).
  (** src/stream/bit_buffer.rs:109-119 [read_bit] *)
  Definition p_bb_read_bit (B : bitvec T) : pm (bitbuf T) (ioR (option bool)) :=
    bl <~ look (bb_bit_len B) ;;
    pos <~ look (fun bb => Ok (bb_pos bb)) ;;
    if pos <? bl then
      b <~ look (fun bb => bb_get_bit c B bb pos) ;;
      p <~ look (fun bb => wadd c 64 (bb_pos bb) 1) ;;
      store (fun bb => {| bb_data := bb_data bb; bb_pos := p |}) ~;
      pret (IOk (Some b))
    else pret (IOk None).
  (** src/stream/bit_buffer.rs:121-133 [write_bit] *)
  Definition p_bb_write_bit (P : pbitvecpush T) (fuel : nat) (value : bool) : pm (bitbuf T) unit :=
    pwhile fuel (
      bl <~ look (bb_bit_len (pm_bv (pp_bm P))) ;;
      pos <~ look (fun bb => Ok (bb_pos bb)) ;;
      if bl <=? pos then in_buf (pp_push_bit P false) ~; pret true else pret false) ~;
    pos <~ look (fun bb => Ok (bb_pos bb)) ;;
    pm_set_bit (p_bb_mut (pp_bm P)) pos value ~;
    p <~ look (fun bb => wadd c 64 (bb_pos bb) 1) ;;
    store (fun bb => {| bb_data := bb_data bb; bb_pos := p |}).
End PBitBuffer.
