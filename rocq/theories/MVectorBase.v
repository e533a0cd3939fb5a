(** * Model of src/internal/vector_base.rs: [VectorBase] and its iterator.
    The capacity of the underlying [Vec] is not part of this model (see MCapacity.v);
    the reserve/shrink functions, which change nothing else, are modelled there.
    [k] is the argument [element_bits]. *)
From Verif Require Import Machine MStorage MTraits.

(** src/internal/vector_base.rs:24-28 [struct VectorBase] *)
Record vbase := { vb_len : N; vb_vec : list N }.

Section VectorBase.
  Variables (c : cfg) (nb : N).

  (** src/internal/vector_base.rs:31-34 [len_to_block_len] *)
  Definition len_to_block_len (k len : N) : res (option N) :=
    match checked_mul 64 len k with
    | Some p => checked_ceil_div_nbits c nb p
    | None => Ok None
    end.

  (** [self.vec.last_mut().map(|b| *b = *b & mask)] *)
  Definition map_last (l : list N) (f : N -> N) : list N :=
    match rev l with [] => [] | x :: t => rev t ++ [f x] end.

  (** src/internal/vector_base.rs:39-45 [clear_extra_bits]; the mask is computed only if there is a last
      block *)
  Definition clear_extra_bits (k : N) (v : vbase) : res vbase :=
    bit_len <- wmul c 64 (vb_len v) k ;;
    match vb_vec v with
    | [] => Ok v
    | _ =>
        lb <- last_block_bits c nb bit_len ;;
        mask <- low_mask c nb lb ;;
        Ok {| vb_len := vb_len v;
              vb_vec := map_last (vb_vec v) (fun b => N.land b mask) |}
    end.

  (** src/internal/vector_base.rs:49-52 [set_len_from_blocks] *)
  Definition set_len_from_blocks (k : N) (v : vbase) : res vbase :=
    m <- mul_nbits c nb (lengthN (vb_vec v)) ;;
    len <- wdiv m k ;;
    clear_extra_bits k {| vb_len := len; vb_vec := vb_vec v |}.

  (** src/internal/vector_base.rs:60-65 [block_with_capacity] *)
  Definition vb_block_with_capacity (block_capacity : N) : res vbase :=
    alloc c nb block_capacity ;;; Ok {| vb_len := 0; vb_vec := [] |}.

  (** src/internal/vector_base.rs:55-57 [new] *)
  Definition vb_new : res vbase := vb_block_with_capacity 0.

  (** src/internal/vector_base.rs:68-72 [with_capacity] *)
  Definition vb_with_capacity (k capacity : N) : res vbase :=
    o <- len_to_block_len k capacity ;; n <- expect o ;; vb_block_with_capacity n.

  (** src/internal/vector_base.rs:75-84 [block_with_fill] *)
  Definition vb_block_with_fill (k block_len fill : N) : res vbase :=
    vec <- vec_fill c nb fill block_len ;;
    set_len_from_blocks k {| vb_len := 0; vb_vec := vec |}.

  (** src/internal/vector_base.rs:104-106 [get_block] *)
  Definition vb_get_block (v : vbase) (i : N) : res N := index (vb_vec v) i.

  (** src/internal/vector_base.rs:109-115 [set_block] *)
  Definition vb_set_block (k : N) (v : vbase) (i value : N) : res vbase :=
    vec <- index_set (vb_vec v) i value ;;
    let v' := {| vb_len := vb_len v; vb_vec := vec |} in
    i1 <- wadd c (ptr c) i 1 ;;
    if i1 =? lengthN vec then clear_extra_bits k v' else Ok v'.

  (** src/internal/vector_base.rs:118-124 [get_bits] *)
  Definition vb_get_bits (k : N) (v : vbase) (i count : N) : res N :=
    e <- wadd c 64 i count ;;
    m <- wmul c 64 (vb_len v) k ;;
    assert_ (e <=? m) ;;;
    blocks_get_bits c nb (vb_vec v) i count.

  (** src/internal/vector_base.rs:127-133 [set_bits] *)
  Definition vb_set_bits (k : N) (v : vbase) (i count value : N) : res vbase :=
    e <- wadd c 64 i count ;;
    m <- wmul c 64 (vb_len v) k ;;
    assert_ (e <=? m) ;;;
    vec <- blocks_set_bits c nb (vb_vec v) i count value ;;
    Ok {| vb_len := vb_len v; vb_vec := vec |}.

  (** src/internal/vector_base.rs:87-101 [with_fill] *)
  Definition vb_with_fill (k len value : N) : res vbase :=
    o <- len_to_block_len k len ;; block_len <- expect o ;;
    vec <- vec_fill c nb 0 block_len ;;
    for_range 0 len (fun i v =>
      p <- wmul c 64 i k ;; vb_set_bits k v p k value)
      {| vb_len := len; vb_vec := vec |}.

  (** src/internal/vector_base.rs:137-140 [get_bit] *)
  Definition vb_get_bit (v : vbase) (i : N) : res bool :=
    assert_ (i <? vb_len v) ;;; blocks_get_bit c nb (vb_vec v) i.

  (** src/internal/vector_base.rs:144-147 [set_bit] *)
  Definition vb_set_bit (v : vbase) (i : N) (value : bool) : res vbase :=
    assert_ (i <? vb_len v) ;;;
    vec <- blocks_set_bit c nb (vb_vec v) i value ;;
    Ok {| vb_len := vb_len v; vb_vec := vec |}.

  (** src/internal/vector_base.rs:150-153 [push_block] *)
  Definition vb_push_block (k : N) (v : vbase) (value : N) : res vbase :=
    vec <- vec_push c nb (vb_vec v) value ;;
    set_len_from_blocks k {| vb_len := vb_len v; vb_vec := vec |}.

  (** src/internal/vector_base.rs:156-160 [pop_block] *)
  Definition vb_pop_block (k : N) (v : vbase) : res (option N * vbase) :=
    let (r, vec) := vec_pop (vb_vec v) in
    v' <- set_len_from_blocks k {| vb_len := vb_len v; vb_vec := vec |} ;;
    Ok (r, v').

  (** src/internal/vector_base.rs:163-172 [push_bits] *)
  Definition vb_push_bits (k : N) (v : vbase) (value : N) : res vbase :=
    l1 <- wadd c 64 (vb_len v) 1 ;;
    need <- wmul c 64 k l1 ;;
    have <- mul_nbits c nb (lengthN (vb_vec v)) ;;
    vec <- (if have <? need then vec_push c nb (vb_vec v) 0 else Ok (vb_vec v)) ;;
    let pos := vb_len v in
    l2 <- wadd c 64 pos 1 ;;
    p <- wmul c 64 pos k ;;
    vb_set_bits k {| vb_len := l2; vb_vec := vec |} p k value.

  (** src/internal/vector_base.rs:175-188 [pop_bits] *)
  Definition vb_pop_bits (k : N) (v : vbase) : res (option N * vbase) :=
    if vb_len v =? 0 then Ok (None, v)
    else
      l1 <- wsub c 64 (vb_len v) 1 ;;
      bit_len <- wmul c 64 k l1 ;;
      block_len <- ceil_div_nbits c nb bit_len ;;
      r <- vb_get_bits k v bit_len k ;;
      v1 <- vb_set_bits k v bit_len k 0 ;;
      l2 <- wsub c 64 (vb_len v1) 1 ;;
      let vec := if block_len <? lengthN (vb_vec v1)
                 then snd (vec_pop (vb_vec v1)) else vb_vec v1 in
      Ok (Some r, {| vb_len := l2; vb_vec := vec |}).

  (** src/internal/vector_base.rs:192-200 [push_bit] *)
  Definition vb_push_bit (v : vbase) (value : bool) : res vbase :=
    l1 <- wadd c 64 (vb_len v) 1 ;;
    have <- mul_nbits c nb (lengthN (vb_vec v)) ;;
    vec <- (if have <? l1 then vec_push c nb (vb_vec v) 0 else Ok (vb_vec v)) ;;
    let pos := vb_len v in
    l2 <- wadd c 64 pos 1 ;;
    vb_set_bit {| vb_len := l2; vb_vec := vec |} pos value.

  (** src/internal/vector_base.rs:203-215 [pop_bit] *)
  Definition vb_pop_bit (v : vbase) : res (option bool * vbase) :=
    if vb_len v =? 0 then Ok (None, v)
    else
      new_len <- wsub c 64 (vb_len v) 1 ;;
      r <- vb_get_bit v new_len ;;
      v1 <- vb_set_bit v new_len false ;;
      block_len <- ceil_div_nbits c nb new_len ;;
      let vec := if block_len <? lengthN (vb_vec v1)
                 then snd (vec_pop (vb_vec v1)) else vb_vec v1 in
      Ok (Some r, {| vb_len := new_len; vb_vec := vec |}).

  (** src/internal/vector_base.rs:218-220 [block_len] *)
  Definition vb_block_len (v : vbase) : res N := Ok (lengthN (vb_vec v)).

  (** src/internal/vector_base.rs:228-230 [is_empty]: tests the underlying [Vec] *)
  Definition vb_is_empty (v : vbase) : bool := lengthN (vb_vec v) =? 0.

  (** src/internal/vector_base.rs:243-248 [block_truncate] *)
  Definition vb_block_truncate (k : N) (v : vbase) (block_len : N) : res vbase :=
    if block_len <? lengthN (vb_vec v) then
      set_len_from_blocks k
        {| vb_len := vb_len v; vb_vec := vec_truncate (vb_vec v) block_len |}
    else Ok v.

  (** src/internal/vector_base.rs:251-258 [truncate] *)
  Definition vb_truncate (k : N) (v : vbase) (len : N) : res vbase :=
    if len <? vb_len v then
      bits <- wmul c 64 len k ;;
      block_len <- ceil_div_nbits c nb bits ;;
      clear_extra_bits k
        {| vb_len := len; vb_vec := vec_truncate (vb_vec v) block_len |}
    else Ok v.

  (** src/internal/vector_base.rs:261-264 [clear] *)
  Definition vb_clear (v : vbase) : res vbase := Ok {| vb_len := 0; vb_vec := [] |}.

  (** src/internal/vector_base.rs:303-307 [block_resize] *)
  Definition vb_block_resize (k : N) (v : vbase) (block_len fill : N) : res vbase :=
    vec <- vec_resize c nb (vb_vec v) block_len fill ;;
    set_len_from_blocks k {| vb_len := vb_len v; vb_vec := vec |}.

  (** src/internal/vector_base.rs:310-326 [resize] *)
  Definition vb_resize (k : N) (v : vbase) (len fill : N) : res vbase :=
    o <- len_to_block_len k len ;; block_len <- expect o ;;
    vec <- vec_resize c nb (vb_vec v) block_len 0 ;;
    let old_len := vb_len v in
    let v' := {| vb_len := len; vb_vec := vec |} in
    if len <=? old_len then clear_extra_bits k v'
    else for_range old_len len (fun i v =>
           p <- wmul c 64 i k ;; vb_set_bits k v p k fill) v'.

  (** [#[derive(PartialEq)]] on [VectorBase] (src/internal/vector_base.rs:24): the lengths, then the
      vectors, are compared *)
  Definition vb_eq (a b : vbase) : bool :=
    (vb_len a =? vb_len b) && (if list_eq_dec N.eq_dec (vb_vec a) (vb_vec b) then true else false).

  (** src/internal/vector_base.rs:329-335 [struct Iter] *)
  Record vbiter := { it_start : N; it_limit : N; it_bits : N; it_data : vbase }.

  (** src/internal/vector_base.rs:339-346 [Iter::new] *)
  Definition it_new (k : N) (v : vbase) : vbiter :=
    {| it_start := 0; it_limit := vb_len v; it_bits := k; it_data := v |}.

  (** src/internal/vector_base.rs:353-362 [next] *)
  Definition it_next (it : vbiter) : res (option N * vbiter) :=
    if it_start it <? it_limit it then
      p <- wmul c 64 (it_bits it) (it_start it) ;;
      r <- vb_get_bits (it_bits it) (it_data it) p (it_bits it) ;;
      s <- wadd c 64 (it_start it) 1 ;;
      Ok (Some r, {| it_start := s; it_limit := it_limit it;
                     it_bits := it_bits it; it_data := it_data it |})
    else Ok (None, it).

  (** src/internal/vector_base.rs:416-424 [next_back] *)
  Definition it_next_back (it : vbiter) : res (option N * vbiter) :=
    if it_start it <? it_limit it then
      l <- wsub c 64 (it_limit it) 1 ;;
      p <- wmul c 64 (it_bits it) l ;;
      r <- vb_get_bits (it_bits it) (it_data it) p (it_bits it) ;;
      Ok (Some r, {| it_start := it_start it; it_limit := l;
                     it_bits := it_bits it; it_data := it_data it |})
    else Ok (None, it).

  (** src/internal/vector_base.rs:392-395 [nth] *)
  Definition it_nth (it : vbiter) (n : N) : res (option N * vbiter) :=
    let s := match checked_add 64 (it_start it) n with
             | Some s => s | None => it_limit it end in
    it_next {| it_start := s; it_limit := it_limit it;
               it_bits := it_bits it; it_data := it_data it |}.

  (** src/internal/vector_base.rs:398-412 [len] *)
  Definition it_len (it : vbiter) : res N :=
    d <- wsub c 64 (it_limit it) (it_start it) ;; Ok (as_usize c d).

  (** src/internal/vector_base.rs:364-379 [size_hint] *)
  Definition it_size_hint (it : vbiter) : res (N * option N) :=
    if ptr c =? 32 then
      d <- wsub c 64 (it_limit it) (it_start it) ;;
      Ok (match to_usize c d with Some n => (n, Some n) | None => (0, None) end)
    else n <- it_len it ;; Ok (n, Some n).

  (** src/internal/vector_base.rs:382-384 [count] *)
  Definition it_count (it : vbiter) : res N := it_len it.

  (** src/internal/vector_base.rs:387-389 [last] *)
  Definition it_last (it : vbiter) : res (option N) :=
    r <- it_next_back it ;; Ok (fst r).
End VectorBase.
