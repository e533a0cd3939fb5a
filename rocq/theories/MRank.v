(** * Model of src/rank: the traits, the primitive integers, [JacobsonRank] and [Rank9]. *)
From Verif Require Import Machine MStorage MTraits MVectorBase MIntVector.

(** src/rank/traits.rs:6-22 trait [RankSupport], with [Over = A] *)
Record ranksup (A T : Type) := {
  rs_rank : T -> N -> A -> res N;
  rs_limit : T -> res N }.
Arguments rs_rank {A T} _ _ _ _.
Arguments rs_limit {A T} _ _.

(** src/rank/traits.rs:25-41 trait [BitRankSupport: RankSupport<Over = bool>] *)
Record bitrank (T : Type) := {
  br_rs : ranksup bool T;
  br_rank1 : T -> N -> res N;
  br_rank0 : T -> N -> res N }.
Arguments br_rs {T} _.
Arguments br_rank1 {T} _ _ _.
Arguments br_rank0 {T} _ _ _.

Section Defaults.
  Context {T : Type} (c : cfg).
  Variable rank1 : T -> N -> res N.
  Variable limit : T -> res N.
  (** src/rank/traits.rs:38-40 default [rank0]: [position + 1 - self.rank1(position)] *)
  Definition default_rank0 (t : T) (p : N) : res N :=
    p1 <- wadd c 64 p 1 ;; r <- rank1 t p ;; wsub c 64 p1 r.
  (** src/rank/prim.rs:11-13, src/rank/jacobson.rs:89-91, src/rank/rank9.rs:155-157, src/broadword.rs:40-42: the
      [rank] of all the implementations *)
  Definition rank_by_value (t : T) (p : N) (v : bool) : res N :=
    if v then rank1 t p else default_rank0 t p.
  Definition mk_bitrank : bitrank T := {|
    br_rs := {| rs_rank := rank_by_value; rs_limit := limit |};
    br_rank1 := rank1;
    br_rank0 := default_rank0 |}.
End Defaults.

(** ** Primitive integers (src/rank/prim.rs:4-35) *)
Section PrimRank.
  Variables (c : cfg) (nb : N).
  (** src/rank/prim.rs:21-26 [rank1] *)
  Definition prim_rank1 (x p : N) : res N :=
    debug_assert c (p <? nb) ;;;
    p1 <- wadd c 64 p 1 ;;
    m <- low_mask c nb (as_usize c p1) ;;
    Ok (count_ones (N.land x m)).
  (** src/rank/prim.rs:15-17 [limit] *)
  Definition prim_bitrank : bitrank N := mk_bitrank c prim_rank1 (fun _ => Ok nb).
End PrimRank.

(** ** [JacobsonRank] (rank/jacobson.rs) *)

(** src/rank/jacobson.rs:14-19 [struct JacobsonRank] *)
Record jacobson (T : Type) := {
  jr_store : T;
  jr_large_block_size : N;
  jr_large : intvec;
  jr_small : intvec }.
Arguments jr_store {T} _.
Arguments jr_large_block_size {T} _.
Arguments jr_large {T} _.
Arguments jr_small {T} _.

Section Jacobson.
  Context {T : Type} (c : cfg) (B : bitvec T).
  Let nb := bv_nb B.
  Let mb := 64. (* [IntVector<u64>] *)

  (** src/rank/jacobson.rs:23-73 [new].  Loop state: large, small, current_rank, last_large_rank,
      small_block_index *)
  Definition jacobson_new (bits : T) : res (jacobson T) :=
    n <- bv_bit_len B bits ;;
    lg_n <- ceil_lg c 64 n ;;
    lg2_n <- wmul c (ptr c) lg_n lg_n ;;
    let small_block_size := nb in
    small_per_large <- ceil_div c (ptr c) lg2_n small_block_size ;;
    large_block_size <- wmul c (ptr c) small_block_size small_per_large ;;
    lq <- wdiv n large_block_size ;;
    large_block_count <- wadd c 64 lq 1 ;;
    sq <- wdiv n small_block_size ;;
    small_block_count <- wadd c 64 sq 1 ;;
    n1 <- wadd c 64 n 1 ;;
    large_meta_size <- ceil_lg c 64 n1 ;;
    lbs1 <- wadd c (ptr c) large_block_size 1 ;;
    small_meta_size <- ceil_lg c (ptr c) lbs1 ;;
    large0 <- iv_with_capacity c mb large_meta_size large_block_count ;;
    small0 <- iv_with_capacity c mb small_meta_size small_block_count ;;
    bl <- bv_block_len B bits ;;
    st <- for_range 0 bl (fun i (st : intvec * intvec * N * N * N) =>
      let '(large, small, current_rank, last_large_rank, small_block_index) := st in
      ll <- (if small_block_index =? 0 then
               large' <- iv_push c mb large current_rank ;; Ok (large', current_rank)
             else Ok (large, last_large_rank)) ;;
      let (large, last_large_rank) := ll : intvec * N in
      excess <- wsub c 64 current_rank last_large_rank ;;
      small' <- iv_push c mb small excess ;;
      b <- bv_get_block B bits i ;;
      current_rank' <- wadd c 64 current_rank (count_ones b) ;;
      sbi <- wadd c (ptr c) small_block_index 1 ;;
      let sbi' := if sbi =? small_per_large then 0 else sbi in
      Ok (large, small', current_rank', last_large_rank, sbi')) (large0, small0, 0, 0, 0) ;;
    let '(large, small, current_rank, last_large_rank, _) := st in
    large' <- iv_push c mb large current_rank ;;
    excess <- wsub c 64 current_rank last_large_rank ;;
    small' <- iv_push c mb small excess ;;
    Ok {| jr_store := bits; jr_large_block_size := large_block_size;
          jr_large := large'; jr_small := small' |}.

  (** src/rank/jacobson.rs:99-112 [rank1] *)
  Definition jacobson_rank1 (j : jacobson T) (p : N) : res N :=
    bl <- bv_bit_len B (jr_store j) ;;
    assert_ (p <? bl) ;;;
    large_block <- wdiv p (jr_large_block_size j) ;;
    a <- address_new c nb p ;;
    large_rank <- iv_get c mb (jr_large j) large_block ;;
    small_rank <- iv_get c mb (jr_small j) (block_index a) ;;
    b <- bv_get_block B (jr_store j) (block_index a) ;;
    bits_rank <- prim_rank1 c nb b (bit_offset a) ;;
    s <- wadd c 64 large_rank small_rank ;;
    wadd c 64 s bits_rank.

  (** src/rank/jacobson.rs:86-113 [RankSupport], [BitRankSupport]; [limit] is 93-95 *)
  Definition jacobson_bitrank : bitrank (jacobson T) :=
    mk_bitrank c jacobson_rank1 (fun j => bv_bit_len B (jr_store j)).
  (** src/rank/jacobson.rs:115-117: [impl_bit_vec_adapter!] (src/macros.rs:35-57) *)
  Definition jacobson_bitvec : bitvec (jacobson T) := {|
    bv_nb := nb;
    bv_bit_len := fun j => bv_bit_len B (jr_store j);
    bv_block_len := fun j => bv_block_len B (jr_store j);
    bv_get_bit := fun j => bv_get_bit B (jr_store j);
    bv_get_block := fun j => bv_get_block B (jr_store j);
    bv_get_bits := fun j => bv_get_bits B (jr_store j) |}.
  (** src/rank/jacobson.rs:76-78 [inner], 81-83 [into_inner] *)
  Definition jacobson_inner (j : jacobson T) : T := jr_store j.
End Jacobson.

(** ** [Rank9] (rank/rank9.rs); the store has 64-bit blocks *)

(** src/rank/rank9.rs:17-20 [struct Rank9Cell] *)
Record cell := { level1 : N; level2 : N }.

Section Level2.
  Variable c : cfg.
  (** src/rank/rank9.rs:33-34 and 55-56, shared by [get] and [set]: [let t = t.wrapping_sub(1);
      t.wrapping_add(t >> 60 & 8) * 9] (resp. [t >> 28 & 8] on 32-bit targets) *)
  Definition level2_shift (t : N) : res N :=
    let t' := wrapping_sub (ptr c) t 1 in
    h <- wshr c (ptr c) t' (if ptr c =? 32 then 28 else 60) ;;
    wmul c (ptr c) (wrapping_add (ptr c) t' (N.land h 8)) 9.
  (** src/rank/rank9.rs:30-36, 52-58 [Level2::get] *)
  Definition level2_get (l2 t : N) : res N :=
    debug_assert c (t <? 8) ;;;
    s <- level2_shift t ;; x <- wshr c 64 l2 s ;; Ok (N.land x 0x1FF).
  (** src/rank/rank9.rs:39-49, 61-71 [Level2::set] *)
  Definition level2_set (l2 t value : N) : res N :=
    debug_assert c (t <? 8) ;;;
    s <- level2_shift t ;;
    m <- wshl c 64 0x1FF s ;;
    n <- wshl c 64 (N.land value 0x1FF) s ;;
    Ok (N.lor (N.land l2 (wnot 64 m)) n).
End Level2.

(** src/rank/rank9.rs:10-13 [struct Rank9] *)
Record rank9 (T : Type) := { r9_store : T; r9_counts : list cell }.
Arguments r9_store {T} _.
Arguments r9_counts {T} _.

Section Rank9.
  Context {T : Type} (c : cfg) (B : bitvec T).

  (** src/rank/rank9.rs:85-101 the closure [store_counts]: new [result] and new [level2_count].  The
      [push] never reallocates, the vector was created with sufficient capacity. *)
  Definition store_counts (i : N) (result : list cell) (l1 l2 : N) : res (list cell * N) :=
    let basic_block_index := i / 8 in
    let word_offset := i mod 8 in
    if word_offset =? 0 then Ok (result ++ [{| level1 := l1; level2 := 0 |}], 0)
    else
      cl <- index result basic_block_index ;;
      x <- level2_set c (level2 cl) word_offset l2 ;;
      result' <- index_set result basic_block_index {| level1 := level1 cl; level2 := x |} ;;
      Ok (result', l2).

  (** src/rank/rank9.rs:76-119 [new]; a cell occupies 128 bits *)
  Definition rank9_new (bits : T) : res (rank9 T) :=
    n <- bv_block_len B bits ;;
    bb_count <- ceil_div c (ptr c) n 8 ;;
    cap <- wadd c (ptr c) bb_count 1 ;;
    alloc c 128 cap ;;;
    bl <- bv_block_len B bits ;;
    st <- for_range 0 bl (fun i (st : list cell * N * N) =>
      let '(result, l1, l2) := st in
      r <- store_counts i result l1 l2 ;;
      let (result, l2) := r : list cell * N in
      b <- bv_get_block B bits i ;;
      let word_count := count_ones b in
      l1' <- wadd c 64 l1 word_count ;;
      l2' <- wadd c 64 l2 word_count ;;
      Ok (result, l1', l2')) ([], 0, 0) ;;
    let '(result, l1, l2) := st in
    bl' <- bv_block_len B bits ;;
    r <- store_counts bl' result l1 l2 ;;
    Ok {| r9_store := bits; r9_counts := fst r |}.

  (** src/rank/rank9.rs:133-149 [rank1] *)
  Definition rank9_rank1 (r : rank9 T) (p : N) : res N :=
    bb_index <- expect (to_usize c (p / 512)) ;;
    word_index <- expect (to_usize c (p / 64)) ;;
    let word_offset := word_index mod 8 in
    let bit_off := p mod 64 in
    cl <- index (r9_counts r) bb_index ;;
    let bb_portion := level1 cl in
    word_portion <- level2_get c (level2 cl) word_offset ;;
    b <- bv_get_block B (r9_store r) word_index ;;
    bit_portion <- prim_rank1 c 64 b bit_off ;;
    s <- wadd c 64 bb_portion word_portion ;;
    wadd c 64 s bit_portion.

  (** src/rank/rank9.rs:132-162 [BitRankSupport], [RankSupport]; [limit] is 159-161 *)
  Definition rank9_bitrank : bitrank (rank9 T) :=
    mk_bitrank c rank9_rank1 (fun r => bv_bit_len B (r9_store r)).
  (** src/rank/rank9.rs:164-166: [impl_bit_vec_adapter!] (src/macros.rs:35-57) *)
  Definition rank9_bitvec : bitvec (rank9 T) := {|
    bv_nb := bv_nb B;
    bv_bit_len := fun j => bv_bit_len B (r9_store j);
    bv_block_len := fun j => bv_block_len B (r9_store j);
    bv_get_bit := fun j => bv_get_bit B (r9_store j);
    bv_get_block := fun j => bv_get_block B (r9_store j);
    bv_get_bits := fun j => bv_get_bits B (r9_store j) |}.
  (** src/rank/rank9.rs:122-124 [inner], 127-129 [into_inner] *)
  Definition rank9_inner (r : rank9 T) : T := r9_store r.
End Rank9.
