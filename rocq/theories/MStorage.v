(** * Model of src/storage.rs: [BlockType] and [Address].
    [nb] is [Self::nbits()], i.e. [8 * size_of::<Self>()] (src/storage.rs:29-31): 8, 16, 32 or
    64.  [usize::nbits()] is [ptr c].  Blocks are [N] values below [2 ^ nb]. *)
From Verif Require Import Machine.

(** src/storage.rs:216-221 [BlockType::floor_lg], for a type of width [w]; the result is a usize. *)
Definition floor_lg (c : cfg) (w x : N) : res N :=
  if x <=? 1 then Ok 0
  else t <- wsub c (ptr c) w 1 ;; wsub c (ptr c) t (leading_zeros w x).

(** src/storage.rs:209-214 [BlockType::ceil_lg] *)
Definition ceil_lg (c : cfg) (w x : N) : res N :=
  if x <=? 1 then Ok 0
  else y <- wsub c w x 1 ;; wsub c (ptr c) w (leading_zeros w y).

(** src/storage.rs:223-227 [BlockType::ceil_div]: [(self + divisor - 1) / divisor] *)
Definition ceil_div (c : cfg) (w x d : N) : res N :=
  s <- wadd c w x d ;; t <- wsub c w s 1 ;; wdiv t d.

(** src/storage.rs:105-109 [lg_nbits]: [Self::nbits().floor_lg()], at type usize *)
Definition lg_nbits (c : cfg) (nb : N) : res N := floor_lg c (ptr c) nb.

(** src/storage.rs:40-43 [div_nbits]: [(index >> lg_nbits) as usize] *)
Definition div_nbits (c : cfg) (nb i : N) : res N :=
  lg <- lg_nbits c nb ;; q <- wshr c 64 i lg ;; Ok (as_usize c q).

(** src/storage.rs:49-52 [checked_div_nbits]: [(index >> lg_nbits).to_usize()] *)
Definition checked_div_nbits (c : cfg) (nb i : N) : res (option N) :=
  lg <- lg_nbits c nb ;; q <- wshr c 64 i lg ;; Ok (to_usize c q).

(** src/storage.rs:58-61 [ceil_div_nbits] *)
Definition ceil_div_nbits (c : cfg) (nb i : N) : res N :=
  m <- wsub c 64 nb 1 ;; s <- wadd c 64 i m ;; div_nbits c nb s.

(** src/storage.rs:70-73 [checked_ceil_div_nbits] *)
Definition checked_ceil_div_nbits (c : cfg) (nb i : N) : res (option N) :=
  m <- wsub c 64 nb 1 ;; s <- wadd c 64 i m ;; checked_div_nbits c nb s.

(** src/storage.rs:240-257 macro [fn_low_mask!]: the [low_mask] of every primitive block type.
    [1.wrapping_shl(k as u32) - 1 | (div_nbits(k) & 1) * !0] *)
Definition low_mask (c : cfg) (nb k : N) : res N :=
  debug_assert c (k <=? nb) ;;;
  a <- wsub c nb (wrapping_shl nb 1 (k mod 2 ^ 32)) 1 ;;
  d <- div_nbits c nb k ;;
  b <- wmul c nb (N.land d 1) (wnot nb 0) ;;
  Ok (N.lor a b).

(** src/storage.rs:123-132 the default [low_mask] of the trait (overridden by all instances) *)
Definition default_low_mask (c : cfg) (nb k : N) : res N :=
  debug_assert c (k <=? nb) ;;;
  if k =? nb then Ok (wnot nb 0)
  else s <- wshl c nb 1 k ;; wsub c nb s 1.

(** src/storage.rs:79-83 [mod_nbits]: [(index & u64::low_mask(lg_nbits)) as usize]
    (with [lg_nbits_mask], src/storage.rs:112-115, at result type u64) *)
Definition mod_nbits (c : cfg) (nb i : N) : res N :=
  lg <- lg_nbits c nb ;; m <- low_mask c 64 lg ;; Ok (as_usize c (N.land i m)).

(** src/storage.rs:89-91 [mul_nbits]: [(index as u64) << lg_nbits] *)
Definition mul_nbits (c : cfg) (nb i : N) : res N :=
  lg <- lg_nbits c nb ;; wshl c 64 i lg.

(** src/storage.rs:99-103 [last_block_bits] *)
Definition last_block_bits (c : cfg) (nb len : N) : res N :=
  m <- mod_nbits c nb len ;; Ok (if m =? 0 then nb else m).

(** src/storage.rs:141-144 [nth_mask] *)
Definition nth_mask (c : cfg) (nb i : N) : res N := wshl c nb 1 i.

(** src/storage.rs:153-157 [BlockType::get_bit] *)
Definition blk_get_bit (c : cfg) (nb b i : N) : res bool :=
  assert_ (i <? nb) ;;;
  m <- nth_mask c nb i ;; Ok (negb (N.land b m =? 0)).

(** src/storage.rs:164-172 [BlockType::with_bit] *)
Definition blk_with_bit (c : cfg) (nb b i : N) (v : bool) : res N :=
  assert_ (i <? nb) ;;;
  m <- nth_mask c nb i ;;
  Ok (if v then N.lor b m else N.land b (wnot nb m)).

(** src/storage.rs:179-187 [BlockType::get_bits] *)
Definition blk_get_bits (c : cfg) (nb b start len : N) : res N :=
  e <- wadd c (ptr c) start len ;;
  assert_ (e <=? nb) ;;;
  if len =? 0 then Ok 0
  else s <- wshr c nb b start ;; m <- low_mask c nb len ;; Ok (N.land s m).

(** src/storage.rs:194-205 [BlockType::with_bits] *)
Definition blk_with_bits (c : cfg) (nb b start len value : N) : res N :=
  e <- wadd c (ptr c) start len ;;
  assert_ (e <=? nb) ;;;
  if len =? 0 then Ok b
  else
    lm <- low_mask c nb len ;;
    mask <- wshl c nb lm start ;;
    sv <- wshl c nb value start ;;
    Ok (N.lor (N.land b (wnot nb mask)) (N.land sv mask)).

(** src/storage.rs:334-342 [Address] *)
Record address := { block_index : N; bit_offset : N }.

(** src/storage.rs:352-359 [Address::new] *)
Definition address_new (c : cfg) (nb i : N) : res address :=
  q <- checked_div_nbits c nb i ;; bi <- expect q ;;
  bo <- mod_nbits c nb i ;;
  Ok {| block_index := bi; bit_offset := bo |}.

(** src/storage.rs:364-367 [Address::bit_index] *)
Definition address_bit_index (c : cfg) (nb : N) (a : address) : res N :=
  m <- mul_nbits c nb (block_index a) ;; wadd c 64 m (bit_offset a).
