(** * The QuickCheck properties of the crate's test modules, as functions on the model.  The arguments are
    those QuickCheck generates; [None] is [TestResult::discard()]. *)
From Verif Require Import Machine MStorage MRank MSelect MBroadword MStream MCoding.

(** [2u64.pow(e)]: a product that does not fit panics with overflow checks and wraps without (for base 2 and
    [e <= 64] the repeated squaring of [pow] overflows only if the result does) *)
Definition pow2_64 (c : cfg) (e : N) : res N := wrap c 64 (2 ^ e).

(** src/storage.rs:453-459; [floor_lg() as u32] does not cut anything off, [+ 1] is of u32 *)
Definition prop_floor_lg (c : cfg) (n : N) : res (option bool) :=
  if n =? 0 then Ok None else
  f <- floor_lg c 64 n ;; p <- pow2_64 c f ;;
  if p <=? n then
    f' <- floor_lg c 64 n ;; e <- wadd c 32 f' 1 ;; q <- pow2_64 c e ;; Ok (Some (n <? q))
  else Ok (Some false).

(** src/storage.rs:475-481 *)
Definition prop_ceil_lg (c : cfg) (n : N) : res (option bool) :=
  if n <=? 1 then Ok None else
  f <- ceil_lg c 64 n ;; p <- pow2_64 c f ;;
  if n <=? p then
    f' <- ceil_lg c 64 n ;; e <- wsub c 32 f' 1 ;; q <- pow2_64 c e ;; Ok (Some (q <? n))
  else Ok (Some false).

(** src/storage.rs:497-503 *)
Definition prop_ceil_div (c : cfg) (n m : N) : res (option bool) :=
  nm <- wmul c 64 n m ;;
  if nm =? 0 then Ok None else
  q <- ceil_div c 64 n m ;; mq <- wmul c 64 m q ;;
  if n <=? mq then
    q' <- ceil_div c 64 n m ;; q1 <- wsub c 64 q' 1 ;; p <- wmul c 64 m q1 ;; Ok (Some (p <? n))
  else Ok (Some false).

(** src/broadword.rs:143-145 *)
Definition count_ones_prop (c : cfg) (word : N) : res bool := n <- bw_count_ones c word ;; Ok (n =? count_ones word).

(** src/broadword.rs:196-203; [r] is a u8 *)
Definition select1_prop (c : cfg) (fuel : nat) (r x : N) : res (option bool) :=
  if 64 <? r then Ok None else
  a <- bw_select1 c r x ;; b <- bss_select1 c (prim_bitrank c 64) fuel x r ;;
  Ok (Some (match a, b with Some p, Some q => p =? q | None, None => true | _, _ => false end)).

(** The loops [for i in 0..8] with an early [return false] at src/broadword.rs:222-230, 308-317 *)
Fixpoint bytes_ok (check : N -> res bool) (k : nat) (i : N) : res bool :=
  match k with
  | O => Ok true
  | Datatypes.S k' => b <- check i ;; if b then bytes_ok check k' (i + 1) else Ok false
  end.
(** src/broadword.rs:219-231, for the word [n] that the hash gives *)
Definition u_nz8_prop (c : cfg) (n : N) : res bool :=
  r <- u_nz8 c n ;;
  bytes_ok (fun i => ni <- blk_get_bits c 64 n (8 * i) 8 ;; ri <- blk_get_bits c 64 r (8 * i) 8 ;;
                     Ok (eqb (negb (ni =? 0)) (ri =? 0x80))) 8 0.
(** src/broadword.rs:306-318 *)
Definition u_le8_prop (c : cfg) (n m : N) : res bool :=
  r <- u_le8 c n m ;;
  bytes_ok (fun i => ni <- blk_get_bits c 64 n (8 * i) 8 ;; mi <- blk_get_bits c 64 m (8 * i) 8 ;; ri <- blk_get_bits c 64 r (8 * i) 8 ;;
                     Ok (eqb (ni <=? mi) (ri =? 0x80))) 8 0.

(** src/coding/mod.rs:28-43 [code_decode]: encoding the values plus one ([unwrap] panics on an error) *)
Fixpoint cd_encode (c : cfg) (C : code) (fuel : nat) (vec : list N) (dv : list bool) : res (list bool) :=
  match vec with
  | [] => Ok dv
  | i :: t =>
      v <- wadd c 64 i 1 ;;
      r <- encode C deque_sink fuel v dv ;;
      match r with
      | (IOk _, dv') => cd_encode c C fuel t dv'
      | (IErr _, _) => Panic PExpect
      end
  end.
(** and decoding while there is something to decode, on fuel *)
Definition cd_decode (c : cfg) (C : code) (fuel : nat) (dv : list bool) : res (list N) :=
  loop_fuel fuel (fun st : list bool * list N =>
    let '(dv, vec2) := st in
    r <- decode C deque_source fuel dv ;;
    match r with
    | (IOk (Some i), dv') => j <- wsub c 64 i 1 ;; Ok (Continue (dv', vec2 ++ [j]))
    | _ => Ok (Return vec2)
    end) (dv, []).
Definition code_decode (c : cfg) (C : code) (fuel : nat) (vec : list N) : res bool :=
  dv <- cd_encode c C fuel vec [] ;; vec2 <- cd_decode c C fuel dv ;;
  Ok (if list_eq_dec N.eq_dec vec2 vec then true else false).
