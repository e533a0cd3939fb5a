(** * Model of src/broadword.rs.  All values are u64. *)
From Verif Require Import Machine MStorage MRank.

(** src/broadword.rs:54 [L8], 57 [H8] *)
Definition L8 : N := 0x0101010101010101.
Definition H8 : N := 0x8080808080808080.

Section Broadword.
  Variable c : cfg.

  (** src/broadword.rs:62-67 [count_ones] *)
  Definition bw_count_ones (x : N) : res N :=
    t <- wshr c 64 (N.land x 0xAAAAAAAAAAAAAAAA) 1 ;;
    x <- wsub c 64 x t ;;
    t <- wshr c 64 x 2 ;;
    x <- wadd c 64 (N.land x 0x3333333333333333) (N.land t 0x3333333333333333) ;;
    t <- wshr c 64 x 4 ;;
    t <- wadd c 64 x t ;;
    let x := N.land t 0x0F0F0F0F0F0F0F0F in
    r <- wshr c 64 (wrapping_mul 64 x L8) 56 ;;
    Ok (as_usize c r).

  (** src/broadword.rs:94-96 [u_le8] *)
  Definition u_le8 (x y : N) : res N :=
    d <- wsub c 64 (N.lor y H8) (N.land x (wnot 64 H8)) ;;
    Ok (N.land (N.lxor (N.lor d (N.lxor x y)) (N.land x (wnot 64 y))) H8).

  (** src/broadword.rs:99-101 [le8] *)
  Definition le8 (x y : N) : res N :=
    d <- wsub c 64 (N.lor y H8) (N.land x (wnot 64 H8)) ;;
    Ok (N.land (N.lxor (N.lxor d x) y) H8).

  (** src/broadword.rs:104-106 [u_nz8] *)
  Definition u_nz8 (x : N) : res N :=
    d <- wsub c 64 (N.lor x H8) L8 ;;
    Ok (N.land (N.lor d x) H8).

  (** src/broadword.rs:80-91 [select1_raw]; [r] is a usize, widened to u64 *)
  Definition select1_raw (r x : N) : res N :=
    t <- wshr c 64 (N.land x 0xAAAAAAAAAAAAAAAA) 1 ;;
    s <- wsub c 64 x t ;;
    t <- wshr c 64 s 2 ;;
    s <- wadd c 64 (N.land s 0x3333333333333333) (N.land t 0x3333333333333333) ;;
    t <- wshr c 64 s 4 ;;
    t <- wadd c 64 s t ;;
    let s := wrapping_mul 64 (N.land t 0x0F0F0F0F0F0F0F0F) L8 in
    t <- le8 s (wrapping_mul 64 r L8) ;;
    t <- wshr c 64 t 7 ;;
    b <- wshr c 64 (wrapping_mul 64 t L8) 53 ;;
    t <- wshl c 64 s 8 ;;
    l <- wsub c 64 r (N.land (wrapping_shr 64 t (b mod 2 ^ 32)) 0xFF) ;;
    t <- u_nz8 (N.land (wrapping_mul 64 (N.land (wrapping_shr 64 x (b mod 2 ^ 32)) 0xFF) L8)
                       0x8040201008040201) ;;
    t <- wshr c 64 t 7 ;;
    let s := wrapping_mul 64 t L8 in
    t <- le8 s (wrapping_mul 64 l L8) ;;
    t <- wshr c 64 t 7 ;;
    t <- wshr c 64 (wrapping_mul 64 t L8) 56 ;;
    q <- wadd c 64 b t ;;
    Ok (as_usize c q).

  (** src/broadword.rs:72-75 [select1] *)
  Definition bw_select1 (r x : N) : res (option N) :=
    res <- select1_raw r x ;; Ok (if res =? 72 then None else Some res).

  (** src/broadword.rs:30-35 [Broadword::rank1] *)
  Definition broadword_rank1 (x p : N) : res N :=
    debug_assert c (p <? 64) ;;;
    p1 <- wadd c (ptr c) (as_usize c p) 1 ;;
    m <- low_mask c 64 p1 ;;
    bw_count_ones (N.land x m).
  (** src/broadword.rs:37-45 [RankSupport for Broadword] *)
  Definition broadword_bitrank : bitrank N := mk_bitrank c broadword_rank1 (fun _ => Ok 64).
  (** src/broadword.rs:47-51 [Broadword::select1] *)
  Definition broadword_select1 (x i : N) : res (option N) := bw_select1 (as_usize c i) x.
End Broadword.
