(** * What it means that a debug build and a release build of the same program agree. *)
From Verif Require Import Machine MTraits MStream MRank MCoding.

(** The debug and the release build for a target with pointers of [p] bits. *)
Notation DC p := {| debug := true; ptr := p |}.
Notation RC p := {| debug := false; ptr := p |}.

(** [r1], of a debug build, is stopped by an overflow check or a [debug_assert!], or is [r2]. *)
Definition agree {A} (r1 r2 : res A) : Prop := r1 = Panic POverflow \/ r1 = Panic PDebug \/ r1 = r2.
Definition agree_io {S A} (m1 m2 : io S A) : Prop := forall s, agree (m1 s) (m2 s).

(** The same for what a program delivers, operation by operation: the release build goes on where a check stops the debug build. *)
Definition agree_run {X S} (t1 t2 : list X * res S) : Prop :=
  t1 = t2 \/
  (snd t1 = Panic POverflow \/ snd t1 = Panic PDebug) /\ exists rest, fst t2 = fst t1 ++ rest.

(** Two implementations of a trait all of whose methods agree; of the bits they hold, nothing is assumed. *)
Record agree_bv {T} (B1 B2 : bitvec T) : Prop := {
  ab_nb : bv_nb B1 = bv_nb B2;
  ab_bit_len : forall t, agree (bv_bit_len B1 t) (bv_bit_len B2 t);
  ab_block_len : forall t, agree (bv_block_len B1 t) (bv_block_len B2 t);
  ab_get_bit : forall t i, agree (bv_get_bit B1 t i) (bv_get_bit B2 t i);
  ab_get_block : forall t i, agree (bv_get_block B1 t i) (bv_get_block B2 t i);
  ab_get_bits : forall t i k, agree (bv_get_bits B1 t i k) (bv_get_bits B2 t i k) }.
Record agree_bm {T} (M1 M2 : bitvecmut T) : Prop := {
  am_bv : agree_bv (bm_bv M1) (bm_bv M2);
  am_set_bit : forall t i v, agree (bm_set_bit M1 t i v) (bm_set_bit M2 t i v);
  am_set_block : forall t i v, agree (bm_set_block M1 t i v) (bm_set_block M2 t i v);
  am_set_bits : forall t i k v, agree (bm_set_bits M1 t i k v) (bm_set_bits M2 t i k v) }.
Record agree_bp {T} (P1 P2 : bitvecpush T) : Prop := {
  ap_bm : agree_bm (bp_bm P1) (bp_bm P2);
  ap_push_bit : forall t v, agree (bp_push_bit P1 t v) (bp_push_bit P2 t v);
  ap_pop_bit : forall t, agree (bp_pop_bit P1 t) (bp_pop_bit P2 t);
  ap_align_block : forall f t v, agree (bp_align_block P1 f t v) (bp_align_block P2 f t v);
  ap_push_block : forall f t v, agree (bp_push_block P1 f t v) (bp_push_block P2 f t v) }.

Definition agree_source {S} (s1 s2 : source S) : Prop := agree_io (read_bit s1) (read_bit s2).
Definition agree_sink {S} (k1 k2 : sink S) : Prop := forall b, agree_io (write_bit k1 b) (write_bit k2 b).

Record agree_rs {A T} (R1 R2 : ranksup A T) : Prop := {
  ar_rank : forall t i v, agree (rs_rank R1 t i v) (rs_rank R2 t i v);
  ar_limit : forall t, agree (rs_limit R1 t) (rs_limit R2 t) }.
Record agree_br {T} (R1 R2 : bitrank T) : Prop := {
  ar_rs : agree_rs (br_rs R1) (br_rs R2);
  ar_rank1 : forall t i, agree (br_rank1 R1 t i) (br_rank1 R2 t i);
  ar_rank0 : forall t i, agree (br_rank0 R1 t i) (br_rank0 R2 t i) }.

Definition agree_code (C1 C2 : code) : Prop := forall S,
  (forall (k1 k2 : sink S) f x, agree_sink k1 k2 -> agree_io (encode C1 k1 f x) (encode C2 k2 f x)) /\
  (forall (s1 s2 : source S) f, agree_source s1 s2 -> agree_io (decode C1 s1 f) (decode C2 s2 f)).
