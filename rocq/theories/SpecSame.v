(** * Two stores that answer alike.  [K] says which panics count as the same; it may be equality, or always true. *)
From Verif Require Import Machine MTraits MRank MBitSlice MStream.

(** Related values, panics of the same kind, or both without an answer. *)
Definition alike {A1 A2} (K : panic_kind -> panic_kind -> Prop) (P : A1 -> A2 -> Prop) (m1 : res A1) (m2 : res A2) : Prop :=
  match m1, m2 with Ok a1, Ok a2 => P a1 a2 | Panic k1, Panic k2 => K k1 k2 | OutOfFuel, OutOfFuel => True | _, _ => False end.

Section Same.
  Context {T1 T2 : Type} (K : panic_kind -> panic_kind -> Prop) (S : T1 -> T2 -> Prop).
  (** A method that asks something of the store: the same answer. *)
  Definition asks0 {A} (f1 : T1 -> res A) (f2 : T2 -> res A) : Prop := forall t1 t2, S t1 t2 -> alike K eq (f1 t1) (f2 t2).
  Definition asks1 {X A} (f1 : T1 -> X -> res A) (f2 : T2 -> X -> res A) : Prop := forall t1 t2 x, S t1 t2 -> alike K eq (f1 t1 x) (f2 t2 x).
  Definition asks2 {X Y A} (f1 : T1 -> X -> Y -> res A) (f2 : T2 -> X -> Y -> res A) : Prop :=
    forall t1 t2 x y, S t1 t2 -> alike K eq (f1 t1 x y) (f2 t2 x y).
  (** A method that changes the store: related stores again. *)
  Definition acts1 {X} (f1 : T1 -> X -> res T1) (f2 : T2 -> X -> res T2) : Prop := forall t1 t2 x, S t1 t2 -> alike K S (f1 t1 x) (f2 t2 x).
  Definition acts2 {X Y} (f1 : T1 -> X -> Y -> res T1) (f2 : T2 -> X -> Y -> res T2) : Prop :=
    forall t1 t2 x y, S t1 t2 -> alike K S (f1 t1 x y) (f2 t2 x y).
  Definition acts3 {X Y Z} (f1 : T1 -> X -> Y -> Z -> res T1) (f2 : T2 -> X -> Y -> Z -> res T2) : Prop :=
    forall t1 t2 x y z, S t1 t2 -> alike K S (f1 t1 x y z) (f2 t2 x y z).

  (** [BitVec] *)
  Definition same_reads (B1 : bitvec T1) (B2 : bitvec T2) : Prop :=
    bv_nb B1 = bv_nb B2 /\ asks0 (bv_bit_len B1) (bv_bit_len B2) /\ asks0 (bv_block_len B1) (bv_block_len B2) /\
    asks1 (bv_get_bit B1) (bv_get_bit B2) /\ asks1 (bv_get_block B1) (bv_get_block B2) /\ asks2 (bv_get_bits B1) (bv_get_bits B2).
  (** [BitVecMut] *)
  Definition same_writes (M1 : bitvecmut T1) (M2 : bitvecmut T2) : Prop :=
    same_reads (bm_bv M1) (bm_bv M2) /\ acts2 (bm_set_bit M1) (bm_set_bit M2) /\ acts2 (bm_set_block M1) (bm_set_block M2) /\
    acts3 (bm_set_bits M1) (bm_set_bits M2).
  (** [BitVecPush] *)
  Definition same_pushes (P1 : bitvecpush T1) (P2 : bitvecpush T2) : Prop :=
    same_writes (bp_bm P1) (bp_bm P2) /\ acts1 (bp_push_bit P1) (bp_push_bit P2) /\
    (forall t1 t2, S t1 t2 -> alike K (fun x y => fst x = fst y /\ S (snd x) (snd y)) (bp_pop_bit P1 t1) (bp_pop_bit P2 t2)) /\
    (forall fuel, acts1 (bp_align_block P1 fuel) (bp_align_block P2 fuel)) /\ (forall fuel, acts1 (bp_push_block P1 fuel) (bp_push_block P2 fuel)).
  (** [RankSupport] over bits with [BitRankSupport] *)
  Definition same_ranks (R1 : bitrank T1) (R2 : bitrank T2) : Prop :=
    asks2 (rs_rank (br_rs R1)) (rs_rank (br_rs R2)) /\ asks0 (rs_limit (br_rs R1)) (rs_limit (br_rs R2)) /\
    asks1 (br_rank1 R1) (br_rank1 R2) /\ asks1 (br_rank0 R1) (br_rank0 R2).

  (** The same wrapper around related stores *)
  Definition same_slice (s1 : slice T1) (s2 : slice T2) : Prop := S (sl_data s1) (sl_data s2) /\ sl_start s1 = sl_start s2 /\ sl_len s1 = sl_len s2.
  Definition same_buffer (b1 : bitbuf T1) (b2 : bitbuf T2) : Prop := S (bb_data b1) (bb_data b2) /\ bb_pos b1 = bb_pos b2.
  Definition same_rank9 (r1 : rank9 T1) (r2 : rank9 T2) : Prop := S (r9_store r1) (r9_store r2) /\ r9_counts r1 = r9_counts r2.
  Definition same_jacobson (j1 : jacobson T1) (j2 : jacobson T2) : Prop := S (jr_store j1) (jr_store j2) /\
    jr_large_block_size j1 = jr_large_block_size j2 /\ jr_large j1 = jr_large j2 /\ jr_small j1 = jr_small j2.
  (** Bit streams over related buffers: the same bit, end or error, and related buffers again *)
  Definition same_step {A} (x1 : ioR A * bitbuf T1) (x2 : ioR A * bitbuf T2) : Prop := fst x1 = fst x2 /\ same_buffer (snd x1) (snd x2).
End Same.
