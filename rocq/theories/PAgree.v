(** * The debug and the release build of the same program, compared function by function. *)
From Coq Require Import String.
From Verif Require Import Machine MStorage MTraits MVectorBase MBitVector MIntVector MBitSlice MStream
  MRank MSelect MSearchGen MBroadword MCoding MSigned MIO MCapacity MDerive MSpace MQuickCheck
  SpecOps SpecBuffer SpecAgree PSpace.



Lemma agree_refl {A} (r : res A) : agree r r.
Proof. right; right; reflexivity. Qed.
Lemma agree_bind {A B} (m1 m2 : res A) (f1 f2 : A -> res B) :
  agree m1 m2 -> (forall a, agree (f1 a) (f2 a)) -> agree (bind m1 f1) (bind m2 f2).
Proof.
  intros [-> | [-> | ->]] H; [left; reflexivity | right; left; reflexivity|].
  destruct m2; cbn; [apply H | apply agree_refl..].
Qed.
Lemma agree_for_loop {S} n : forall i (b1 b2 : N -> S -> res S) s,
  (forall i s, agree (b1 i s) (b2 i s)) -> agree (for_loop n i b1 s) (for_loop n i b2 s).
Proof.
  induction n as [|n IH]; intros i b1 b2 s H; cbn; [apply agree_refl|].
  apply agree_bind; [apply H|]. intros a. apply IH, H.
Qed.
Lemma agree_for_range {S} a b (b1 b2 : N -> S -> res S) s :
  (forall i s, agree (b1 i s) (b2 i s)) -> agree (for_range a b b1 s) (for_range a b b2 s).
Proof. apply agree_for_loop. Qed.
Lemma agree_loop {S R} n : forall (b1 b2 : S -> res (flow S R)) s,
  (forall s, agree (b1 s) (b2 s)) -> agree (loop_fuel n b1 s) (loop_fuel n b2 s).
Proof.
  induction n as [|n IH]; intros b1 b2 s H; cbn; [apply agree_refl|].
  apply agree_bind; [apply H|]. intros [s'|r]; [apply IH, H | apply agree_refl].
Qed.
Lemma agree_io_app {S A} (m1 m2 : io S A) s : agree_io m1 m2 -> agree (m1 s) (m2 s).
Proof. intros H; apply H. Qed.
Lemma agree_io_refl {S A} (m : io S A) : agree_io m m.
Proof. intros s; apply agree_refl. Qed.
Lemma agree_try {S A B} (m1 m2 : io S A) (f1 f2 : A -> io S B) :
  agree_io m1 m2 -> (forall a, agree_io (f1 a) (f2 a)) -> agree_io (try_ m1 f1) (try_ m2 f2).
Proof.
  intros H1 H2 s. unfold try_. apply agree_bind; [apply H1|].
  intros [[a|e] s']; [apply H2 | apply agree_refl].
Qed.
Lemma agree_lift {S A} (m1 m2 : res A) : agree m1 m2 -> @agree_io S A (lift m1) (lift m2).
Proof. intros H s. unfold lift. apply agree_bind; [exact H|]. intros a; apply agree_refl. Qed.
Lemma agree_for_io {S L R} n (b1 b2 : L -> io S (flow L R)) (d1 d2 : L -> io S R) : forall l,
  (forall l, agree_io (b1 l) (b2 l)) -> (forall l, agree_io (d1 l) (d2 l)) ->
  agree_io (for_io n b1 d1 l) (for_io n b2 d2 l).
Proof.
  induction n as [|n IH]; intros l Hb Hd; cbn; [apply Hd|].
  apply agree_try; [apply Hb|]. intros [l'|r]; [apply IH; assumption | apply agree_io_refl].
Qed.
Lemma agree_loop_io {S L R} n (b1 b2 : L -> io S (flow L R)) : forall l,
  (forall l, agree_io (b1 l) (b2 l)) -> agree_io (loop_io n b1 l) (loop_io n b2 l).
Proof.
  induction n as [|n IH]; intros l Hb; cbn; [apply agree_io_refl|].
  apply agree_try; [apply Hb|]. intros [l'|r]; [apply IH; assumption | apply agree_io_refl].
Qed.

Create HintDb agree.
#[export] Hint Extern 0 (agree ?a ?a) => exact (agree_refl a) : agree.
#[export] Hint Extern 0 (agree_io ?a ?a) => exact (agree_io_refl a) : agree.

(** The definitions that look at [ptr] only. *)
Ltac ag_norm :=
  cbn [ptr];
  repeat match goal with
  | |- context [as_usize (RC ?p)] => change (as_usize (RC p)) with (as_usize (DC p))
  | |- context [to_usize (RC ?p)] => change (to_usize (RC p)) with (to_usize (DC p))
  | |- context [max_bits (RC ?p)] => change (max_bits (RC p)) with (max_bits (DC p))
  | |- context [alloc (RC ?p)] => change (alloc (RC p)) with (alloc (DC p))
  | |- context [@vec_push ?A (RC ?p)] => change (@vec_push A (RC p)) with (@vec_push A (DC p))
  | |- context [vec_fill (RC ?p)] => change (vec_fill (RC p)) with (vec_fill (DC p))
  | |- context [@vec_resize ?A (RC ?p)] => change (@vec_resize A (RC p)) with (@vec_resize A (DC p))
  end.
Ltac ag_step :=
  match goal with
  | |- forall _, _ => intro
  | |- agree (bind _ _) (bind _ _) => apply agree_bind
  | |- agree (for_range _ _ _ _) (for_range _ _ _ _) => apply agree_for_range
  | |- agree (loop_fuel _ _ _) (loop_fuel _ _ _) => apply agree_loop
  | |- agree_io (try_ _ _) (try_ _ _) => apply agree_try
  | |- agree_io (lift _) (lift _) => apply agree_lift
  | |- agree_io (for_io _ _ _ _) (for_io _ _ _ _) => apply agree_for_io
  | |- agree_io (loop_io _ _ _) (loop_io _ _ _) => apply agree_loop_io
  | |- agree_io (fun _ => _) _ => intro; cbv beta
  | |- agree (match ?x with _ => _ end) (match ?x with _ => _ end) => destruct x
  | |- agree_io (match ?x with _ => _ end) (match ?x with _ => _ end) => destruct x
  end.
Ltac ag_go := cbv zeta; ag_norm; try solve [auto with agree nocore]; repeat (ag_step; ag_norm; try solve [auto with agree nocore]).
Ltac ag := intros; ag_go.

(** ** Machine *)
Section Prims.
  Variable p : N.
  Lemma debug_assert_agree b : agree (debug_assert (DC p) b) (debug_assert (RC p) b).
  Proof. destruct b; [apply agree_refl | right; left; reflexivity]. Qed.
  Lemma wrap_agree w x : agree (wrap (DC p) w x) (wrap (RC p) w x).
  Proof. unfold wrap. destruct (x <? 2 ^ w); [apply agree_refl | left; reflexivity]. Qed.
  Lemma wadd_agree w a b : agree (wadd (DC p) w a b) (wadd (RC p) w a b).
  Proof. apply wrap_agree. Qed.
  Lemma wmul_agree w a b : agree (wmul (DC p) w a b) (wmul (RC p) w a b).
  Proof. apply wrap_agree. Qed.
  Lemma wsub_agree w a b : agree (wsub (DC p) w a b) (wsub (RC p) w a b).
  Proof. unfold wsub. destruct (b <=? a); [apply agree_refl | left; reflexivity]. Qed.
  Lemma wshl_agree w a k : agree (wshl (DC p) w a k) (wshl (RC p) w a k).
  Proof. unfold wshl. destruct (k <? w); [apply agree_refl | left; reflexivity]. Qed.
  Lemma wshr_agree w a k : agree (wshr (DC p) w a k) (wshr (RC p) w a k).
  Proof. unfold wshr. destruct (k <? w); [apply agree_refl | left; reflexivity]. Qed.
  Lemma sshl_agree w a k : agree (sshl (DC p) w a k) (sshl (RC p) w a k).
  Proof. unfold sshl. destruct (k <? w); [apply agree_refl | left; reflexivity]. Qed.
  Lemma sshr_agree w a k : agree (sshr (DC p) w a k) (sshr (RC p) w a k).
  Proof. unfold sshr. destruct (k <? w); [apply agree_refl | left; reflexivity]. Qed.
  Lemma pi_wrap_agree D z : agree (pi_wrap (DC p) D z) (pi_wrap (RC p) D z).
  Proof. unfold pi_wrap. destruct (_ && _); [apply agree_refl | left; reflexivity]. Qed.
End Prims.
#[export] Hint Resolve debug_assert_agree wrap_agree wadd_agree wmul_agree wsub_agree wshl_agree wshr_agree
  sshl_agree sshr_agree pi_wrap_agree : agree.
Opaque wrap wadd wmul wsub wshl wshr debug_assert.

(** ** MStorage *)
Section Storage.
  Variable p : N.
  Lemma floor_lg_agree w x : agree (floor_lg (DC p) w x) (floor_lg (RC p) w x).
  Proof. unfold floor_lg. ag. Qed.
  Hint Resolve floor_lg_agree : agree.
  Lemma ceil_lg_agree w x : agree (ceil_lg (DC p) w x) (ceil_lg (RC p) w x).
  Proof. unfold ceil_lg. ag. Qed.
  Lemma ceil_div_agree w x d : agree (ceil_div (DC p) w x d) (ceil_div (RC p) w x d).
  Proof. unfold ceil_div. ag. Qed.
  Lemma lg_nbits_agree nb : agree (lg_nbits (DC p) nb) (lg_nbits (RC p) nb).
  Proof. unfold lg_nbits. ag. Qed.
  Hint Resolve lg_nbits_agree : agree.
  Lemma div_nbits_agree nb i : agree (div_nbits (DC p) nb i) (div_nbits (RC p) nb i).
  Proof. unfold div_nbits. ag. Qed.
  Hint Resolve div_nbits_agree : agree.
  Lemma checked_div_nbits_agree nb i : agree (checked_div_nbits (DC p) nb i) (checked_div_nbits (RC p) nb i).
  Proof. unfold checked_div_nbits. ag. Qed.
  Hint Resolve checked_div_nbits_agree : agree.
  Lemma ceil_div_nbits_agree nb i : agree (ceil_div_nbits (DC p) nb i) (ceil_div_nbits (RC p) nb i).
  Proof. unfold ceil_div_nbits. ag. Qed.
  Lemma checked_ceil_div_nbits_agree nb i :
    agree (checked_ceil_div_nbits (DC p) nb i) (checked_ceil_div_nbits (RC p) nb i).
  Proof. unfold checked_ceil_div_nbits. ag. Qed.
  Lemma low_mask_agree nb k : agree (low_mask (DC p) nb k) (low_mask (RC p) nb k).
  Proof. unfold low_mask. ag. Qed.
  Hint Resolve low_mask_agree : agree.
  Lemma default_low_mask_agree nb k : agree (default_low_mask (DC p) nb k) (default_low_mask (RC p) nb k).
  Proof. unfold default_low_mask. ag. Qed.
  Lemma mod_nbits_agree nb i : agree (mod_nbits (DC p) nb i) (mod_nbits (RC p) nb i).
  Proof. unfold mod_nbits. ag. Qed.
  Hint Resolve mod_nbits_agree : agree.
  Lemma mul_nbits_agree nb i : agree (mul_nbits (DC p) nb i) (mul_nbits (RC p) nb i).
  Proof. unfold mul_nbits. ag. Qed.
  Hint Resolve mul_nbits_agree : agree.
  Lemma last_block_bits_agree nb i : agree (last_block_bits (DC p) nb i) (last_block_bits (RC p) nb i).
  Proof. unfold last_block_bits. ag. Qed.
  Lemma nth_mask_agree nb i : agree (nth_mask (DC p) nb i) (nth_mask (RC p) nb i).
  Proof. unfold nth_mask. auto with agree. Qed.
  Hint Resolve nth_mask_agree : agree.
  Lemma blk_get_bit_agree nb b i : agree (blk_get_bit (DC p) nb b i) (blk_get_bit (RC p) nb b i).
  Proof. unfold blk_get_bit. ag. Qed.
  Lemma blk_with_bit_agree nb b i v : agree (blk_with_bit (DC p) nb b i v) (blk_with_bit (RC p) nb b i v).
  Proof. unfold blk_with_bit. ag. Qed.
  Lemma blk_get_bits_agree nb b s l : agree (blk_get_bits (DC p) nb b s l) (blk_get_bits (RC p) nb b s l).
  Proof. unfold blk_get_bits. ag. Qed.
  Lemma blk_with_bits_agree nb b s l v :
    agree (blk_with_bits (DC p) nb b s l v) (blk_with_bits (RC p) nb b s l v).
  Proof. unfold blk_with_bits. ag. Qed.
  Lemma address_new_agree nb i : agree (address_new (DC p) nb i) (address_new (RC p) nb i).
  Proof. unfold address_new. ag. Qed.
  Lemma address_bit_index_agree nb a : agree (address_bit_index (DC p) nb a) (address_bit_index (RC p) nb a).
  Proof. unfold address_bit_index. ag. Qed.
End Storage.
#[export] Hint Resolve floor_lg_agree ceil_lg_agree ceil_div_agree lg_nbits_agree div_nbits_agree
  checked_div_nbits_agree ceil_div_nbits_agree checked_ceil_div_nbits_agree low_mask_agree default_low_mask_agree
  mod_nbits_agree mul_nbits_agree last_block_bits_agree nth_mask_agree blk_get_bit_agree blk_with_bit_agree
  blk_get_bits_agree blk_with_bits_agree address_new_agree address_bit_index_agree : agree.

(** ** MTraits: two implementations of a trait whose methods agree *)
#[export] Hint Resolve ab_bit_len ab_block_len ab_get_bit ab_get_block ab_get_bits am_bv am_set_bit am_set_block
  am_set_bits ap_bm ap_push_bit ap_pop_bit ap_align_block ap_push_block : agree.

Section Defaults.
  Context {T : Type} (p nb : N).
  Variables bl1 bl2 kl1 kl2 : T -> res N.
  Variables gt1 gt2 : T -> N -> res bool.
  Variables gk1 gk2 : T -> N -> res N.
  Variables st1 st2 : T -> N -> bool -> res T.
  Variables sk1 sk2 : T -> N -> N -> res T.
  Variables pb1 pb2 : T -> bool -> res T.
  Hypothesis Hbl : forall t, agree (bl1 t) (bl2 t).
  Lemma default_block_len_agree t :
    agree (default_block_len (DC p) nb bl1 t) (default_block_len (RC p) nb bl2 t).
  Proof. unfold default_block_len. ag. Qed.
  Hypothesis Hkl : forall t, agree (kl1 t) (kl2 t).
  Hypothesis Hgt : forall t i, agree (gt1 t i) (gt2 t i).
  Lemma default_get_block_agree t i :
    agree (default_get_block (DC p) nb bl1 kl1 gt1 t i) (default_get_block (RC p) nb bl2 kl2 gt2 t i).
  Proof. unfold default_get_block. ag. Qed.
  Hypothesis Hst : forall t i v, agree (st1 t i v) (st2 t i v).
  Lemma default_set_block_agree t i v :
    agree (default_set_block (DC p) nb bl1 kl1 st1 t i v) (default_set_block (RC p) nb bl2 kl2 st2 t i v).
  Proof. unfold default_set_block. ag. Qed.
  Hypothesis Hgk : forall t i, agree (gk1 t i) (gk2 t i).
  Lemma default_get_bit_agree t i :
    agree (default_get_bit (DC p) nb bl1 gk1 t i) (default_get_bit (RC p) nb bl2 gk2 t i).
  Proof. unfold default_get_bit. ag. Qed.
  Lemma default_get_bits_agree t i k :
    agree (default_get_bits (DC p) nb bl1 gk1 t i k) (default_get_bits (RC p) nb bl2 gk2 t i k).
  Proof. unfold default_get_bits. ag. Qed.
  Hypothesis Hsk : forall t i v, agree (sk1 t i v) (sk2 t i v).
  Lemma default_set_bit_agree t i v :
    agree (default_set_bit (DC p) nb bl1 gk1 sk1 t i v) (default_set_bit (RC p) nb bl2 gk2 sk2 t i v).
  Proof. unfold default_set_bit. ag. Qed.
  Lemma default_set_bits_agree t i k v :
    agree (default_set_bits (DC p) nb bl1 gk1 sk1 t i k v) (default_set_bits (RC p) nb bl2 gk2 sk2 t i k v).
  Proof. unfold default_set_bits. ag. Qed.
  Hypothesis Hpb : forall t v, agree (pb1 t v) (pb2 t v).
  Lemma default_align_block_agree f t v :
    agree (default_align_block (DC p) nb bl1 pb1 f t v) (default_align_block (RC p) nb bl2 pb2 f t v).
  Proof. unfold default_align_block. ag. Qed.
  Hint Resolve default_align_block_agree : agree.
  Lemma default_push_block_agree f t v :
    agree (default_push_block (DC p) nb bl1 pb1 f t v) (default_push_block (RC p) nb bl2 pb2 f t v).
  Proof. unfold default_push_block. ag. Qed.
End Defaults.
#[export] Hint Resolve default_block_len_agree default_get_block_agree default_set_block_agree default_get_bit_agree
  default_get_bits_agree default_set_bit_agree default_set_bits_agree default_align_block_agree
  default_push_block_agree : agree.

Ltac fields := cbn [bv_nb bv_bit_len bv_block_len bv_get_bit bv_get_block bv_get_bits bm_bv bm_set_bit bm_set_block
  bm_set_bits bp_bm bp_push_bit bp_pop_bit bp_align_block bp_push_block
  blocks_bitvecmut blocks_bitvec vecbool_bitvec vecbool_bitvecmut vecbool_bitvecpush prim_bitvec prim_bitvecmut
  bvec_bitvec bvec_bitvecmut bvec_bitvecpush iv_bitvec iv_bitvecmut slice_bitvec slicemut_bitvecmut bb_bitvec
  bb_bitvecmut jacobson_bitvec rank9_bitvec bss_bitvec rs_rank rs_limit br_rs br_rank1 br_rank0 mk_bitrank prim_bitrank
  jacobson_bitrank rank9_bitrank bss_bitrank broadword_bitrank].

Section Stores.
  Variables p nb : N.
  Lemma blocks_bm_agree : agree_bm (blocks_bitvecmut (DC p) nb) (blocks_bitvecmut (RC p) nb).
  Proof.
    assert (H : forall l, agree (blocks_bit_len (DC p) nb l) (blocks_bit_len (RC p) nb l))
      by (intros; unfold blocks_bit_len; auto with agree).
    constructor; [constructor|..]; fields; intros; auto with agree;
      unfold blocks_get_bit, blocks_get_bits, blocks_set_bit, blocks_set_bits; auto with agree.
  Qed.
  Lemma vb8_get_block_agree l i : agree (vb8_get_block (DC p) l i) (vb8_get_block (RC p) l i).
  Proof.
    unfold vb8_get_block. apply default_get_block_agree; intros; try apply agree_refl.
    unfold vb8_block_len. auto with agree.
  Qed.
  Lemma vb8_set_block_agree l i v : agree (vb8_set_block (DC p) l i v) (vb8_set_block (RC p) l i v).
  Proof.
    unfold vb8_set_block. apply default_set_block_agree; intros; try apply agree_refl.
    unfold vb8_block_len. auto with agree.
  Qed.
  Lemma vecbool_bp_agree : agree_bp (vecbool_bitvecpush (DC p)) (vecbool_bitvecpush (RC p)).
  Proof.
    constructor; [constructor; [constructor|..]|..]; intros; fields.
    - reflexivity.
    - apply agree_refl.
    - apply default_block_len_agree. intros; apply agree_refl.
    - apply agree_refl.
    - apply vb8_get_block_agree.
    - apply default_get_bits_agree; intros; [apply agree_refl | apply vb8_get_block_agree].
    - apply agree_refl.
    - apply vb8_set_block_agree.
    - apply default_set_bits_agree; intros; [apply agree_refl | apply vb8_get_block_agree | apply vb8_set_block_agree].
    - apply agree_refl.
    - apply agree_refl.
    - apply default_align_block_agree; intros; apply agree_refl.
    - apply default_push_block_agree; intros; apply agree_refl.
  Qed.
  Lemma prim_bm_agree : agree_bm (prim_bitvecmut (DC p) nb) (prim_bitvecmut (RC p) nb).
  Proof.
    constructor; [constructor|..]; fields; intros; auto with agree;
      unfold prim_get_bit, prim_get_bits, prim_set_bit, prim_set_bits; ag.
  Qed.
End Stores.

(** ** MVectorBase, MBitVector, MIntVector *)
Section Vectors.
  Variables p nb : N.
  Lemma blocks_get_bit_agree l i : agree (blocks_get_bit (DC p) nb l i) (blocks_get_bit (RC p) nb l i).
  Proof. apply (ab_get_bit _ _ (am_bv _ _ (blocks_bm_agree p nb))). Qed.
  Lemma blocks_get_bits_agree l i k : agree (blocks_get_bits (DC p) nb l i k) (blocks_get_bits (RC p) nb l i k).
  Proof. apply (ab_get_bits _ _ (am_bv _ _ (blocks_bm_agree p nb))). Qed.
  Lemma blocks_set_bit_agree l i v : agree (blocks_set_bit (DC p) nb l i v) (blocks_set_bit (RC p) nb l i v).
  Proof. apply (am_set_bit _ _ (blocks_bm_agree p nb)). Qed.
  Lemma blocks_set_bits_agree l i k v : agree (blocks_set_bits (DC p) nb l i k v) (blocks_set_bits (RC p) nb l i k v).
  Proof. apply (am_set_bits _ _ (blocks_bm_agree p nb)). Qed.
  Hint Resolve blocks_get_bit_agree blocks_get_bits_agree blocks_set_bit_agree blocks_set_bits_agree : agree.

  Lemma len_to_block_len_agree k n : agree (len_to_block_len (DC p) nb k n) (len_to_block_len (RC p) nb k n).
  Proof. unfold len_to_block_len. ag. Qed.
  Lemma clear_extra_bits_agree k v : agree (clear_extra_bits (DC p) nb k v) (clear_extra_bits (RC p) nb k v).
  Proof. unfold clear_extra_bits. ag. Qed.
  Hint Resolve len_to_block_len_agree clear_extra_bits_agree : agree.
  Lemma set_len_from_blocks_agree k v : agree (set_len_from_blocks (DC p) nb k v) (set_len_from_blocks (RC p) nb k v).
  Proof. unfold set_len_from_blocks. ag. Qed.
  Hint Resolve set_len_from_blocks_agree : agree.
  Lemma vb_block_with_capacity_agree n : agree (vb_block_with_capacity (DC p) nb n) (vb_block_with_capacity (RC p) nb n).
  Proof. unfold vb_block_with_capacity. ag. Qed.
  Hint Resolve vb_block_with_capacity_agree : agree.
  Lemma vb_new_agree : agree (vb_new (DC p) nb) (vb_new (RC p) nb).
  Proof. unfold vb_new. auto with agree. Qed.
  Lemma vb_with_capacity_agree k n : agree (vb_with_capacity (DC p) nb k n) (vb_with_capacity (RC p) nb k n).
  Proof. unfold vb_with_capacity. ag. Qed.
  Lemma vb_block_with_fill_agree k n x : agree (vb_block_with_fill (DC p) nb k n x) (vb_block_with_fill (RC p) nb k n x).
  Proof. unfold vb_block_with_fill. ag. Qed.
  Lemma vb_set_block_agree k v i x : agree (vb_set_block (DC p) nb k v i x) (vb_set_block (RC p) nb k v i x).
  Proof. unfold vb_set_block. ag. Qed.
  Lemma vb_get_bits_agree k v i n : agree (vb_get_bits (DC p) nb k v i n) (vb_get_bits (RC p) nb k v i n).
  Proof. unfold vb_get_bits. ag. Qed.
  Lemma vb_set_bits_agree k v i n x : agree (vb_set_bits (DC p) nb k v i n x) (vb_set_bits (RC p) nb k v i n x).
  Proof. unfold vb_set_bits. ag. Qed.
  Hint Resolve vb_get_bits_agree vb_set_bits_agree : agree.
  Lemma vb_with_fill_agree k n x : agree (vb_with_fill (DC p) nb k n x) (vb_with_fill (RC p) nb k n x).
  Proof. unfold vb_with_fill. ag. Qed.
  Lemma vb_get_bit_agree v i : agree (vb_get_bit (DC p) nb v i) (vb_get_bit (RC p) nb v i).
  Proof. unfold vb_get_bit. ag. Qed.
  Lemma vb_set_bit_agree v i b : agree (vb_set_bit (DC p) nb v i b) (vb_set_bit (RC p) nb v i b).
  Proof. unfold vb_set_bit. ag. Qed.
  Hint Resolve vb_get_bit_agree vb_set_bit_agree : agree.
  Lemma vb_push_block_agree k v x : agree (vb_push_block (DC p) nb k v x) (vb_push_block (RC p) nb k v x).
  Proof. unfold vb_push_block. ag. Qed.
  Lemma vb_pop_block_agree k v : agree (vb_pop_block (DC p) nb k v) (vb_pop_block (RC p) nb k v).
  Proof. unfold vb_pop_block. ag. Qed.
  Lemma vb_push_bits_agree k v x : agree (vb_push_bits (DC p) nb k v x) (vb_push_bits (RC p) nb k v x).
  Proof. unfold vb_push_bits. ag. Qed.
  Lemma vb_pop_bits_agree k v : agree (vb_pop_bits (DC p) nb k v) (vb_pop_bits (RC p) nb k v).
  Proof. unfold vb_pop_bits. ag. Qed.
  Lemma vb_push_bit_agree v b : agree (vb_push_bit (DC p) nb v b) (vb_push_bit (RC p) nb v b).
  Proof. unfold vb_push_bit. ag. Qed.
  Lemma vb_pop_bit_agree v : agree (vb_pop_bit (DC p) nb v) (vb_pop_bit (RC p) nb v).
  Proof. unfold vb_pop_bit. ag. Qed.
  Lemma vb_block_truncate_agree k v n : agree (vb_block_truncate (DC p) nb k v n) (vb_block_truncate (RC p) nb k v n).
  Proof. unfold vb_block_truncate. ag. Qed.
  Lemma vb_truncate_agree k v n : agree (vb_truncate (DC p) nb k v n) (vb_truncate (RC p) nb k v n).
  Proof. unfold vb_truncate. ag. Qed.
  Lemma vb_block_resize_agree k v n x : agree (vb_block_resize (DC p) nb k v n x) (vb_block_resize (RC p) nb k v n x).
  Proof. unfold vb_block_resize. ag. Qed.
  Lemma vb_resize_agree k v n x : agree (vb_resize (DC p) nb k v n x) (vb_resize (RC p) nb k v n x).
  Proof. unfold vb_resize. ag. Qed.
  Hint Resolve vb_new_agree vb_with_capacity_agree vb_block_with_fill_agree vb_set_block_agree vb_with_fill_agree
    vb_push_block_agree vb_pop_block_agree vb_push_bits_agree vb_pop_bits_agree vb_push_bit_agree vb_pop_bit_agree
    vb_block_truncate_agree vb_truncate_agree vb_block_resize_agree vb_resize_agree : agree.
  Lemma it_next_agree it : agree (it_next (DC p) nb it) (it_next (RC p) nb it).
  Proof. unfold it_next. ag. Qed.
  Lemma it_next_back_agree it : agree (it_next_back (DC p) nb it) (it_next_back (RC p) nb it).
  Proof. unfold it_next_back. ag. Qed.
  Hint Resolve it_next_agree it_next_back_agree : agree.
  Lemma it_nth_agree it n : agree (it_nth (DC p) nb it n) (it_nth (RC p) nb it n).
  Proof. unfold it_nth. cbv zeta. auto with agree. Qed.
  Lemma it_len_agree it : agree (it_len (DC p) it) (it_len (RC p) it).
  Proof. unfold it_len. ag. Qed.
  Hint Resolve it_len_agree it_nth_agree : agree.
  Lemma it_size_hint_agree it : agree (it_size_hint (DC p) it) (it_size_hint (RC p) it).
  Proof. unfold it_size_hint. ag. Qed.
  Lemma it_count_agree it : agree (it_count (DC p) it) (it_count (RC p) it).
  Proof. unfold it_count. auto with agree. Qed.
  Lemma it_last_agree it : agree (it_last (DC p) nb it) (it_last (RC p) nb it).
  Proof. unfold it_last. ag. Qed.

  Lemma bvec_with_fill_agree n b : agree (bvec_with_fill (DC p) nb n b) (bvec_with_fill (RC p) nb n b).
  Proof. unfold bvec_with_fill, bvec_block_with_fill. ag. Qed.
  Lemma bvec_block_len_agree v : agree (bvec_block_len (DC p) nb v) (bvec_block_len (RC p) nb v).
  Proof. unfold bvec_block_len. auto with agree. Qed.
  Lemma bvec_get_bits_agree v i n : agree (bvec_get_bits (DC p) nb v i n) (bvec_get_bits (RC p) nb v i n).
  Proof. unfold bvec_get_bits. auto with agree. Qed.
  Lemma bvec_set_block_agree v i x : agree (bvec_set_block (DC p) nb v i x) (bvec_set_block (RC p) nb v i x).
  Proof. unfold bvec_set_block. auto with agree. Qed.
  Hint Resolve bvec_set_block_agree : agree.
  Lemma bvec_set_bits_agree v i n x : agree (bvec_set_bits (DC p) nb v i n x) (bvec_set_bits (RC p) nb v i n x).
  Proof. unfold bvec_set_bits. auto with agree. Qed.
  Lemma bvec_align_block_agree f v b : agree (bvec_align_block (DC p) nb f v b) (bvec_align_block (RC p) nb f v b).
  Proof. unfold bvec_align_block, bvec_push_bit. auto with agree. Qed.
  Lemma bvec_resize_agree v n b : agree (bvec_resize (DC p) nb v n b) (bvec_resize (RC p) nb v n b).
  Proof. unfold bvec_resize, bvec_block_resize. ag. Qed.
  Hint Resolve bvec_block_len_agree bvec_get_bits_agree bvec_set_bits_agree bvec_align_block_agree bvec_resize_agree
    : agree.
  Lemma bit_next_agree it : agree (bit_next (DC p) nb it) (bit_next (RC p) nb it).
  Proof. unfold bit_next. ag. Qed.
  Lemma bit_next_back_agree it : agree (bit_next_back (DC p) nb it) (bit_next_back (RC p) nb it).
  Proof. unfold bit_next_back. ag. Qed.
  Lemma bit_nth_agree it n : agree (bit_nth (DC p) nb it n) (bit_nth (RC p) nb it n).
  Proof. unfold bit_nth. ag. Qed.
  Lemma bit_last_agree it : agree (bit_last (DC p) nb it) (bit_last (RC p) nb it).
  Proof. pose proof it_last_agree. unfold bit_last. ag. Qed.
  Lemma bvec_bp_agree : agree_bp (bvec_bitvecpush (DC p) nb) (bvec_bitvecpush (RC p) nb).
  Proof.
    constructor; [constructor; [constructor|..]|..]; intros; fields; auto with agree;
      unfold bvec_get_bit, bvec_set_bit, bvec_push_bit, bvec_pop_bit, bvec_push_block; auto with agree.
  Qed.

  Lemma check_value_random_agree k x : agree (check_value_random (DC p) nb k x) (check_value_random (RC p) nb k x).
  Proof. unfold check_value_random. ag. Qed.
  Hint Resolve check_value_random_agree : agree.
  Lemma check_value_agree v x : agree (check_value (DC p) nb v x) (check_value (RC p) nb v x).
  Proof. unfold check_value. auto with agree. Qed.
  Lemma iv_create_agree k r1 r2 : agree r1 r2 -> agree (iv_create nb k r1) (iv_create nb k r2).
  Proof. unfold iv_create. ag. Qed.
  Hint Resolve check_value_agree iv_create_agree : agree.
  Lemma iv_new_agree k : agree (iv_new (DC p) nb k) (iv_new (RC p) nb k).
  Proof. unfold iv_new. auto with agree. Qed.
  Lemma iv_with_capacity_agree k n : agree (iv_with_capacity (DC p) nb k n) (iv_with_capacity (RC p) nb k n).
  Proof. unfold iv_with_capacity. auto with agree. Qed.
  Lemma iv_block_with_capacity_agree k n :
    agree (iv_block_with_capacity (DC p) nb k n) (iv_block_with_capacity (RC p) nb k n).
  Proof. unfold iv_block_with_capacity. auto with agree. Qed.
  Lemma iv_with_fill_agree k n x : agree (iv_with_fill (DC p) nb k n x) (iv_with_fill (RC p) nb k n x).
  Proof. unfold iv_with_fill. auto with agree. Qed.
  Lemma iv_block_with_fill_agree k n x :
    agree (iv_block_with_fill (DC p) nb k n x) (iv_block_with_fill (RC p) nb k n x).
  Proof. unfold iv_block_with_fill. auto with agree. Qed.
  Lemma iv_get_random_agree v o k i : agree (iv_get_random (DC p) nb v o k i) (iv_get_random (RC p) nb v o k i).
  Proof. unfold iv_get_random. ag. Qed.
  Lemma iv_set_random_agree v o k i x : agree (iv_set_random (DC p) nb v o k i x) (iv_set_random (RC p) nb v o k i x).
  Proof. unfold iv_set_random. ag. Qed.
  Lemma iv_push_agree v x : agree (iv_push (DC p) nb v x) (iv_push (RC p) nb v x).
  Proof. unfold iv_push. ag. Qed.
  Lemma iv_pop_agree v : agree (iv_pop (DC p) nb v) (iv_pop (RC p) nb v).
  Proof. unfold iv_pop. ag. Qed.
  Lemma iv_resize_agree v n x : agree (iv_resize (DC p) nb v n x) (iv_resize (RC p) nb v n x).
  Proof. unfold iv_resize. ag. Qed.
  Lemma iv_block_resize_agree v n x : agree (iv_block_resize (DC p) nb v n x) (iv_block_resize (RC p) nb v n x).
  Proof. unfold iv_block_resize. ag. Qed.
  Lemma iv_truncate_agree v n : agree (iv_truncate (DC p) nb v n) (iv_truncate (RC p) nb v n).
  Proof. unfold iv_truncate. ag. Qed.
  Lemma iv_block_truncate_agree v n : agree (iv_block_truncate (DC p) nb v n) (iv_block_truncate (RC p) nb v n).
  Proof. unfold iv_block_truncate. ag. Qed.
  Lemma iv_get_agree v i : agree (iv_get (DC p) nb v i) (iv_get (RC p) nb v i).
  Proof. unfold iv_get. ag. Qed.
  Lemma iv_set_agree v i x : agree (iv_set (DC p) nb v i x) (iv_set (RC p) nb v i x).
  Proof. unfold iv_set. ag. Qed.
  Lemma iv_bit_len_agree v : agree (iv_bit_len (DC p) v) (iv_bit_len (RC p) v).
  Proof. unfold iv_bit_len. auto with agree. Qed.
  Lemma iv_set_block_agree v i x : agree (iv_set_block (DC p) nb v i x) (iv_set_block (RC p) nb v i x).
  Proof. unfold iv_set_block. ag. Qed.
  Hint Resolve iv_bit_len_agree iv_set_block_agree : agree.
  Lemma iv_bm_agree : agree_bm (iv_bitvecmut (DC p) nb) (iv_bitvecmut (RC p) nb).
  Proof. constructor; [constructor|..]; intros; fields; auto with agree. Qed.
End Vectors.
#[export] Hint Resolve blocks_get_bit_agree blocks_get_bits_agree blocks_set_bit_agree blocks_set_bits_agree
  len_to_block_len_agree clear_extra_bits_agree set_len_from_blocks_agree vb_block_with_capacity_agree
  vb_get_bits_agree vb_set_bits_agree vb_get_bit_agree vb_set_bit_agree
  vb_new_agree vb_with_capacity_agree vb_block_with_fill_agree vb_set_block_agree vb_with_fill_agree
  vb_push_block_agree vb_pop_block_agree vb_push_bits_agree vb_pop_bits_agree vb_push_bit_agree vb_pop_bit_agree
  vb_block_truncate_agree vb_truncate_agree vb_block_resize_agree vb_resize_agree it_next_agree it_next_back_agree
  it_nth_agree it_len_agree it_size_hint_agree it_count_agree it_last_agree bvec_with_fill_agree bvec_block_len_agree
  bvec_get_bits_agree bvec_set_block_agree bvec_set_bits_agree bvec_align_block_agree bvec_resize_agree
  bit_next_agree bit_next_back_agree bit_nth_agree bit_last_agree bvec_bp_agree check_value_random_agree
  check_value_agree iv_create_agree iv_new_agree iv_with_capacity_agree iv_block_with_capacity_agree iv_with_fill_agree
  iv_block_with_fill_agree iv_get_random_agree iv_set_random_agree iv_push_agree iv_pop_agree iv_resize_agree
  iv_block_resize_agree iv_truncate_agree iv_block_truncate_agree iv_get_agree iv_set_agree iv_bit_len_agree
  iv_set_block_agree iv_bm_agree blocks_bm_agree vecbool_bp_agree prim_bm_agree : agree.

(** ** MBitSlice *)
Section Slices.
  Context {T : Type} (p : N).
  Section S.
  Variables B1 B2 : bitvec T.
  Hypothesis H : agree_bv B1 B2.
  Lemma slice_new_agree b r : agree (slice_new B1 b r) (slice_new B2 b r).
  Proof. unfold slice_new. ag. Qed.
  Lemma slice_slice_agree (s : slice T) r : agree (slice_slice (DC p) s r) (slice_slice (RC p) s r).
  Proof. unfold slice_slice. ag. Qed.
  Lemma slice_get_bits_agree s i n : agree (slice_get_bits (DC p) B1 s i n) (slice_get_bits (RC p) B2 s i n).
  Proof. unfold slice_get_bits. ag. Qed.
  Hint Resolve slice_get_bits_agree : agree.
  Lemma slice_bv_agree : agree_bv (slice_bitvec (DC p) B1) (slice_bitvec (RC p) B2).
  Proof.
    pose proof (ab_nb _ _ H) as Hnb.
    constructor; intros; fields; auto with agree.
    - unfold slice_block_len. rewrite Hnb. auto with agree.
    - unfold slice_get_bit. ag.
    - unfold slice_get_block. rewrite Hnb. ag.
  Qed.
  End S.
  Hint Resolve slice_bv_agree : agree.
  Variables M1 M2 : bitvecmut T.
  Hypothesis H : agree_bm M1 M2.
  Lemma slice_set_bits_agree s i n x : agree (slice_set_bits (DC p) M1 s i n x) (slice_set_bits (RC p) M2 s i n x).
  Proof. unfold slice_set_bits. ag. Qed.
  Hint Resolve slice_set_bits_agree : agree.
  Lemma slice_bm_agree : agree_bm (slicemut_bitvecmut (DC p) M1) (slicemut_bitvecmut (RC p) M2).
  Proof.
    pose proof (ab_nb _ _ (am_bv _ _ H)) as Hnb.
    constructor; intros; fields; auto with agree.
    - unfold slice_set_bit. ag.
    - unfold slice_set_block. rewrite Hnb. ag.
  Qed.
End Slices.
#[export] Hint Resolve slice_new_agree slice_slice_agree slice_bv_agree slice_bm_agree : agree.

(** ** MStream *)
Lemma agree_read {S} (s1 s2 : source S) : agree_source s1 s2 -> agree_io (read_bit s1) (read_bit s2).
Proof. exact id. Qed.
Lemma agree_write {S} (k1 k2 : sink S) b : agree_sink k1 k2 -> agree_io (write_bit k1 b) (write_bit k2 b).
Proof. intros H; apply H. Qed.
#[export] Hint Resolve agree_read agree_write : agree.

Section Ints.
  Context {S : Type} (p : N).
  Variables s1 s2 : source S.
  Hypothesis Hs : agree_source s1 s2.
  Lemma read_int_agree w n : agree_io (read_int (DC p) s1 w n) (read_int (RC p) s2 w n).
  Proof. unfold read_int. ag. Qed.
  Lemma read_int_be_agree w n : agree_io (read_int_be (DC p) s1 w n) (read_int_be (RC p) s2 w n).
  Proof. unfold read_int_be. ag. Qed.
  Lemma read_sint_agree w n : agree_io (read_sint (DC p) s1 w n) (read_sint (RC p) s2 w n).
  Proof. unfold read_sint. ag. Qed.
  Lemma read_sint_be_agree w n : agree_io (read_sint_be (DC p) s1 w n) (read_sint_be (RC p) s2 w n).
  Proof. unfold read_sint_be. ag. Qed.
  Variables k1 k2 : sink S.
  Hypothesis Hk : agree_sink k1 k2.
  Lemma write_int_agree w n x : agree_io (write_int (DC p) k1 w n x) (write_int (RC p) k2 w n x).
  Proof. unfold write_int. ag. Qed.
  Lemma write_int_be_agree w n x : agree_io (write_int_be (DC p) k1 w n x) (write_int_be (RC p) k2 w n x).
  Proof. unfold write_int_be. ag. Qed.
  Lemma write_sint_agree w n x : agree_io (write_sint (DC p) k1 w n x) (write_sint (RC p) k2 w n x).
  Proof. unfold write_sint. ag. Qed.
  Lemma write_sint_be_agree w n x : agree_io (write_sint_be (DC p) k1 w n x) (write_sint_be (RC p) k2 w n x).
  Proof. unfold write_sint_be. ag. Qed.
End Ints.
#[export] Hint Resolve read_int_agree read_int_be_agree read_sint_agree read_sint_be_agree write_int_agree
  write_int_be_agree write_sint_agree write_sint_be_agree : agree.

Section Buffer.
  Context {T : Type} (p : N).
  Lemma bb_with_capacity_agree nb n : agree (bb_with_capacity (DC p) nb n) (bb_with_capacity (RC p) nb n).
  Proof. unfold bb_with_capacity, bvec_with_capacity. ag. Qed.
  Section B.
  Variables B1 B2 : bitvec T.
  Hypothesis H : agree_bv B1 B2.
  Lemma bb_append_agree v : agree (bb_append B1 v) (bb_append B2 v).
  Proof. unfold bb_append. ag. Qed.
  Lemma bb_seek_agree i : agree_io (bb_seek B1 i) (bb_seek B2 i).
  Proof. unfold bb_seek. ag. Qed.
  Lemma bb_bit_len_agree v : agree (bb_bit_len B1 v) (bb_bit_len B2 v).
  Proof. unfold bb_bit_len. auto with agree. Qed.
  Lemma bb_get_block_agree v i : agree (bb_get_block B1 v i) (bb_get_block B2 v i).
  Proof. unfold bb_get_block. auto with agree. Qed.
  Hint Resolve bb_bit_len_agree bb_get_block_agree : agree.
  Lemma bb_get_bit_agree v i : agree (bb_get_bit (DC p) B1 v i) (bb_get_bit (RC p) B2 v i).
  Proof. unfold bb_get_bit. rewrite (ab_nb _ _ H). auto with agree. Qed.
  Hint Resolve bb_get_bit_agree : agree.
  Lemma bb_bv_agree : agree_bv (bb_bitvec (DC p) B1) (bb_bitvec (RC p) B2).
  Proof.
    pose proof (ab_nb _ _ H) as Hnb.
    constructor; intros; fields; auto with agree. rewrite Hnb. auto with agree.
  Qed.
  Lemma bb_source_agree : agree_source (bb_source (DC p) B1) (bb_source (RC p) B2).
  Proof. unfold agree_source, bb_source. cbn [read_bit]. unfold bb_read_bit. ag. Qed.
  End B.
  Hint Resolve bb_bit_len_agree bb_get_block_agree bb_bv_agree : agree.
  Section M.
  Variables M1 M2 : bitvecmut T.
  Hypothesis H : agree_bm M1 M2.
  Lemma bb_set_block_agree v i x : agree (bb_set_block M1 v i x) (bb_set_block M2 v i x).
  Proof. unfold bb_set_block. ag. Qed.
  Hint Resolve bb_set_block_agree : agree.
  Lemma bb_set_bit_agree v i b : agree (bb_set_bit (DC p) M1 v i b) (bb_set_bit (RC p) M2 v i b).
  Proof. unfold bb_set_bit. rewrite (ab_nb _ _ (am_bv _ _ H)). auto with agree. Qed.
  Hint Resolve bb_set_bit_agree : agree.
  Lemma bb_bm_agree : agree_bm (bb_bitvecmut (DC p) M1) (bb_bitvecmut (RC p) M2).
  Proof.
    constructor; intros; fields; auto with agree. rewrite (ab_nb _ _ (am_bv _ _ H)). auto with agree.
  Qed.
  End M.
  Hint Resolve bb_set_bit_agree : agree.
  Variables P1 P2 : bitvecpush T.
  Hypothesis H : agree_bp P1 P2.
  Lemma bb_sink_agree f : agree_sink (bb_sink (DC p) P1 f) (bb_sink (RC p) P2 f).
  Proof. unfold agree_sink, bb_sink. cbn [write_bit]. unfold bb_write_bit. ag. Qed.
End Buffer.
#[export] Hint Resolve bb_with_capacity_agree bb_append_agree bb_seek_agree bb_bv_agree bb_source_agree bb_bm_agree
  bb_sink_agree : agree.

(** ** MRank, MSelect *)
#[export] Hint Resolve ar_rank ar_limit ar_rs ar_rank1 ar_rank0 : agree.

Section Ranks.
  Variable p : N.
  Section D.
  Context {T : Type}.
  Variables r1 r2 : T -> N -> res N.
  Variables l1 l2 : T -> res N.
  Hypothesis Hr : forall t i, agree (r1 t i) (r2 t i).
  Hypothesis Hl : forall t, agree (l1 t) (l2 t).
  Lemma mk_bitrank_agree : agree_br (mk_bitrank (DC p) r1 l1) (mk_bitrank (RC p) r2 l2).
  Proof.
    assert (H0 : forall t i, agree (default_rank0 (DC p) r1 t i) (default_rank0 (RC p) r2 t i))
      by (unfold default_rank0; ag).
    constructor; [constructor|..]; intros; fields; auto with agree. unfold rank_by_value. ag.
  Qed.
  End D.
  Lemma prim_rank1_agree nb x i : agree (prim_rank1 (DC p) nb x i) (prim_rank1 (RC p) nb x i).
  Proof. unfold prim_rank1. ag. Qed.
  Hint Resolve prim_rank1_agree : agree.
  Lemma prim_br_agree nb : agree_br (prim_bitrank (DC p) nb) (prim_bitrank (RC p) nb).
  Proof. apply mk_bitrank_agree; auto with agree. Qed.

  Lemma level2_shift_agree t : agree (level2_shift (DC p) t) (level2_shift (RC p) t).
  Proof. unfold level2_shift. ag. Qed.
  Hint Resolve level2_shift_agree : agree.
  Lemma level2_get_agree l t : agree (level2_get (DC p) l t) (level2_get (RC p) l t).
  Proof. unfold level2_get. ag. Qed.
  Lemma level2_set_agree l t x : agree (level2_set (DC p) l t x) (level2_set (RC p) l t x).
  Proof. unfold level2_set. ag. Qed.
  Hint Resolve level2_get_agree level2_set_agree : agree.

  Section S.
  Context {T : Type}.
  Variables B1 B2 : bitvec T.
  Hypothesis H : agree_bv B1 B2.
  Lemma jacobson_new_agree t : agree (jacobson_new (DC p) B1 t) (jacobson_new (RC p) B2 t).
  Proof. unfold jacobson_new. rewrite (ab_nb _ _ H). ag. Qed.
  Lemma jacobson_rank1_agree j i : agree (jacobson_rank1 (DC p) B1 j i) (jacobson_rank1 (RC p) B2 j i).
  Proof. unfold jacobson_rank1. rewrite (ab_nb _ _ H). ag. Qed.
  Lemma jacobson_br_agree : agree_br (jacobson_bitrank (DC p) B1) (jacobson_bitrank (RC p) B2).
  Proof. apply mk_bitrank_agree; [apply jacobson_rank1_agree | auto with agree]. Qed.
  Lemma jacobson_bv_agree : agree_bv (jacobson_bitvec B1) (jacobson_bitvec B2).
  Proof. constructor; intros; fields; auto with agree. apply (ab_nb _ _ H). Qed.
  Lemma store_counts_agree i l a b : agree (store_counts (DC p) i l a b) (store_counts (RC p) i l a b).
  Proof. unfold store_counts. ag. Qed.
  Hint Resolve store_counts_agree : agree.
  Lemma rank9_new_agree t : agree (rank9_new (DC p) B1 t) (rank9_new (RC p) B2 t).
  Proof. unfold rank9_new. ag. Qed.
  Lemma rank9_rank1_agree j i : agree (rank9_rank1 (DC p) B1 j i) (rank9_rank1 (RC p) B2 j i).
  Proof. unfold rank9_rank1. ag. Qed.
  Lemma rank9_br_agree : agree_br (rank9_bitrank (DC p) B1) (rank9_bitrank (RC p) B2).
  Proof. apply mk_bitrank_agree; [apply rank9_rank1_agree | auto with agree]. Qed.
  Lemma rank9_bv_agree : agree_bv (rank9_bitvec B1) (rank9_bitvec B2).
  Proof. constructor; intros; fields; auto with agree. apply (ab_nb _ _ H). Qed.
  Lemma bss_bv_agree : agree_bv (bss_bitvec B1) (bss_bitvec B2).
  Proof. constructor; intros; fields; auto with agree. apply (ab_nb _ _ H). Qed.
  End S.

  Lemma average_agree w x y : agree (average (DC p) w x y) (average (RC p) w x y).
  Proof. unfold average. ag. Qed.
  Hint Resolve average_agree : agree.
  Lemma search_loop_agree w x (f1 f2 : N -> res N) n a b : (forall i, agree (f1 i) (f2 i)) ->
    agree (search_loop (DC p) w x f1 n a b) (search_loop (RC p) w x f2 n a b).
  Proof. unfold search_loop. ag. Qed.
  Hint Resolve search_loop_agree : agree.
  Lemma binary_search_agree w n a b x (f1 f2 : N -> res N) : (forall i, agree (f1 i) (f2 i)) ->
    agree (binary_search_function (DC p) w n a b x f1) (binary_search_function (RC p) w n a b x f2).
  Proof. unfold binary_search_function. ag. Qed.
  Hint Resolve binary_search_agree : agree.
  Section B.
  Context {T : Type}.
  Variables R1 R2 : bitrank T.
  Hypothesis H : agree_br R1 R2.
  Lemma bss_select1_agree n t i : agree (bss_select1 (DC p) R1 n t i) (bss_select1 (RC p) R2 n t i).
  Proof. unfold bss_select1. ag. Qed.
  Lemma bss_select0_agree n t i : agree (bss_select0 (DC p) R1 n t i) (bss_select0 (RC p) R2 n t i).
  Proof. unfold bss_select0. ag. Qed.
  Lemma bss_br_agree : agree_br (bss_bitrank R1) (bss_bitrank R2).
  Proof. constructor; [constructor|..]; intros; fields; auto with agree. Qed.
  End B.
  Lemma bss_select_agree {A T} (R1 R2 : ranksup A T) n t i v : agree_rs R1 R2 ->
    agree (bss_select (DC p) R1 n t i v) (bss_select (RC p) R2 n t i v).
  Proof. intros H. unfold bss_select. ag. Qed.

  Lemma average_gen_agree D x y : agree (average_gen (DC p) D x y) (average_gen (RC p) D x y).
  Proof. unfold average_gen. ag. Qed.
  Hint Resolve average_gen_agree : agree.
  Lemma search_loop_gen_agree D {S R} (ge lt : R -> R -> bool) x (f1 f2 : Z -> S -> res (R * S)) n a b s :
    (forall i s, agree (f1 i s) (f2 i s)) ->
    agree (search_loop_gen (DC p) D ge lt x f1 n a b s) (search_loop_gen (RC p) D ge lt x f2 n a b s).
  Proof. unfold search_loop_gen. ag. Qed.
  Hint Resolve search_loop_gen_agree : agree.
  Lemma binary_search_gen_agree D {S R} (ge lt : R -> R -> bool) n a b x (f1 f2 : Z -> S -> res (R * S)) s :
    (forall i s, agree (f1 i s) (f2 i s)) ->
    agree (binary_search_gen (DC p) D ge lt n a b x f1 s) (binary_search_gen (RC p) D ge lt n a b x f2 s).
  Proof. unfold binary_search_gen. ag. Qed.

  (** ** MBroadword *)
  Lemma bw_count_ones_agree x : agree (bw_count_ones (DC p) x) (bw_count_ones (RC p) x).
  Proof. unfold bw_count_ones. ag. Qed.
  Lemma u_le8_agree x y : agree (u_le8 (DC p) x y) (u_le8 (RC p) x y).
  Proof. unfold u_le8. ag. Qed.
  Lemma le8_agree x y : agree (le8 (DC p) x y) (le8 (RC p) x y).
  Proof. unfold le8. ag. Qed.
  Lemma u_nz8_agree x : agree (u_nz8 (DC p) x) (u_nz8 (RC p) x).
  Proof. unfold u_nz8. ag. Qed.
  Hint Resolve bw_count_ones_agree u_le8_agree le8_agree u_nz8_agree : agree.
  Lemma select1_raw_agree r x : agree (select1_raw (DC p) r x) (select1_raw (RC p) r x).
  Proof. unfold select1_raw. ag. Qed.
  Hint Resolve select1_raw_agree : agree.
  Lemma bw_select1_agree r x : agree (bw_select1 (DC p) r x) (bw_select1 (RC p) r x).
  Proof. unfold bw_select1. ag. Qed.
  Hint Resolve bw_select1_agree : agree.
  Lemma broadword_rank1_agree x i : agree (broadword_rank1 (DC p) x i) (broadword_rank1 (RC p) x i).
  Proof. unfold broadword_rank1. ag. Qed.
  Lemma broadword_br_agree : agree_br (broadword_bitrank (DC p)) (broadword_bitrank (RC p)).
  Proof. apply mk_bitrank_agree; [apply broadword_rank1_agree | auto with agree]. Qed.
  Lemma broadword_select1_agree x i : agree (broadword_select1 (DC p) x i) (broadword_select1 (RC p) x i).
  Proof. unfold broadword_select1. ag_norm. auto with agree. Qed.
End Ranks.
#[export] Hint Resolve prim_rank1_agree prim_br_agree jacobson_new_agree jacobson_rank1_agree jacobson_br_agree
  jacobson_bv_agree rank9_new_agree rank9_rank1_agree rank9_br_agree rank9_bv_agree bss_bv_agree bss_br_agree
  binary_search_agree bss_select1_agree bss_select0_agree bss_select_agree binary_search_gen_agree bw_count_ones_agree
  u_le8_agree le8_agree u_nz8_agree bw_select1_agree broadword_br_agree broadword_select1_agree : agree.

(** ** MCoding *)
Lemma agree_encode C1 C2 S (k1 k2 : sink S) f x : agree_code C1 C2 -> agree_sink k1 k2 ->
  agree_io (encode C1 k1 f x) (encode C2 k2 f x).
Proof. intros H. apply H. Qed.
Lemma agree_decode C1 C2 S (s1 s2 : source S) f : agree_code C1 C2 -> agree_source s1 s2 ->
  agree_io (decode C1 s1 f) (decode C2 s2 f).
Proof. intros H. apply H. Qed.
#[export] Hint Resolve agree_encode agree_decode : agree.

Section Codes.
  Variable p : N.
  Lemma unary_agree : agree_code (unary (DC p)) (unary (RC p)).
  Proof.
    intros S. cbn [encode decode unary]. split; intros.
    - unfold unary_encode. ag.
    - unfold unary_decode. ag.
  Qed.
  Lemma lift0_agree C1 C2 : agree_code C1 C2 -> agree_code (lift0 (DC p) C1) (lift0 (RC p) C2).
  Proof.
    intros H S. cbn [encode decode lift0]. split; intros.
    - unfold lift0_encode. ag.
    - unfold lift0_decode. ag.
  Qed.
  Lemma elias_agree C1 C2 : agree_code C1 C2 -> agree_code (elias (DC p) C1) (elias (RC p) C2).
  Proof.
    intros H S. cbn [encode decode elias]. split; intros.
    - unfold elias_encode. ag.
    - unfold elias_decode. ag.
  Qed.
  Lemma gamma_agree : agree_code (gamma (DC p)) (gamma (RC p)).
  Proof. apply elias_agree, unary_agree. Qed.
  Lemma delta_agree : agree_code (delta (DC p)) (delta (RC p)).
  Proof. apply elias_agree, lift0_agree, gamma_agree. Qed.
  Lemma omega_stack_agree f x : agree (omega_stack (DC p) f x) (omega_stack (RC p) f x).
  Proof. unfold omega_stack. ag. Qed.
  Hint Resolve omega_stack_agree : agree.
  Lemma omega_write_agree S (k1 k2 : sink S) : agree_sink k1 k2 -> forall l,
    agree_io (omega_write (DC p) k1 l) (omega_write (RC p) k2 l).
  Proof. intros H. induction l as [|[n x] l IH]; cbn [omega_write]; [apply agree_io_refl | ag]. Qed.
  Hint Resolve omega_write_agree : agree.
  Lemma omega_agree : agree_code (omega (DC p)) (omega (RC p)).
  Proof.
    intros S. cbn [encode decode omega]. split; intros.
    - unfold omega_encode. ag.
    - unfold omega_decode. ag.
  Qed.
  Lemma fib_prev_agree f : agree (fib_prev (DC p) f) (fib_prev (RC p) f).
  Proof. unfold fib_prev. ag. Qed.
  Hint Resolve fib_prev_agree : agree.
  Lemma fib_stack_agree n f x : agree (fib_stack (DC p) n f x) (fib_stack (RC p) n f x).
  Proof. unfold fib_stack. ag. Qed.
  Hint Resolve fib_stack_agree : agree.
  Lemma write_stack_agree S (k1 k2 : sink S) : agree_sink k1 k2 -> forall l,
    agree_io (write_stack k1 l) (write_stack k2 l).
  Proof. intros H. induction l as [|b l IH]; cbn [write_stack]; [apply agree_io_refl | ag]. Qed.
  Hint Resolve write_stack_agree : agree.
  Lemma fibonacci_agree : agree_code (fibonacci (DC p)) (fibonacci (RC p)).
  Proof.
    intros S. cbn [encode decode fibonacci]. split; intros.
    - unfold fib_encode. ag.
    - unfold fib_decode. ag.
  Qed.
  Lemma comma_base_agree n : agree (comma_base (DC p) n) (comma_base (RC p) n).
  Proof. unfold comma_base. ag. Qed.
  Hint Resolve comma_base_agree : agree.
  Lemma comma_write_agree n S (k1 k2 : sink S) : agree_sink k1 k2 -> forall l,
    agree_io (comma_write (DC p) n k1 l) (comma_write (RC p) n k2 l).
  Proof. intros H. induction l as [|d l IH]; cbn [comma_write]; [apply agree_io_refl | ag]. Qed.
  Hint Resolve comma_write_agree : agree.
  Lemma comma_agree n : agree_code (comma (DC p) n) (comma (RC p) n).
  Proof.
    intros S. cbn [encode decode comma]. split; intros.
    - unfold comma_encode. ag.
    - unfold comma_decode. ag.
  Qed.
End Codes.
#[export] Hint Resolve unary_agree lift0_agree elias_agree gamma_agree delta_agree omega_agree fibonacci_agree
  comma_agree : agree.

(** ** MCapacity *)
Section Cap.
  Variables (p nb : N) (pol : policy).
  Lemma vec_with_capacity_agree n : agree (vec_with_capacity (DC p) nb pol n) (vec_with_capacity (RC p) nb pol n).
  Proof. apply agree_refl. Qed.
  Lemma vec_reserve_agree g a b n : agree (vec_reserve (DC p) nb g a b n) (vec_reserve (RC p) nb g a b n).
  Proof. apply agree_refl. Qed.
  Hint Resolve vec_with_capacity_agree vec_reserve_agree : agree.
  Lemma cv_block_with_capacity_agree n :
    agree (cv_block_with_capacity (DC p) nb pol n) (cv_block_with_capacity (RC p) nb pol n).
  Proof. unfold cv_block_with_capacity. ag. Qed.
  Hint Resolve cv_block_with_capacity_agree : agree.
  Lemma cv_with_capacity_agree k n : agree (cv_with_capacity (DC p) nb pol k n) (cv_with_capacity (RC p) nb pol k n).
  Proof. unfold cv_with_capacity. ag. Qed.
  Lemma cv_capacity_agree k v : agree (cv_capacity (DC p) nb k v) (cv_capacity (RC p) nb k v).
  Proof. unfold cv_capacity. ag. Qed.
  Lemma cv_block_reserve_agree v n : agree (cv_block_reserve (DC p) nb pol v n) (cv_block_reserve (RC p) nb pol v n).
  Proof. unfold cv_block_reserve. ag. Qed.
  Lemma cv_block_reserve_exact_agree v n :
    agree (cv_block_reserve_exact (DC p) nb pol v n) (cv_block_reserve_exact (RC p) nb pol v n).
  Proof. unfold cv_block_reserve_exact. ag. Qed.
  Lemma cv_additional_blocks_agree k v n :
    agree (cv_additional_blocks (DC p) nb k v n) (cv_additional_blocks (RC p) nb k v n).
  Proof. unfold cv_additional_blocks. ag. Qed.
  Hint Resolve cv_with_capacity_agree cv_capacity_agree cv_block_reserve_agree cv_block_reserve_exact_agree
    cv_additional_blocks_agree : agree.
  Lemma cv_reserve_agree k v n : agree (cv_reserve (DC p) nb pol k v n) (cv_reserve (RC p) nb pol k v n).
  Proof. unfold cv_reserve. ag. Qed.
  Lemma cv_reserve_exact_agree k v n : agree (cv_reserve_exact (DC p) nb pol k v n) (cv_reserve_exact (RC p) nb pol k v n).
  Proof. unfold cv_reserve_exact. ag. Qed.
  Lemma cv_lift_agree (f1 f2 : vbase -> res vbase) v : (forall u, agree (f1 u) (f2 u)) ->
    agree (cv_lift (DC p) nb pol f1 v) (cv_lift (RC p) nb pol f2 v).
  Proof. unfold cv_lift. ag. Qed.
End Cap.
#[export] Hint Resolve cv_with_capacity_agree cv_block_with_capacity_agree cv_capacity_agree cv_block_reserve_agree
  cv_block_reserve_exact_agree cv_reserve_agree cv_reserve_exact_agree cv_lift_agree : agree.

(** ** MDerive *)
Section Fmt.
  Context {S : Type} (p nb : N).
  Variables w1 w2 : formatter S.
  Hypothesis H : forall x s, agree (w1 x s) (w2 x s).
  Lemma fmt_then_agree x k1 k2 s : (forall s, agree (k1 s) (k2 s)) -> agree (fmt_then w1 x k1 s) (fmt_then w2 x k2 s).
  Proof. intros Hk. unfold fmt_then. ag. Qed.
  Hint Resolve fmt_then_agree : agree.
  Lemma fmt_bits_agree n : forall it s, agree (fmt_bits (DC p) nb w1 n it s) (fmt_bits (RC p) nb w2 n it s).
  Proof. induction n as [|n IH]; intros; cbn [fmt_bits]; [apply agree_refl|]. ag. Qed.
  Lemma fmt_ints_agree n : forall it s, agree (fmt_ints (DC p) nb w1 n it s) (fmt_ints (RC p) nb w2 n it s).
  Proof. induction n as [|n IH]; intros; cbn [fmt_ints]; [apply agree_refl|]. ag. Qed.
  Hint Resolve fmt_bits_agree fmt_ints_agree : agree.
  Lemma bvec_fmt_binary_agree n v s :
    agree (bvec_fmt_binary (DC p) nb w1 n v s) (bvec_fmt_binary (RC p) nb w2 n v s).
  Proof. unfold bvec_fmt_binary. auto with agree. Qed.
  Lemma iv_fmt_debug_agree n v s : agree (iv_fmt_debug (DC p) nb w1 n v s) (iv_fmt_debug (RC p) nb w2 n v s).
  Proof. unfold iv_fmt_debug. auto 10 with agree. Qed.
End Fmt.

(** ** MQuickCheck *)
Section QC.
  Variable p : N.
  Lemma deque_source_agree : agree_source deque_source deque_source.
  Proof. intros s; apply agree_refl. Qed.
  Lemma deque_sink_agree : agree_sink deque_sink deque_sink.
  Proof. intros b s; apply agree_refl. Qed.
  Lemma pow2_64_agree e : agree (pow2_64 (DC p) e) (pow2_64 (RC p) e).
  Proof. apply wrap_agree. Qed.
  Hint Resolve pow2_64_agree deque_source_agree deque_sink_agree : agree.
  Lemma prop_floor_lg_agree n : agree (prop_floor_lg (DC p) n) (prop_floor_lg (RC p) n).
  Proof. unfold prop_floor_lg. ag. Qed.
  Lemma prop_ceil_lg_agree n : agree (prop_ceil_lg (DC p) n) (prop_ceil_lg (RC p) n).
  Proof. unfold prop_ceil_lg. ag. Qed.
  Lemma prop_ceil_div_agree n m : agree (prop_ceil_div (DC p) n m) (prop_ceil_div (RC p) n m).
  Proof. unfold prop_ceil_div. ag. Qed.
  Lemma count_ones_prop_agree x : agree (count_ones_prop (DC p) x) (count_ones_prop (RC p) x).
  Proof. unfold count_ones_prop. ag. Qed.
  Lemma select1_prop_agree f r x : agree (select1_prop (DC p) f r x) (select1_prop (RC p) f r x).
  Proof. unfold select1_prop. ag. Qed.
  Lemma bytes_ok_agree (f1 f2 : N -> res bool) k : (forall i, agree (f1 i) (f2 i)) -> forall i,
    agree (bytes_ok f1 k i) (bytes_ok f2 k i).
  Proof. intros H. induction k as [|k IH]; intros; cbn [bytes_ok]; [apply agree_refl|]. ag. Qed.
  Lemma u_nz8_prop_agree n : agree (u_nz8_prop (DC p) n) (u_nz8_prop (RC p) n).
  Proof. unfold u_nz8_prop. apply agree_bind; [auto with agree|]. intros r. apply bytes_ok_agree. ag. Qed.
  Lemma u_le8_prop_agree n m : agree (u_le8_prop (DC p) n m) (u_le8_prop (RC p) n m).
  Proof. unfold u_le8_prop. apply agree_bind; [auto with agree|]. intros r. apply bytes_ok_agree. ag. Qed.
  Section C.
  Variables C1 C2 : code.
  Hypothesis H : agree_code C1 C2.
  Lemma cd_encode_agree f l : forall dv, agree (cd_encode (DC p) C1 f l dv) (cd_encode (RC p) C2 f l dv).
  Proof.
    induction l as [|x l IH]; intros; cbn [cd_encode]; [apply agree_refl|].
    apply agree_bind; [auto with agree|]. intros v.
    apply agree_bind; [apply agree_io_app; auto with agree|]. intros [[] d]; [apply IH | apply agree_refl].
  Qed.
  Lemma cd_decode_agree f dv : agree (cd_decode (DC p) C1 f dv) (cd_decode (RC p) C2 f dv).
  Proof.
    unfold cd_decode. apply agree_loop. intros [d l].
    apply agree_bind; [apply agree_io_app; auto with agree|]. ag.
  Qed.
  Lemma code_decode_agree f l : agree (code_decode (DC p) C1 f l) (code_decode (RC p) C2 f l).
  Proof.
    unfold code_decode. apply agree_bind; [apply cd_encode_agree|]. intros dv.
    apply agree_bind; [apply cd_decode_agree|]. intros; apply agree_refl.
  Qed.
  End C.
End QC.

(** ** MSpace *)
Section Space.
  Variables (p : N) (size_of : ty -> N).
  Lemma vec_heap_bytes_agree e so (h1 h2 : val -> res N) cap vs : (forall v, agree (h1 v) (h2 v)) ->
    agree (vec_heap_bytes (DC p) size_of e so h1 cap vs) (vec_heap_bytes (RC p) size_of e so h2 cap vs).
  Proof.
    intros H. unfold vec_heap_bytes. apply agree_bind; [ag_norm; auto with agree|]. intros r.
    destruct so; [apply agree_refl|]. revert r. induction vs as [|v vs IH]; intros r; [apply agree_refl|].
    apply agree_bind; [apply H|]. intros a. apply agree_bind; [ag_norm; auto with agree|]. intros b. apply IH.
  Qed.
  Lemma heap_bytes_agree t : forall v, agree (heap_bytes (DC p) size_of t v) (heap_bytes (RC p) size_of t v).
  Proof.
    induction t as [n|t|t|t|ts IH|t IH|t IH|t IH|t IH|t IH|t IH|t IH|t IH] using ty_rect'; intros v.
    all: try (apply agree_refl).
    - destruct v as [|vs| |]; try apply agree_refl. cbn [heap_bytes]. generalize 0. revert vs.
      induction IH as [|t ts Ht _ IHts]; intros vs r; [apply agree_refl|]. destruct vs as [|v vs]; [apply agree_refl|].
      apply agree_bind; [apply Ht|]. intros a. apply agree_bind; [ag_norm; auto with agree|]. intros b. apply IHts.
    - destruct v; try apply agree_refl. cbn [heap_bytes]. apply vec_heap_bytes_agree, IH.
    - destruct v; try apply agree_refl. cbn [heap_bytes]. apply agree_bind; [apply IH|]. intros; ag_norm; auto with agree.
    - destruct v; try apply agree_refl. cbn [heap_bytes]. apply vec_heap_bytes_agree, IH.
    - destruct v; try apply agree_refl. cbn [heap_bytes]. apply vec_heap_bytes_agree, IH.
    - destruct v; try apply agree_refl. cbn [heap_bytes]. apply vec_heap_bytes_agree, IH.
    - destruct v as [|[|[| |cl l|] [|[| |cs sm|] [|st []]]]| |]; try apply agree_refl. cbn [heap_bytes].
      apply agree_bind; [apply vec_heap_bytes_agree; intros; apply agree_refl|]. intros.
      apply agree_bind; [apply vec_heap_bytes_agree; intros; apply agree_refl|]. intros.
      apply agree_bind; [ag_norm; auto with agree|]. intros.
      apply agree_bind; [apply IH|]. intros. ag_norm; auto with agree.
    - destruct v as [|[|st [|[| |cap cells|] []]]| |]; try apply agree_refl. cbn [heap_bytes].
      apply agree_bind; [apply IH|]. intros.
      apply agree_bind; [apply vec_heap_bytes_agree; intros; apply agree_refl|]. intros. ag_norm; auto with agree.
    - cbn [heap_bytes]. apply IH.
  Qed.
  Lemma total_bytes_agree t v : agree (total_bytes (DC p) size_of t v) (total_bytes (RC p) size_of t v).
  Proof. unfold total_bytes. apply agree_bind; [apply heap_bytes_agree|]. intros; ag_norm; auto with agree. Qed.
End Space.

(** ** Programs *)
Lemma run_agree {S O X} (f1 f2 : S -> O -> res (S * X)) : (forall s o, agree (f1 s o) (f2 s o)) -> forall ops s,
  agree_run (run f1 s ops) (run f2 s ops).
Proof.
  intros H. induction ops as [|o ops IH]; intros s; cbn [run]; [left; reflexivity|].
  destruct (H s o) as [-> | [-> | ->]]; [right; split; [left; reflexivity | eexists; reflexivity] |
    right; split; [right; reflexivity | eexists; reflexivity] |].
  destruct (f2 s o) as [[s' x]| |]; [|left; reflexivity..].
  specialize (IH s'). destruct (run f1 s' ops) as [x1 r1], (run f2 s' ops) as [x2 r2]. unfold agree_run in *. cbn [fst snd] in *.
  destruct IH as [E|[E [rest E2]]]; [left; congruence|]. right. split; [exact E|]. exists rest. now rewrite E2.
Qed.
Lemma collect_agree {I A} (n1 n2 : I -> res (option A * I)) f it : (forall i, agree (n1 i) (n2 i)) ->
  agree (collect n1 f it) (collect n2 f it).
Proof. unfold collect. ag. Qed.
#[export] Hint Resolve collect_agree : agree.
Lemma bvec_make_agree p nb k : agree (bvec_make (DC p) nb k) (bvec_make (RC p) nb k).
Proof.
  destruct k; cbn [bvec_make]; unfold bvec_new, bvec_with_capacity, bvec_block_with_capacity, bvec_block_with_fill;
    auto with agree.
Qed.
Lemma bvec_step_agree p nb f v o : agree (bvec_step (DC p) nb f v o) (bvec_step (RC p) nb f v o).
Proof.
  destruct o; cbn [bvec_step]; unfold unit_, bvec_push_bit, bvec_pop_bit, bvec_push_block, bvec_set_bit,
    bvec_block_resize, bvec_truncate, bvec_block_truncate, bvec_get_bit; ag.
Qed.
Lemma iv_make_agree p nb k t : agree (iv_make (DC p) nb k t) (iv_make (RC p) nb k t).
Proof. destruct t; cbn [iv_make]; auto with agree. Qed.
Lemma iv_step_agree p nb f v o : agree (iv_step (DC p) nb f v o) (iv_step (RC p) nb f v o).
Proof. destruct o; cbn [iv_step]; unfold unit_; fields; ag. Qed.
Lemma bb_step_agree p {T} (P1 P2 : bitvecpush T) : agree_bp P1 P2 -> forall f bb o,
  agree (bb_step (DC p) P1 f bb o) (bb_step (RC p) P2 f bb o).
Proof.
  intros H f bb o. pose proof (bb_bm_agree p _ _ (ap_bm _ _ H)) as HM. pose proof (am_bv _ _ HM) as HB.
  pose proof (bb_source_agree p _ _ (am_bv _ _ (ap_bm _ _ H))) as Hr. pose proof (bb_sink_agree p _ _ H f) as Hw.
  pose proof (bb_seek_agree _ _ (am_bv _ _ (ap_bm _ _ H))) as Hk.
  destruct o; cbn [bb_step]; unfold io_out, val_out, upd_out; cbv zeta; try apply agree_refl;
    apply agree_bind; auto with agree; intros; try apply agree_refl.
  - apply Hr.
  - apply Hw.
  - apply Hk.
Qed.
Lemma it_step_agree {I A} (n1 n2 b1 b2 : I -> res (option A * I)) h1 h2 : (forall i, agree (n1 i) (n2 i)) ->
  (forall i, agree (b1 i) (b2 i)) -> (forall i k, agree (h1 i k) (h2 i k)) -> forall it o,
  agree (it_step n1 b1 h1 it o) (it_step n2 b2 h2 it o).
Proof. intros H1 H2 H3 it o. unfold it_step. destruct o; ag. Qed.
Transparent wrap wadd wmul wsub wshl wshr debug_assert.
