(** * Properties C25-C28 and C63 (slices): [BitSlice], [BitSliceMut] (src/bit_vec/bit_slice.rs).
    Slices are generic over their base.  The hypothesis [lawful_bits] says that the base is a bit
    sequence; it holds for slices and vectors of blocks, [Vec<bool>], [BitVector], [IntVector] and,
    by [slice_lawful_bits], for slices themselves. *)
From Verif Require Import SpecCfg PBits PBlocks PRun PIntVector PSlice.

(** The bounds a range expression denotes for a sequence of length [n]. *)
Definition bounds (r : range) (n : N) : N * N :=
  match r with
  | Range a b => (a, b) | RangeTo b => (0, b) | RangeFrom a => (a, n) | RangeFull => (0, n)
  end.
(** Same outcome, up to the panic message. *)
Definition agree {A} (r1 r2 : res A) : Prop := (exists a, r1 = Ok a /\ r2 = Ok a) \/ (panics r1 /\ panics r2).
Lemma agree_refl {A} (r : res A) : r <> OutOfFuel -> agree r r.
Proof. destruct r as [a|p|]; intros H; [left; eauto|right; split; eexists; reflexivity|contradiction]. Qed.

(** ** C25 *)
Theorem C25_slice_reads : forall T c (B : bitvec T) (R : T -> list bool -> Prop) t l r s e,
  wf_cfg c -> lawful_bits c B R -> R t l -> bounds r (lengthN l) = (s, e) ->
  if e <=? lengthN l then
    exists sl, slice_new B t r = Ok sl /\
      slice_bit_len sl = Ok (e - s) /\
      (forall i, i < e - s -> exists b, nthN l (s + i) = Some b /\ slice_get_bit c B sl i = Ok b) /\
      (forall i, e - s <= i -> panics (slice_get_bit c B sl i)) /\
      (forall p n, p + n <= e - s -> n <= bv_nb B -> 1 <= n \/ p < e - s ->
         slice_get_bits c B sl p n = Ok (int_of (sub (s + p) n l))) /\
      (forall p n, e - s < p + n -> panics (slice_get_bits c B sl p n))
  else panics (slice_new B t r).
Proof.
  intros T c B R t l r s e Hc LB HR Hb.
  assert (En : slice_new B t r =
    (assert_ (e <=? lengthN l) ;;; Ok {| sl_data := t; sl_start := s; sl_len := saturating_sub e s |})).
  { unfold slice_new. rewrite (lb_bit_len _ _ _ LB t l HR). cbn [bind].
    destruct r; cbn in *; injection Hb as <- <-; reflexivity. }
  rewrite En. destruct (e <=? lengthN l) eqn:E; [|cbn; auto]. cbn [assert_ bind].
  set (sl := {| sl_data := t; sl_start := s; sl_len := saturating_sub e s |}).
  assert (El : sl_len sl = e - s) by reflexivity.
  assert (HS : R_slice R sl (sub s (e - s) l)).
  { destruct (N.le_gt_cases s e) as [H|H].
    - left. exists l. rewrite El. repeat split; auto. cbn [sl sl_start]. lia.
    - right. rewrite El. split; [lia|]. replace (e - s) with 0 by lia. apply firstnN_0. }
  exists sl. split; [reflexivity|]. split; [reflexivity|]. split; [|split; [|split]].
  - intros i Hi. destruct (nthN_Some l (s + i)) as [b Eb]; [lia|]. exists b. split; [exact Eb|].
    apply (slice_get_bit_ok c B R Hc LB sl _ i b HS). rewrite nthN_sub. replace (i <? e - s) with true by lia. exact Eb.
  - intros i Hi. apply slice_get_bit_oob. lia.
  - intros p n Hp Hn H1. destruct (N.eq_dec (e - s) 0) as [H0|H0]; [lia|].
    assert (lengthN (sub s (e - s) l) = e - s) by (rewrite lengthN_sub; lia).
    rewrite (slice_get_bits_ok c B R Hc LB sl _ p n HS) by lia. now rewrite sub_sub by lia.
  - intros p n Hp. apply slice_get_bits_oob. lia.
Qed.
Example C25_ex :
  lawful_bits rel32 (slice_bitvec rel32 (bvec_bitvec rel32 8)) (R_slice (R_bv rel32 8)) /\
  bounds (RangeFrom 5) 24 = (5, 24) /\
  (exists sl, slice_new (blocks_bitvec dbg64 8) [181; 7; 255] (RangeFrom 5) = Ok sl /\
    slice_bit_len sl = Ok 19 /\ slice_get_bits dbg64 (blocks_bitvec dbg64 8) sl 2 7 = Ok 15 /\
    panics (slice_get_bit dbg64 (blocks_bitvec dbg64 8) sl 19)) /\
  (exists sl, slice_new (blocks_bitvec dbg64 8) [181; 7; 255] (Range 9 4) = Ok sl /\ slice_bit_len sl = Ok 0) /\
  panics (slice_new (blocks_bitvec dbg64 8) [181; 7; 255] (Range 0 25)).
Proof.
  split; [apply slice_lawful_bits; [auto with wf|apply bvec_lawful_bits; auto with wf]|]. split; [reflexivity|].
  split; [eexists; split; [vm_compute; reflexivity|]; split; [vm_compute; reflexivity|]; split; [vm_compute; reflexivity|];
    eexists; vm_compute; reflexivity|].
  split; [eexists; split; [vm_compute; reflexivity|]; vm_compute; reflexivity|]. eexists; vm_compute; reflexivity.
Qed.

(** ** C26: one write; then any number of writes. *)
Theorem C26_slice_write : forall T c (M : bitvecmut T) (R : T -> list bool -> Prop) sl l,
  wf_cfg c -> lawful_bits c (bm_bv M) R -> lawful_mut c M R ->
  R (sl_data sl) l -> sl_start sl + sl_len sl <= lengthN l ->
  (forall i b, i < sl_len sl -> exists sl', slice_set_bit c M sl i b = Ok sl' /\
     sl_start sl' = sl_start sl /\ sl_len sl' = sl_len sl /\ R (sl_data sl') (updN l (sl_start sl + i) b)) /\
  (forall i b, sl_len sl <= i -> panics (slice_set_bit c M sl i b)) /\
  (forall p n v, p + n <= sl_len sl -> n <= bv_nb (bm_bv M) -> v < 2 ^ bv_nb (bm_bv M) -> 1 <= n \/ p < sl_len sl ->
     exists sl', slice_set_bits c M sl p n v = Ok sl' /\
     sl_start sl' = sl_start sl /\ sl_len sl' = sl_len sl /\ R (sl_data sl') (put (sl_start sl + p) (bits_of n v) l)) /\
  (forall p n v, sl_len sl < p + n -> panics (slice_set_bits c M sl p n v)).
Proof.
  intros T c M R sl l Hc LB LM HR Hl. split; [|split; [|split]].
  - intros i b Hi. now apply (slice_set_bit_base c M R Hc LB LM).
  - intros i b Hi. now apply slice_set_bit_oob.
  - intros p n v H1 H2 H3 H4. now apply (slice_set_bits_base c M R Hc LB LM).
  - intros p n v H. now apply slice_set_bits_oob.
Qed.

Inductive wop := WBit (i : N) (b : bool) | WBits (p n v : N) | WBlock (j v : N).
Definition wstep {T} c (M : bitvecmut T) (sl : slice T) (o : wop) : res (slice T) :=
  match o with
  | WBit i b => slice_set_bit c M sl i b
  | WBits p n v => slice_set_bits c M sl p n v
  | WBlock j v => slice_set_block c M sl j v
  end.
Fixpoint writes {T} c (M : bitvecmut T) (sl : slice T) (ops : list wop) : res (slice T) :=
  match ops with [] => Ok sl | o :: t => sl' <- wstep c M sl o ;; writes c M sl' t end.
Definition wop_ok (c : cfg) (nb len : N) (o : wop) : Prop :=
  match o with
  | WBit _ _ => True
  | WBits p n v => n <= nb /\ v < 2 ^ nb /\ (1 <= n \/ p < len)
  | WBlock j v => v < 2 ^ nb
  end.
(** Whatever is written through a slice, the base keeps its length and its bits outside the slice. *)
Theorem C26_frame : forall T c (M : bitvecmut T) (R : T -> list bool -> Prop) ops sl sl' l,
  wf_cfg c -> lawful_bits c (bm_bv M) R -> lawful_mut c M R ->
  R (sl_data sl) l -> sl_start sl + sl_len sl <= lengthN l ->
  Forall (wop_ok c (bv_nb (bm_bv M)) (sl_len sl)) ops ->
  writes c M sl ops = Ok sl' ->
  bv_bit_len (bm_bv M) (sl_data sl') = bv_bit_len (bm_bv M) (sl_data sl) /\
  forall j, j < lengthN l -> j < sl_start sl \/ sl_start sl + sl_len sl <= j ->
    bv_get_bit (bm_bv M) (sl_data sl') j = bv_get_bit (bm_bv M) (sl_data sl) j.
Proof.
  intros T c M R ops sl sl' l Hc LB LM HR Hl Hops Hw.
  enough (exists l', R (sl_data sl') l' /\ lengthN l' = lengthN l /\
    (forall j, j < sl_start sl \/ sl_start sl + sl_len sl <= j -> nthN l' j = nthN l j)) as [l' [HR' [El Ej]]].
  { rewrite (lb_bit_len _ _ _ LB _ _ HR), (lb_bit_len _ _ _ LB _ _ HR'), El. split; [reflexivity|].
    intros j Hj Ho. destruct (nthN_Some l j Hj) as [b Eb]. rewrite (lb_get_bit _ _ _ LB _ l j b HR Eb).
    apply (lb_get_bit _ _ _ LB _ l' j b HR'). rewrite Ej by assumption. exact Eb. }
  assert (Hsb : forall sl l p n v sl2, R (sl_data sl) l -> sl_start sl + sl_len sl <= lengthN l ->
    n <= bv_nb (bm_bv M) -> v < 2 ^ bv_nb (bm_bv M) -> 1 <= n \/ p < sl_len sl ->
    slice_set_bits c M sl p n v = Ok sl2 ->
    sl_start sl2 = sl_start sl /\ sl_len sl2 = sl_len sl /\ exists l2, R (sl_data sl2) l2 /\ lengthN l2 = lengthN l /\
    (forall j, j < sl_start sl \/ sl_start sl + sl_len sl <= j -> nthN l2 j = nthN l j)).
  { intros sl0 l0 p n v sl2 H0 Hl0 Hn Hv H1 E.
    destruct (C26_slice_write T c M R sl0 l0 Hc LB LM H0 Hl0) as [_ [_ [W Wo]]].
    destruct (N.le_gt_cases (p + n) (sl_len sl0)) as [Hp|Hp].
    - destruct (W p n v Hp Hn Hv H1) as [sl3 [E3 [Es [En HR3]]]]. rewrite E in E3. injection E3 as <-.
      split; [exact Es|]. split; [exact En|]. exists (put (sl_start sl0 + p) (bits_of n v) l0).
      assert (sl_start sl0 + p + lengthN (bits_of n v) <= lengthN l0) by (rewrite lengthN_bits_of; lia).
      split; [exact HR3|]. split; [now apply lengthN_put|]. intros j Hj. rewrite nthN_put by assumption.
      rewrite lengthN_bits_of. replace ((sl_start sl0 + p <=? j) && (j <? sl_start sl0 + p + n)) with false by lia. reflexivity.
    - destruct (Wo p n v Hp) as [pk Ep]. rewrite E in Ep. discriminate. }
  revert sl l HR Hl Hops Hw. induction ops as [|o ops IH]; intros sl l HR Hl Hops Hw; cbn [writes] in Hw.
  - injection Hw as <-. exists l. auto.
  - inversion Hops as [|? ? Ho Hops']; subst.
    destruct (wstep c M sl o) as [sl2| |] eqn:E; cbn [bind] in Hw; try discriminate.
    assert (K : sl_start sl2 = sl_start sl /\ sl_len sl2 = sl_len sl /\ exists l2, R (sl_data sl2) l2 /\ lengthN l2 = lengthN l /\
      (forall j, j < sl_start sl \/ sl_start sl + sl_len sl <= j -> nthN l2 j = nthN l j)).
    { destruct o as [i b|p n v|j v]; cbn [wstep wop_ok] in *.
      - destruct (C26_slice_write T c M R sl l Hc LB LM HR Hl) as [W [Wo _]].
        destruct (N.lt_ge_cases i (sl_len sl)) as [Hi|Hi].
        + destruct (W i b Hi) as [sl3 [E3 [Es [En HR3]]]]. rewrite E in E3. injection E3 as <-.
          split; [exact Es|]. split; [exact En|]. exists (updN l (sl_start sl + i) b). split; [exact HR3|].
          split; [apply lengthN_updN|]. intros j Hj. rewrite nthN_updN. destruct (j =? sl_start sl + i) eqn:Ej; [lia|reflexivity].
        + destruct (Wo i b Hi) as [pk Ep]. rewrite E in Ep. discriminate.
      - destruct Ho as [H1 [H2 H3]]. eapply Hsb; eauto.
      - unfold slice_set_block in E. destruct (mul_nbits c (bv_nb (bm_bv M)) j) as [m| |]; cbn [bind] in E; try discriminate.
        pose proof (wf_nb_range _ (lb_nb _ _ _ LB)). eapply Hsb; eauto; lia. }
    destruct K as [Es [En [l2 [HR2 [El2 Ej2]]]]].
    destruct (IH sl2 l2) as [l' [HR' [El' Ej']]]; auto; try (rewrite ?Es, ?En, ?El2; assumption).
    exists l'. split; [exact HR'|]. split; [congruence|]. intros j Hj. rewrite Ej' by (rewrite Es, En; exact Hj). now apply Ej2.
Qed.
Example C26_ex : exists sl sl',
  slice_new (blocks_bitvec dbg64 8) [181; 7; 255] (Range 5 13) = Ok sl /\
  writes dbg64 (blocks_bitvecmut dbg64 8) sl [WBit 0 false; WBits 2 5 9; WBlock 0 170; WBit 7 true] = Ok sl' /\
  sl_data sl' = [85; 21; 255] /\
  writes dbg64 (blocks_bitvecmut dbg64 8) sl [WBit 0 false; WBits 4 5 9] = Panic PAssert.
Proof. do 2 eexists. repeat (split; [vm_compute; reflexivity|]). vm_compute. reflexivity. Qed.

(** ** C27: slicing a slice.  [B] can be any bit vector. *)
Theorem C27_nested : forall T c (B : bitvec T) (R : T -> list bool -> Prop) t l a b r x y,
  wf_cfg c -> lawful_bits c B R -> R t l ->
  a <= b -> b <= lengthN l -> bounds r (b - a) = (x, y) -> y <= b - a -> a + x < 2 ^ 64 ->
  exists s1 s2 s3,
    slice_new B t (Range a b) = Ok s1 /\
    slice_slice c s1 r = Ok s2 /\
    slice_new B t (Range (a + x) (a + y)) = Ok s2 /\
    slice_new (slice_bitvec c B) s1 r = Ok s3 /\
    slice_bit_len s3 = slice_bit_len s2 /\
    (forall i, slice_get_bit c (slice_bitvec c B) s3 i = slice_get_bit c B s2 i) /\
    (forall p n, x <= y \/ 1 <= n -> slice_get_bits c (slice_bitvec c B) s3 p n = slice_get_bits c B s2 p n).
Proof.
  intros T c B R t l a b r x y Hc LB HR Hab Hb Hr Hy Hx.
  pose proof (base_63 c B R Hc LB t l HR) as H63.
  set (s1 := {| sl_data := t; sl_start := a; sl_len := b - a |}).
  set (s2 := {| sl_data := t; sl_start := a + x; sl_len := y - x |}).
  set (s3 := {| sl_data := s1; sl_start := x; sl_len := y - x |}).
  exists s1, s2, s3.
  assert (Hi : into_range r 0 (b - a) = (x, y)) by (destruct r; exact Hr).
  split; [unfold slice_new; rewrite (lb_bit_len _ _ _ LB t l HR); cbn [bind into_range]; rewrite assert_true by lia; reflexivity|].
  split; [unfold slice_slice; cbn [s1 sl_len sl_start sl_data]; rewrite Hi, assert_true by lia; cbn [bind];
    rewrite wadd_ok by lia; reflexivity|].
  split; [unfold slice_new; rewrite (lb_bit_len _ _ _ LB t l HR); cbn [bind into_range]; rewrite assert_true by lia; cbn [bind];
    unfold s2; f_equal; f_equal; unfold saturating_sub; lia|].
  split; [unfold slice_new; cbn [slice_bitvec bv_bit_len]; unfold slice_bit_len; cbn [bind s1 sl_len]; rewrite Hi, assert_true by lia; reflexivity|].
  split; [reflexivity|]. split.
  - intros i. unfold slice_get_bit at 1. cbn [s3 sl_len sl_start sl_data slice_bitvec bv_get_bit].
    unfold slice_get_bit at 2. cbn [s2 sl_len sl_start sl_data].
    destruct (i <? y - x) eqn:E; [|reflexivity]. cbn [assert_ bind].
    rewrite !wadd_ok by lia. cbn [bind]. unfold slice_get_bit. cbn [s1 sl_len sl_start sl_data].
    rewrite assert_true by lia. cbn [bind]. rewrite wadd_ok by lia. cbn [bind]. now rewrite N.add_assoc.
  - intros p n Hn. unfold slice_get_bits at 1. cbn [s3 sl_len sl_start sl_data slice_bitvec bv_get_bits].
    unfold slice_get_bits at 2. cbn [s2 sl_len sl_start sl_data].
    unfold checked_add. destruct (p + n <? 2 ^ 64) eqn:E0; [|reflexivity]. cbn [expect bind].
    destruct (p + n <=? y - x) eqn:E; [|reflexivity]. cbn [assert_ bind].
    rewrite !wadd_ok by lia. cbn [bind]. unfold slice_get_bits, checked_add. cbn [s1 sl_len sl_start sl_data].
    destruct (x + p + n <? 2 ^ 64) eqn:E1; [|lia]. cbn [expect bind].
    rewrite assert_true by lia. cbn [bind]. rewrite wadd_ok by lia. cbn [bind]. now rewrite N.add_assoc.
Qed.
(** A range that ends after the slice is refused, even if the base is long enough. *)
Theorem C27_outside : forall T c (B : bitvec T) (R : T -> list bool -> Prop) t l a b r x y,
  lawful_bits c B R -> R t l ->
  a <= b -> b <= lengthN l -> bounds r (b - a) = (x, y) -> b - a < y ->
  exists s1, slice_new B t (Range a b) = Ok s1 /\
    panics (slice_slice c s1 r) /\ panics (slice_new (slice_bitvec c B) s1 r).
Proof.
  intros T c B R t l a b r x y LB HR Hab Hb Hr Hy.
  set (s1 := {| sl_data := t; sl_start := a; sl_len := b - a |}). exists s1.
  assert (Hi : into_range r 0 (b - a) = (x, y)) by (destruct r; exact Hr).
  split; [unfold slice_new; rewrite (lb_bit_len _ _ _ LB t l HR); cbn [bind into_range]; rewrite assert_true by lia; reflexivity|].
  split; exists PAssert.
  - unfold slice_slice. cbn [s1 sl_len]. rewrite Hi. destruct (N.leb_spec y (b - a)); [lia|reflexivity].
  - unfold slice_new. cbn [slice_bitvec bv_bit_len]. unfold slice_bit_len. cbn [bind s1 sl_len]. rewrite Hi.
    destruct (N.leb_spec y (b - a)); [lia|reflexivity].
Qed.
Example C27_ex : exists s1 s2,
  slice_new (blocks_bitvec rel64 8) [181; 7; 255] (Range 3 20) = Ok s1 /\
  slice_slice rel64 s1 (RangeTo 9) = Ok s2 /\ slice_bit_len s2 = Ok 9 /\
  slice_get_bits rel64 (blocks_bitvec rel64 8) s2 1 8 = Ok 123 /\
  panics (slice_slice rel64 s1 (Range 0 18)).
Proof.
  do 2 eexists. repeat (split; [vm_compute; reflexivity|]). eexists. vm_compute. reflexivity.
Qed.

(** ** C28: blocks of a slice.  Whole blocks can be read and written; a partial last block cannot. *)
Theorem C28_blocks_partial : forall T c (M : bitvecmut T) (R : T -> list bool -> Prop) sl l j v,
  wf_cfg c -> lawful_bits c (bm_bv M) R -> lawful_mut c M R ->
  R (sl_data sl) l -> sl_start sl + sl_len sl <= lengthN l ->
  let nb := bv_nb (bm_bv M) in
  slice_block_len c (bm_bv M) sl = Ok (blocks_for nb (sl_len sl)) /\
  ((j + 1) * nb <= sl_len sl -> v < 2 ^ nb ->
    slice_get_block c (bm_bv M) sl j = Ok (int_of (sub (sl_start sl + j * nb) nb l)) /\
    exists sl', slice_set_block c M sl j v = Ok sl' /\ sl_start sl' = sl_start sl /\ sl_len sl' = sl_len sl /\
      R (sl_data sl') (put (sl_start sl + j * nb) (bits_of nb v) l)).
Proof.
  intros T c M R sl l j v Hc LB LM HR Hl nb. pose proof (lb_nb _ _ _ LB) as Hnb. fold nb in Hnb.
  pose proof (wf_nb_range nb Hnb). pose proof (base_63 c (bm_bv M) R Hc LB _ _ HR) as H63.
  assert (HS : R_slice R sl (sub (sl_start sl) (sl_len sl) l)) by (left; exists l; auto).
  pose proof (R_slice_len c (bm_bv M) R Hc LB sl _ HS) as El. split.
  - rewrite (slice_block_len_ok c (bm_bv M) R Hc LB sl _ HS). now rewrite El.
  - intros Hj Hv. split.
    + rewrite (slice_get_block_ok c (bm_bv M) R Hc LB sl _ j HS) by (fold nb; lia). fold nb. unfold block_of. now rewrite sub_sub by lia.
    + unfold slice_set_block. fold nb. rewrite mul_nbits_ok by (auto; lia). cbn [bind].
      apply (slice_set_bits_base c M R Hc LB LM); auto; fold nb; try lia.
Qed.
Theorem C28_blocks_refuted : exists sl j n,
  slice_new (blocks_bitvec dbg64 8) [181; 7; 255] (Range 4 19) = Ok sl /\
  slice_block_len dbg64 (blocks_bitvec dbg64 8) sl = Ok n /\ j < n /\
  panics (slice_get_block dbg64 (blocks_bitvec dbg64 8) sl j) /\
  panics (slice_set_block dbg64 (blocks_bitvecmut dbg64 8) sl j 1).
Proof.
  exists {| sl_data := [181; 7; 255]; sl_start := 4; sl_len := 15 |}, 1, 2.
  split; [vm_compute; reflexivity|]. split; [vm_compute; reflexivity|]. split; [lia|].
  split; eexists; vm_compute; reflexivity.
Qed.
Example C28_ex :
  slice_get_block dbg64 (blocks_bitvec dbg64 8) {| sl_data := [181; 7; 255]; sl_start := 4; sl_len := 15 |} 0 = Ok 123.
Proof. vm_compute. reflexivity. Qed.

(** ** C63 for slices *)
Theorem C63_slice_block_index_partial : forall T c (M : bitvecmut T) (R : T -> list bool -> Prop) sl l j v,
  wf_cfg c -> lawful_bits c (bm_bv M) R ->
  R (sl_data sl) l -> sl_start sl + sl_len sl <= lengthN l ->
  sl_len sl <= j * bv_nb (bm_bv M) -> j < 2 ^ ptr c -> j * bv_nb (bm_bv M) < 2 ^ 64 ->
  panics (slice_get_block c (bm_bv M) sl j) /\ panics (slice_set_block c M sl j v).
Proof.
  intros T c M R sl l j v Hc LB HR Hl Hj Hp H64. pose proof (lb_nb _ _ _ LB) as Hnb.
  pose proof (wf_nb_range _ Hnb). split.
  - unfold slice_get_block. rewrite mul_nbits_ok by auto. cbn [bind]. apply slice_get_bits_oob. lia.
  - unfold slice_set_block. rewrite mul_nbits_ok by auto. cbn [bind]. apply slice_set_bits_oob. lia.
Qed.
Theorem C63_slice_block_index_refuted : exists sl sl' j,
  slice_new (blocks_bitvec dbg64 8) [181; 7; 255] (Range 4 19) = Ok sl /\
  slice_block_len dbg64 (blocks_bitvec dbg64 8) sl = Ok 2 /\ 2 <= j /\ j < 2 ^ ptr dbg64 /\
  slice_get_block dbg64 (blocks_bitvec dbg64 8) sl j = Ok 123 /\
  slice_set_block dbg64 (blocks_bitvecmut dbg64 8) sl j 0 = Ok sl' /\ sl_data sl' = [5; 0; 255].
Proof.
  exists {| sl_data := [181; 7; 255]; sl_start := 4; sl_len := 15 |}, {| sl_data := [5; 0; 255]; sl_start := 4; sl_len := 15 |}, (2 ^ 61).
  repeat (split; [first [vm_compute; reflexivity|vm_compute; congruence]|]). reflexivity.
Qed.
Example C63_slice_ex :
  panics (slice_get_block dbg64 (blocks_bitvec dbg64 8) {| sl_data := [181; 7; 255]; sl_start := 4; sl_len := 15 |} (2 ^ 61 - 1)).
Proof. eexists. vm_compute. reflexivity. Qed.

Print Assumptions C25_slice_reads.
Print Assumptions C26_slice_write.
Print Assumptions C26_frame.
Print Assumptions C27_nested.
Print Assumptions C27_outside.
Print Assumptions C28_blocks_partial.
Print Assumptions C28_blocks_refuted.
Print Assumptions C63_slice_block_index_partial.
Print Assumptions C63_slice_block_index_refuted.
