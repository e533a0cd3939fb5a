(** * Rank structures over slices. *)
From Verif Require Import Machine MStorage MTraits MBitSlice MRank SpecBits SpecLaws SpecRank
  PBase PBits PBlocks PSlice PRank PRank9.

(** Two loops that agree up to the last step, where the second fails. *)
Lemma for_loop_last_panics {S} (f g : N -> S -> res S) n a s r :
  (forall i t, a <= i -> i < a + N.of_nat n -> g i t = f i t) ->
  (forall t t', f (a + N.of_nat n) t = Ok t' -> panics (g (a + N.of_nat n) t)) ->
  for_loop (Datatypes.S n) a f s = Ok r -> panics (for_loop (Datatypes.S n) a g s).
Proof.
  revert a s. induction n as [|n IH]; intros a s Hag Hl E.
  - cbn [for_loop] in *. destruct (f a s) as [t'| |] eqn:Ef; try discriminate.
    apply bind_panics. change (N.of_nat 0) with 0 in Hl. rewrite N.add_0_r in Hl. exact (Hl s t' Ef).
  - change (for_loop (Datatypes.S (Datatypes.S n)) a f s) with (bind (f a s) (for_loop (Datatypes.S n) (a + 1) f)) in E.
    change (for_loop (Datatypes.S (Datatypes.S n)) a g s) with (bind (g a s) (for_loop (Datatypes.S n) (a + 1) g)).
    rewrite Hag by lia. destruct (f a s) as [t'| |] eqn:Ef; cbn [bind] in *; try discriminate.
    apply IH; auto.
    + intros i t H1 H2. apply Hag; lia.
    + intros t t''. replace (a + 1 + N.of_nat n) with (a + N.of_nat (Datatypes.S n)) by lia. apply Hl.
Qed.
Lemma for_range_last_panics {S} (f g : N -> S -> res S) b s r : 1 <= b ->
  (forall i t, i < b - 1 -> g i t = f i t) -> (forall t t', f (b - 1) t = Ok t' -> panics (g (b - 1) t)) ->
  for_range 0 b f s = Ok r -> panics (for_range 0 b g s).
Proof.
  intros Hb Ha Hl. unfold for_range. replace (N.to_nat (b - 0)) with (Datatypes.S (N.to_nat (b - 1))) by lia.
  apply for_loop_last_panics.
  - intros i t _ Hi. apply Ha. lia.
  - intros t t'. replace (0 + N.of_nat (N.to_nat (b - 1))) with (b - 1) by lia. apply Hl.
Qed.
Lemma for_loop_last_panics' {S} (f g : N -> S -> res S) n a s :
  (forall i t, a <= i -> i < a + N.of_nat n -> g i t = f i t) ->
  (forall t, panics (f (a + N.of_nat n) t) -> panics (g (a + N.of_nat n) t)) ->
  (forall t t', f (a + N.of_nat n) t = Ok t' -> panics (g (a + N.of_nat n) t)) ->
  panics (for_loop (Datatypes.S n) a f s) -> panics (for_loop (Datatypes.S n) a g s).
Proof.
  revert a s. induction n as [|n IH]; intros a s Hag Hp Hl E.
  - cbn [for_loop] in *. change (N.of_nat 0) with 0 in Hl, Hp. rewrite N.add_0_r in Hl, Hp. apply bind_panics. destruct (f a s) as [t'| |] eqn:Ef.
    + exact (Hl s t' Ef). + apply Hp. rewrite Ef. apply panics_Panic. + destruct E as [k E]. discriminate E.
  - change (for_loop (Datatypes.S (Datatypes.S n)) a f s) with (bind (f a s) (for_loop (Datatypes.S n) (a + 1) f)) in E.
    change (for_loop (Datatypes.S (Datatypes.S n)) a g s) with (bind (g a s) (for_loop (Datatypes.S n) (a + 1) g)).
    rewrite Hag by lia. destruct (f a s) as [t'| |] eqn:Ef; cbn [bind] in *; [|apply panics_Panic|exact E].
    apply IH; auto.
    + intros i t H1 H2. apply Hag; lia.
    + intros t. replace (a + 1 + N.of_nat n) with (a + N.of_nat (Datatypes.S n)) by lia. apply Hp.
    + intros t t''. replace (a + 1 + N.of_nat n) with (a + N.of_nat (Datatypes.S n)) by lia. apply Hl.
Qed.
(** Two loops that agree up to the last step, where the second fails whether or not the first does. *)
Lemma for_range_last_panics' {S} (f g : N -> S -> res S) b s : 1 <= b ->
  (forall i t, i < b - 1 -> g i t = f i t) -> (forall t, panics (f (b - 1) t) -> panics (g (b - 1) t)) ->
  (forall t t', f (b - 1) t = Ok t' -> panics (g (b - 1) t)) ->
  panics (for_range 0 b f s) -> panics (for_range 0 b g s).
Proof.
  intros Hb Ha Hp Hl. unfold for_range. replace (N.to_nat (b - 0)) with (Datatypes.S (N.to_nat (b - 1))) by lia.
  apply for_loop_last_panics'.
  - intros i t _ Hi. apply Ha. lia.
  - intros t. replace (0 + N.of_nat (N.to_nat (b - 1))) with (b - 1) by lia. apply Hp.
  - intros t t'. replace (0 + N.of_nat (N.to_nat (b - 1))) with (b - 1) by lia. apply Hl.
Qed.

Section Slices.
  Context {T : Type} (c : cfg) (B : bitvec T) (R : T -> list bool -> Prop).
  Hypothesis Hc : wf_cfg c.
  Hypothesis LB : lawful_bits c B R.
  Let nb := bv_nb B.
  Let Hnb : wf_nb nb := lb_nb _ _ _ LB.
  Let nb_range := wf_nb_range nb Hnb.
  Let SB := slice_bitvec c B.

  (** Slices of whole blocks. *)
  Definition R_whole (sl : slice T) (l : list bool) : Prop := R_slice R sl l /\ lengthN l mod nb = 0.
  Lemma whole_bits : lawful_bits c SB R_whole.
  Proof.
    pose proof (slice_lawful_bits c B R Hc LB) as [H1 H2 H3 H4 H5 H6 H7].
    constructor; auto; intros sl l; intros; match goal with H : R_whole _ _ |- _ => destruct H as [H _] end; eauto.
  Qed.
  Lemma whole_reads : lawful_block_reads SB R_whole.
  Proof.
    constructor; cbn [SB slice_bitvec bv_nb bv_block_len bv_get_block]; fold nb.
    - intros sl l [H _]. exact (slice_block_len_ok c B R Hc LB sl l H).
    - intros sl l i [H Hm] Hi. apply (slice_get_block_ok c B R Hc LB sl l i H). fold nb.
      pose proof (N.div_mod (lengthN l) nb ltac:(lia)) as E. rewrite Hm in E. set (q := lengthN l / nb) in *. clearbody q. rewrite N.mul_comm, N.add_0_r in E. rewrite E in Hi |- *.
      assert (i < q) by (apply (N.mul_lt_mono_pos_r nb); lia). apply N.mul_le_mono_r. lia.
  Qed.

  (** The bits of one slice, with all blocks readable. *)
  Section One.
    Variable sl : slice T.
    Variable l : list bool.
    Hypothesis HS : R_slice R sl l.
    Definition ideal : bitvec (slice T) := {|
      bv_nb := nb; bv_bit_len := bv_bit_len SB; bv_block_len := bv_block_len SB; bv_get_bit := bv_get_bit SB;
      bv_get_block := fun _ i => Ok (block_of nb i l); bv_get_bits := bv_get_bits SB |}.
    Definition only (t : slice T) (k : list bool) : Prop := t = sl /\ k = l.
    Lemma ideal_bits : lawful_bits c ideal only.
    Proof.
      pose proof (slice_lawful_bits c B R Hc LB) as [H1 H2 H3 H4 H5 H6 H7].
      constructor; auto; intros t k; intros; match goal with H : only _ _ |- _ => destruct H as [-> ->] end;
        cbn [ideal bv_nb bv_bit_len bv_get_bit bv_get_bits] in *; eauto.
    Qed.
    Lemma ideal_reads : lawful_block_reads ideal only.
    Proof.
      constructor; cbn [ideal bv_nb bv_block_len bv_get_block].
      - intros t k [-> ->]. exact (slice_block_len_ok c B R Hc LB sl l HS).
      - intros t k i [-> ->] _. reflexivity.
    Qed.
    Lemma last_block : lengthN l mod nb <> 0 -> 1 <= blocks_for nb (lengthN l) /\
      (forall i, i < blocks_for nb (lengthN l) - 1 -> slice_get_block c B sl i = Ok (block_of nb i l)) /\
      panics (slice_get_block c B sl (blocks_for nb (lengthN l) - 1)).
    Proof.
      intros Hm. pose proof (blocks_for_spec nb (lengthN l) ltac:(lia)) as Hb.
      pose proof (R_slice_fits c B R Hc LB sl l HS) as Hf. apply fits_lt64 in Hf; [|fold nb; lia].
      set (n := lengthN l) in *. set (b := blocks_for nb n) in *. clearbody b.
      assert (Hb1 : 1 <= b) by (destruct (N.eq_dec b 0) as [->|]; [rewrite N.mul_0_l in Hb; assert (n = 0) by lia; clearbody n; subst n; rewrite N.mod_0_l in Hm by lia; lia|lia]).
      assert (Hlt : n < b * nb).
      { assert (n <> b * nb); [intros E; apply Hm; rewrite E; apply N.mod_mul; lia|lia]. }
      split; [exact Hb1|]. split.
      - intros i Hi. apply (slice_get_block_ok c B R Hc LB sl l i HS). fold nb n. clear - Hi Hb Hb1 nb_range. nia.
      - apply (slice_get_block_oob c B R Hc LB sl l (b - 1) HS); fold nb n; clear - Hlt Hb Hb1 nb_range Hf; nia.
    Qed.
    Lemma rank9_slice_panics : nb = 64 -> lengthN l mod nb <> 0 -> panics (rank9_new c SB sl).
    Proof.
      intros H64 Hm. destruct (last_block Hm) as (Hb1 & Hag & Hla).
      destruct (rank9_new_ok c ideal only Hc ideal_bits ideal_reads H64 sl l (conj eq_refl eq_refl)) as (r & Er & _).
      unfold rank9_new in Er |- *. cbn [ideal bv_block_len] in Er.
      cbn [SB slice_bitvec bv_block_len bv_get_block] in Er |- *. rewrite (slice_block_len_ok c B R Hc LB sl l HS) in Er |- *.
      fold nb in Er |- *. set (b := blocks_for nb (lengthN l)) in *. cbn [bind] in Er |- *.
      destruct (ceil_div c (ptr c) b 8) as [bb| |]; cbn [bind] in *; try discriminate.
      destruct (wadd c (ptr c) bb 1) as [cap| |]; cbn [bind] in *; try discriminate.
      destruct (alloc c 128 cap) as [u| |]; cbn [bind] in *; try discriminate.
      match type of Er with bind ?m _ = _ => destruct m as [st| |] eqn:Ef; try discriminate Er end.
      apply bind_panics. eapply for_range_last_panics; [exact Hb1| | |exact Ef].
      - intros i [[res l1] l2] Hi. cbn [ideal bv_get_block]. now rewrite Hag.
      - intros [[res l1] l2] t' Et. destruct (store_counts c (b - 1) res l1 l2) as [[res' l2']| |]; cbn [bind] in *; try discriminate.
        now apply bind_panics.
    Qed.
    Lemma jac_slice_panics : lengthN l mod nb <> 0 -> panics (jacobson_new c SB sl).
    Proof.
      intros Hm. destruct (N.le_gt_cases (lengthN l) 1) as [H1|H1].
      { apply (jac_new_small c SB (R_slice R) sl l Hc (slice_lawful_bits c B R Hc LB) HS H1). }
      destruct (last_block Hm) as (Hb1 & Hag & Hla).
      assert (Er : exists r, jacobson_new c ideal sl = r /\ r <> OutOfFuel).
      { eexists. split; [reflexivity|]. destruct (jac_new_exact c ideal only Hc ideal_bits ideal_reads sl l (conj eq_refl eq_refl) ltac:(lia)) as [(r & -> & _)|[[k ->] _]]; discriminate. }
      destruct Er as (r & Er & Hr). unfold jacobson_new in Er |- *.
      change (bv_bit_len ideal sl) with (bv_bit_len SB sl) in Er. change (bv_block_len ideal sl) with (slice_block_len c B sl) in Er.
      change (bv_block_len SB sl) with (slice_block_len c B sl). change (bv_nb ideal) with (bv_nb SB) in Er.
      repeat match type of Er with
        | bind (for_range _ _ _ _) _ = _ => fail 1
        | bind (slice_block_len _ _ _) _ = _ => rewrite (slice_block_len_ok c B R Hc LB sl l HS) in Er |- *; cbn [bind] in Er |- *
        | bind ?m _ = _ => destruct m; cbn [bind] in Er |- *; [|apply panics_Panic|congruence]
        end.
      fold nb in Er |- *. set (b := blocks_for nb (lengthN l)) in *.
      apply bind_panics.
      match type of Er with bind ?m _ = _ => destruct m as [st|k|] eqn:Ef; [eapply for_range_last_panics; [exact Hb1| | |exact Ef]| |cbn [bind] in Er; congruence] end.
      3: match type of Ef with for_range _ _ ?f ?s = _ => apply (for_range_last_panics' f); [exact Hb1| | | |rewrite Ef; apply panics_Panic] end.
      1, 3: intros i [[[[large small] cur] last] sbi] Hi; cbn [ideal bv_get_block SB slice_bitvec]; now rewrite Hag.
      1, 3: intros [[[[large small] cur] last] sbi] t' Et; cbn [ideal bv_get_block SB slice_bitvec] in Et |- *;
        match type of Et with bind ?m _ = _ => destruct m as [[lg la]| |]; cbn [bind] in *; try discriminate end;
        match type of Et with bind ?m _ = _ => destruct m; cbn [bind] in *; try discriminate end;
        match type of Et with bind ?m _ = _ => destruct m; cbn [bind] in *; try discriminate end;
        now apply bind_panics.
      intros [[[[large small] cur] last] sbi] Et. cbn [ideal bv_get_block SB slice_bitvec] in Et |- *.
      match type of Et with panics (bind ?m _) => destruct m as [[lg la]| |]; cbn [bind] in *; [|apply panics_Panic|exact Et] end.
      match type of Et with panics (bind ?m _) => destruct m; cbn [bind] in *; [|apply panics_Panic|exact Et] end.
      match type of Et with panics (bind ?m _) => destruct m; cbn [bind] in *; [|apply panics_Panic|exact Et] end.
      now apply bind_panics.
    Qed.
  End One.
End Slices.
