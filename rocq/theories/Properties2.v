(** * Properties C09-C12: vectors of blocks and [Vec<bool>] as bit sequences
    (src/bit_vec/traits.rs, src/bit_vec/prim.rs). *)
From Verif Require Import PBase PBits PBlocks PDefaults SpecCfg.

(** ** C09: all the readers read the sequence [bits_of_blocks nb v]. *)
Theorem C09_blocks_read : forall c nb v,
  wf_cfg c -> wf_nb nb -> valid_blocks c nb v ->
  let l := bits_of_blocks nb v in
  blocks_bit_len c nb v = Ok (lengthN l) /\
  blocks_block_len v = Ok (lengthN v) /\
  (forall i b, nthN l i = Some b -> blocks_get_bit c nb v i = Ok b) /\
  (forall i b, nthN v i = Some b -> blocks_get_block v i = Ok b /\ b = int_of (sub (i * nb) nb l)) /\
  (forall s n, s + n <= lengthN l -> 1 <= n <= nb -> blocks_get_bits c nb v s n = Ok (int_of (sub s n l))).
Proof.
  intros c nb v Hc Hnb Hv l. pose proof (wf_nb_range nb Hnb) as Hr.
  pose proof (R_blocks_valid c nb v ltac:(lia) Hv) as HR. fold l in HR.
  repeat apply conj.
  - now apply blocks_bit_len_ok.
  - reflexivity.
  - intros i b Hi. eapply blocks_get_bit_ok; eauto.
  - intros i b Hi. split; [now apply index_Some|].
    destruct HR as [E _]. rewrite E, nthN_pack in Hi. destruct (_ <? _); [|discriminate].
    injection Hi as <-. reflexivity.
  - intros s n H1 H2. eapply blocks_get_bits_ok; eauto; lia.
Qed.

Theorem C09_out_of_bounds : forall c nb v,
  wf_cfg c -> wf_nb nb -> valid_blocks c nb v ->
  let l := bits_of_blocks nb v in
  (forall i, lengthN l <= i -> panics (blocks_get_bit c nb v i)) /\
  (forall i, lengthN v <= i -> panics (blocks_get_block v i)) /\
  (forall s n, s < 2 ^ 64 -> n < 2 ^ ptr c -> lengthN l < s + n -> panics (blocks_get_bits c nb v s n)).
Proof.
  intros c nb v Hc Hnb Hv l. pose proof (wf_nb_range nb Hnb) as Hr.
  pose proof (R_blocks_valid c nb v ltac:(lia) Hv) as HR. fold l in HR.
  repeat apply conj.
  - intros i Hi. eapply blocks_get_bit_oob; eauto.
  - intros i Hi. unfold blocks_get_block. rewrite index_None by assumption. auto.
  - intros s n H1 H2 H3. eapply blocks_get_bits_oob; eauto.
Qed.

Example C09_ex : valid_blocks rel32 8 [181; 7; 255] /\
  blocks_get_bits rel32 8 [181; 7; 255] 5 6 = Ok 61 /\
  int_of (sub 5 6 (bits_of_blocks 8 [181; 7; 255])) = 61 /\
  blocks_get_bit rel32 8 [181; 7; 255] 8 = Ok true /\
  blocks_get_bits rel32 8 [181; 7; 255] 20 5 = Panic PAssert.
Proof. repeat split; try (vm_compute; congruence). repeat constructor. Qed.

(** ** C10: writes replace exactly their span. *)
Theorem C10_blocks_write : forall c nb v,
  wf_cfg c -> wf_nb nb -> valid_blocks c nb v ->
  let l := bits_of_blocks nb v in
  (forall i b, i < lengthN l -> exists v', blocks_set_bit c nb v i b = Ok v' /\
     valid_blocks c nb v' /\ lengthN v' = lengthN v /\ bits_of_blocks nb v' = updN l i b) /\
  (forall i x, i < lengthN v -> x < 2 ^ nb -> exists v', blocks_set_block v i x = Ok v' /\
     valid_blocks c nb v' /\ lengthN v' = lengthN v /\ bits_of_blocks nb v' = put (i * nb) (bits_of nb x) l) /\
  (forall s n x, s + n <= lengthN l -> 1 <= n <= nb -> x < 2 ^ nb ->
     exists v', blocks_set_bits c nb v s n x = Ok v' /\
     valid_blocks c nb v' /\ lengthN v' = lengthN v /\ bits_of_blocks nb v' = put s (bits_of n x) l).
Proof.
  intros c nb v Hc Hnb Hv l. pose proof (wf_nb_range nb Hnb) as Hr.
  pose proof (R_blocks_valid c nb v ltac:(lia) Hv) as HR. fold l in HR.
  assert (Hlen : lengthN l = lengthN v * nb) by apply lengthN_bits_of_blocks.
  assert (K : forall v' l', R_blocks c nb v' l' -> lengthN l' = lengthN l ->
     valid_blocks c nb v' /\ lengthN v' = lengthN v /\ bits_of_blocks nb v' = l').
  { intros v' l' HR' E. destruct (R_blocks_inv c nb v' l' ltac:(lia) HR') as [H1 H2].
    repeat split; try apply H1; [|now symmetry].
    rewrite H2, lengthN_bits_of_blocks, Hlen in E. nia. }
  repeat apply conj.
  - intros i b Hi. destruct (blocks_set_bit_ok c nb Hc Hnb v l i b HR Hi) as [v' [H1 H2]].
    exists v'. split; [assumption|]. apply K; [assumption|]. apply lengthN_updN.
  - intros i x Hi Hx. destruct (blocks_set_block_ok c nb Hnb v l i x HR) as [v' [H1 H2]]; [nia|assumption|].
    exists v'. split; [assumption|].
    replace (set_block_of nb i x l) with (put (i * nb) (bits_of nb x) l) in H2.
    + apply K; [assumption|]. rewrite lengthN_put by (rewrite lengthN_bits_of; nia). reflexivity.
    + unfold set_block_of. rewrite firstnN_all; [reflexivity|]. rewrite lengthN_bits_of. nia.
  - intros s n x H1 H2 Hx. destruct (blocks_set_bits_ok c nb Hc Hnb v l s n x HR) as [v' [H3 H4]]; try lia.
    exists v'. split; [assumption|]. apply K; [assumption|]. rewrite lengthN_put by (rewrite lengthN_bits_of; lia). reflexivity.
Qed.

(** What [put] does, bit by bit: the frame condition of C10 in the plainest terms. *)
Theorem C10_put_spec : forall (l x : list bool) s i, s + lengthN x <= lengthN l ->
  nthN (put s x l) i = if (s <=? i) && (i <? s + lengthN x) then nthN x (i - s) else nthN l i.
Proof. intros. now apply nthN_put. Qed.

Theorem C10_out_of_bounds : forall c nb v x,
  wf_cfg c -> wf_nb nb -> valid_blocks c nb v ->
  let l := bits_of_blocks nb v in
  (forall i b, lengthN l <= i -> panics (blocks_set_bit c nb v i b)) /\
  (forall i, lengthN v <= i -> panics (blocks_set_block v i x)) /\
  (forall s n, s < 2 ^ 64 -> n < 2 ^ ptr c -> lengthN l < s + n -> panics (blocks_set_bits c nb v s n x)).
Proof.
  intros c nb v x Hc Hnb Hv l. pose proof (wf_nb_range nb Hnb) as Hr.
  pose proof (R_blocks_valid c nb v ltac:(lia) Hv) as HR. fold l in HR.
  repeat apply conj.
  - intros i b Hi. eapply blocks_set_bit_oob; eauto.
  - intros i Hi. unfold blocks_set_block. rewrite index_set_oob by assumption. auto.
  - intros s n H1 H2 H3. eapply blocks_set_bits_oob; eauto.
Qed.

Example C10_ex : valid_blocks dbg64 8 [181; 7; 255] /\
  blocks_set_bits dbg64 8 [181; 7; 255] 5 6 18 = Ok [85; 2; 255] /\
  put 5 (bits_of 6 18) (bits_of_blocks 8 [181; 7; 255]) = bits_of_blocks 8 [85; 2; 255] /\
  blocks_set_bit dbg64 8 [181; 7; 255] 8 false = Ok [181; 6; 255] /\
  blocks_set_bits dbg64 8 [181; 7; 255] 20 5 3 = Panic PAssert.
Proof. repeat split; try (vm_compute; congruence). repeat constructor. Qed.

(** ** C11: an empty span within bounds.  True except at the end of the vector. *)
Theorem C11_empty_span_partial : forall c nb v s x,
  wf_cfg c -> wf_nb nb -> valid_blocks c nb v -> x < 2 ^ nb -> s < lengthN (bits_of_blocks nb v) ->
  blocks_get_bits c nb v s 0 = Ok 0 /\ blocks_set_bits c nb v s 0 x = Ok v.
Proof.
  intros c nb v s x Hc Hnb Hv Hx Hs. pose proof (wf_nb_range nb Hnb) as Hr.
  pose proof (R_blocks_valid c nb v ltac:(lia) Hv) as HR. split.
  - erewrite blocks_get_bits_ok; eauto; try lia.
  - destruct (blocks_set_bits_ok c nb Hc Hnb v _ s 0 x HR) as [v' [H3 H4]]; try lia.
    rewrite H3. f_equal. change (bits_of 0 x) with (@nil bool) in H4. rewrite put_nil in H4 by lia.
    destruct H4 as [E4 _]. destruct HR as [E _]. congruence.
Qed.
Example C11_ex : valid_blocks rel64 8 [181; 7] /\ 15 < lengthN (bits_of_blocks 8 [181; 7]) /\
  blocks_get_bits rel64 8 [181; 7] 15 0 = Ok 0 /\ blocks_set_bits rel64 8 [181; 7] 15 0 9 = Ok [181; 7].
Proof. repeat split; try (vm_compute; congruence). repeat constructor. Qed.
Theorem C11_empty_span_refuted : exists c nb v s,
  wf_cfg c /\ wf_nb nb /\ valid_blocks c nb v /\ s <= lengthN (bits_of_blocks nb v) /\
  panics (blocks_get_bits c nb v s 0) /\ panics (blocks_set_bits c nb v s 0 0).
Proof.
  exists rel64, 8, [181; 7], 16. repeat split; auto with wf; try (vm_compute; congruence).
  - repeat constructor. - now exists PIndex. - now exists PIndex.
Qed.

(** ** C12: [Vec<bool>]. *)
Theorem C12_vecbool_read : forall c (l : list bool),
  wf_cfg c -> lengthN l * 8 <= max_bits c ->
  vb8_bit_len l = Ok (lengthN l) /\
  vb8_block_len c l = Ok (blocks_for 8 (lengthN l)) /\
  (forall i b, nthN l i = Some b -> vb8_get_bit c l i = Ok b) /\
  (forall i, i * 8 < lengthN l -> vb8_get_block c l i = Ok (int_of (sub (i * 8) 8 l))) /\
  (forall s n, s + n <= lengthN l -> 1 <= n <= 8 -> vb8_get_bits c l s n = Ok (int_of (sub s n l))).
Proof.
  intros c l Hc Hl. assert (HR : R_bools c l l) by now split. repeat apply conj.
  - reflexivity.
  - now apply vb8_block_len_ok.
  - intros. eapply vb8_get_bit_ok; eauto.
  - intros. eapply vb8_get_block_ok; eauto.
  - intros. eapply (lb_get_bits c _ _ (vecbool_lawful_bits c Hc)); eauto; cbn; lia.
Qed.

Theorem C12_vecbool_read_out_of_bounds : forall c (l : list bool),
  wf_cfg c -> lengthN l * 8 <= max_bits c ->
  (forall i, lengthN l <= i -> panics (vb8_get_bit c l i)) /\
  (forall i, lengthN l <= i * 8 -> panics (vb8_get_block c l i)) /\
  (forall s n, lengthN l < s + n -> s + n < 2 ^ 64 -> n < 2 ^ ptr c -> panics (vb8_get_bits c l s n)).
Proof.
  intros c l Hc Hl. assert (HR : R_bools c l l) by now split. repeat apply conj.
  - intros. eapply vb8_get_bit_oob; eauto.
  - intros. eapply vb8_get_block_oob; eauto.
  - intros. eapply (lb_get_bits_oob c _ _ (vecbool_lawful_bits c Hc)); eauto.
Qed.

Theorem C12_vecbool_write : forall c (l : list bool),
  wf_cfg c -> lengthN l * 8 <= max_bits c ->
  (forall i b, i < lengthN l -> vb8_set_bit c l i b = Ok (updN l i b)) /\
  (forall i x, i * 8 < lengthN l -> vb8_set_block c l i x =
     Ok (put (i * 8) (firstnN (lengthN l - i * 8) (bits_of 8 x)) l)) /\
  (forall s n x, s + n <= lengthN l -> 1 <= n <= 8 -> x < 2 ^ 8 ->
     vb8_set_bits c l s n x = Ok (put s (bits_of n x) l)).
Proof.
  intros c l Hc Hl. assert (HR : R_bools c l l) by now split. repeat apply conj.
  - intros i b Hi. destruct (vb8_set_bit_ok c Hc l l i b HR Hi) as [v' [-> [-> _]]]. reflexivity.
  - intros i x Hi. destruct (vb8_set_block_ok c Hc l l i x HR Hi) as [v' [-> [-> _]]]. reflexivity.
  - intros s n x H1 H2 Hx.
    destruct (lm_set_bits c _ _ (vecbool_lawful_mut c Hc) l l s n x HR) as [v' [H3 [-> _]]]; cbn; try lia.
    exact H3.
Qed.

(** [set_block] has no bounds check of its own: it relies on [set_bit] at the bit position
    [i * 8], computed by a shift that silently drops high bits (see C63). *)
Theorem C12_vecbool_write_out_of_bounds : forall c (l : list bool) x,
  wf_cfg c -> lengthN l * 8 <= max_bits c ->
  (forall i b, lengthN l <= i -> panics (vb8_set_bit c l i b)) /\
  (forall i, lengthN l <= i * 8 -> i < 2 ^ ptr c -> i * 8 < 2 ^ 64 -> panics (vb8_set_block c l i x)) /\
  (forall s n, lengthN l < s + n -> s + n < 2 ^ 64 -> n < 2 ^ ptr c -> panics (vb8_set_bits c l s n x)).
Proof.
  intros c l x Hc Hl. assert (HR : R_bools c l l) by now split. repeat apply conj.
  - intros. eapply vb8_set_bit_oob; eauto.
  - intros. eapply vb8_set_block_oob; eauto.
  - intros. eapply (lm_set_bits_oob c _ _ (vecbool_lawful_mut c Hc)); eauto.
Qed.

(** Pushing: a push panics only when memory is exhausted.  Fuel 8 is enough for
    [align_block] and [push_block]. *)
Theorem C12_vecbool_push : forall c (l : list bool),
  wf_cfg c -> lengthN l * 8 <= max_bits c ->
  let pad := padding 8 (lengthN l) in
  (forall b, agrees (vb8_push_bit c l b)
     (if (lengthN l + 1) * 8 <=? max_bits c then Some (l ++ [b]) else None)) /\
  (forall b fuel, (8 <= fuel)%nat -> agrees (bp_align_block (vecbool_bitvecpush c) fuel l b)
     (if (lengthN l + pad) * 8 <=? max_bits c then Some (l ++ repeatN b pad) else None)) /\
  (forall x fuel, (8 <= fuel)%nat -> agrees (bp_push_block (vecbool_bitvecpush c) fuel l x)
     (if (lengthN l + pad + 8) * 8 <=? max_bits c
      then Some (l ++ repeatN false pad ++ bits_of 8 x) else None)) /\
  (forall b l', l = l' ++ [b] -> vb8_pop_bit l = Ok (Some b, l')) /\
  (l = [] -> vb8_pop_bit l = Ok (None, l)).
Proof.
  intros c l Hc Hl pad. assert (HR : R_bools c l l) by now split.
  assert (Hpad : pad < 8) by (apply N.mod_lt; lia).
  assert (Hlen : forall t l0, R_bools c t l0 -> vb8_bit_len t = Ok (lengthN l0)) by (intros ? ? [-> _]; reflexivity).
  assert (Hmono : forall m n, m <= n -> room_bools c n -> room_bools c m) by (unfold room_bools; lia).
  assert (Hdec : forall n, room_bools c n \/ ~ room_bools c n) by (unfold room_bools; lia).
  repeat apply conj.
  - intros b. destruct (_ <=? _) eqn:E; cbn [agrees].
    + destruct (vb8_push_bit_ok c l l b HR) as [v' [-> [-> _]]]; [unfold room_bools; lia|reflexivity].
    + apply (vb8_push_bit_full c l l b HR). unfold room_bools; lia.
  - intros b fuel Hf. destruct (_ <=? _) eqn:E; cbn [agrees].
    + destruct (def_align_block c 8 Hc wf_nb_8 vb8_bit_len (vb8_push_bit c) (R_bools c) (room_bools c)
        Hlen (vb8_push_bit_ok c) Hmono fuel l l b HR) as [v' [H1 [-> _]]]; [fold pad; lia|unfold room_bools; fold pad; lia|].
      exact H1.
    + apply (def_align_block_full c 8 Hc wf_nb_8 vb8_bit_len (vb8_push_bit c) (R_bools c) (room_bools c)
        Hlen (vb8_push_bit_ok c) Hmono (vb8_push_bit_full c) Hdec fuel l l b HR); unfold room_bools; fold pad; lia.
  - intros x fuel Hf. destruct (_ <=? _) eqn:E; cbn [agrees].
    + destruct (def_push_block c 8 Hc wf_nb_8 vb8_bit_len (vb8_push_bit c) (R_bools c) (room_bools c)
        Hlen (vb8_push_bit_ok c) Hmono fuel l l x HR) as [v' [H1 [-> _]]]; [fold pad; lia|unfold room_bools; fold pad; lia|].
      exact H1.
    + apply (def_push_block_full c 8 Hc wf_nb_8 vb8_bit_len (vb8_push_bit c) (R_bools c) (room_bools c)
        Hlen (vb8_push_bit_ok c) Hmono (vb8_push_bit_full c) Hdec fuel l l x HR); unfold room_bools; fold pad; lia.
  - intros b l' ->. unfold vb8_pop_bit. now rewrite vec_pop_snoc.
  - now intros ->.
Qed.

Example C12_ex : let l := [true; false; true; true; false; false; true; false; true; true] in
  lengthN l * 8 <= max_bits rel32 /\
  vb8_get_block rel32 l 1 = Ok 3 /\ vb8_get_bits rel32 l 6 4 = Ok 13 /\
  vb8_set_block rel32 l 1 254 = Ok (firstnN 8 l ++ [false; true]) /\
  bp_push_block (vecbool_bitvecpush rel32) 8 l 5 =
    Ok (l ++ repeatN false 6 ++ [true; false; true; false; false; false; false; false]) /\
  vb8_set_block rel32 l 2 0 = Panic PIndex.
Proof. repeat split; vm_compute; congruence. Qed.

(** ** C63: block indices whose bit position is not representable.  [mul_nbits] shifts
    the high bits away, so an absurd block index can alias a valid one. *)
Theorem C63_huge_block_index_partial : forall c (l : list bool) i x,
  wf_cfg c -> lengthN l * 8 <= max_bits c -> lengthN l <= i * 8 -> i < 2 ^ ptr c -> ptr c = 32 ->
  panics (vb8_set_block c l i x).
Proof.
  intros c l i x Hc Hl Hi Hp E. eapply vb8_set_block_oob; eauto; [now split|]. rewrite E in Hp. lia.
Qed.
Example C63_ex : wf_cfg dbg32 /\ lengthN [true] * 8 <= max_bits dbg32 /\ 1 <= (2 ^ 32 - 2) * 8 /\
  vb8_set_block dbg32 [true] (2 ^ 32 - 2) 0 = Panic PExpect.
Proof. repeat split; auto with wf; vm_compute; congruence. Qed.
Theorem C63_huge_block_index_refuted : exists c (l : list bool) i x l',
  wf_cfg c /\ i < 2 ^ ptr c /\ lengthN l <= i * 8 /\
  vb8_set_block c l i x = Ok l' /\ l' <> l.
Proof.
  exists dbg64, (repeatN false 16), (2 ^ 61), 255, (repeatN true 8 ++ repeatN false 8).
  repeat split; auto with wf; vm_compute; congruence.
Qed.

Print Assumptions C09_blocks_read.
Print Assumptions C09_out_of_bounds.
Print Assumptions C10_blocks_write.
Print Assumptions C10_put_spec.
Print Assumptions C10_out_of_bounds.
Print Assumptions C11_empty_span_partial.
Print Assumptions C11_empty_span_refuted.
Print Assumptions C12_vecbool_read.
Print Assumptions C12_vecbool_read_out_of_bounds.
Print Assumptions C12_vecbool_write.
Print Assumptions C12_vecbool_write_out_of_bounds.
Print Assumptions C12_vecbool_push.
Print Assumptions C63_huge_block_index_partial.
Print Assumptions C63_huge_block_index_refuted.
