(** * Properties C69-C71: derived [Ord] and [Hash], formatting (src/internal/vector_base.rs, src/bit_vec/bit_vector.rs,
    src/int_vec/int_vector.rs).  The vectors are those that programs of operations can produce. *)
From Coq Require Import Ascii String DecimalString.
From Verif Require Import Machine MVectorBase MBitVector MIntVector MDerive SpecBits SpecDerive SpecCfg SpecOps
  PBase PBits PVectorBase PIter PIntVector PRun PIntRun PDerive Properties4.
Local Open Scope list_scope.
Local Open Scope N_scope.

(** ** C69: the derived order is a function of the bits: length first, then the blocks as numbers. *)
Theorem C69_bitvector_order : forall c nb t1 ops1 v1 l1 t2 ops2 v2 l2,
  wf_cfg c -> wf_nb nb ->
  bprogram_ok c nb t1 ops1 -> bvec_ends c nb t1 ops1 v1 -> snd (spec_bprogram c nb t1 ops1) = Some l1 ->
  bprogram_ok c nb t2 ops2 -> bvec_ends c nb t2 ops2 v2 -> snd (spec_bprogram c nb t2 ops2) = Some l2 ->
  (bvec_cmp v1 v2 = Eq <-> l1 = l2) /\ (bvec_cmp v1 v2 = Lt <-> block_less nb l1 l2) /\
  (bvec_cmp v1 v2 = Gt <-> block_less nb l2 l1).
Proof.
  intros c nb t1 ops1 v1 l1 t2 ops2 v2 l2 Hc Hnb O1 E1 S1 O2 E2 S2. pose proof (wf_nb_range nb Hnb).
  destruct (bvec_ends_R c nb t1 ops1 v1 Hc Hnb O1 E1) as [l1' [S1' R1]]. rewrite S1 in S1'. injection S1' as <-.
  destruct (bvec_ends_R c nb t2 ops2 v2 Hc Hnb O2 E2) as [l2' [S2' R2]]. rewrite S2 in S2'. injection S2' as <-.
  unfold bvec_cmp. split; [|split].
  - eapply (vb_cmp_eq c nb 1); eauto; lia.
  - eapply (vb_cmp_lt c nb 1); eauto; lia.
  - rewrite <- (vb_cmp_lt c nb 1 ltac:(lia) v2 l2 v1 l1 R2 R1), (vb_cmp_antisym v1 v2).
    destruct (vb_cmp v1 v2); cbn [CompOpp]; split; congruence.
Qed.
(** It is a total order (on all representations). *)
Theorem C69_total_order : forall a b d,
  bvec_cmp a a = Eq /\ bvec_cmp b a = CompOpp (bvec_cmp a b) /\
  (bvec_cmp a b = Lt -> bvec_cmp b d = Lt -> bvec_cmp a d = Lt).
Proof.
  intros a b d. unfold bvec_cmp. split; [|split; [apply vb_cmp_antisym|apply vb_cmp_lt_trans]].
  unfold vb_cmp. rewrite N.compare_refl. now apply vec_cmp_eq.
Qed.
Theorem C69_intvector_order : forall c nb k t1 ops1 v1 xs1 t2 ops2 v2 xs2,
  wf_cfg c -> wf_nb nb -> 1 <= k <= nb ->
  iprogram_ok c nb k t1 ops1 -> iv_ends c nb k t1 ops1 v1 -> snd (spec_iprogram c nb k t1 ops1) = Some xs1 ->
  iprogram_ok c nb k t2 ops2 -> iv_ends c nb k t2 ops2 v2 -> snd (spec_iprogram c nb k t2 ops2) = Some xs2 ->
  (iv_cmp v1 v2 = Eq <-> xs1 = xs2) /\
  (iv_cmp v1 v2 = Lt <-> block_less nb (bits_of_blocks k xs1) (bits_of_blocks k xs2)) /\
  (iv_cmp v1 v2 = Gt <-> block_less nb (bits_of_blocks k xs2) (bits_of_blocks k xs1)).
Proof.
  intros c nb k t1 ops1 v1 xs1 t2 ops2 v2 xs2 Hc Hnb Hk O1 E1 S1 O2 E2 S2.
  destruct (iv_ends_R c nb k Hc Hnb Hk t1 ops1 v1 O1 E1) as [l1 [S1' [B1 [V1 A1]]]]. rewrite S1 in S1'. injection S1' as <-.
  destruct (iv_ends_R c nb k Hc Hnb Hk t2 ops2 v2 O2 E2) as [l2 [S2' [B2 [V2 A2]]]]. rewrite S2 in S2'. injection S2' as <-.
  unfold iv_cmp. rewrite B1, B2, N.compare_refl. split; [|split].
  - rewrite (vb_cmp_eq c nb k Hc Hnb Hk _ _ _ _ V1 V2). split; [|congruence].
    intros E. eapply bits_of_blocks_inj; eauto. lia.
  - eapply (vb_cmp_lt c nb k); eauto; lia.
  - rewrite <- (vb_cmp_lt c nb k ltac:(lia) _ _ _ _ V2 V1), (vb_cmp_antisym (iv_base v1) (iv_base v2)).
    destruct (vb_cmp (iv_base v1) (iv_base v2)); cbn [CompOpp]; split; congruence.
Qed.
(** Elements as wide as a block: shorter first, then lexicographic by element. *)
Theorem C69_block_sized_order : forall c nb t1 ops1 v1 xs1 t2 ops2 v2 xs2,
  wf_cfg c -> wf_nb nb ->
  iprogram_ok c nb nb t1 ops1 -> iv_ends c nb nb t1 ops1 v1 -> snd (spec_iprogram c nb nb t1 ops1) = Some xs1 ->
  iprogram_ok c nb nb t2 ops2 -> iv_ends c nb nb t2 ops2 v2 -> snd (spec_iprogram c nb nb t2 ops2) = Some xs2 ->
  (iv_cmp v1 v2 = Lt <-> shortlex xs1 xs2).
Proof.
  intros c nb t1 ops1 v1 xs1 t2 ops2 v2 xs2 Hc Hnb O1 E1 S1 O2 E2 S2.
  pose proof (wf_nb_range nb Hnb). assert (Hk : 1 <= nb <= nb) by lia.
  destruct (iv_ends_R c nb nb Hc Hnb Hk t1 ops1 v1 O1 E1) as [l1 [S1' [B1 [[V1 [L1 _]] A1]]]]. rewrite S1 in S1'. injection S1' as <-.
  destruct (iv_ends_R c nb nb Hc Hnb Hk t2 ops2 v2 O2 E2) as [l2 [S2' [B2 [[V2 [L2 _]] A2]]]]. rewrite S2 in S2'. injection S2' as <-.
  rewrite pack_bits_of_blocks in V1, V2 by (assumption || lia). rewrite lengthN_bits_of_blocks in L1, L2.
  assert (M1 : vb_len (iv_base v1) = lengthN xs1) by nia. assert (M2 : vb_len (iv_base v2) = lengthN xs2) by nia.
  unfold iv_cmp, vb_cmp, shortlex. rewrite B1, B2, N.compare_refl, V1, V2, M1, M2.
  destruct (N.compare_spec (lengthN xs1) (lengthN xs2)) as [E|H1|H1].
  - rewrite vec_cmp_split by exact E. split; [intros; right; auto|]. intros [?|[_ ?]]; [lia|auto].
  - split; [|reflexivity]. intros _. now left.
  - split; [discriminate|]. intros [?|[? _]]; lia.
Qed.
Theorem C69_different_widths : forall c nb k1 k2 t1 ops1 v1 t2 ops2 v2,
  wf_cfg c -> wf_nb nb -> 1 <= k1 <= nb -> 1 <= k2 <= nb -> k1 < k2 ->
  iprogram_ok c nb k1 t1 ops1 -> iv_ends c nb k1 t1 ops1 v1 ->
  iprogram_ok c nb k2 t2 ops2 -> iv_ends c nb k2 t2 ops2 v2 ->
  iv_cmp v1 v2 = Lt /\ iv_cmp v2 v1 = Gt /\ iv_hash v1 <> iv_hash v2.
Proof.
  intros c nb k1 k2 t1 ops1 v1 t2 ops2 v2 Hc Hnb Hk1 Hk2 Hlt O1 E1 O2 E2.
  destruct (iv_ends_R c nb k1 Hc Hnb Hk1 t1 ops1 v1 O1 E1) as [l1 [_ [B1 _]]].
  destruct (iv_ends_R c nb k2 Hc Hnb Hk2 t2 ops2 v2 O2 E2) as [l2 [_ [B2 _]]].
  unfold iv_cmp. rewrite B1, B2. pose proof (proj2 (N.compare_lt_iff k1 k2) Hlt) as El.
  rewrite (N.compare_antisym k1 k2), El. repeat split; auto.
  unfold iv_hash. rewrite B1, B2. intros E. injection E as E _. lia.
Qed.
(** The input of the hasher determines, and is determined by, the contents: equal values hash alike. *)
Theorem C69_bitvector_hash : forall c nb t1 ops1 v1 l1 t2 ops2 v2 l2,
  wf_cfg c -> wf_nb nb ->
  bprogram_ok c nb t1 ops1 -> bvec_ends c nb t1 ops1 v1 -> snd (spec_bprogram c nb t1 ops1) = Some l1 ->
  bprogram_ok c nb t2 ops2 -> bvec_ends c nb t2 ops2 v2 -> snd (spec_bprogram c nb t2 ops2) = Some l2 ->
  (bvec_hash v1 = bvec_hash v2 <-> l1 = l2).
Proof.
  intros c nb t1 ops1 v1 l1 t2 ops2 v2 l2 Hc Hnb O1 E1 S1 O2 E2 S2. pose proof (wf_nb_range nb Hnb).
  destruct (bvec_ends_R c nb t1 ops1 v1 Hc Hnb O1 E1) as [l1' [S1' R1]]. rewrite S1 in S1'. injection S1' as <-.
  destruct (bvec_ends_R c nb t2 ops2 v2 Hc Hnb O2 E2) as [l2' [S2' R2]]. rewrite S2 in S2'. injection S2' as <-.
  split.
  - intros E. unfold bvec_hash, vb_hash, vec_hash in E. injection E as Ea Eb Ec.
    assert (v1 = v2) as -> by (destruct v1, v2; cbn in *; congruence). eapply (Vrep_inj c nb 1); eauto; lia.
  - intros ->. f_equal. eapply (Vrep_fun c nb 1); eauto; lia.
Qed.
Theorem C69_intvector_hash : forall c nb k t1 ops1 v1 xs1 t2 ops2 v2 xs2,
  wf_cfg c -> wf_nb nb -> 1 <= k <= nb ->
  iprogram_ok c nb k t1 ops1 -> iv_ends c nb k t1 ops1 v1 -> snd (spec_iprogram c nb k t1 ops1) = Some xs1 ->
  iprogram_ok c nb k t2 ops2 -> iv_ends c nb k t2 ops2 v2 -> snd (spec_iprogram c nb k t2 ops2) = Some xs2 ->
  (iv_hash v1 = iv_hash v2 <-> xs1 = xs2).
Proof.
  intros c nb k t1 ops1 v1 xs1 t2 ops2 v2 xs2 Hc Hnb Hk O1 E1 S1 O2 E2 S2.
  destruct (iv_ends_R c nb k Hc Hnb Hk t1 ops1 v1 O1 E1) as [l1 [S1' [B1 [V1 A1]]]]. rewrite S1 in S1'. injection S1' as <-.
  destruct (iv_ends_R c nb k Hc Hnb Hk t2 ops2 v2 O2 E2) as [l2 [S2' [B2 [V2 A2]]]]. rewrite S2 in S2'. injection S2' as <-.
  split.
  - intros E. unfold iv_hash, vb_hash, vec_hash in E. injection E as _ Ea Eb Ec.
    assert (Ev : iv_base v1 = iv_base v2) by (destruct (iv_base v1), (iv_base v2); cbn in *; congruence).
    rewrite Ev in V1. eapply bits_of_blocks_inj; eauto; [lia|]. eapply (Vrep_inj c nb k); eauto; lia.
  - intros ->. unfold iv_hash. rewrite B1, B2. do 2 f_equal. eapply (Vrep_fun c nb k); eauto; lia.
Qed.
(** The order is not the lexicographic one on bits: 10 comes before 01. *)
Example C69_ex : exists v1 v2 v3 w1 w2,
  snd (bvec_program rel64 8 100 BNew [BPushBit true; BPushBit false; BPushBit true; BPopBit]) = Ok v1 /\
  snd (bvec_program rel64 8 100 (BWithFill 2 true) [BSetBit 0 false]) = Ok v2 /\
  snd (bvec_program rel64 8 100 (BWithFill 9 false) [BResize 2 true; BSetBit 0 true]) = Ok v3 /\
  bvec_cmp v1 v2 = Lt /\ bvec_cmp v1 v3 = Eq /\ bvec_hash v1 = bvec_hash v3 /\
  block_less 8 [true; false] [false; true] /\
  snd (iv_program dbg64 8 3 100 INew [IPush 5; IPush 2]) = Ok w1 /\
  snd (iv_program dbg64 8 3 100 INew [IPush 1; IPush 3]) = Ok w2 /\ iv_cmp w1 w2 = Lt.
Proof.
  do 5 eexists. do 6 (split; [vm_compute; reflexivity|]). split; [|repeat (split; [vm_compute; reflexivity|]); vm_compute; reflexivity].
  right. split; [reflexivity|]. exists 0. split; [intros j Hj; lia|vm_compute; reflexivity].
Qed.

(** ** C70: [{:b}] of a bit vector is its bits in order, as the characters 0 and 1; the formatter's first failure
    stops it and is returned. *)
Theorem C70_binary : forall S c nb t ops v l (w : formatter S), wf_cfg c -> wf_nb nb ->
  bprogram_ok c nb t ops -> bvec_ends c nb t ops v -> snd (spec_bprogram c nb t ops) = Some l ->
  exists n0, forall fuel s, (n0 <= fuel)%nat ->
    bvec_fmt_binary c nb w fuel v s = emit w (map (fun b : bool => if b then "1" else "0")%string l) s.
Proof.
  intros S c nb t ops v l w Hc Hnb O E Sp. destruct (bvec_ends_R c nb t ops v Hc Hnb O E) as [l' [S' R]]. rewrite Sp in S'. injection S' as <-.
  exists (Datatypes.S (length l)). intros fuel s Hf. apply (fmt_bits_ok c nb w (Bit_it c nb)); [|lia|].
  - intros it xs Hx. destruct (bit_next_ok c nb Hc Hnb it xs Hx) as [it' [? [? _]]]; eauto.
  - left. now apply bvec_iter_ok.
Qed.
(** Into a string that takes everything: *)
Definition string_formatter : formatter string := fun t s => Ok (true, s ++ t)%string.
Theorem C70_to_string : forall c nb t ops v l, wf_cfg c -> wf_nb nb ->
  bprogram_ok c nb t ops -> bvec_ends c nb t ops v -> snd (spec_bprogram c nb t ops) = Some l ->
  exists n0, forall fuel, (n0 <= fuel)%nat -> exists text,
    bvec_fmt_binary c nb string_formatter fuel v ""%string = Ok (true, text) /\ String.length text = length l /\
    forall i b, nth_error l i = Some b -> String.get i text = Some (if b then "1" else "0")%char.
Proof.
  intros c nb t ops v l Hc Hnb O E Sp. destruct (C70_binary _ c nb t ops v l string_formatter Hc Hnb O E Sp) as [n0 H].
  exists n0. intros fuel Hf. rewrite (H fuel _ Hf). clear.
  enough (G : forall s, exists text, emit string_formatter (map (fun b : bool => if b then "1" else "0")%string l) s = Ok (true, s ++ text)%string /\
    String.length text = length l /\ forall i b, nth_error l i = Some b -> String.get i text = Some (if b then "1" else "0")%char) by exact (G ""%string).
  induction l as [|b l IH]; intros s.
  - exists ""%string. cbn. split; [|split; [reflexivity|intros [|i] b; discriminate]].
    do 2 f_equal. induction s as [|a s IH]; cbn; congruence.
  - destruct (IH (s ++ (if b then "1" else "0"))%string) as (text & E & El & Eg).
    exists ((if b then "1" else "0") ++ text)%string. split; [|split].
    + cbn [map emit]. unfold string_formatter at 1. rewrite E. do 2 f_equal. clear.
      induction s as [|a s IH]; cbn; [reflexivity|]. congruence.
    + destruct b; cbn; now rewrite El.
    + intros [|i] b' H; [injection H as <-|cbn in H; apply Eg in H]; destruct b; cbn; auto.
Qed.
(** A formatter with room for a number of characters. *)
Definition tiny_formatter (room : nat) : formatter string := fun t s =>
  Ok (if Nat.leb (String.length s + String.length t) room then (true, s ++ t)%string else (false, s)).
Example C70_ex : exists v,
  snd (bvec_program dbg32 8 100 BNew [BPushBit true; BPushBlock 0xa5; BPushBit false; BTruncate 13]) = Ok v /\
  bvec_fmt_binary dbg32 8 string_formatter 100 v ""%string = Ok (true, "1000000010100"%string) /\
  bvec_fmt_binary dbg32 8 (tiny_formatter 10) 100 v ""%string = Ok (false, "1000000010"%string).
Proof. eexists. repeat (split; [vm_compute; reflexivity|]). vm_compute; reflexivity. Qed.

(** ** C71: [{:?}] of an [IntVector] shows the width and the elements in order, in decimal. *)
Theorem C71_debug : forall S c nb k t ops v xs (w : formatter S), wf_cfg c -> wf_nb nb -> 1 <= k <= nb ->
  iprogram_ok c nb k t ops -> iv_ends c nb k t ops v -> snd (spec_iprogram c nb k t ops) = Some xs ->
  exists n0, forall fuel s, (n0 <= fuel)%nat ->
    iv_fmt_debug c nb w fuel v s =
    emit w (["IntVector { element_bits: "; decimal k; ", elements: { "]%string ++
            flat_map (fun x => [decimal x; ", "%string]) xs ++ ["} }"%string]) s.
Proof.
  intros S c nb k t ops v xs w Hc Hnb Hk O E Sp.
  destruct (iv_ends_R c nb k Hc Hnb Hk t ops v O E) as [l' [S' [B V]]]. rewrite Sp in S'. injection S' as <-.
  exists (Datatypes.S (length xs)). intros fuel s Hf. unfold iv_fmt_debug. rewrite B. cbn [app].
  apply emit_cons. intros s1. apply emit_cons. intros s2. apply emit_cons. intros s3.
  apply (fmt_ints_ok c nb w (It_rep c nb k)); [|lia|].
  - intros it ys Hx. destruct (it_next_ok c nb k Hc Hnb Hk it ys Hx) as [it' [? [? _]]]. exists it'. split; auto.
  - left. unfold iv_iter. rewrite B. now apply it_new_ok.
Qed.
(** Decimal notation can be read back. *)
Theorem C71_decimal : forall x, exists d, NilZero.uint_of_string (decimal x) = Some d /\ N.of_uint d = x.
Proof. intros x. exists (N.to_uint x). apply decimal_read. Qed.
Example C71_ex : exists v,
  snd (iv_program rel64 16 9 100 INew [IPush 500; IPush 0; IPush 17]) = Ok v /\
  iv_fmt_debug rel64 16 string_formatter 100 v ""%string =
    Ok (true, "IntVector { element_bits: 9, elements: { 500, 0, 17, } }"%string).
Proof. eexists. repeat (split; [vm_compute; reflexivity|]). vm_compute; reflexivity. Qed.

Print Assumptions C69_bitvector_order.
Print Assumptions C69_total_order.
Print Assumptions C69_intvector_order.
Print Assumptions C69_block_sized_order.
Print Assumptions C69_different_widths.
Print Assumptions C69_bitvector_hash.
Print Assumptions C69_intvector_hash.
Print Assumptions C70_binary.
Print Assumptions C70_to_string.
Print Assumptions C71_debug.
Print Assumptions C71_decimal.
