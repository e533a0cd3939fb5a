(** * C93: what is built on a store sees nothing of it but its answers (src/bit_vec/*.rs, src/rank/*.rs, src/select/bin_search.rs,
    src/stream/bit_buffer.rs). *)
From Verif Require Import Machine MStorage MTraits MMinimal MBitSlice MStream MVectorBase MBitVector MIntVector MRank MSelect SpecCfg SpecSame.

Section Alike.
  Context (K : panic_kind -> panic_kind -> Prop).
  Hypothesis HK : forall k, K k k.
  Lemma alike_refl {A} (m : res A) : alike K eq m m.
  Proof. destruct m; cbn; auto. Qed.
  Lemma alike_bind {A1 A2 B1 B2} (P : A1 -> A2 -> Prop) (Q : B1 -> B2 -> Prop) m1 m2 f1 f2 :
    alike K P m1 m2 -> (forall a1 a2, P a1 a2 -> alike K Q (f1 a1) (f2 a2)) -> alike K Q (bind m1 f1) (bind m2 f2).
  Proof. destruct m1, m2; cbn; auto; contradiction. Qed.
  Lemma alike_for_loop {S1 S2} (P : S1 -> S2 -> Prop) n : forall i b1 b2 s1 s2,
    (forall i s1 s2, P s1 s2 -> alike K P (b1 i s1) (b2 i s2)) -> P s1 s2 -> alike K P (for_loop n i b1 s1) (for_loop n i b2 s2).
  Proof. induction n as [|n IH]; intros i b1 b2 s1 s2 H Hs; cbn [for_loop]; [exact Hs|]. apply (alike_bind P); [now apply H|]. intros a1 a2 Ha. now apply IH. Qed.
  Lemma alike_for_range {S1 S2} (P : S1 -> S2 -> Prop) a b b1 b2 s1 s2 :
    (forall i s1 s2, P s1 s2 -> alike K P (b1 i s1) (b2 i s2)) -> P s1 s2 -> alike K P (for_range a b b1 s1) (for_range a b b2 s2).
  Proof. apply alike_for_loop. Qed.
  Definition same_flow {S1 S2 R1 R2} (P : S1 -> S2 -> Prop) (Q : R1 -> R2 -> Prop) (x1 : flow S1 R1) (x2 : flow S2 R2) : Prop :=
    match x1, x2 with Continue s1, Continue s2 => P s1 s2 | Return r1, Return r2 => Q r1 r2 | _, _ => False end.
  Lemma alike_loop {S1 S2 R1 R2} (P : S1 -> S2 -> Prop) (Q : R1 -> R2 -> Prop) n : forall b1 b2 s1 s2,
    (forall s1 s2, P s1 s2 -> alike K (same_flow P Q) (b1 s1) (b2 s2)) -> P s1 s2 -> alike K Q (loop_fuel n b1 s1) (loop_fuel n b2 s2).
  Proof.
    induction n as [|n IH]; intros b1 b2 s1 s2 H Hs; cbn [loop_fuel]; [exact I|]. apply (alike_bind (same_flow P Q)); [now apply H|].
    intros [t1|r1] [t2|r2] Hx; cbn in Hx; try contradiction; [now apply IH|exact Hx].
  Qed.
End Alike.
Ltac al HK :=
  repeat first
    [ apply (alike_refl _ HK)
    | solve [eauto 3 with nocore]
    | eapply alike_bind; [solve [apply (alike_refl _ HK) | eauto 3 with nocore]|intros ? ? ?; subst]
    | match goal with |- alike _ _ (bind (if ?b then _ else _) _) (bind (if ?b then _ else _) _) =>
        eapply (alike_bind _ eq); [destruct b; solve [al HK]|intros ? ? ?; subst] end
    | match goal with |- alike _ _ (if ?b then _ else _) (if ?b then _ else _) => destruct b end ].

Section Wrap.
  Context {T1 T2 : Type} (c : cfg) (K : panic_kind -> panic_kind -> Prop) (S : T1 -> T2 -> Prop).
  Hypothesis HK : forall k, K k k.

  (** ** Default methods *)
  Section Defaults.
    Variables (nb : N) (len1 : T1 -> res N) (len2 : T2 -> res N).
    Hypothesis Hlen : forall t1 t2, S t1 t2 -> alike K eq (len1 t1) (len2 t2).
    Lemma same_def_block_len t1 t2 : S t1 t2 -> alike K eq (default_block_len c nb len1 t1) (default_block_len c nb len2 t2).
    Proof. intros H. unfold default_block_len. al HK. Qed.
    Lemma same_def_get_bit gb1 gb2 t1 t2 i : (forall t1 t2 i, S t1 t2 -> alike K eq (gb1 t1 i) (gb2 t2 i)) -> S t1 t2 ->
      alike K eq (default_get_bit c nb len1 gb1 t1 i) (default_get_bit c nb len2 gb2 t2 i).
    Proof. intros G H. unfold default_get_bit. al HK. Qed.
    Lemma same_def_get_bits gb1 gb2 t1 t2 s n : (forall t1 t2 i, S t1 t2 -> alike K eq (gb1 t1 i) (gb2 t2 i)) -> S t1 t2 ->
      alike K eq (default_get_bits c nb len1 gb1 t1 s n) (default_get_bits c nb len2 gb2 t2 s n).
    Proof. intros G H. unfold default_get_bits. al HK. Qed.
    Lemma same_def_get_block bl1 bl2 gb1 gb2 t1 t2 i : (forall t1 t2, S t1 t2 -> alike K eq (bl1 t1) (bl2 t2)) ->
      (forall t1 t2 i, S t1 t2 -> alike K eq (gb1 t1 i) (gb2 t2 i)) -> S t1 t2 ->
      alike K eq (default_get_block c nb len1 bl1 gb1 t1 i) (default_get_block c nb len2 bl2 gb2 t2 i).
    Proof.
      intros L G H. unfold default_get_block. al HK.
      match goal with |- alike _ _ (bind (for_range ?a ?b ?b1 ?s1) _) (bind (for_range ?a ?b ?b2 ?s2) _) => eapply (alike_bind K eq); [apply alike_for_range; [|reflexivity]|intros; subst; al HK] end.
      intros j s1 s2 ->. destruct s2. al HK.
    Qed.
    Lemma same_def_set_bit gb1 gb2 sb1 sb2 t1 t2 i b : (forall t1 t2 i, S t1 t2 -> alike K eq (gb1 t1 i) (gb2 t2 i)) ->
      (forall t1 t2 i v, S t1 t2 -> alike K S (sb1 t1 i v) (sb2 t2 i v)) -> S t1 t2 ->
      alike K S (default_set_bit c nb len1 gb1 sb1 t1 i b) (default_set_bit c nb len2 gb2 sb2 t2 i b).
    Proof. intros G W H. unfold default_set_bit. al HK. Qed.
    Lemma same_def_set_bits gb1 gb2 sb1 sb2 t1 t2 s n v : (forall t1 t2 i, S t1 t2 -> alike K eq (gb1 t1 i) (gb2 t2 i)) ->
      (forall t1 t2 i v, S t1 t2 -> alike K S (sb1 t1 i v) (sb2 t2 i v)) -> S t1 t2 ->
      alike K S (default_set_bits c nb len1 gb1 sb1 t1 s n v) (default_set_bits c nb len2 gb2 sb2 t2 s n v).
    Proof. intros G W H. unfold default_set_bits. al HK. Qed.
    Lemma same_def_set_block bl1 bl2 sb1 sb2 t1 t2 i v : (forall t1 t2, S t1 t2 -> alike K eq (bl1 t1) (bl2 t2)) ->
      (forall t1 t2 i b, S t1 t2 -> alike K S (sb1 t1 i b) (sb2 t2 i b)) -> S t1 t2 ->
      alike K S (default_set_block c nb len1 bl1 sb1 t1 i v) (default_set_block c nb len2 bl2 sb2 t2 i v).
    Proof.
      intros L W H. unfold default_set_block. al HK.       eapply (alike_bind K (fun x y : _ * N => S (fst x) (fst y) /\ snd x = snd y)).
      - apply alike_for_range; [|now split]. intros j [u1 w1] [u2 w2] [Hu Hw]. cbn [fst snd] in Hu, Hw. subst w2. al HK. now split.
      - intros [x1 y1] [x2 y2] [Hx _]. exact Hx.
    Qed.
    Lemma same_def_align_block pb1 pb2 fuel t1 t2 b : (forall t1 t2 b, S t1 t2 -> alike K S (pb1 t1 b) (pb2 t2 b)) -> S t1 t2 ->
      alike K S (default_align_block c nb len1 pb1 fuel t1 b) (default_align_block c nb len2 pb2 fuel t2 b).
    Proof. intros W H. unfold default_align_block. apply (alike_loop K S S); [|exact H]. intros u1 u2 Hu. al HK; cbn; assumption. Qed.
    Lemma same_def_push_block pb1 pb2 fuel t1 t2 v : (forall t1 t2 b, S t1 t2 -> alike K S (pb1 t1 b) (pb2 t2 b)) -> S t1 t2 ->
      alike K S (default_push_block c nb len1 pb1 fuel t1 v) (default_push_block c nb len2 pb2 fuel t2 v).
    Proof.
      intros W H. unfold default_push_block. eapply (alike_bind K S); [now apply same_def_align_block|]. intros u1 u2 Hu.
      eapply (alike_bind K (fun x y : _ * N => S (fst x) (fst y) /\ snd x = snd y)).
      - apply alike_for_range; [|now split]. intros j [w1 x1] [w2 x2] [Hw Hx]. cbn [fst snd] in Hw, Hx. subst x2. al HK. now split.
      - intros [x1 y1] [x2 y2] [Hx _]. exact Hx.
    Qed.
  End Defaults.
End Wrap.

Section Stores.
  Context {T1 T2 : Type} (c : cfg) (K : panic_kind -> panic_kind -> Prop) (S : T1 -> T2 -> Prop).
  Hypothesis HK : forall k, K k k.

  Context (B1 : bitvec T1) (B2 : bitvec T2).
  Hypothesis Hnb : bv_nb B1 = bv_nb B2.
  Let bit_len := asks0 K S (bv_bit_len B1) (bv_bit_len B2).
  Let block_len := asks0 K S (bv_block_len B1) (bv_block_len B2).
  Let get_bit := asks1 K S (bv_get_bit B1) (bv_get_bit B2).
  Let get_block := asks1 K S (bv_get_block B1) (bv_get_block B2).
  Let get_bits := asks2 K S (bv_get_bits B1) (bv_get_bits B2).

  (** ** Slices *)
  Lemma same_slice_new t1 t2 r : bit_len -> S t1 t2 -> alike K (same_slice S) (slice_new B1 t1 r) (slice_new B2 t2 r).
  Proof. intros L H. unfold slice_new. al HK. destruct (into_range r 0 a2) as [s e]. al HK. now repeat split. Qed.
  Lemma same_slice_slice s1 s2 r : same_slice S s1 s2 -> alike K (same_slice S) (slice_slice c s1 r) (slice_slice c s2 r).
  Proof. intros [H [H1 H2]]. unfold slice_slice. rewrite H1, H2. destruct (into_range r 0 (sl_len s2)) as [s e]. al HK. now repeat split. Qed.
  Lemma same_slice_get_bit : get_bit -> asks1 K (same_slice S) (slice_get_bit c B1) (slice_get_bit c B2).
  Proof. intros G s1 s2 p [H [H1 H2]]. unfold slice_get_bit. rewrite H1, H2. al HK. Qed.
  Lemma same_slice_get_bits : get_bits -> asks2 K (same_slice S) (slice_get_bits c B1) (slice_get_bits c B2).
  Proof. intros G s1 s2 p n [H [H1 H2]]. unfold slice_get_bits. rewrite H1, H2. al HK. Qed.
  Lemma same_slice_get_block : get_bits -> asks1 K (same_slice S) (slice_get_block c B1) (slice_get_block c B2).
  Proof. intros G s1 s2 p H. unfold slice_get_block. rewrite Hnb. eapply (alike_bind K eq); [apply (alike_refl K HK)|]. intros a1 a2 ->. now apply same_slice_get_bits. Qed.
  Lemma same_slice_block_len : asks0 K (same_slice S) (slice_block_len c B1) (slice_block_len c B2).
  Proof. intros s1 s2 [H [H1 H2]]. unfold slice_block_len, default_block_len, slice_bit_len. rewrite H2, Hnb. al HK. Qed.
  Lemma same_slice_reads : get_bit -> get_bits -> same_reads K (same_slice S) (slice_bitvec c B1) (slice_bitvec c B2).
  Proof.
    intros G G'. repeat split; [exact Hnb| |apply same_slice_block_len|now apply same_slice_get_bit|now apply same_slice_get_block|now apply same_slice_get_bits].
    intros s1 s2 [_ [_ H2]]. cbn. exact H2.
  Qed.

  (** ** Bit buffers *)
  Lemma same_bb_append t1 t2 : bit_len -> S t1 t2 -> alike K (same_buffer S) (bb_append B1 t1) (bb_append B2 t2).
  Proof. intros L H. unfold bb_append. al HK. now split. Qed.
  Lemma same_bb_seek p b1 b2 : bit_len -> same_buffer S b1 b2 -> alike K (same_step S) (bb_seek B1 p b1) (bb_seek B2 p b2).
  Proof. intros L [H H']. unfold bb_seek. al HK; split; cbn; auto; now split. Qed.
  Lemma same_bb_bit_len : bit_len -> asks0 K (same_buffer S) (bb_bit_len B1) (bb_bit_len B2).
  Proof. intros L b1 b2 [H _]. now apply L. Qed.
  Lemma same_bb_get_block : get_block -> asks1 K (same_buffer S) (bb_get_block B1) (bb_get_block B2).
  Proof. intros G b1 b2 i [H _]. now apply G. Qed.
  Lemma same_bb_read b1 b2 : bit_len -> get_block -> same_buffer S b1 b2 -> alike K (same_step S) (bb_read_bit c B1 b1) (bb_read_bit c B2 b2).
  Proof.
    intros L G H. unfold bb_read_bit. eapply (alike_bind K eq); [now apply same_bb_bit_len|]. intros a1 a2 ->. destruct H as [H H']. rewrite H'.
    destruct (bb_pos b2 <? a2); [|split; [reflexivity|now split]].
    eapply (alike_bind K eq).
    - unfold bb_get_bit. rewrite Hnb. apply (same_def_get_bit c K (same_buffer S) HK); [now apply same_bb_bit_len|now apply same_bb_get_block|now split].
    - intros x1 x2 ->. al HK. split; [reflexivity|now split].
  Qed.

  Lemma same_bb_reads : bit_len -> block_len -> get_block -> same_reads K (same_buffer S) (bb_bitvec c B1) (bb_bitvec c B2).
  Proof.
    intros L LB G. split; [exact Hnb|]. split; [now apply same_bb_bit_len|]. split; [intros b1 b2 [H _]; now apply LB|]. split; [|split].
    - intros b1 b2 i H. cbn [bb_bitvec bv_get_bit]. unfold bb_get_bit. rewrite Hnb. apply (same_def_get_bit c K (same_buffer S) HK); [now apply same_bb_bit_len|now apply same_bb_get_block|exact H].
    - now apply same_bb_get_block.
    - intros b1 b2 s n H. cbn [bb_bitvec bv_get_bits]. rewrite Hnb. apply (same_def_get_bits c K (same_buffer S) HK); [now apply same_bb_bit_len|now apply same_bb_get_block|exact H].
  Qed.

  (** ** Rank *)
  Lemma same_rank9_new t1 t2 : block_len -> get_block -> S t1 t2 -> alike K (same_rank9 S) (rank9_new c B1 t1) (rank9_new c B2 t2).
  Proof.
    intros LB G H. unfold rank9_new. al HK. eapply (alike_bind K eq).
    - apply alike_for_range; [|reflexivity]. intros i s1 s2 ->. destruct s2 as [[l x] y]. eapply (alike_bind K eq); [apply (alike_refl K HK)|]. intros r1 [r2 r3] ->. al HK.
    - intros s1 [[l x] y] ->. al HK. now split.
  Qed.
  Lemma same_rank9_rank1 : get_block -> asks1 K (same_rank9 S) (rank9_rank1 c B1) (rank9_rank1 c B2).
  Proof. intros G r1 r2 p [H H']. unfold rank9_rank1. rewrite H'. al HK. Qed.
  Lemma same_jacobson_new t1 t2 : bit_len -> block_len -> get_block -> S t1 t2 -> alike K (same_jacobson S) (jacobson_new c B1 t1) (jacobson_new c B2 t2).
  Proof.
    intros L LB G H. unfold jacobson_new. rewrite Hnb. al HK. eapply (alike_bind K eq).
    - apply alike_for_range; [|reflexivity]. intros i s1 s2 ->. destruct s2 as [[[[l x] y] z] w]. eapply (alike_bind K eq); [apply (alike_refl K HK)|]. intros r1 [r2 r3] ->. al HK.
    - intros s1 [[[[l x] y] z] w] ->. al HK. now repeat split.
  Qed.
  Lemma same_jacobson_rank1 : bit_len -> get_block -> asks1 K (same_jacobson S) (jacobson_rank1 c B1) (jacobson_rank1 c B2).
  Proof. intros L G j1 j2 p [H [H1 [H2 H3]]]. unfold jacobson_rank1. rewrite H1, H2, H3, Hnb. al HK. Qed.
End Stores.

Lemma same_mk_bitrank {T1 T2} c (K : panic_kind -> panic_kind -> Prop) (S : T1 -> T2 -> Prop) r1 r2 l1 l2 : (forall k, K k k) -> asks1 K S r1 r2 -> asks0 K S l1 l2 ->
  same_ranks K S (mk_bitrank c r1 l1) (mk_bitrank c r2 l2).
Proof.
  intros HK R L. assert (R0 : asks1 K S (default_rank0 c r1) (default_rank0 c r2)) by (intros t1 t2 p H; unfold default_rank0; al HK).
  repeat split; [|exact L|exact R|exact R0]. intros t1 t2 p v H. cbn. unfold rank_by_value. destruct v; [now apply R|now apply R0].
Qed.

Section Claims.
  Context {T1 T2 : Type} (c : cfg) (K : panic_kind -> panic_kind -> Prop) (S : T1 -> T2 -> Prop).
  Hypothesis HK : forall k, K k k.

  (** ** The default methods of the traits depend on the methods that have to be given, and on nothing else *)
  Theorem C93_defaults nb len1 len2 : asks0 K S len1 len2 ->
    (forall gb1 gb2, asks1 K S gb1 gb2 -> same_reads K S (bitvec_of_bit c nb len1 gb1) (bitvec_of_bit c nb len2 gb2)) /\
    (forall gb1 gb2, asks1 K S gb1 gb2 -> same_reads K S (bitvec_of_block c nb len1 gb1) (bitvec_of_block c nb len2 gb2)).
  Proof.
    intros L. split; intros gb1 gb2 G.
    - assert (GB : asks1 K S (bv_get_block (bitvec_of_bit c nb len1 gb1)) (bv_get_block (bitvec_of_bit c nb len2 gb2))).
      { intros t1 t2 i H. cbn [bitvec_of_bit bv_get_block]. apply (same_def_get_block c K S HK); auto. intros u1 u2 Hu. now apply same_def_block_len with (S := S). }
      split; [reflexivity|]. split; [exact L|]. split; [intros t1 t2 H; now apply same_def_block_len with (S := S)|]. split; [exact G|]. split; [exact GB|].
      intros t1 t2 s n H. cbn [bitvec_of_bit bv_get_bits]. now apply (same_def_get_bits c K S HK).
    - split; [reflexivity|]. split; [exact L|]. split; [intros t1 t2 H; now apply same_def_block_len with (S := S)|]. split; [|split; [exact G|]].
      + intros t1 t2 i H. now apply (same_def_get_bit c K S HK).
      + intros t1 t2 s n H. now apply (same_def_get_bits c K S HK).
  Qed.
  Theorem C93_defaults_mut B1 B2 : bv_nb B1 = bv_nb B2 -> asks0 K S (bv_bit_len B1) (bv_bit_len B2) -> asks1 K S (bv_get_block B1) (bv_get_block B2) ->
    (forall sb1 sb2, acts2 K S sb1 sb2 -> asks0 K S (bv_block_len B1) (bv_block_len B2) ->
       acts2 K S (bm_set_block (bitvecmut_of_bit c B1 sb1)) (bm_set_block (bitvecmut_of_bit c B2 sb2)) /\
       acts3 K S (bm_set_bits (bitvecmut_of_bit c B1 sb1)) (bm_set_bits (bitvecmut_of_bit c B2 sb2))) /\
    (forall sb1 sb2, acts2 K S sb1 sb2 ->
       acts2 K S (bm_set_bit (bitvecmut_of_block c B1 sb1)) (bm_set_bit (bitvecmut_of_block c B2 sb2)) /\
       acts3 K S (bm_set_bits (bitvecmut_of_block c B1 sb1)) (bm_set_bits (bitvecmut_of_block c B2 sb2))).
  Proof.
    intros Hnb L G. split; intros sb1 sb2 W.
    - intros LB.
      assert (WB : acts2 K S (bm_set_block (bitvecmut_of_bit c B1 sb1)) (bm_set_block (bitvecmut_of_bit c B2 sb2))).
      { intros t1 t2 i v H. cbn [bitvecmut_of_bit bm_set_block]. rewrite Hnb. now apply (same_def_set_block c K S HK). }
      split; [exact WB|]. intros t1 t2 s n v H. cbn [bitvecmut_of_bit bm_set_bits]. cbn [bitvecmut_of_bit bm_set_block] in WB. rewrite Hnb in *.
      now apply (same_def_set_bits c K S HK).
    - split.
      + intros t1 t2 i v H. cbn [bitvecmut_of_block bm_set_bit]. rewrite Hnb. now apply (same_def_set_bit c K S HK).
      + intros t1 t2 s n v H. cbn [bitvecmut_of_block bm_set_bits]. rewrite Hnb. now apply (same_def_set_bits c K S HK).
  Qed.
  Theorem C93_defaults_push (M1 : bitvecmut T1) (M2 : bitvecmut T2) pb1 pb2 pp1 pp2 : bv_nb (bm_bv M1) = bv_nb (bm_bv M2) ->
    asks0 K S (bv_bit_len (bm_bv M1)) (bv_bit_len (bm_bv M2)) -> acts1 K S pb1 pb2 ->
    let P1 := bitvecpush_of_bit c M1 pb1 pp1 in let P2 := bitvecpush_of_bit c M2 pb2 pp2 in
    (forall fuel, acts1 K S (bp_align_block P1 fuel) (bp_align_block P2 fuel)) /\ (forall fuel, acts1 K S (bp_push_block P1 fuel) (bp_push_block P2 fuel)).
  Proof.
    intros Hnb L W P1 P2. unfold P1, P2. split; intros fuel t1 t2 x H; cbn [bitvecpush_of_bit bp_align_block bp_push_block]; rewrite Hnb.
    - now apply (same_def_align_block c K S HK).
    - now apply (same_def_push_block c K S HK).
  Qed.

  (** ** Slices: of the store they use the length (once, when made), [get_bit] and [get_bits] *)
  Theorem C93_slice B1 B2 : bv_nb B1 = bv_nb B2 ->
    (asks0 K S (bv_bit_len B1) (bv_bit_len B2) -> forall t1 t2 r, S t1 t2 -> alike K (same_slice S) (slice_new B1 t1 r) (slice_new B2 t2 r)) /\
    (forall s1 s2 r, same_slice S s1 s2 -> alike K (same_slice S) (slice_slice c s1 r) (slice_slice c s2 r)) /\
    (asks1 K S (bv_get_bit B1) (bv_get_bit B2) -> asks2 K S (bv_get_bits B1) (bv_get_bits B2) ->
       same_reads K (same_slice S) (slice_bitvec c B1) (slice_bitvec c B2)).
  Proof. intros Hnb. split; [|split]; intros; [now apply same_slice_new|now apply same_slice_slice|now apply same_slice_reads]. Qed.
  Theorem C93_slice_mut M1 M2 : bv_nb (bm_bv M1) = bv_nb (bm_bv M2) -> acts2 K S (bm_set_bit M1) (bm_set_bit M2) -> acts3 K S (bm_set_bits M1) (bm_set_bits M2) ->
    let W1 := slicemut_bitvecmut c M1 in let W2 := slicemut_bitvecmut c M2 in
    acts2 K (same_slice S) (bm_set_bit W1) (bm_set_bit W2) /\ acts2 K (same_slice S) (bm_set_block W1) (bm_set_block W2) /\
    acts3 K (same_slice S) (bm_set_bits W1) (bm_set_bits W2).
  Proof.
    intros Hnb WB WS W1 W2. unfold W1, W2. cbn [slicemut_bitvecmut bm_set_bit bm_set_block bm_set_bits].
    assert (A : acts3 K (same_slice S) (slice_set_bits c M1) (slice_set_bits c M2)).
    { intros s1 s2 p n v [H [H1 H2]]. unfold slice_set_bits. rewrite H1, H2. al HK. now repeat split. }
    split; [|split; [|exact A]].
    - intros s1 s2 p v [H [H1 H2]]. unfold slice_set_bit. rewrite H1, H2. al HK. now repeat split.
    - intros s1 s2 p v H. unfold slice_set_block. rewrite Hnb. al HK. 
  Qed.

  (** ** Bit buffers: of the store they use the lengths, [get_block], [set_block] and [push_bit], never [get_bit], [set_bit] or their longer kin *)
  Theorem C93_buffer B1 B2 : bv_nb B1 = bv_nb B2 -> asks0 K S (bv_bit_len B1) (bv_bit_len B2) ->
    (forall t1 t2, S t1 t2 -> alike K (same_buffer S) (bb_append B1 t1) (bb_append B2 t2)) /\
    (forall p b1 b2, same_buffer S b1 b2 -> alike K (same_step S) (bb_seek B1 p b1) (bb_seek B2 p b2)) /\
    (asks1 K S (bv_get_block B1) (bv_get_block B2) ->
       (forall b1 b2, same_buffer S b1 b2 -> alike K (same_step S) (read_bit (bb_source c B1) b1) (read_bit (bb_source c B2) b2)) /\
       (asks0 K S (bv_block_len B1) (bv_block_len B2) -> same_reads K (same_buffer S) (bb_bitvec c B1) (bb_bitvec c B2))).
  Proof.
    intros Hnb L. split; [|split; [|intros G; split]]; intros; [now apply same_bb_append|now apply same_bb_seek|now apply same_bb_read|now apply same_bb_reads].
  Qed.
  Theorem C93_buffer_mut M1 M2 : let B1 := bm_bv M1 in let B2 := bm_bv M2 in
    bv_nb B1 = bv_nb B2 -> asks0 K S (bv_bit_len B1) (bv_bit_len B2) -> asks1 K S (bv_get_block B1) (bv_get_block B2) ->
    acts2 K S (bm_set_block M1) (bm_set_block M2) ->
    let W1 := bb_bitvecmut c M1 in let W2 := bb_bitvecmut c M2 in
    acts2 K (same_buffer S) (bm_set_bit W1) (bm_set_bit W2) /\ acts2 K (same_buffer S) (bm_set_block W1) (bm_set_block W2) /\
    acts3 K (same_buffer S) (bm_set_bits W1) (bm_set_bits W2).
  Proof.
    intros B1 B2 Hnb L G W W1 W2. unfold W1, W2. cbn [bb_bitvecmut bm_set_bit bm_set_block bm_set_bits].
    assert (A : acts2 K (same_buffer S) (bb_set_block M1) (bb_set_block M2)).
    { intros b1 b2 i v [H H']. unfold bb_set_block. al HK. now split. }
    split; [|split; [exact A|]].
    - intros b1 b2 i v H. unfold bb_set_bit. fold B1 B2. rewrite Hnb. apply (same_def_set_bit c K (same_buffer S) HK); [now apply same_bb_bit_len|now apply same_bb_get_block|exact A|exact H].
    - intros b1 b2 s n v H. fold B1 B2. rewrite Hnb. apply (same_def_set_bits c K (same_buffer S) HK); [now apply same_bb_bit_len|now apply same_bb_get_block|exact A|exact H].
  Qed.
  Theorem C93_buffer_write P1 P2 fuel v b1 b2 : let M1 := bp_bm P1 in let M2 := bp_bm P2 in let B1 := bm_bv M1 in let B2 := bm_bv M2 in
    bv_nb B1 = bv_nb B2 -> asks0 K S (bv_bit_len B1) (bv_bit_len B2) -> asks1 K S (bv_get_block B1) (bv_get_block B2) ->
    acts2 K S (bm_set_block M1) (bm_set_block M2) -> acts1 K S (bp_push_bit P1) (bp_push_bit P2) ->
    same_buffer S b1 b2 -> alike K (same_step S) (write_bit (bb_sink c P1 fuel) v b1) (write_bit (bb_sink c P2 fuel) v b2).
  Proof.
    intros M1 M2 B1 B2 Hnb L G W PB [H H']. cbn [bb_sink write_bit]. unfold bb_write_bit. fold M1 M2 B1 B2. rewrite H'.
    eapply (alike_bind K S).
    - apply (alike_loop K S S); [|exact H]. intros t1 t2 Ht. al HK; cbn; assumption.
    - intros d1 d2 Hd. eapply (alike_bind K (same_buffer S)).
      + apply (C93_buffer_mut M1 M2 Hnb L G W). split; [exact Hd|exact H'].
      + intros x1 x2 [Hx _]. al HK. split; [reflexivity|split; [exact Hx|reflexivity]].
  Qed.

  (** ** Rank structures: of the store they use the lengths and [get_block]; [Rank9] uses the bit length for its limit only *)
  Theorem C93_rank9 B1 B2 : asks1 K S (bv_get_block B1) (bv_get_block B2) ->
    (asks0 K S (bv_block_len B1) (bv_block_len B2) -> forall t1 t2, S t1 t2 -> alike K (same_rank9 S) (rank9_new c B1 t1) (rank9_new c B2 t2)) /\
    asks1 K (same_rank9 S) (br_rank1 (rank9_bitrank c B1)) (br_rank1 (rank9_bitrank c B2)) /\
    asks1 K (same_rank9 S) (br_rank0 (rank9_bitrank c B1)) (br_rank0 (rank9_bitrank c B2)) /\
    (asks0 K S (bv_bit_len B1) (bv_bit_len B2) -> same_ranks K (same_rank9 S) (rank9_bitrank c B1) (rank9_bitrank c B2)) /\
    (same_reads K S B1 B2 -> same_reads K (same_rank9 S) (rank9_bitvec B1) (rank9_bitvec B2)).
  Proof.
    intros G. assert (R : asks1 K (same_rank9 S) (rank9_rank1 c B1) (rank9_rank1 c B2)) by now apply same_rank9_rank1.
    split; [intros LB t1 t2 H; now apply same_rank9_new|]. split; [exact R|]. split; [|split].
    - intros r1 r2 p H. cbn [rank9_bitrank mk_bitrank br_rank0]. unfold default_rank0. al HK.
    - intros L. apply same_mk_bitrank; [exact HK|exact R|]. intros r1 r2 [H _]. now apply L.
    - intros [N1 [A [B [C [D E]]]]]. split; [exact N1|]. repeat split; intros r1 r2; intros; match goal with X : same_rank9 _ _ _ |- _ => destruct X as [X _] end;
        cbn [rank9_bitvec bv_bit_len bv_block_len bv_get_bit bv_get_block bv_get_bits]; auto.
  Qed.
  Theorem C93_jacobson B1 B2 : bv_nb B1 = bv_nb B2 -> asks0 K S (bv_bit_len B1) (bv_bit_len B2) -> asks1 K S (bv_get_block B1) (bv_get_block B2) ->
    (asks0 K S (bv_block_len B1) (bv_block_len B2) -> forall t1 t2, S t1 t2 -> alike K (same_jacobson S) (jacobson_new c B1 t1) (jacobson_new c B2 t2)) /\
    same_ranks K (same_jacobson S) (jacobson_bitrank c B1) (jacobson_bitrank c B2) /\
    (same_reads K S B1 B2 -> same_reads K (same_jacobson S) (jacobson_bitvec B1) (jacobson_bitvec B2)).
  Proof.
    intros Hnb L G. split; [intros LB t1 t2 H; now apply same_jacobson_new|]. split.
    - apply same_mk_bitrank; [exact HK|now apply same_jacobson_rank1|]. intros r1 r2 [H _]. now apply L.
    - intros [N1 [A [B [C [D E]]]]]. split; [exact N1|]. repeat split; intros r1 r2; intros; match goal with X : same_jacobson _ _ _ |- _ => destruct X as [X _] end;
        cbn [jacobson_bitvec bv_bit_len bv_block_len bv_get_bit bv_get_block bv_get_bits]; auto.
  Qed.

  (** ** Selection by binary search: the limit and one rank function *)
  Lemma same_search w fuel a b v f1 f2 : (forall p, alike K eq (f1 p) (f2 p)) ->
    alike K eq (binary_search_function c w fuel a b v f1) (binary_search_function c w fuel a b v f2).
  Proof.
    intros F. unfold binary_search_function, search_loop. al HK. apply (alike_loop K eq eq); [|reflexivity]. intros s1 [x y] ->.
    al HK; try (cbn; reflexivity). cbn. destruct (_ <? _); cbn; reflexivity.
  Qed.
  Theorem C93_select R1 R2 fuel t1 t2 i : asks0 K S (rs_limit (br_rs R1)) (rs_limit (br_rs R2)) -> S t1 t2 ->
    (asks1 K S (br_rank1 R1) (br_rank1 R2) -> alike K eq (bss_select1 c R1 fuel t1 i) (bss_select1 c R2 fuel t2 i)) /\
    (asks1 K S (br_rank0 R1) (br_rank0 R2) -> alike K eq (bss_select0 c R1 fuel t1 i) (bss_select0 c R2 fuel t2 i)) /\
    (forall v, asks2 K S (rs_rank (br_rs R1)) (rs_rank (br_rs R2)) -> alike K eq (bss_select c (br_rs R1) fuel t1 i v) (bss_select c (br_rs R2) fuel t2 i v)).
  Proof.
    intros L H. split; [|split].
    - intros R. unfold bss_select1. al HK. apply same_search. intros p. now apply R.
    - intros R. unfold bss_select0. al HK. apply same_search. intros p. now apply R.
    - intros v R. unfold bss_select. al HK. apply same_search. intros p. now apply R.
  Qed.
End Claims.

(** Two stores of 64-bit blocks: a list read forwards, and one read backwards; both claim three bits less than their blocks hold.
    One answers [true] to every [get_bit] and [get_bits] panics, the other panics and answers zero: neither matters to the wrappers below. *)
Definition forwards (c : cfg) : bitvec (list N) := {| bv_nb := 64; bv_bit_len := fun l => Ok (64 * lengthN l - 3); bv_block_len := fun l => Ok (lengthN l);
  bv_get_bit := fun _ _ => Ok true; bv_get_block := fun l i => index l i; bv_get_bits := fun _ _ _ => Panic PAssert |}.
Definition backwards (c : cfg) : bitvec (list N) := {| bv_nb := 64; bv_bit_len := fun l => Ok (64 * lengthN l - 3); bv_block_len := fun l => Ok (lengthN l);
  bv_get_bit := fun _ _ => Panic PIndex; bv_get_block := fun l i => index (rev l) i; bv_get_bits := fun _ _ _ => Ok 0 |}.
Lemma forwards_alike c : let S := fun l1 l2 => l1 = rev l2 in
  asks0 eq S (bv_bit_len (forwards c)) (bv_bit_len (backwards c)) /\ asks0 eq S (bv_block_len (forwards c)) (bv_block_len (backwards c)) /\
  asks1 eq S (bv_get_block (forwards c)) (bv_get_block (backwards c)).
Proof.
  cbv zeta. repeat split.
  - intros t1 t2 ->. cbn [forwards backwards bv_bit_len]. unfold lengthN. rewrite rev_length. reflexivity.
  - intros t1 t2 ->. cbn [forwards backwards bv_block_len]. unfold lengthN. rewrite rev_length. reflexivity.
  - intros t1 t2 i ->. now apply alike_refl.
Qed.
Example C93_ex :
  let S := fun l1 l2 => l1 = rev l2 in
  (** rank and select over both, and reading a buffer over both *)
  alike eq (same_rank9 S) (rank9_new dbg64 (forwards dbg64) [11; 2^63; 5]) (rank9_new dbg64 (backwards dbg64) [5; 2^63; 11]) /\
  (forall fuel i r1 r2, same_rank9 S r1 r2 ->
     alike eq eq (bss_select1 dbg64 (rank9_bitrank dbg64 (forwards dbg64)) fuel r1 i) (bss_select1 dbg64 (rank9_bitrank dbg64 (backwards dbg64)) fuel r2 i)) /\
  (forall t, same_buffer S (bb_from (rev t)) (bb_from t) ->
     alike eq (same_step S) (read_bit (bb_source dbg64 (forwards dbg64)) (bb_from (rev t))) (read_bit (bb_source dbg64 (backwards dbg64)) (bb_from t))) /\
  (** and what they answer *)
  (r <- rank9_new dbg64 (backwards dbg64) [5; 2^63; 11] ;; bss_select1 dbg64 (rank9_bitrank dbg64 (backwards dbg64)) 70 r 3) = Ok (Some 127) /\
  read_bit (bb_source dbg64 (backwards dbg64)) (bb_from [5; 2^63; 11]) = Ok (IOk (Some true), {| bb_data := [5; 2^63; 11]; bb_pos := 1 |}).
Proof.
  intros S. destruct (forwards_alike dbg64) as [L [LB G]].
  destruct (C93_rank9 dbg64 eq S (fun k => eq_refl) _ _ G) as [N9 [R1 [R0 [RA _]]]].
  split; [now apply N9|]. split; [|split; [|split]].
  - intros fuel i r1 r2 H. destruct (RA L) as [_ [Li [R _]]].
    destruct (C93_select dbg64 eq (same_rank9 S) (fun k => eq_refl) _ _ fuel r1 r2 i Li H) as [A _]. now apply A.
  - intros t H. destruct (C93_buffer dbg64 eq S (fun k => eq_refl) (forwards dbg64) (backwards dbg64) eq_refl L) as [_ [_ A]]. now apply (A G).
  - vm_compute. reflexivity.
  - vm_compute. reflexivity.
Qed.
(** The defaults: [get_bits] from [get_bit] over the two lists *)
Example C93_ex2 :
  let S := fun l1 l2 => l1 = rev l2 in
  let g1 := fun (l : list bool) i => index l i in let g2 := fun (l : list bool) i => index (rev l) i in
  let len := fun l : list bool => Ok (lengthN l) in
  same_reads eq S (bitvec_of_bit rel32 8 len g1) (bitvec_of_bit rel32 8 len g2) /\
  bv_get_bits (bitvec_of_bit rel32 8 len g2) [true; false; true; true; false; false; true; false; true; true] 5 4 = Ok 6.
Proof.
  intros S g1 g2 len. split; [|vm_compute; reflexivity]. apply (C93_defaults rel32 eq S (fun k => eq_refl)).
  - intros t1 t2 ->. unfold len, lengthN. rewrite rev_length. reflexivity.
  - intros t1 t2 i ->. now apply alike_refl.
Qed.

Print Assumptions C93_defaults.
Print Assumptions C93_defaults_mut.
Print Assumptions C93_defaults_push.
Print Assumptions C93_slice.
Print Assumptions C93_slice_mut.
Print Assumptions C93_buffer.
Print Assumptions C93_buffer_mut.
Print Assumptions C93_buffer_write.
Print Assumptions C93_rank9.
Print Assumptions C93_jacobson.
Print Assumptions C93_select.
