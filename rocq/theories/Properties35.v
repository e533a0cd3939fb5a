(** * What a caught panic leaves behind (C88).

    A program may catch a panic and go on using the value whose method panicked.  The methods are modelled a second time so that they yield
    the state also when they panic (MPanic.v); apart from that they are the methods of the model ([C88_same_...]).  Programs that catch every
    panic and carry on then deliver what the specification says, where an operation that panics leaves the sequence as it was, with one
    exception: [BitVector::resize] to ones. *)
From Coq Require Import Lia.
From Verif Require Import Machine SpecBits SpecCfg SpecLaws SpecOps MStorage MTraits MVectorBase MBitVector MIntVector MBitSlice MStream SpecBuffer
  MPanic SpecPanic PBase PBits PStorage PDefaults PVectorBase PVectorBase2 PVectorBase3 PBitVector PIntVector PBlocks PSlice PRun PIntRun PStream PBuffer PPanic PPanic2.
From Verif Require Import SpecOps.

(** ** The second model is the model *)
Theorem C88_same_vectors : forall c nb fuel,
  (forall op v, forget (p_bvec_step c nb fuel op v) = bvec_step c nb fuel v op) /\
  (forall op v, forget (p_iv_step c nb fuel op v) = iv_step c nb fuel v op).
Proof. intros c nb fuel. split; intros op v; [apply bvec_step_same|apply iv_step_same]. Qed.
Theorem C88_same_traits : forall c nb,
  same_push (forget_push (p_bvec_push c nb)) (bvec_bitvecpush c nb) /\
  same_push (forget_push (pvecbool_push c)) (vecbool_bitvecpush c) /\
  same_mut (forget_mut (p_iv_mut c nb)) (iv_bitvecmut c nb) /\
  same_mut (forget_mut (pblocks_mut c nb)) (blocks_bitvecmut c nb) /\
  same_mut (forget_mut (pprim_mut c nb)) (prim_bitvecmut c nb).
Proof.
  intros c nb. split; [apply bvec_same_push|]. split; [apply vecbool_same_push|]. split; [apply iv_same_mut|]. split; [apply blocks_same_mut|apply prim_same_mut].
Qed.
Theorem C88_same_wrappers : forall T c (P : pbitvecpush T) P0, same_push (forget_push P) P0 ->
  same_mut (forget_mut (p_slice_mut c (pp_bm P))) (slicemut_bitvecmut c (bp_bm P0)) /\
  same_mut (forget_mut (p_bb_mut c (pp_bm P))) (bb_bitvecmut c (bp_bm P0)) /\
  forall fuel op bb, forget (p_bb_step c P fuel op bb) = bb_step c P0 fuel bb op.
Proof.
  intros T c P P0 H. split; [exact (slice_same_mut c _ _ (sp_bm _ _ H))|]. split; [exact (bb_same_mut c _ _ (sp_bm _ _ H))|].
  intros. now apply bb_step_same.
Qed.

(** ** Vectors: what the operations deliver, panicking ones included, is what the specification says; the program may look at the vector
    whenever it likes, so this determines what a panic leaves *)
Theorem C88_bit_vector : forall c nb t ops l, wf_cfg c -> wf_nb nb ->
  bmake_ok c nb t -> spec_bmake c nb t = Some l ->
  along_catching (spec_bstep c nb) (spec_bleft c nb) (bop_ok c nb) l ops ->
  exists v n0, bvec_make c nb t = Ok v /\ forall fuel, (n0 <= fuel)%nat ->
    fst (run_catching (p_bvec_step c nb fuel) v ops) = fst (spec_catching (spec_bstep c nb) (spec_bleft c nb) l ops).
Proof.
  intros c nb t ops l Hc Hnb Ht E Hal. pose proof (bvec_make_sim c nb Hc Hnb t Ht) as Hm. rewrite E in Hm. destruct Hm as (v & Ev & HR).
  destruct (catching_sim (p_bvec_step c nb) (spec_bstep c nb) (spec_bleft c nb) (R_bv c nb) (bop_ok c nb) ops
    (fun l o H => p_bvec_step_sim c nb Hc Hnb l o H) l Hal) as (n0 & H).
  exists v, n0. split; [exact Ev|]. intros fuel Hf. exact (proj1 (H fuel v Hf HR)).
Qed.
Theorem C88_int_vector : forall c nb k t ops xs, wf_cfg c -> wf_nb nb -> 1 <= k <= nb ->
  imake_ok c nb k t -> spec_imake c nb k t = Some xs ->
  along_catching (spec_istep c nb k) (fun l _ => l) (iop_ok_catching c nb k) xs ops ->
  exists v n0, iv_make c nb k t = Ok v /\ forall fuel, (n0 <= fuel)%nat ->
    fst (run_catching (p_iv_step c nb fuel) v ops) = fst (spec_catching (spec_istep c nb k) (fun l _ => l) xs ops).
Proof.
  intros c nb k t ops l Hc Hnb Hk Ht E Hal. pose proof (iv_make_sim c nb k Hc Hnb Hk t Ht) as Hm. rewrite E in Hm. destruct Hm as (v & Ev & HR).
  destruct (catching_sim (p_iv_step c nb) (spec_istep c nb k) (fun l _ => l) (R_iv c nb k) (iop_ok_catching c nb k) ops
    (fun l o H => p_iv_step_sim c nb k Hc Hnb Hk l o H) l Hal) as (n0 & H).
  exists v, n0. split; [exact Ev|]. intros fuel Hf. exact (proj1 (H fuel v Hf HR)).
Qed.
(** [BitVector::resize] fills up the last block before it asks for memory: on a 32-bit target a vector of one bit has 64 after a [resize] to
    2^34 ones that panicked ("capacity overflow"). *)
Theorem C88_resize_refuted : exists v n v', bvec_make dbg32 64 BNew = Ok v /\
  let (xs, w) := run_catching (p_bvec_step dbg32 64 100) v [BPushBit false; BResize n true; BBitLen; BIter] in
  xs = [Some OUnit; None; Some (OInt 64); Some (OBools (false :: repeatN true 63))] /\ w = v'.
Proof. eexists; exists (2 ^ 34); eexists. split; [reflexivity|]. vm_compute. split; reflexivity. Qed.
(** [IntVector::resize] without overflow checks, to a size in bits within a block of 2^64: the vector has been emptied and given its new
    length when the first write fails.  Afterwards it claims to have 2^61 - 1 elements, and reading any of them panics. *)
Lemma pfor_range_panic {S L} (body : N -> L -> pm S L) a b l s p s' : a < b -> body a l s = (Panic p, s') -> pfor_range a b body l s = (Panic p, s').
Proof.
  intros H E. unfold pfor_range. destruct (N.to_nat (b - a)) eqn:Q; [lia|]. cbn [pfor]. unfold pbind. now rewrite E.
Qed.
Theorem C88_int_resize_refuted : exists v n v',
  snd (iv_program rel64 64 8 100 INew [IPush 1; IPush 2]) = Ok v /\
  p_iv_resize rel64 64 n 0 v = (Panic PAssert, v') /\ iv_len v = 2 /\ iv_len v' = n /\ (forall i, i < iv_len v' -> panics (iv_get rel64 64 v' i)).
Proof.
  exists {| iv_bits := 8; iv_base := {| vb_len := 2; vb_vec := [513] |} |}, (2 ^ 61 - 1), {| iv_bits := 8; iv_base := {| vb_len := 2 ^ 61 - 1; vb_vec := [] |} |}.
  split; [vm_compute; reflexivity|]. split; [|split; [reflexivity|]; split; [reflexivity|]].
  - set (n := 2 ^ 61 - 1). unfold p_iv_resize, pbind at 1, look at 1, width, in_base, within. cbn [iv_bits iv_base].
    assert (E : p_vb_resize rel64 64 8 n 0 {| vb_len := 2; vb_vec := [513] |} = (Panic PAssert, {| vb_len := n; vb_vec := [] |})).
    { unfold p_vb_resize, pbind at 1, pure at 1. replace (len_to_block_len rel64 64 8 n) with (Ok (Some 0)) by (vm_compute; reflexivity).
      unfold pbind at 1, pure at 1. cbn [expect]. unfold pbind at 1, in_vec at 1, within at 1, atomic at 1. cbn [vb_vec].
      replace (vec_resize rel64 64 [513] 0 0) with (Ok (@nil N)) by (vm_compute; reflexivity).
      unfold pbind at 1, look at 1. cbn [put_vec vb_len vb_vec]. unfold pbind at 1, store at 1. cbn [put_len vb_len vb_vec].
      replace (n <=? 2) with false by (vm_compute; reflexivity).
      apply pfor_range_panic; [vm_compute; reflexivity|]. vm_compute. reflexivity. }
    now rewrite E.
  - intros i. change (iv_len _) with (2 ^ 61 - 1). intros Hi. unfold iv_get. change (iv_is_block_sized 64 _) with false. cbn [iv_base iv_bits].
    assert (Hi8 : i * 8 + 8 <= 2 ^ 64 - 8) by (change (2 ^ 64 - 8) with ((2 ^ 61 - 1) * 8); lia).
    unfold compute_address, checked_mul. cbn [iv_bits]. destruct (i * 8 <? 2 ^ 64) eqn:E; [|lia]. cbn [expect bind].
    unfold vb_get_bits. rewrite wadd_ok by lia. cbn [bind vb_len vb_vec]. change (wmul rel64 64 (2 ^ 61 - 1) 8) with (Ok (2 ^ 64 - 8)). cbn [bind].
    rewrite assert_true by (apply N.leb_le; exact Hi8). cbn [bind]. unfold blocks_get_bits, default_get_bits. rewrite wadd_ok by lia. cbn [bind].
    change (blocks_bit_len rel64 64 []) with (Ok 0). cbn [bind]. rewrite assert_false by lia. exists PAssert. reflexivity.
Qed.
Example C88_bit_vector_ex :
  let ops := [BPushBit true; BSetBit 5 true; BSetBits 0 9 3; BGetBit 1; BResize (2 ^ 34) true; BPushBit false; BSetBlock 7 1; BBitLen; BGetBlock 1; BPopBit; BIter] in
  bmake_ok dbg32 8 BNew /\ spec_bmake dbg32 8 BNew = Some [] /\ along_catching (spec_bstep dbg32 8) (spec_bleft dbg32 8) (bop_ok dbg32 8) [] ops /\
  fst (spec_catching (spec_bstep dbg32 8) (spec_bleft dbg32 8) [] ops) =
    [Some OUnit; None; None; None; None; Some OUnit; None; Some (OInt 9); Some (OInt 0); Some (OOptBool (Some false)); Some (OBools (repeatN true 8))] /\
  fst (run_catching (p_bvec_step dbg32 8 20) {| vb_len := 0; vb_vec := [] |} ops) = fst (spec_catching (spec_bstep dbg32 8) (spec_bleft dbg32 8) [] ops).
Proof.
  cbv zeta. split; [exact I|]. split; [reflexivity|]. split; [|split; vm_compute; reflexivity].
  cbn [along_catching]. repeat match goal with |- _ /\ along_catching _ _ _ _ _ => split end; try exact I;
    try (vm_compute; reflexivity); try (vm_compute; intuition discriminate).
Qed.
Example C88_int_vector_ex :
  let ops := [IPush 3; IPush 9; ISet 5 1; IPush 7; IResize (2 ^ 40) 1; IGet 2; ISetRandom 3 2 9 1; ISetBits 3 4 5; IPop; IIter] in
  imake_ok rel32 8 3 INew /\ spec_imake rel32 8 3 INew = Some [] /\ along_catching (spec_istep rel32 8 3) (fun l _ => l) (iop_ok_catching rel32 8 3) [] ops /\
  fst (spec_catching (spec_istep rel32 8 3) (fun l _ => l) [] ops) =
    [Some OUnit; None; None; Some OUnit; None; None; None; None; Some (OOptInt (Some 7)); Some (OInts [3])].
Proof.
  cbv zeta. split; [vm_compute; intuition discriminate|]. split; [reflexivity|]. split; [|vm_compute; reflexivity].
  cbn [along_catching]. repeat match goal with |- _ /\ along_catching _ _ _ _ _ => split end; try exact I; split;
    try (vm_compute; reflexivity); try (vm_compute; intuition discriminate).
Qed.

(** ** Slices of blocks and primitive integers: a panic never touches anything *)
Theorem C88_blocks : forall c nb l i b x s n,
  unharmed (pblocks_set_bit c nb i b) l /\ unharmed (pblocks_set_block i x) l /\ unharmed (pblocks_set_bits c nb s n x) l.
Proof.
  intros. split; [apply unharmed_keeps, pblocks_set_bit_keeps|]. split; [apply unharmed_keeps, keeps_atomic|apply unharmed_keeps, pblocks_set_bits_keeps].
Qed.
Theorem C88_prim : forall c nb v i b x s n,
  unharmed (pprim_set_bit c nb i b) v /\ unharmed (pprim_set_block i x) v /\ unharmed (pprim_set_bits c nb s n x) v.
Proof.
  intros. repeat split; apply unharmed_keeps; [apply keeps_look_bind|apply keeps_pure_bind|apply keeps_look_bind]; intros; exact I.
Qed.
Example C88_blocks_ex : pblocks_set_bits dbg64 8 5 8 255 [1; 2] = (Ok tt, [225; 31]) /\ pblocks_set_bits dbg64 8 12 8 255 [1; 2] = (Panic PAssert, [1; 2]) /\
  pprim_set_bits dbg64 8 5 4 255 7 = (Panic PAssert, 7).
Proof. repeat split; vm_compute; reflexivity. Qed.

(** ** [Vec<bool>] *)
Theorem C88_vec_bool : forall c l i b x s n, wf_cfg c -> lengthN l * 8 <= max_bits c -> i < 2 ^ ptr c ->
  unharmed (pvb8_set_bit c i b) l /\ unharmed (pvb8_set_bits c s n x) l /\ unharmed (pvb8_push_bit c b) l /\
  (i * 8 < 2 ^ 64 -> unharmed (pvb8_set_block c i x) l).
Proof.
  intros c l i b x s n Hc Hl Hi. assert (HR : R_bools c l l) by (split; [reflexivity|exact Hl]).
  repeat split; try intros H8; apply unharmed_keeps; [apply pvb8_set_bit_keeps|now apply pvb8_set_bits_keeps|apply keeps_atomic|now apply pvb8_set_block_keeps].
Qed.
(** [set_block] at a position that overflows u64 when counted in bits (C63) has written to the front of the vector when it runs off the end. *)
Theorem C88_vec_bool_refuted : exists l i x l', i < 2 ^ ptr dbg64 /\ pvb8_set_block dbg64 i x l = (Panic PIndex, l') /\ l' <> l.
Proof. exists [false; false; false; false], (2 ^ 61), 255, [true; true; true; true]. split; [vm_compute; reflexivity|]. split; [vm_compute; reflexivity|discriminate]. Qed.
(** [align_block] and [push_block], which push bit by bit: what was pushed before memory ran out stays. *)
Definition pushes (c : cfg) (r : res unit) (l l' w : list bool) : Prop :=
  exists e f, w = e ++ f /\ l' = l ++ e /\ match r with Ok _ => f = [] | Panic _ => f <> [] /\ max_bits c < (lengthN l' + 1) * 8 | OutOfFuel => True end.
Section PushKeeps.
  Variable c : cfg.
  Hypothesis Hc : wf_cfg c.
  Lemma pushes_bit b l : lengthN l * 8 <= max_bits c ->
    (exists p, pvb8_push_bit c b l = (Panic p, l) /\ max_bits c < (lengthN l + 1) * 8) \/
    (pvb8_push_bit c b l = (Ok tt, l ++ [b]) /\ lengthN (l ++ [b]) * 8 <= max_bits c).
  Proof.
    intros Hl. unfold pvb8_push_bit, atomic, vec_push, alloc. rewrite lengthN_app. change (lengthN [b]) with 1. destruct ((lengthN l + 1) * 8 <=? max_bits c) eqn:E; cbn [bind].
    - right. split; [reflexivity|lia].
    - left. eexists. split; [reflexivity|lia].
  Qed.
  Lemma pushes_align b : forall fuel l r l', lengthN l * 8 <= max_bits c ->
    pdefault_align_block c 8 vb8_bit_len (pvb8_push_bit c) fuel b l = (r, l') ->
    pushes c r l l' (repeatN b (padding 8 (lengthN l))) /\ lengthN l' * 8 <= max_bits c.
  Proof.
    unfold pdefault_align_block. induction fuel as [|f IH]; intros l r l' Hl E.
    - injection E as <- <-. split; [|exact Hl]. exists [], (repeatN b (padding 8 (lengthN l))). rewrite app_nil_r. auto.
    - cbn [pwhile] in E. unfold pbind at 1 2 3, look at 1, vb8_bit_len at 1, pure at 1 in E. rewrite mod_nbits_ok in E by (auto; now left).
      destruct (lengthN l mod 8 =? 0) eqn:Em.
      + injection E as <- <-. split; [|exact Hl]. exists [], []. rewrite padding_0 by lia. split; [reflexivity|]. split; [symmetry; apply app_nil_r|reflexivity].
      + unfold pbind at 1 in E. rewrite (padding_S 8 (lengthN l)) by lia. rewrite repeatN_S.
        destruct (pushes_bit b l Hl) as [(p & Q & Q2)|(Q & Q2)]; rewrite Q in E.
        * injection E as <- <-. split; [|exact Hl]. exists [], (b :: repeatN b (padding 8 (lengthN l + 1))). rewrite app_nil_r.
          split; [reflexivity|]. split; [reflexivity|]. split; [discriminate|exact Q2].
        * unfold pret at 1 in E. destruct (IH _ _ _ Q2 E) as ((e & g & E1 & E2 & E3) & E4). split; [|exact E4].
          rewrite lengthN_app in E1. change (lengthN [b]) with 1 in E1. exists (b :: e), g. split; [now rewrite E1|]. split; [now rewrite E2, <- app_assoc|exact E3].
  Qed.
  Lemma pushes_bits : forall n i x l r l', lengthN l * 8 <= max_bits c -> 
    (pfor n i (fun _ value => pvb8_push_bit c (negb (N.land value 1 =? 0)) ~; pure (wshr c 8 value 1)) x l = (r, l'))%pm ->
    pushes c (match r with Ok _ => Ok tt | Panic p => Panic p | OutOfFuel => OutOfFuel end) l l' (bits_of (N.of_nat n) x).
  Proof.
    induction n as [|n IH]; intros i x l r l' Hl E.
    - injection E as <- <-. exists [], []. split; [reflexivity|]. split; [symmetry; apply app_nil_r|reflexivity].
    - cbn [pfor] in E. unfold pbind at 1 2 in E. rewrite Nat2N.inj_succ, <- N.add_1_r, bits_of_S.
      assert (Eb : negb (N.land x 1 =? 0) = N.testbit x 0).
      { change 1 with (N.ones 1). rewrite N.land_ones. change (2 ^ 1) with 2. rewrite <- N.bit0_mod. destruct (N.testbit x 0); reflexivity. }
      rewrite Eb in E. destruct (pushes_bit (N.testbit x 0) l Hl) as [(p & Q & Q2)|(Q & Q2)]; rewrite Q in E.
      + injection E as <- <-. exists [], (N.testbit x 0 :: bits_of (N.of_nat n) (N.shiftr x 1)). rewrite app_nil_r.
        split; [reflexivity|]. split; [reflexivity|]. split; [discriminate|exact Q2].
      + unfold pure at 1 in E. replace (wshr c 8 x 1) with (Ok (N.shiftr x 1)) in E by (unfold wshr; destruct (debug c); reflexivity).
        destruct (IH _ _ _ _ _ Q2 E) as (e & g & E1 & E2 & E3). exists (N.testbit x 0 :: e), g.
        split; [now rewrite E1|]. split; [now rewrite E2, <- app_assoc|exact E3].
  Qed.
End PushKeeps.
Theorem C88_vec_bool_push : forall c l fuel b x r l', wf_cfg c -> lengthN l * 8 <= max_bits c ->
  (pp_align_block (pvecbool_push c) fuel b l = (r, l') -> pushes c r l l' (repeatN b (padding 8 (lengthN l)))) /\
  (pp_push_block (pvecbool_push c) fuel x l = (r, l') -> pushes c r l l' (repeatN false (padding 8 (lengthN l)) ++ bits_of 8 x)).
Proof.
  intros c l fuel b x r l' Hc Hl. split; intros E.
  - exact (proj1 (pushes_align c Hc b fuel l r l' Hl E)).
  - cbn [pp_push_block pvecbool_push] in E. unfold pdefault_push_block in E. unfold pbind at 1 in E.
    destruct (pdefault_align_block c 8 vb8_bit_len (pvb8_push_bit c) fuel false l) as [r1 l1] eqn:E1.
    destruct (pushes_align c Hc false fuel l r1 l1 Hl E1) as ((e & g & A1 & A2 & A3) & A4).
    destruct r1 as [[]|p|].
    + subst g. rewrite app_nil_r in A1. unfold pbind at 1, pfor_range in E.
      destruct (pfor (N.to_nat (8 - 0)) 0 (fun _ value => pvb8_push_bit c (negb (N.land value 1 =? 0)) ~; pure (wshr c 8 value 1))%pm x l1) as [r2 l2] eqn:E2.
      destruct (pushes_bits c (N.to_nat (8 - 0)) 0 x l1 r2 l2 A4 E2) as (e2 & g2 & B1 & B2 & B3). rewrite N2Nat.id in B1. change (8 - 0) with 8 in B1.
      exists (e ++ e2), g2. rewrite A1, B1, app_assoc. split; [reflexivity|]. rewrite app_assoc, <- A2, <- B2.
      destruct r2 as [y|p|]; injection E as <- <-; auto.
    + injection E as <- <-. exists e, (g ++ bits_of 8 x). rewrite A1, <- app_assoc. split; [reflexivity|]. split; [exact A2|]. destruct A3 as [A3 A5]. split; [|exact A5].
      destruct g; [contradiction|discriminate].
    + injection E as <- <-. exists e, (g ++ bits_of 8 x). rewrite A1, <- app_assoc. auto.
Qed.
Example C88_vec_bool_ex : pvb8_set_bits dbg64 2 3 7 [true; true; false; true] = (Panic PAssert, [true; true; false; true]) /\
  pvb8_set_block dbg64 1 255 [true; true; false; true] = (Panic PIndex, [true; true; false; true]) /\
  pp_push_block (pvecbool_push dbg64) 20 5 [true] = (Ok tt, [true; false; false; false; false; false; false; false; true; false; true; false; false; false; false; false]).
Proof. repeat split; vm_compute; reflexivity. Qed.

(** ** Slices: as safe as what they are a slice of.  [Inv] is whatever the methods of the underlying vector need. *)
Lemma unharmed_look_bind {S A B} (f : S -> res A) (k : A -> pm S B) s : (forall a, f s = Ok a -> unharmed (k a) s) -> unharmed (pbind (look f) k) s.
Proof. unfold unharmed, pbind, look. intros H p s' E. destruct (f s); [now apply (H a eq_refl p)|congruence..]. Qed.
Lemma unharmed_pure_bind {S A B} (r : res A) (k : A -> pm S B) s : (forall a, r = Ok a -> unharmed (k a) s) -> unharmed (pbind (pure r) k) s.
Proof. unfold unharmed, pbind, pure. intros H p s' E. destruct r; [now apply (H a eq_refl p)|congruence..]. Qed.
Lemma unharmed_in_data {T A} (m : pm T A) sl : unharmed m (sl_data sl) -> unharmed (in_data m) sl.
Proof.
  unfold unharmed, in_data, within. intros H p s' E. destruct (m (sl_data sl)) as [r t] eqn:Q. injection E as -> <-. rewrite (H _ _ eq_refl). now destruct sl.
Qed.
Theorem C88_slice : forall T c (M : pbitvecmut T) (Inv : T -> Prop),
  (forall t i b, Inv t -> unharmed (pm_set_bit M i b) t) -> (forall t s n x, Inv t -> unharmed (pm_set_bits M s n x) t) ->
  forall sl i b s n x, Inv (sl_data sl) ->
  unharmed (pm_set_bit (p_slice_mut c M) i b) sl /\ unharmed (pm_set_block (p_slice_mut c M) i x) sl /\ unharmed (pm_set_bits (p_slice_mut c M) s n x) sl.
Proof.
  intros T c M Inv H1 H2 sl i b s n x HI.
  assert (HB : forall s n x, unharmed (p_slice_set_bits c M s n x) sl).
  { clear s n x. intros s n x. apply unharmed_pure_bind; intros. apply unharmed_look_bind; intros. apply unharmed_look_bind; intros. apply unharmed_in_data. now apply H2. }
  split; [|split; [|apply HB]].
  - apply unharmed_look_bind; intros. apply unharmed_look_bind; intros. apply unharmed_in_data. now apply H1.
  - apply unharmed_pure_bind; intros. apply HB.
Qed.
Example C88_slice_ex : let sl := {| sl_data := [7; 9]; sl_start := 3; sl_len := 10 |} in
  p_slice_set_bits dbg64 (pblocks_mut dbg64 8) 2 4 15 sl = (Ok tt, {| sl_data := [231; 9]; sl_start := 3; sl_len := 10 |}) /\
  p_slice_set_bits dbg64 (pblocks_mut dbg64 8) 8 4 15 sl = (Panic PAssert, sl) /\
  p_slice_set_bits dbg64 (pblocks_mut dbg64 8) 2 4 15 {| sl_data := [7; 9]; sl_start := 12; sl_len := 10 |} = (Panic PAssert, {| sl_data := [7; 9]; sl_start := 12; sl_len := 10 |}).
Proof. repeat split; vm_compute; reflexivity. Qed.

(** ** [BitBuffer]: over any lawful vector whose [push_bit] and [set_block] change nothing when they panic, programs that catch panics deliver
    what a file does, where an operation that panics leaves bits and cursor alone *)
Theorem C88_buffer : forall T c (P : pbitvecpush T) P0 (R : T -> list bool -> Prop) roomb t l p ops,
  wf_cfg c -> same_push (forget_push P) P0 ->
  lawful_bits c (bm_bv (bp_bm P0)) R -> lawful_blocks c (bm_bv (bp_bm P0)) R ->
  lawful_setblock c (bp_bm P0) R -> lawful_push c P0 R (fun n => roomb n = true) ->
  (forall t l, R t l -> unharmed (pp_push_bit P false) t) ->
  (forall t l i x, R t l -> i < 2 ^ ptr c -> i * bv_nb (bm_bv (bp_bm P0)) < 2 ^ 64 -> x < 2 ^ bv_nb (bm_bv (bp_bm P0)) -> unharmed (pm_set_block (pp_bm P) i x) t) ->
  R t l -> p <= lengthN l ->
  along_catching (spec_fstep P0 roomb) (fun f _ => f) (fop_ok c P0) (l, p) ops ->
  exists n0, forall fuel, (n0 <= fuel)%nat ->
    let (xs, bb) := run_catching (p_bb_step c P fuel) {| bb_data := t; bb_pos := p |} ops in
    let (ys, f) := spec_catching (spec_fstep P0 roomb) (fun f _ => f) (l, p) ops in
    xs = ys /\ R (bb_data bb) (fst f) /\ bb_pos bb = snd f.
Proof.
  intros T c P P0 R roomb t l p ops Hc HS LB LK LS LP K1 K2 HR Hp Hal.
  destruct (catching_sim (p_bb_step c P) (spec_fstep P0 roomb) (fun f _ => f) (R_buf R) (fop_ok c P0) ops
    (fun f o H => p_bb_step_sim c P P0 HS R roomb Hc LB LK LS LP K1 K2 f o H) (l, p) Hal) as (n0 & H).
  exists n0. intros fuel Hf. destruct (H fuel {| bb_data := t; bb_pos := p |} Hf) as [E1 E2]; [repeat split; assumption|].
  destruct (run_catching (p_bb_step c P fuel) _ ops) as [xs bb], (spec_catching (spec_fstep P0 roomb) _ (l, p) ops) as [ys f]. cbn [fst snd] in *.
  split; [exact E1|]. split; [exact (proj1 E2)|exact (proj1 (proj2 E2))].
Qed.
(** A buffer over a [BitVector], and over a [Vec<bool>], is one. *)
Theorem C88_buffer_stores : forall c nb, wf_cfg c -> wf_nb nb ->
  (forall t l, R_bv c nb t l -> unharmed (pp_push_bit (p_bvec_push c nb) false) t) /\
  (forall t l i x, R_bv c nb t l -> i < 2 ^ ptr c -> i * nb < 2 ^ 64 -> x < 2 ^ nb -> unharmed (pm_set_block (pp_bm (p_bvec_push c nb)) i x) t) /\
  (forall t l, R_bools c t l -> unharmed (pp_push_bit (pvecbool_push c) false) t) /\
  (forall t l i x, R_bools c t l -> i < 2 ^ ptr c -> i * 8 < 2 ^ 64 -> x < 2 ^ 8 -> unharmed (pm_set_block (pp_bm (pvecbool_push c)) i x) t).
Proof.
  intros c nb Hc Hnb. pose proof (wf_nb_range nb Hnb). repeat split; intros t l; intros; apply unharmed_keeps.
  - eapply p_vb_push_bit_keeps; eauto.
  - apply (p_vb_set_block_keeps c nb 1); auto; [lia|]. eapply Vrep_in_range; eauto. lia.
  - apply keeps_atomic.
  - destruct H0 as [-> HR]. apply pvb8_set_block_keeps; auto. now split.
Qed.
Example C88_buffer_ex : let ops := [FWrite true; FWrite false; FSetBit 2 true; FSeek 1; FSetBlock 1 3; FWrite true; FGetBit 1; FPosition] in
  along_catching (spec_fstep (bvec_bitvecpush dbg64 8) (fitsb dbg64 8)) (fun f _ => f) (fop_ok dbg64 (bvec_bitvecpush dbg64 8)) ([], 0) ops /\
  fst (run_catching (p_bb_step dbg64 (p_bvec_push dbg64 8) 20) {| bb_data := {| vb_len := 0; vb_vec := [] |}; bb_pos := 0 |} ops) =
    [Some (FIo (IOk OUnit)); Some (FIo (IOk OUnit)); None; Some (FIo (IOk OUnit)); None; Some (FIo (IOk OUnit)); Some (FVal (OBool true)); Some (FVal (OInt 2))].
Proof.
  cbv zeta. split; [|vm_compute; reflexivity]. cbn [along_catching]. repeat match goal with |- _ /\ along_catching _ _ _ _ _ => split end; try exact I;
    try (vm_compute; reflexivity); try (vm_compute; intuition discriminate).
Qed.

Print Assumptions C88_same_vectors.
Print Assumptions C88_same_traits.
Print Assumptions C88_same_wrappers.
Print Assumptions C88_bit_vector.
Print Assumptions C88_int_vector.
Print Assumptions C88_resize_refuted.
Print Assumptions C88_int_resize_refuted.
Print Assumptions C88_blocks.
Print Assumptions C88_prim.
Print Assumptions C88_vec_bool.
Print Assumptions C88_vec_bool_refuted.
Print Assumptions C88_vec_bool_push.
Print Assumptions C88_slice.
Print Assumptions C88_buffer.
Print Assumptions C88_buffer_stores.
