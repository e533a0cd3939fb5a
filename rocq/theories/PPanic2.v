(** * The erasure theorems for the trait implementations, and the wrappers. *)
From Coq Require Import Lia.
From Verif Require Import Machine SpecBits SpecLaws SpecOps MStorage MTraits MVectorBase MBitVector MIntVector MBitSlice MStream SpecBuffer MPanic SpecPanic.
From Verif Require Import PBase PBits PStorage PDefaults PVectorBase PVectorBase2 PVectorBase3 PBitVector PIntVector PBlocks PSlice PRun PIntRun PStream PBuffer PPanic.

Lemma unharmed_keeps {S A} (m : pm S A) s : keeps m s -> unharmed m s.
Proof. unfold keeps, unharmed. intros H p s' E. now rewrite E in H. Qed.
Lemma keeps_bind_read {S A B} (m : pm S A) (k : A -> pm S B) s :
  keeps m s -> (forall a s', m s = (Ok a, s') -> s' = s /\ keeps (k a) s) -> keeps (pbind m k) s.
Proof. unfold keeps, pbind. intros H1 H2. destruct (m s) as [[a|p|] s'] eqn:E; auto. destruct (H2 a s' eq_refl) as [-> H3]. exact H3. Qed.
Lemma within_same {S T} (get : S -> T) put (m : pm T unit) s : state (within get put m s) = (t <- state (m (get s)) ;; Ok (put s t)).
Proof. unfold within. destruct (m (get s)) as [[[]|p|] t]; reflexivity. Qed.

Section Dicts.
  Variables (c : cfg) (nb : N).
  Lemma blocks_same_mut : same_mut (forget_mut (pblocks_mut c nb)) (blocks_bitvecmut c nb).
  Proof. constructor; cbn [forget_push forget_mut bp_bm bm_bv bm_set_bit bm_set_block bm_set_bits bp_push_bit bp_pop_bit bp_align_block bp_push_block pm_bv pm_set_bit pm_set_block pm_set_bits pp_bm pp_push_bit pp_pop_bit pp_align_block pp_push_block pblocks_mut blocks_bitvecmut]; intros; [reflexivity|apply pblocks_set_bit_same|apply pblocks_set_block_same|apply pblocks_set_bits_same]. Qed.
  Lemma pvb8_set_bit_same l i b : state (pvb8_set_bit c i b l) = vb8_set_bit c l i b.
  Proof. unfold pvb8_set_bit, vb8_set_bit. rewrite state_pure. destruct (expect (to_usize c i)); cbn [bind]; try reflexivity. exact (atomic_same _ l). Qed.
  Lemma pvb8_set_block_same l i x : state (pvb8_set_block c i x l) = vb8_set_block c l i x.
  Proof. apply pdefault_set_block_same. intros. apply pvb8_set_bit_same. Qed.
  Lemma pvb8_push_bit_same l b : state (pvb8_push_bit c b l) = vb8_push_bit c l b.
  Proof. exact (atomic_same _ l). Qed.
  Lemma vecbool_same_push : same_push (forget_push (pvecbool_push c)) (vecbool_bitvecpush c).
  Proof.
    constructor; [constructor|..]; cbn [forget_push forget_mut bp_bm bm_bv bm_set_bit bm_set_block bm_set_bits bp_push_bit bp_pop_bit bp_align_block bp_push_block pm_bv pm_set_bit pm_set_block pm_set_bits pp_bm pp_push_bit pp_pop_bit pp_align_block pp_push_block pvecbool_push pvecbool_mut vecbool_bitvecpush vecbool_bitvecmut]; intros.
    - reflexivity.
    - apply pvb8_set_bit_same.
    - apply pvb8_set_block_same.
    - apply pdefault_set_bits_same. intros. apply pvb8_set_block_same.
    - apply pvb8_push_bit_same.
    - unfold pvb8_pop_bit, vb8_pop_bit. destruct (vec_pop t) as [r l]. reflexivity.
    - apply pdefault_align_block_same. intros. apply pvb8_push_bit_same.
    - apply pdefault_push_block_same. intros. apply pvb8_push_bit_same.
  Qed.
  Lemma prim_same_mut : same_mut (forget_mut (pprim_mut c nb)) (prim_bitvecmut c nb).
  Proof.
    constructor; cbn [forget_push forget_mut bp_bm bm_bv bm_set_bit bm_set_block bm_set_bits bp_push_bit bp_pop_bit bp_align_block bp_push_block pm_bv pm_set_bit pm_set_block pm_set_bits pp_bm pp_push_bit pp_pop_bit pp_align_block pp_push_block pprim_mut prim_bitvecmut]; intros; [reflexivity|..].
    - unfold pprim_set_bit. rewrite state_look. destruct (prim_set_bit c nb t i b); reflexivity.
    - unfold pprim_set_block, prim_set_block. rewrite state_pure. destruct (assert_ (i =? 0)); reflexivity.
    - unfold pprim_set_bits. rewrite state_look. destruct (prim_set_bits c nb t s n x); reflexivity.
  Qed.
  Lemma bvec_same_push : same_push (forget_push (p_bvec_push c nb)) (bvec_bitvecpush c nb).
  Proof.
    constructor; [constructor|..]; cbn [forget_push forget_mut bp_bm bm_bv bm_set_bit bm_set_block bm_set_bits bp_push_bit bp_pop_bit bp_align_block bp_push_block pm_bv pm_set_bit pm_set_block pm_set_bits pp_bm pp_push_bit pp_pop_bit pp_align_block pp_push_block p_bvec_push p_bvec_mut bvec_bitvecpush bvec_bitvecmut]; intros.
    - reflexivity.
    - apply vb_set_bit_same.
    - apply vb_set_block_same.
    - apply bvec_set_bits_same.
    - apply vb_push_bit_same.
    - unfold p_bvec_pop_bit, bvec_pop_bit. rewrite vb_pop_bit_same. destruct (vb_pop_bit c nb t) as [[r v]|p|]; reflexivity.
    - apply bvec_align_same.
    - apply vb_push_block_same.
  Qed.
  Lemma iv_same_mut : same_mut (forget_mut (p_iv_mut c nb)) (iv_bitvecmut c nb).
  Proof.
    constructor; cbn [forget_push forget_mut bp_bm bm_bv bm_set_bit bm_set_block bm_set_bits bp_push_bit bp_pop_bit bp_align_block bp_push_block pm_bv pm_set_bit pm_set_block pm_set_bits pp_bm pp_push_bit pp_pop_bit pp_align_block pp_push_block p_iv_mut iv_bitvecmut]; intros.
    - reflexivity.
    - apply pdefault_set_bit_same. intros. apply iv_set_block_same.
    - apply iv_set_block_same.
    - apply pdefault_set_bits_same. intros. apply iv_set_block_same.
  Qed.
End Dicts.

Section Wrappers.
  Context {T : Type} (c : cfg) (M : pbitvecmut T) (M0 : bitvecmut T).
  Hypothesis H : same_mut (forget_mut M) M0.
  Let Hbv : pm_bv M = bm_bv M0 := sm_bv _ _ H.
  Lemma slice_same_mut : same_mut (forget_mut (p_slice_mut c M)) (slicemut_bitvecmut c M0).
  Proof.
    assert (HS : forall t p n v, state (p_slice_set_bits c M p n v t) = slice_set_bits c M0 t p n v).
    { intros t p n v. unfold p_slice_set_bits, slice_set_bits. rewrite state_pure. destruct (expect (checked_add 64 p n)); cbn [bind]; try reflexivity.
      rewrite state_look. destruct (assert_ (_ <=? sl_len t)); cbn [bind]; try reflexivity.
      rewrite state_look. destruct (wadd c 64 (sl_start t) p); cbn [bind]; try reflexivity.
      unfold in_data. rewrite within_same. pose proof (sm_set_bits _ _ H (sl_data t) a1 n v) as E. cbn in E. now rewrite E. }
    constructor; cbn [forget_push forget_mut bp_bm bm_bv bm_set_bit bm_set_block bm_set_bits bp_push_bit bp_pop_bit bp_align_block bp_push_block pm_bv pm_set_bit pm_set_block pm_set_bits pp_bm pp_push_bit pp_pop_bit pp_align_block pp_push_block p_slice_mut slicemut_bitvecmut]; intros.
    - now rewrite Hbv.
    - unfold p_slice_set_bit, slice_set_bit. rewrite state_look. destruct (assert_ (i <? sl_len t)); cbn [bind]; try reflexivity.
      rewrite state_look. destruct (wadd c 64 (sl_start t) i); cbn [bind]; try reflexivity.
      unfold in_data. rewrite within_same. pose proof (sm_set_bit _ _ H (sl_data t) a0 b) as E. cbn in E. now rewrite E.
    - unfold p_slice_set_block, slice_set_block. rewrite Hbv, state_pure. destruct (mul_nbits c _ i); cbn [bind]; try reflexivity. apply HS.
    - apply HS.
  Qed.
  Lemma bb_set_block_same t i v : state (in_buf (pm_set_block M i v) t) = bb_set_block M0 t i v.
  Proof. unfold in_buf, bb_set_block. rewrite within_same. pose proof (sm_set_block _ _ H (bb_data t) i v) as E. cbn in E. now rewrite E. Qed.
  Lemma bb_same_mut : same_mut (forget_mut (p_bb_mut c M)) (bb_bitvecmut c M0).
  Proof.
    constructor; cbn [forget_push forget_mut bp_bm bm_bv bm_set_bit bm_set_block bm_set_bits bp_push_bit bp_pop_bit bp_align_block bp_push_block pm_bv pm_set_bit pm_set_block pm_set_bits pp_bm pp_push_bit pp_pop_bit pp_align_block pp_push_block p_bb_mut bb_bitvecmut]; intros.
    - now rewrite Hbv.
    - rewrite Hbv. apply pdefault_set_bit_same. intros. apply bb_set_block_same.
    - apply bb_set_block_same.
    - rewrite Hbv. apply pdefault_set_bits_same. intros. apply bb_set_block_same.
  Qed.
  (** Slices: nothing is touched before the underlying method is called. *)
  Variable Inv : T -> Prop.
  Hypothesis Kbit : forall t i b, Inv t -> keeps (pm_set_bit M i b) t.
  Hypothesis Kbits : forall t s n x, Inv t -> keeps (pm_set_bits M s n x) t.
  Lemma keeps_in_data {A} (m : pm T A) sl : keeps m (sl_data sl) -> keeps (in_data m) sl.
  Proof. intros K. apply keeps_within; [now intros []|exact K]. Qed.
  Lemma p_slice_set_bit_keeps sl i b : Inv (sl_data sl) -> keeps (p_slice_set_bit c M i b) sl.
  Proof. intros I. unfold p_slice_set_bit. apply keeps_look_bind; intros. apply keeps_look_bind; intros. apply keeps_in_data. now apply Kbit. Qed.
  Lemma p_slice_set_bits_keeps sl s n x : Inv (sl_data sl) -> keeps (p_slice_set_bits c M s n x) sl.
  Proof. intros I. unfold p_slice_set_bits. apply keeps_pure_bind; intros. apply keeps_look_bind; intros. apply keeps_look_bind; intros. apply keeps_in_data. now apply Kbits. Qed.
  Lemma p_slice_set_block_keeps sl i x : Inv (sl_data sl) -> keeps (p_slice_set_block c M i x) sl.
  Proof. intros I. unfold p_slice_set_block. apply keeps_pure_bind; intros. now apply p_slice_set_bits_keeps. Qed.
End Wrappers.

Section Buffer.
  Context {T : Type} (c : cfg) (P : pbitvecpush T) (P0 : bitvecpush T).
  Hypothesis H : same_push (forget_push P) P0.
  Let HM := sp_bm _ _ H.
  Let Hbv : pm_bv (pp_bm P) = bm_bv (bp_bm P0) := sm_bv _ _ HM.
  Lemma bb_write_loop pos : forall fuel bb, bb_pos bb = pos ->
    state (pwhile fuel (
      bl <~ look (bb_bit_len (pm_bv (pp_bm P))) ;;
      pos <~ look (fun bb => Ok (bb_pos bb)) ;;
      if bl <=? pos then in_buf (pp_push_bit P false) ~; pret true else pret false)%pm bb) =
    (d <- loop_fuel fuel (fun d =>
             bl <- bv_bit_len (bm_bv (bp_bm P0)) d ;;
             if bl <=? pos then d' <- bp_push_bit P0 d false ;; Ok (Continue d')
             else Ok (Return d)) (bb_data bb) ;; Ok (bb_with bb d)).
  Proof.
    induction fuel as [|f IH]; intros bb Hp; [reflexivity|]. cbn [pwhile loop_fuel]. unfold pbind at 1 2 3, look at 1, bb_bit_len at 1. rewrite Hbv.
    destruct (bv_bit_len (bm_bv (bp_bm P0)) (bb_data bb)) as [bl|p|]; cbn [bind]; [|reflexivity..]. unfold look at 1. rewrite Hp.
    destruct (bl <=? pos) eqn:E.
    - unfold pbind at 1, in_buf at 1, within at 1. pose proof (sp_push_bit _ _ H (bb_data bb) false) as Q. cbn in Q. rewrite <- Q.
      destruct (pp_push_bit P false (bb_data bb)) as [[[]|p|] d]; cbn [state bind]; [|reflexivity..]. unfold pret at 1.
      rewrite <- Hbv. rewrite IH by exact Hp. rewrite <- Hbv. reflexivity.
    - unfold pret at 1 2. cbn [state bind]. destruct bb; reflexivity.
  Qed.
  Lemma bb_write_same fuel b bb : forget ((p_bb_write_bit c P fuel b ~; pret (IOk tt))%pm bb) = (r <- bb_write_bit c P0 fuel b bb ;; Ok (snd r, fst r)).
  Proof.
    rewrite forget_bind. unfold p_bb_write_bit at 1. rewrite state_bind, (bb_write_loop (bb_pos bb)) by reflexivity.
    unfold bb_write_bit. destruct (loop_fuel _ _ _) as [d|p|]; cbn [bind]; [|reflexivity..].
    rewrite state_look. cbn [bind]. rewrite state_bind. pose proof (sm_set_bit _ _ (bb_same_mut c _ _ HM) (bb_with bb d) (bb_pos bb) b) as Q. cbn [forget_mut bm_set_bit bb_bitvecmut] in Q.
    change (bb_pos (bb_with bb d)) with (bb_pos bb). rewrite Q.
    destruct (bb_set_bit c (bp_bm P0) (bb_with bb d) (bb_pos bb) b) as [bb'|p|] eqn:E; cbn [bind]; [|reflexivity..].
    rewrite state_look. assert (bb_pos bb' = bb_pos bb) as ->.
    { unfold bb_set_bit, default_set_bit in E. revert E.
      repeat match goal with |- (bind ?x _ = _) -> _ => destruct x; cbn [bind]; [|discriminate..] end.
      unfold bb_set_block. destruct (bm_set_block _ _ _ _); cbn [bind]; [|discriminate..]. intros Q'. injection Q' as <-. reflexivity. }
    destruct (wadd c 64 (bb_pos bb) 1); reflexivity.
  Qed.
  Lemma p_val_same {A} (f : A -> out) (m : bitbuf T -> res A) bb : forget (p_val f m bb) = val_out bb f (m bb).
  Proof. unfold p_val, val_out. rewrite forget_look. destruct (m bb); reflexivity. Qed.
  Lemma p_upd_same (m : pm (bitbuf T) unit) bb : forget (p_upd m bb) = upd_out (state (m bb)).
  Proof. unfold p_upd, upd_out. rewrite forget_bind. destruct (state (m bb)); reflexivity. Qed.
  Lemma p_io_same {A} (f : A -> out) (m : pm (bitbuf T) (ioR A)) bb r : forget (m bb) = (x <- r ;; Ok (snd x, fst x)) -> forget (p_io f m bb) = io_out f r.
  Proof.
    unfold p_io, io_out, pbind. destruct (m bb) as [[a|p|] s], r as [[b s']|q|]; cbn; intros E; try discriminate; try congruence.
  Qed.
  Lemma bb_step_same fuel op bb : forget (p_bb_step c P fuel op bb) = bb_step c P0 fuel bb op.
  Proof.
    pose proof (bb_same_mut c _ _ HM) as HB.
    destruct op; cbn [p_bb_step bb_step].
    - apply p_io_same. unfold p_bb_read_bit, bb_read_bit. rewrite Hbv. rewrite forget_look. destruct (bb_bit_len _ bb); cbn [bind]; [|reflexivity..].
      rewrite forget_look. cbn [bind]. destruct (bb_pos bb <? a); [|reflexivity]. rewrite forget_look. destruct (bb_get_bit c _ bb (bb_pos bb)); cbn [bind]; [|reflexivity..].
      rewrite forget_look. destruct (wadd c 64 (bb_pos bb) 1); reflexivity.
    - apply p_io_same, bb_write_same.
    - apply p_io_same. unfold p_bb_seek, bb_seek. rewrite Hbv, forget_look. destruct (bv_bit_len _ (bb_data bb)); cbn [bind]; [|reflexivity..]. destruct (p <=? a); reflexivity.
    - apply p_val_same.
    - rewrite p_val_same. cbn. now rewrite Hbv.
    - rewrite p_val_same. cbn. now rewrite Hbv.
    - rewrite p_val_same. cbn. now rewrite Hbv.
    - rewrite p_val_same. cbn. now rewrite Hbv.
    - rewrite p_val_same. cbn. now rewrite Hbv.
    - rewrite p_upd_same. f_equal. exact (sm_set_bit _ _ HB bb i b).
    - rewrite p_upd_same. f_equal. exact (sm_set_block _ _ HB bb i x).
    - rewrite p_upd_same. f_equal. exact (sm_set_bits _ _ HB bb s n x).
  Qed.

  Variables (R : T -> list bool -> Prop) (roomb : N -> bool).
  Hypothesis Hc : wf_cfg c.
  Hypothesis LB : lawful_bits c (bm_bv (bp_bm P0)) R.
  Hypothesis LK : lawful_blocks c (bm_bv (bp_bm P0)) R.
  Hypothesis LS : lawful_setblock c (bp_bm P0) R.
  Hypothesis LP : lawful_push c P0 R (fun n => roomb n = true).
  Hypothesis Kpush : forall t l, R t l -> unharmed (pp_push_bit P false) t.
  Hypothesis Kblock : forall t l i x, R t l -> i < 2 ^ ptr c -> i * bv_nb (bm_bv (bp_bm P0)) < 2 ^ 64 -> x < 2 ^ bv_nb (bm_bv (bp_bm P0)) -> unharmed (pm_set_block (pp_bm P) i x) t.
  Let Rb := R_buf R.
  Lemma panicked_io {A} (f : A -> out) (m : pm (bitbuf T) (ioR A)) bb p : m bb = (Panic p, bb) -> p_io f m bb = (Panic p, bb).
  Proof. intros E. unfold p_io, pbind. now rewrite E. Qed.
  Lemma panicked_upd (m : pm (bitbuf T) unit) bb p : m bb = (Panic p, bb) -> p_upd m bb = (Panic p, bb).
  Proof. intros E. unfold p_upd, pbind. now rewrite E. Qed.
  Lemma p_bb_step_sim f op : fop_ok c P0 f op ->
    exists n0, forall fuel bb, (n0 <= fuel)%nat -> Rb bb f ->
      matches_p Rb (p_bb_step c P fuel op bb) (spec_fstep P0 roomb f op) f.
  Proof.
    intros Hop. destruct (bb_step_sim c P0 R roomb Hc LB LK LS LP f op Hop) as [n0 HS]. exists (Nat.max 1 n0). intros fuel bb Hf HR.
    specialize (HS fuel bb ltac:(lia) HR). rewrite <- bb_step_same in HS. unfold matches_p, matches in *.
    destruct (spec_fstep P0 roomb f op) as [[f' x]|] eqn:E.
    - destruct HS as [s [H1 H2]]. exists s. split; [|exact H2]. now apply state_of_forget.
    - destruct (panic_of_forget _ _ HS) as [p [s Q]]. exists p, s. split; [exact Q|]. enough (s = bb) as -> by exact HR. clear HS.
      destruct f as [l pos]. destruct HR as [HR [Hpos Hle]]. cbn [fst snd] in *.
      pose proof (lb_bit_len _ _ _ LB _ _ HR) as HL.
      destruct op; cbn [p_bb_step spec_fstep fop_ok] in *.
      all: try discriminate.
      all: try (unfold p_val, pbind, look, pret in Q; match goal with Q : (match ?r with _ => _ end) = _ |- _ => destruct r; congruence end).
      + destruct (pos <? lengthN l) eqn:E1; [discriminate|]. destruct (roomb (lengthN l + 1)) eqn:E2; [discriminate|].
        destruct fuel as [|fuel]; [lia|].
        destruct (lp_push_bit_full _ _ _ _ LP _ _ false HR) as [q Hq]; [congruence|].
        pose proof (sp_push_bit _ _ H (bb_data bb) false) as Q2. cbn in Q2. rewrite Hq in Q2.
        destruct (pp_push_bit P false (bb_data bb)) as [[u|q'|] d] eqn:Q3; try discriminate. pose proof (Kpush _ _ HR _ _ Q3) as ->.
        assert (Q4 : p_bb_write_bit c P (Datatypes.S fuel) b bb = (Panic q', bb)).
        { unfold p_bb_write_bit. cbn [pwhile]. unfold pbind, look, in_buf, within, bb_bit_len. rewrite Hbv, HL. destruct (lengthN l <=? bb_pos bb) eqn:E3; [|lia].
          rewrite Q3. destruct bb; reflexivity. }
        unfold p_io, pbind in Q. rewrite Q4 in Q. congruence.
      + destruct (i <? lengthN l) eqn:E1; [discriminate|]. unfold p_upd, p_bb_mut, pm_set_bit, pdefault_set_bit, pbind, look, pure, bb_bit_len in Q.
        rewrite Hbv, HL, E1 in Q. cbn [assert_] in Q. congruence.
      + unfold p_upd in Q. cbn [p_bb_mut pm_set_block] in Q. unfold pbind, in_buf, within in Q. destruct Hop as [Hi [Hi2 Hx]].
        pose proof (Kblock _ _ i x HR Hi Hi2 Hx) as K. unfold unharmed in K.
        destruct (pm_set_block (pp_bm P) i x (bb_data bb)) as [[u|q|] d] eqn:Q3; try discriminate. specialize (K _ _ eq_refl). subst d. injection Q as _ <-. destruct bb; reflexivity.
      + destruct (s0 + n <=? lengthN l) eqn:E1; [discriminate|]. destruct Hop as [[Hs [Hn _]] _].
        unfold p_upd, p_bb_mut, pm_set_bits, pdefault_set_bits, pbind, look, pure, bb_bit_len in Q.
        rewrite wadd_ok in Q by lia. rewrite Hbv, HL, E1 in Q. cbn [assert_] in Q. congruence.
  Qed.
End Buffer.

Section VecBoolKeeps.
  Variable c : cfg.
  Hypothesis Hc : wf_cfg c.
  Lemma pvb8_set_bit_keeps l i b : keeps (pvb8_set_bit c i b) l.
  Proof. unfold pvb8_set_bit. apply keeps_pure_bind; intros. apply keeps_atomic. Qed.
  Lemma pvb8_get_block_in l i y : vb8_get_block c l i = Ok y -> i < blocks_for 8 (lengthN l) \/ R_bools c l l -> R_bools c l l -> i * 8 < lengthN l.
  Proof.
    intros E _ HR. unfold vb8_get_block, default_get_block in E. rewrite (vb8_block_len_ok c Hc l l HR) in E. cbn [bind] in E.
    destruct (i <? blocks_for 8 (lengthN l)) eqn:E1; [|discriminate]. pose proof (blocks_for_spec 8 (lengthN l) ltac:(lia)). lia.
  Qed.
  Lemma vb8_writable : writable (vb8_get_block c) (pvb8_set_block c) (fun l => R_bools c l l).
  Proof.
    intros l i y x HR E. pose proof (pvb8_get_block_in l i y E (or_intror HR) HR) as Hi.
    destruct (vb8_set_block_ok c Hc l l i x HR Hi) as [l' [E2 HR2]]. rewrite <- pvb8_set_block_same in E2.
    destruct (nofail_state _ _ _ E2) as [[] [l2 E3]]. rewrite E3 in E2. cbn in E2. injection E2 as ->. pose proof HR2 as [E4 _].
    exists l'. split; [exact E3|]. split; [now rewrite E4 at 2|]. intros j z Hj.
    assert (j * 8 < lengthN l) by (eapply pvb8_get_block_in; eauto). eexists. eapply vb8_get_block_ok; [exact Hc|exact HR2|].
    rewrite lengthN_set_block_of by lia. assumption.
  Qed.
  Lemma pvb8_set_bits_keeps l s n x : R_bools c l l -> keeps (pvb8_set_bits c s n x) l.
  Proof. intros HR. eapply pdefault_set_bits_keeps; [exact vb8_writable|exact HR]. Qed.
  Lemma pvb8_set_block_keeps l i x : R_bools c l l -> i < 2 ^ ptr c -> i * 8 < 2 ^ 64 -> keeps (pvb8_set_block c i x) l.
  Proof.
    intros HR Hi Hov. destruct (N.lt_ge_cases (i * 8) (lengthN l)) as [L|L].
    - apply keeps_ok. rewrite pvb8_set_block_same. destruct (vb8_set_block_ok c Hc l l i x HR L) as [l' [E2 _]]. eauto.
    - pose proof (bools_ptr c Hc l (proj2 HR)) as Hl.
      unfold pvb8_set_block, pdefault_set_block. apply keeps_pure_bind; intros p1 H1. apply keeps_look_bind; intros n Hn.
      rewrite (vb8_block_len_ok c Hc l l HR) in Hn. injection Hn as <-.
      assert (KL : forall limit, keeps (start <~ pure (mul_nbits c 8 i) ;; pfor_range 0 limit (fun i value =>
          p <~ pure (wadd c 64 start i) ;; pvb8_set_bit c p (negb (N.land value 1 =? 0)) ~; pure (wshr c 8 value 1)) x ~; pret tt)%pm l).
      { intros limit. apply keeps_pure_bind; intros start Hs.
        rewrite mul_nbits_ok in Hs by (auto; now left). injection Hs as <-.
        unfold pfor_range. destruct (N.to_nat (limit - 0)) as [|m]; [exact I|]. cbn [pfor]. unfold keeps, pbind at 1 2 3 4, pure at 1.
        rewrite wadd_ok by lia. unfold pvb8_set_bit at 1, pbind at 1, pure at 1. rewrite N.add_0_r.
        destruct (to_usize c (i * 8)) as [q|] eqn:Eq; cbn [expect]; [|reflexivity]. unfold atomic at 1.
        assert (q = i * 8) as -> by (unfold to_usize in Eq; destruct (i * 8 <? 2 ^ ptr c); congruence).
        rewrite index_set_oob by exact L. reflexivity. }
      destruct (p1 =? blocks_for 8 (lengthN l)).
      + apply keeps_bind_read; [|].
        * apply keeps_look_bind; intros. unfold keeps, pure. now destruct (last_block_bits c 8 a).
        * intros a s' G. unfold pbind, look, pure in G. cbn in G. destruct (last_block_bits c 8 (lengthN l)) eqn:E; try discriminate. injection G as <- <-. split; [reflexivity|apply KL].
      + apply keeps_bind_read; [exact I|]. intros a s' G. injection G as <- <-. split; [reflexivity|apply KL].
  Qed.
End VecBoolKeeps.
