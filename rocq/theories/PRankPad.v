(** * Rank structures over stores whose last block holds more bits than the vector. *)
From Verif Require Import Machine MStorage MTraits MVectorBase MIntVector MRank SpecBits SpecLaws SpecRank SpecOps
  PBase PStorage PBits PBlocks PVectorBase PVectorBase2 PRun PIntVector PIntRun PRank PRank9.

Lemma count_firstn_max v n l : count v (firstnN n l) <= n.
Proof. pose proof (count_le v (firstnN n l)) as H. rewrite lengthN_firstnN in H. lia. Qed.
Section Pad.
  Context {T : Type} (c : cfg) (B : bitvec T) (R : T -> list bool -> Prop).
  Hypothesis Hc : wf_cfg c.
  Hypothesis LB : lawful_bits c B R.
  Let nb := bv_nb B.
  Let Hnb : wf_nb nb := lb_nb c B R LB.
  Let ones (l : list bool) (j : N) : N := count true (firstnN j l).
  Let H64 : wf_nb 64. Proof. right; right; right; reflexivity. Qed.
  Variables (t : T) (l lp : list bool).
  Hypothesis HR : R t l.
  Hypothesis HX : lengthN lp = blocks_for nb (lengthN l) * nb /\ firstnN (lengthN l) lp = l.
  Hypothesis HBL : bv_block_len B t = Ok (blocks_for nb (lengthN l)).
  Hypothesis HG : forall i, i * nb < lengthN l -> bv_get_block B t i = Ok (block_of nb i lp).

  (** What a built structure contains *)
  Definition J_pad (j : jacobson T) : Prop :=
    exists spl m k1 k2, 1 <= spl /\ 1 <= k1 <= 64 /\ 1 <= k2 <= 64 /\
      jr_large_block_size j = nb * spl /\ lengthN lp <= m * (nb * spl) /\
      (exists x, R_iv c 64 k1 (jr_large j) (tab m (fun i => ones lp (i * (nb * spl))) ++ [x])) /\
      (exists x, R_iv c 64 k2 (jr_small j)
        (tab (blocks_for nb (lengthN lp)) (fun i => ones lp (i * nb) - ones lp (i / spl * (nb * spl))) ++ [x])).

  Definition pad_inv (spl k1 k2 i : N) (st : intvec * intvec * N * N * N) : Prop :=
    let '(large, small, cur, last, sbi) := st in
    R_iv c 64 k1 large (tab (blocks_for spl i) (fun j => ones lp (j * (nb * spl)))) /\
    R_iv c 64 k2 small (tab i (fun j => ones lp (j * nb) - ones lp (j / spl * (nb * spl)))) /\
    cur = ones lp (i * nb) /\ sbi = i mod spl /\
    last = (if i =? 0 then 0 else ones lp ((i - 1) / spl * (nb * spl))).
  Section Loop.
    Variables (spl k1 k2 : N).
    Hypothesis Hs : 1 <= spl < 2 ^ 31.
    Hypothesis Hk1 : 1 <= k1 <= 64.
    Hypothesis Hk2 : 1 <= k2 <= 64.
    Hypothesis Hv1 : lengthN l < 2 ^ k1.
    Hypothesis Hv2 : nb * spl < 2 ^ k2.
    Let bl := blocks_for nb (lengthN l).
    Hypothesis Hf1 : fits c 64 ((blocks_for spl bl + 1) * k1).

    Lemma jac_pad_step i st : i < bl -> pad_inv spl k1 k2 i st ->
      (exists st', jac_body c B t spl i st = Ok st' /\ pad_inv spl k1 k2 (i + 1) st') \/
      (panics (jac_body c B t spl i st) /\ ~ fits c 64 ((i + 1) * k2)).
    Proof.
      destruct st as [[[[large small] cur] last] sbi]. cbn [pad_inv jac_body]. intros Hi (HL & HS & Ecur & Esbi & Elast).
      pose proof (wf_nb_range _ Hnb) as Hr. pose proof (lb_fits c B R LB _ _ HR) as Hf. fold nb in Hf.
      pose proof (fits_lt64 c nb _ ltac:(lia) Hf) as H63. pose proof (wf_ptr c Hc) as Hptr. assert (Hlp : bl * nb < 2 ^ 64) by (pose proof (max_bits_lt c); unfold fits in Hf; fold bl in Hf; lia).
      assert (Hil : i * nb < lengthN l) by (apply blocks_for_lt; auto; lia).
      set (q := i / spl) in *. assert (Hq : i = spl * q + i mod spl) by (apply N.div_mod; lia).
      pose proof (N.mod_lt i spl ltac:(lia)) as Hm. set (o := i mod spl) in *.
      assert (Hlarge : exists large', 
        (if sbi =? 0 then large' <- iv_push c 64 large cur ;; Ok (large', cur) else Ok (large, last))
          = Ok (large', ones lp (q * (nb * spl))) /\
        R_iv c 64 k1 large' (tab (blocks_for spl (i + 1)) (fun j => ones lp (j * (nb * spl))))).
      { assert (Eq1 : blocks_for spl (i + 1) = q + 1).
        { unfold blocks_for. replace (i + 1 + (spl - 1)) with (i + 1 * spl) by lia. rewrite N.div_add by lia. reflexivity. }
        rewrite Eq1. rewrite Esbi. destruct (o =? 0) eqn:E.
        - assert (Eq0 : blocks_for spl i = q).
          { rewrite Hq. replace (spl * q + o) with (q * spl) by lia. apply blocks_for_mul. lia. }
          rewrite Eq0 in HL. assert (Ec : cur = ones lp (q * (nb * spl))).
          { rewrite Ecur. f_equal. clearbody o. nia. }
          assert (Hqb : q < blocks_for spl bl).
          { apply blocks_for_lt; [lia|]. clearbody o q. nia. }
          destruct (iv_push_ok c 64 k1 Hc H64 Hk1 large _ cur HL) as [large' [Ep HL']].
          + rewrite Ecur. pose proof (count_firstn_max true (i * nb) lp). unfold ones. lia.
          + rewrite lengthN_tab. eapply fits_mono; [lia| |exact Hf1]. clearbody o q. nia.
          + exists large'. rewrite Ep. cbn [bind]. rewrite Ec. split; [reflexivity|]. rewrite tab_succ, <- Ec. exact HL'.
        - assert (Eq0 : blocks_for spl i = q + 1).
          { unfold blocks_for. rewrite Hq. replace (spl * q + o + (spl - 1)) with (o - 1 + (q + 1) * spl) by lia.
            rewrite N.div_add, N.div_small by lia. lia. }
          rewrite Eq0 in HL. exists large. split; [|exact HL]. rewrite Elast.
          destruct (i =? 0) eqn:E0; [lia|]. do 5 f_equal.
          symmetry. apply (N.div_unique _ _ _ (o - 1)); lia. }
      destruct Hlarge as [large' [-> HL']]. cbn [bind].
      assert (Hmono : ones lp (q * (nb * spl)) <= ones lp (i * nb)) by (apply count_mono; clearbody o q; nia).
      rewrite wsub_ok by lia. cbn [bind].
      assert (Hlt : cur - ones lp (q * (nb * spl)) < 2 ^ k2).
      { eapply N.le_lt_trans; [|exact Hv2]. rewrite Ecur. unfold ones.
        pose proof (count_diff true (q * (nb * spl)) (i * nb) lp ltac:(clearbody o q; nia)). clearbody o q. nia. }
      destruct (fitsb c 64 ((i + 1) * k2)) eqn:Ef2.
      2:{ right. assert (Hnf : ~ fits c 64 ((i + 1) * k2)) by now apply fitsb_false. split; [|exact Hnf].
          apply bind_panics. apply (iv_push_bad c 64 k2 Hc H64 Hk2 small _ _ HS).
          - eapply N.lt_le_trans; [exact Hlt|apply N.pow_le_mono_r; lia].
          - right. rewrite lengthN_tab. exact Hnf. }
      left. apply fitsb_spec in Ef2.
      destruct (iv_push_ok c 64 k2 Hc H64 Hk2 small _ (cur - ones lp (q * (nb * spl))) HS) as [small' [Ep HS']].
      { exact Hlt. }
      { now rewrite lengthN_tab. }
      rewrite Ep. cbn [bind]. rewrite (HG i Hil). cbn [bind]. fold nb.
      rewrite count_ones_block.
      assert (Enext : cur + count true (sub (i * nb) nb lp) = ones lp ((i + 1) * nb)).
      { rewrite Ecur. unfold ones. replace ((i + 1) * nb) with (i * nb + nb) by lia. now rewrite count_add. }
      pose proof (count_firstn_le true ((i + 1) * nb) lp) as Hcl. rewrite (proj1 HX) in Hcl. fold bl in Hcl. fold (ones lp ((i + 1) * nb)) in Hcl.
      rewrite wadd_ok by lia. cbn [bind]. rewrite wadd_ok by lia. cbn [bind].
      eexists. split; [reflexivity|]. cbn [pad_inv]. split; [exact HL'|]. split.
      { rewrite tab_succ, <- Ecur. exact HS'. }
      split; [exact Enext|]. split.
      - rewrite Esbi. destruct (o + 1 =? spl) eqn:E.
        + apply (N.mod_unique _ _ (q + 1)); [lia|]. clearbody o q. nia.
        + apply (N.mod_unique _ _ q); lia.
      - destruct (i + 1 =? 0) eqn:E; [lia|]. replace (i + 1 - 1) with i by lia. reflexivity.
    Qed.
  End Loop.

  Lemma jac_pad_new : 2 <= lengthN l ->
    (exists j, jacobson_new c B t = Ok j /\ jr_store j = t /\ J_pad j /\ jac_room c nb (lengthN l) /\ count true lp < 2 ^ N.log2_up (lengthN l + 1)) \/
    (panics (jacobson_new c B t) /\ ~ (jac_room c nb (lengthN l) /\ count true lp < 2 ^ N.log2_up (lengthN l + 1))).
  Proof.
    intros Hn. pose proof (lb_fits c B R LB _ _ HR) as Hmem.
    pose proof (wf_nb_range _ Hnb) as Hr. pose proof (lb_fits c B R LB _ _ HR) as Hf. fold nb in Hf.
    pose proof (max_bits_lt c) as Hmax. pose proof (wf_ptr c Hc) as Hptr.
    set (n := lengthN l) in *. fold nb in Hmem. pose proof (blocks_for_spec nb n ltac:(lia)) as Hbl. unfold fits in Hmem. assert (Hmem' : n <= max_bits c) by lia.
    assert (Hmax32 : 2 ^ 33 <= max_bits c) by (unfold max_bits; destruct (ptr c =? 32); vm_compute; congruence).
    unfold jacobson_new. rewrite (lb_bit_len c B R LB _ _ HR). cbn [bind]. fold n nb.
    rewrite ceil_lg_ok by lia. cbn [bind].
    assert (Hlg1 : 1 <= N.log2_up n) by (apply N.le_succ_l with (n := 0), N.log2_up_pos; lia).
    assert (Hlg2 : N.log2_up n <= 63) by (apply log2_up_le; lia).
    assert (Hk1a : N.log2_up (n + 1) <= N.log2_up n + 1).
    { apply log2_up_le. rewrite N.pow_add_r. change (2 ^ 1) with 2. pose proof (log2_up_pow n). lia. }
    assert (Hv1 : n < 2 ^ N.log2_up (n + 1)) by (pose proof (log2_up_pow (n + 1)); lia).
    assert (Hk1b : 1 <= N.log2_up (n + 1)) by (apply N.le_succ_l with (n := 0), N.log2_up_pos; lia).
    set (k1 := N.log2_up (n + 1)) in *. set (lg := N.log2_up n) in *.
    rewrite wmul_ok by nia. cbn [bind].
    assert (Hl2 : 1 <= lg * lg <= 3969) by nia.
    rewrite ceil_div_ok by lia. cbn [bind].
    pose proof (blocks_for_spec nb (lg * lg) ltac:(lia)) as Hspl. set (spl := blocks_for nb (lg * lg)) in *.
    assert (Hs1 : 1 <= spl) by (clearbody spl; nia).
    rewrite wmul_ok by lia. cbn [bind].
    assert (HL1 : lg * lg <= nb * spl < 4033) by lia.
    assert (HLnb : nb <= nb * spl) by nia.
    assert (Hv2 : nb * spl < 2 ^ N.log2_up (nb * spl + 1)) by (pose proof (log2_up_pow (nb * spl + 1)); lia).
    assert (Hk2 : N.log2_up (nb * spl + 1) <= 12).
    { apply log2_up_le. change (2 ^ 12) with 4096. lia. }
    assert (Hk2b : 1 <= N.log2_up (nb * spl + 1)) by (apply N.le_succ_l with (n := 0), N.log2_up_pos; lia).
    rewrite wdiv_ok by lia. cbn [bind].
    assert (Hq1 : n / (nb * spl) * (nb * spl) <= n) by (rewrite N.mul_comm; apply N.mul_div_le; lia).
    assert (Hq2 : n / nb * nb <= n) by (rewrite N.mul_comm; apply N.mul_div_le; lia).
    set (L := nb * spl) in *. set (lq := n / L) in *. set (sq := n / nb) in *.
    assert (Hlq : lq <= n) by (pose proof (mul_ge lq L 1 n ltac:(lia) Hq1); lia). assert (Hsq : 8 * sq <= n) by (apply (mul_ge sq nb 8 n); [lia|exact Hq2]).
    rewrite wadd_ok by lia. cbn [bind].
    rewrite wdiv_ok by lia. cbn [bind]. fold sq.
    rewrite wadd_ok by lia. cbn [bind]. rewrite wadd_ok by lia. cbn [bind].
    rewrite ceil_lg_ok by lia. cbn [bind]. fold k1. rewrite wadd_ok by lia. cbn [bind].
    rewrite ceil_lg_ok by lia. cbn [bind]. set (k2 := N.log2_up (L + 1)) in *.
    assert (Hk1L : k1 <= 2 * L) by (apply (ja_k1 k1 lg L); lia).
    assert (Hk1 : 1 <= k1 <= 64) by lia. assert (Hk2' : 1 <= k2 <= 64) by lia.
    assert (Hfit : forall a, a <= 2 ^ 32 \/ a <= n / 2 + 500 -> fits c 64 a).
    { intros a Ha. unfold fits. pose proof (blocks_for_spec 64 a ltac:(lia)). pose proof (N.mul_div_le n 2 ltac:(lia)). lia. }
    set (bl := blocks_for nb n) in *.
    assert (Hbl8 : 8 * bl <= n + 8) by (apply (ja_bl bl nb n); lia).
    pose proof (blocks_for_spec spl bl ltac:(lia)) as Hm. set (m := blocks_for spl bl) in *.
    assert (HmL : n <= m * L) by (apply (ja_m1 m bl spl nb n); lia).
    assert (HmL2 : m * L <= n + 2 * L) by (apply (ja_m2 m bl spl nb n); lia).
    assert (Hlarge : forall x, x * L <= n + 2 * L -> fits c 64 ((x + 1) * k1)).
    { intros x Hx. apply Hfit. destruct (N.lt_ge_cases n (2 ^ 30)) as [Hs|Hs].
      - left. pose proof (ja_fb x k1 L n Hx Hk1L ltac:(lia)). change (2 ^ 32) with 4294967296. change (2 ^ 30) with 1073741824 in Hs. lia.
      - right. assert (Hlg30 : 30 <= lg) by (unfold lg; rewrite <- (N.log2_up_pow2 30) by lia; now apply N.log2_up_le_mono).
        assert (H8 : 4 * (2 * k1) <= L) by (apply (ja_k8 k1 lg L); lia). pose proof (ja_big (2 * k1) L n x Hx H8).
        replace ((x + 1) * (2 * k1)) with (2 * ((x + 1) * k1)) in H by lia. set (y := (x + 1) * k1) in *. clearbody y. 
        pose proof (N.div_mod n 2 ltac:(lia)). pose proof (N.mod_lt n 2 ltac:(lia)). lia. }
    assert (Hfa : fits c 64 ((lq + 1) * k1)) by (apply Hlarge; lia).
    assert (Hfb : fits c 64 ((m + 1) * k1)) by (apply Hlarge; lia).
    pose proof (fits_lt64 c 64 _ ltac:(lia) Hfa) as Hfa'. assert (Hmx : max_bits c <= 2 ^ 63) by (unfold max_bits; destruct (ptr c =? 32); vm_compute; congruence).
    destruct (jac_empty c B Hc k1 (lq + 1) Hk1 ltac:(lia) Hfa) as [large0 [E1 HL0]]; [lia|].
    rewrite E1. cbn [bind]. change (jac_room c nb n) with (fits c 64 ((bl + 1) * k2)).
    assert (Hsb : sq <= bl) by (clear - Hq2 Hbl Hr; nia).
    assert (Hfd : fits c 64 ((sq + 1) * k2) \/ ~ fits c 64 ((bl + 1) * k2) /\ panics (iv_with_capacity c 64 k2 (sq + 1))).
    { destruct (fitsb c 64 ((sq + 1) * k2)) eqn:Efs; [left; now apply fitsb_spec|]. right. assert (Hnf : ~ fits c 64 ((sq + 1) * k2)) by now apply fitsb_false. split.
      - intros Hf2. apply Hnf. apply (fits_mono c 64 _ ((bl + 1) * k2)); [lia|apply N.mul_le_mono_r; lia|exact Hf2].
      - pose proof (iv_make_sim c 64 k2 Hc H64 Hk2' (IWithCapacity (sq + 1))) as E. cbn [iv_make] in E. unfold spec_imake in E.
        destruct ((k2 =? 0) || (64 <? k2)) eqn:E1'; [lia|]. rewrite Efs in E. apply E. split; [lia|left].
        assert ((sq + 1) * k2 <= (sq + 1) * 12) by (apply N.mul_le_mono_l; lia). lia. }
    destruct Hfd as [Hfc|[Hnf [kp Ekp]]]; [|right; rewrite Ekp; split; [apply panics_Panic|intros [Hnf' _]; exact (Hnf Hnf')]].
    destruct (jac_empty c B Hc k2 (sq + 1) Hk2' ltac:(lia) Hfc) as [small0 [E2 HS0]]; [assert ((sq + 1) * k2 <= (sq + 1) * 12) by (apply N.mul_le_mono_l; lia); lia|].
    rewrite E2. cbn [bind]. rewrite HBL. cbn [bind]. fold nb n bl.
    assert (Hcases : (exists st', for_range 0 bl (jac_body c B t spl) (large0, small0, 0, 0, 0) = Ok st' /\ pad_inv spl k1 k2 bl st') \/
      (panics (for_range 0 bl (jac_body c B t spl) (large0, small0, 0, 0, 0)) /\ ~ fits c 64 ((bl + 1) * k2))).
    { destruct (fitsb c 64 ((bl + 1) * k2)) eqn:Efs.
      - apply fitsb_spec in Efs. left. apply for_range_ind; [lia| |].
        + cbn [pad_inv]. rewrite blocks_for_0 by lia. rewrite !tab_0. split; [exact HL0|]. split; [exact HS0|]. split; [reflexivity|]. split; [|reflexivity]. rewrite N.mod_0_l by lia. reflexivity.
        + intros i st Hi0 Hi Hinv. destruct (jac_pad_step spl k1 k2 ltac:(lia) Hk1 Hk2' Hv1 Hv2 Hfb i st Hi Hinv) as [H|[_ H]]; [exact H|].
          exfalso. apply H. apply (fits_mono c 64 _ ((bl + 1) * k2)); [lia|apply N.mul_le_mono_r; lia|exact Efs].
      - apply fitsb_false in Efs. destruct (for_range_or (pad_inv spl k1 k2) (jac_body c B t spl) 0 bl (large0, small0, 0, 0, 0)) as [H|H]; [lia| | |left; exact H|right; split; [exact H|exact Efs]].
        + cbn [pad_inv]. rewrite blocks_for_0 by lia. rewrite !tab_0. split; [exact HL0|]. split; [exact HS0|]. split; [reflexivity|]. split; [|reflexivity]. rewrite N.mod_0_l by lia. reflexivity.
        + intros i st Hi0 Hi Hinv. destruct (jac_pad_step spl k1 k2 ltac:(lia) Hk1 Hk2' Hv1 Hv2 Hfb i st Hi Hinv) as [H|[H _]]; [left; exact H|right; exact H]. }
    match goal with |- context [for_range 0 bl ?body ?st] => change (for_range 0 bl body st) with (for_range 0 bl (jac_body c B t spl) st) end.
    destruct Hcases as [[st' [Est Hinv]]|[[kp Ekp] Hnf]]; [|right; rewrite Ekp; split; [apply panics_Panic|intros [Hnf' _]; exact (Hnf Hnf')]].
    rewrite Est. cbn [bind]. destruct st' as [[[[large small] cur] last] sbi].
    cbn [pad_inv] in Hinv. destruct Hinv as (HL & HS & Ecur & Esbi & Elast). fold m in HL.
    assert (Etot : cur = count true lp) by (rewrite Ecur; unfold ones; rewrite firstnN_all by (rewrite (proj1 HX); lia); reflexivity).
    pose proof (count_le true lp) as Hcl. rewrite (proj1 HX) in Hcl. rewrite <- Etot in Hcl |- *.
    destruct (N.lt_ge_cases cur (2 ^ k1)) as [Hcur|Hcur].
    2:{ right. split; [|intros [_ H]; lia]. apply bind_panics. apply (iv_push_bad c 64 k1 Hc H64 Hk1 large _ _ HL); [lia|left; exact Hcur]. }
    destruct (iv_push_ok c 64 k1 Hc H64 Hk1 large _ cur HL) as [large' [Ep HL']]; [exact Hcur| |].
    { rewrite lengthN_tab. exact Hfb. }
    rewrite Ep. cbn [bind].
    pose proof (ja_bl0 bl nb n Hn (proj1 Hbl)) as Hbl0. rewrite Hbl0 in Elast.
    set (q := (bl - 1) / spl) in *. assert (Hq : bl - 1 = spl * q + (bl - 1) mod spl) by (apply N.div_mod; lia).
    pose proof (N.mod_lt (bl - 1) spl ltac:(lia)) as Hmq. set (o := (bl - 1) mod spl) in *.
    destruct (ja_q1 bl spl q o nb Hq Hmq ltac:(lia)) as [Hqle Hqdiff]. fold L in Hqle, Hqdiff.
    pose proof (count_mono true _ _ lp Hqle) as Hcm. pose proof (count_diff true _ _ lp Hqle) as Hcd.
    rewrite wsub_ok by (rewrite Ecur, Elast; exact Hcm). cbn [bind].
    assert (Hlt : cur - last < 2 ^ k2).
    { rewrite Ecur, Elast. eapply N.le_lt_trans; [exact Hcd|]. eapply N.le_lt_trans; [exact Hqdiff|exact Hv2]. }
    destruct (fitsb c 64 ((bl + 1) * k2)) eqn:Ef2.
    2:{ right. assert (Hnf : ~ fits c 64 ((bl + 1) * k2)) by now apply fitsb_false. split; [|intros [Hnf' _]; exact (Hnf Hnf')].
        apply bind_panics. apply (iv_push_bad c 64 k2 Hc H64 Hk2' small _ _ HS).
        - eapply N.lt_le_trans; [exact Hlt|apply N.pow_le_mono_r; lia].
        - right. rewrite lengthN_tab. exact Hnf. }
    left. apply fitsb_spec in Ef2.
    destruct (iv_push_ok c 64 k2 Hc H64 Hk2' small _ (cur - last) HS) as [small' [Ep2 HS']].
    { exact Hlt. }
    { now rewrite lengthN_tab. }
    rewrite Ep2. cbn [bind]. eexists. split; [reflexivity|]. split; [reflexivity|]. split.
    - exists spl, m, k1, k2. cbn [jr_large_block_size jr_large jr_small].
      assert (Ebl : blocks_for nb (lengthN lp) = bl) by (rewrite (proj1 HX); apply blocks_for_mul; lia). rewrite Ebl, (proj1 HX). fold L.
      split; [exact Hs1|]. split; [exact Hk1|]. split; [exact Hk2'|]. split; [reflexivity|]. split.
      { unfold L. assert (bl * nb <= m * spl * nb) by (apply N.mul_le_mono_r; lia). lia. }
      split; [now exists cur|now exists (cur - last)].
    - split; [exact Ef2|exact Hcur].
  Qed.
End Pad.
