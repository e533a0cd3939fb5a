(** * The block type, the pointer width and the overflow checks cannot be observed (C78). *)
From Verif Require Import Machine SpecBits SpecCfg MStorage MTraits MVectorBase MBitVector MIntVector SpecOps PBase PBits PVectorBase PRun PIntRun Properties4.

(** Operations that are not about whole blocks, on vectors of at most 2^33 bits (1 GiB). *)
Definition bctor_common (t : bctor) : Prop :=
  match t with BNew => True | BWithCapacity n | BWithFill n _ => n <= 2 ^ 33 | BBlockWithCapacity _ | BBlockWithFill _ _ => False end.
Definition bop_common (l : list bool) (op : bop) : Prop :=
  match op with
  | BPushBit _ => lengthN l < 2 ^ 33
  | BResize n _ => n <= 2 ^ 33
  | BPushBlock _ | BAlignBlock _ | BSetBlock _ _ | BBlockResize _ _ | BBlockTruncate _ | BBlockLen | BGetBlock _ => False
  | BPopBit | BSetBit _ _ | BSetBits _ _ _ | BTruncate _ | BClear | BBitLen | BGetBit _ | BGetBits _ _ | BIter => True
  end.
Definition ictor_common (k : N) (t : ictor) : Prop :=
  match t with INew => True | IWithCapacity n | IWithFill n _ => n * k <= 2 ^ 33 | IBlockWithCapacity _ | IBlockWithFill _ _ => False end.
Definition iop_common (k : N) (xs : list N) (op : iop) : Prop :=
  match op with
  | IPush _ => (lengthN xs + 1) * k <= 2 ^ 33
  | IResize n _ => n * k <= 2 ^ 33
  | IBlockResize _ _ | IBlockTruncate _ | IBlockLen | IGetBlock _ | ISetBlock _ _ => False
  | IPop | IGet _ | ISet _ _ | ITruncate _ | IClear | ILen | IIsEmpty | IIter | IGetRandom _ _ _ | ISetRandom _ _ _ _
  | IBitLen | IGetBit _ | IGetBits _ _ | ISetBit _ _ | ISetBits _ _ _ => True
  end.

Lemma fitsb_common c nb n : wf_cfg c -> wf_nb nb -> n <= 2 ^ 33 -> fitsb c nb n = true.
Proof.
  intros Hc Hnb Hn. unfold fitsb. pose proof (wf_nb_range nb Hnb) as Hr. pose proof (blocks_for_spec nb n ltac:(lia)) as Hb. apply N.leb_le.
  assert (2 ^ 34 - 8 <= max_bits c) by (unfold max_bits; destruct (ptr c =? 32); vm_compute; congruence).
  change (2 ^ 33) with 8589934592 in *. change (2 ^ 34 - 8) with 17179869176 in *. lia.
Qed.
Lemma spec_run_common {S O X} (f g : S -> O -> option (S * X)) (P : S -> O -> Prop) ops : (forall s o, P s o -> f s o = g s o) ->
  forall s, along f P s ops -> spec_run f s ops = spec_run g s ops.
Proof.
  intros H. induction ops as [|o ops IH]; intros s Ha; [reflexivity|]. destruct Ha as [Ho Ha]. cbn [spec_run]. rewrite <- (H s o Ho).
  destruct (f s o) as [[s' x]|]; [|reflexivity]. now rewrite (IH s' Ha).
Qed.

Theorem C78_bitvector : forall c1 nb1 c2 nb2 t ops, wf_cfg c1 -> wf_nb nb1 -> wf_cfg c2 -> wf_nb nb2 ->
  bprogram_ok c1 nb1 t ops -> bprogram_ok c2 nb2 t ops ->
  bctor_common t -> (forall l, spec_bmake c1 nb1 t = Some l -> along (spec_bstep c1 nb1) bop_common l ops) ->
  exists n0, forall fuel, (n0 <= fuel)%nat ->
    fst (bvec_program c1 nb1 fuel t ops) = fst (bvec_program c2 nb2 fuel t ops) /\
    ((panics (snd (bvec_program c1 nb1 fuel t ops)) /\ panics (snd (bvec_program c2 nb2 fuel t ops))) \/
     (exists v1 v2, snd (bvec_program c1 nb1 fuel t ops) = Ok v1 /\ snd (bvec_program c2 nb2 fuel t ops) = Ok v2 /\
       firstnN (vb_len v1) (bits_of_blocks nb1 (vb_vec v1)) = firstnN (vb_len v2) (bits_of_blocks nb2 (vb_vec v2)))).
Proof.
  intros c1 nb1 c2 nb2 t ops Hc1 Hn1 Hc2 Hn2 O1 O2 Ht Ha.
  assert (Em : spec_bmake c1 nb1 t = spec_bmake c2 nb2 t) by (destruct t; cbn in *; try contradiction; try reflexivity; now rewrite !fitsb_common by auto).
  assert (Es : forall l o, bop_common l o -> spec_bstep c1 nb1 l o = spec_bstep c2 nb2 l o).
  { intros l o Ho. destruct o; cbn in *; try contradiction; try reflexivity; now rewrite !fitsb_common by (auto; lia). }
  assert (Ep : spec_bprogram c1 nb1 t ops = spec_bprogram c2 nb2 t ops).
  { unfold spec_bprogram. rewrite <- Em. destruct (spec_bmake c1 nb1 t) as [l|]; [|reflexivity]. apply spec_run_common with (P := bop_common); auto. }
  destruct (bvec_program_sim c1 nb1 Hc1 Hn1 t ops O1) as [m1 H1]. destruct (bvec_program_sim c2 nb2 Hc2 Hn2 t ops O2) as [m2 H2].
  exists (m1 + m2)%nat. intros fuel Hf. destruct (H1 fuel ltac:(lia)) as [F1 G1]. destruct (H2 fuel ltac:(lia)) as [F2 G2]. rewrite <- Ep in F2, G2.
  split; [congruence|]. destruct (snd (spec_bprogram c1 nb1 t ops)) as [l|]; [right|left; split; [exact G1|exact G2]].
  destruct G1 as (v1 & E1 & P1 & L1 & _), G2 as (v2 & E2 & P2 & L2 & _). exists v1, v2. split; [exact E1|]. split; [exact E2|].
  pose proof (wf_nb_pos nb1 Hn1). pose proof (wf_nb_pos nb2 Hn2). rewrite N.mul_1_r in L1, L2. rewrite P1, P2, L1, L2, !bits_of_blocks_pack by lia.
  change (firstnN (lengthN l) (full nb1 l) = firstnN (lengthN l) (full nb2 l)). rewrite !firstnN_full by lia. reflexivity.
Qed.
Theorem C78_intvector : forall c1 nb1 c2 nb2 k t ops, wf_cfg c1 -> wf_nb nb1 -> wf_cfg c2 -> wf_nb nb2 -> 1 <= k <= nb1 -> k <= nb2 ->
  iprogram_ok c1 nb1 k t ops -> iprogram_ok c2 nb2 k t ops ->
  ictor_common k t -> (forall xs, spec_imake c1 nb1 k t = Some xs -> along (spec_istep c1 nb1 k) (iop_common k) xs ops) ->
  exists n0, forall fuel, (n0 <= fuel)%nat ->
    fst (iv_program c1 nb1 k fuel t ops) = fst (iv_program c2 nb2 k fuel t ops) /\
    ((panics (snd (iv_program c1 nb1 k fuel t ops)) /\ panics (snd (iv_program c2 nb2 k fuel t ops))) \/
     (exists v1 v2, snd (iv_program c1 nb1 k fuel t ops) = Ok v1 /\ snd (iv_program c2 nb2 k fuel t ops) = Ok v2 /\
       exists xs, iv_holds c1 nb1 v1 xs /\ iv_holds c2 nb2 v2 xs)).
Proof.
  intros c1 nb1 c2 nb2 k t ops Hc1 Hn1 Hc2 Hn2 Hk1 Hk2 O1 O2 Ht Ha.
  assert (Em : spec_imake c1 nb1 k t = spec_imake c2 nb2 k t).
  { unfold spec_imake. replace (nb1 <? k) with false by lia. replace (nb2 <? k) with false by lia. destruct t; cbn in *; try contradiction; try reflexivity; now rewrite !fitsb_common by auto. }
  assert (Es : forall l o, iop_common k l o -> spec_istep c1 nb1 k l o = spec_istep c2 nb2 k l o).
  { intros l o Ho. destruct o; cbn in *; try contradiction; try reflexivity; now rewrite !fitsb_common by auto. }
  assert (Ep : spec_iprogram c1 nb1 k t ops = spec_iprogram c2 nb2 k t ops).
  { unfold spec_iprogram. rewrite <- Em. destruct (spec_imake c1 nb1 k t) as [l|]; [|reflexivity]. apply spec_run_common with (P := iop_common k); auto. }
  destruct (iv_program_sim c1 nb1 k Hc1 Hn1 Hk1 t ops O1) as [m1 H1]. destruct (iv_program_sim c2 nb2 k Hc2 Hn2 ltac:(lia) t ops O2) as [m2 H2].
  exists (m1 + m2)%nat. intros fuel Hf. destruct (H1 fuel ltac:(lia)) as [F1 G1]. destruct (H2 fuel ltac:(lia)) as [F2 G2]. rewrite <- Ep in F2, G2.
  split; [congruence|]. destruct (snd (spec_iprogram c1 nb1 k t ops)) as [l|]; [right|left; split; [exact G1|exact G2]].
  destruct G1 as (v1 & E1 & R1), G2 as (v2 & E2 & R2). exists v1, v2. split; [exact E1|]. split; [exact E2|]. exists l.
  split; [now apply (R_iv_holds c1 nb1 k)|]. apply (R_iv_holds c2 nb2 k); auto. lia.
Qed.

Definition C78_bops : list bop := [BPushBit true; BSetBits 3 7 85; BGetBits 1 8; BPopBit; BResize 11 true; BIter; BTruncate 9; BBitLen; BGetBit 9; BGetBit 0].
Example C78_bitvector_ex :
  bprogram_ok rel32 8 (BWithFill 12 false) C78_bops /\ bprogram_ok dbg64 64 (BWithFill 12 false) C78_bops /\
  bctor_common (BWithFill 12 false) /\ (forall l, spec_bmake rel32 8 (BWithFill 12 false) = Some l -> along (spec_bstep rel32 8) bop_common l C78_bops) /\
  bvec_program rel32 8 100 (BWithFill 12 false) C78_bops = bvec_program dbg64 64 100 (BWithFill 12 false) C78_bops /\
  fst (bvec_program rel32 8 100 (BWithFill 12 false) C78_bops) = [OUnit; OUnit; OInt 84; OOptBool (Some true); OUnit;
    OBools [false; false; false; true; false; true; false; true; false; true; false]; OUnit; OInt 9].
Proof.
  split; [split; vm_compute; intuition congruence|]. split; [split; vm_compute; intuition congruence|]. split; [vm_compute; congruence|].
  split; [intros l E; vm_compute in E; injection E as <-; vm_compute; intuition congruence|]. split; vm_compute; reflexivity.
Qed.
Definition C78_iops : list iop := [IPush 17; IPush 3; ISet 0 29; IResize 4 9; IGetRandom 3 4 2; ISetBits 2 6 42; IIter; IPop; IIsEmpty; IBitLen; IGet 3].
Example C78_intvector_ex :
  iprogram_ok rel32 8 5 INew C78_iops /\ iprogram_ok dbg64 32 5 INew C78_iops /\
  ictor_common 5 INew /\ (forall l, spec_imake rel32 8 5 INew = Some l -> along (spec_istep rel32 8 5) (iop_common 5) l C78_iops) /\
  iv_program rel32 8 5 100 INew C78_iops = iv_program dbg64 32 5 100 INew C78_iops /\
  fst (iv_program rel32 8 5 100 INew C78_iops) = [OUnit; OUnit; OUnit; OUnit; OInt 4; OUnit; OInts [9; 5; 9; 9]; OOptInt (Some 9); OBool false; OInt 15].
Proof.
  split; [split; vm_compute; intuition congruence|]. split; [split; vm_compute; intuition congruence|]. split; [vm_compute; tauto|].
  split; [intros l E; vm_compute in E; injection E as <-; vm_compute; intuition congruence|]. split; vm_compute; reflexivity.
Qed.
Print Assumptions C78_bitvector.
Print Assumptions C78_intvector.
