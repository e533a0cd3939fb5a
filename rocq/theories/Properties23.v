(** * The common base of both vectors, for elements of any width and whole blocks mixed (C77). *)
From Verif Require Import Machine SpecBits SpecCfg MStorage MTraits MVectorBase SpecOps SpecBase PBase PBits PVectorBase PRun PBaseRun.

Theorem C77_vector_base : forall c nb k t ops, wf_cfg c -> wf_nb nb -> 1 <= k <= nb -> vprogram_ok c nb k t ops ->
  fst (vb_program c nb k t ops) = fst (spec_vprogram c nb k t ops) /\
  match snd (spec_vprogram c nb k t ops) with
  | Some l => exists v, snd (vb_program c nb k t ops) = Ok v /\
      vb_len v * k = lengthN l /\ lengthN (vb_vec v) = blocks_for nb (lengthN l) /\
      firstnN (lengthN l) (bits_of_blocks nb (vb_vec v)) = l /\
      (forall i, lengthN l <= i -> bit_at (bits_of_blocks nb (vb_vec v)) i = false)
  | None => panics (snd (vb_program c nb k t ops))
  end.
Proof.
  intros c nb k t ops Hc Hnb Hk Hok. pose proof (wf_nb_pos nb Hnb) as Hp. destruct (vb_program_sim c nb k Hc Hnb Hk t ops Hok) as [H1 H2]. split; [exact H1|].
  destruct (snd (spec_vprogram c nb k t ops)) as [l|]; [|exact H2]. destruct H2 as (v & E & E0 & El & Hf). exists v. split; [exact E|]. split; [exact El|].
  rewrite E0, lengthN_pack. split; [reflexivity|]. rewrite (bits_of_blocks_pack nb l Hp). change (fit (blocks_for nb (lengthN l) * nb) false l) with (full nb l). split.
  - rewrite firstnN_full by lia. apply firstnN_all. lia.
  - intros i Hi. rewrite bit_at_full by lia. now apply bit_at_oob.
Qed.
(** Equality of the representations is equality of the contents. *)
Theorem C77_equal : forall c nb k t1 ops1 v1 l1 t2 ops2 v2 l2, wf_cfg c -> wf_nb nb -> 1 <= k <= nb ->
  vprogram_ok c nb k t1 ops1 -> snd (vb_program c nb k t1 ops1) = Ok v1 -> snd (spec_vprogram c nb k t1 ops1) = Some l1 ->
  vprogram_ok c nb k t2 ops2 -> snd (vb_program c nb k t2 ops2) = Ok v2 -> snd (spec_vprogram c nb k t2 ops2) = Some l2 ->
  (vb_eq v1 v2 = true <-> l1 = l2).
Proof.
  intros c nb k t1 ops1 v1 l1 t2 ops2 v2 l2 Hc Hnb Hk O1 E1 S1 O2 E2 S2.
  destruct (vb_program_sim c nb k Hc Hnb Hk t1 ops1 O1) as [_ H1]. rewrite S1, E1 in H1. destruct H1 as (w1 & Ew & V1). injection Ew as <-.
  destruct (vb_program_sim c nb k Hc Hnb Hk t2 ops2 O2) as [_ H2]. rewrite S2, E2 in H2. destruct H2 as (w2 & Ew & V2). injection Ew as <-.
  unfold vb_eq. rewrite andb_true_iff, N.eqb_eq. split.
  - intros [Ha Hb]. destruct (list_eq_dec N.eq_dec (vb_vec v1) (vb_vec v2)) as [Hv|]; [|discriminate].
    assert (v1 = v2) as -> by (destruct v1, v2; cbn in *; congruence). exact (Vrep_inj c nb k Hc Hnb Hk v2 l1 l2 V1 V2).
  - intros ->. pose proof (Vrep_fun c nb k Hc Hnb Hk v1 v2 l2 V1 V2) as ->. split; [reflexivity|]. destruct (list_eq_dec _ _ _); congruence.
Qed.

(** Elements of 6 bits in blocks of 8: blocks pushed and popped (the unit tests of src/internal/vector_base.rs:577-602), elements between them. *)
Definition C77_ops : list vop :=
  [ VIsEmpty; VPushBlock 255; VGetBlock 0; VLen; VIsEmpty; VPushBlock 255; VGetBlock 1; VLen; VPushBlock 255; VGetBlock 2; VLen;
    VPush 19; VBlockLen; VPop; VPopBlock; VLen; VPopBlock; VPopBlock; VPopBlock; VIsEmpty; VResize 3 42; VSetBits 6 6 7; VBlockTruncate 1;
    VGetBlock 0; VBlockResize 3 170; VGetBits 12 6; VPopBlock; VTruncate 1; VLen; VGetBits 6 1 ].
Example C77_ex : vprogram_ok rel32 8 6 VNew C77_ops /\
  vb_program rel32 8 6 VNew C77_ops =
  ([OBool true; OUnit; OInt 63; OInt 1; OBool false; OUnit; OInt 15; OInt 2; OUnit; OInt 255; OInt 4;
    OUnit; OInt 4; OOptInt (Some 19); OOptInt (Some 255); OInt 2; OOptInt (Some 15); OOptInt (Some 63); OOptInt None; OBool true;
    OUnit; OUnit; OUnit; OInt 42; OUnit; OInt 42; OOptInt (Some 170); OUnit; OInt 1], Panic PAssert).
Proof. split; [split; vm_compute; intuition congruence|vm_compute; reflexivity]. Qed.
Example C77_equal_ex : exists v1 v2 l,
  vprogram_ok dbg64 8 5 (VBlockWithFill 2 255) [VPopBlock; VPush 3] /\ snd (vb_program dbg64 8 5 (VBlockWithFill 2 255) [VPopBlock; VPush 3]) = Ok v1 /\
  snd (spec_vprogram dbg64 8 5 (VBlockWithFill 2 255) [VPopBlock; VPush 3]) = Some l /\
  vprogram_ok dbg64 8 5 VNew [VPush 31; VPush 3] /\ snd (vb_program dbg64 8 5 VNew [VPush 31; VPush 3]) = Ok v2 /\
  snd (spec_vprogram dbg64 8 5 VNew [VPush 31; VPush 3]) = Some l /\ vb_eq v1 v2 = true.
Proof. do 3 eexists. repeat (split; [vm_compute; intuition (reflexivity || congruence)|]). vm_compute. reflexivity. Qed.
Print Assumptions C77_vector_base.
Print Assumptions C77_equal.
