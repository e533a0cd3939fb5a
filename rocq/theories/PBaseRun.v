(** * Simulation of [VectorBase] programs. *)
From Verif Require Import Machine SpecBits SpecCfg MStorage MTraits MVectorBase SpecOps SpecBase PBase PBits PVectorBase PVectorBase2 PVectorBase3 PBitVector PRun.

Section BaseRun.
  Variables (c : cfg) (nb k : N).
  Hypothesis Hc : wf_cfg c.
  Hypothesis Hnb : wf_nb nb.
  Hypothesis Hk : 1 <= k <= nb.
  Let nb_range := wf_nb_range nb Hnb.
  Let ptr_range := wf_ptr c Hc.
  Let nb_pos := wf_nb_pos nb Hnb.
  Let R := Vrep c nb k.

  Lemma whole_len n l : lengthN l = n -> whole k l = firstnN (n / k * k) l.
  Proof. now intros <-. Qed.
  Lemma whole_firstn n l : n <= lengthN l -> whole k (firstnN n l) = firstnN (n / k * k) l.
  Proof.
    intros H. rewrite (whole_len n) by (rewrite lengthN_firstnN; lia). pose proof (N.div_mod n k ltac:(lia)). apply firstnN_firstnN. lia.
  Qed.
  Lemma whole_R v l : R v l -> whole k l = l.
  Proof. intros [_ [E _]]. unfold whole. rewrite <- E, N.div_mul, E by lia. apply firstnN_all. lia. Qed.
  Lemma sub_tail s n (l : list bool) : lengthN l <= s + n -> sub s n l = skipnN s l.
  Proof. intros H. unfold sub. apply firstnN_all. rewrite lengthN_skipnN. lia. Qed.

  Lemma vb_step_sim l op : vop_ok c nb l op -> forall v, R v l -> matches R (vb_step c nb k v op) (spec_vstep c nb k l op).
  Proof.
    intros Hop v HV. pose proof HV as [E0 [El Hf]]. pose proof (blocks_for_spec nb (lengthN l) nb_pos) as Hb.
    destruct op; cbn [vb_step spec_vstep vop_ok] in *.
    - destruct (fitsb c nb (lengthN l + k)) eqn:E.
      + apply unit_ok. apply vb_push_bits_ok; auto. now apply fitsb_spec.
      + apply unit_panics. eapply vb_push_bits_full; eauto. now apply fitsb_false.
    - destruct (lengthN l =? 0) eqn:E.
      + assert (l = []) as -> by (apply lengthN_0; lia). rewrite (vb_pop_bits_empty c nb k Hc Hnb Hk v HV). exists v. split; [reflexivity|exact HV].
      + assert (k <= lengthN l) by (destruct (vb_len v) as [|p]; [lia|]; rewrite <- El; pose proof (N.mul_le_mono_r 1 (N.pos p) k ltac:(lia)); lia). destruct (vb_pop_bits_ok c nb k Hc Hnb Hk v (firstnN (lengthN l - k) l) (skipnN (lengthN l - k) l)) as [v' [H1 H2]].
        * now rewrite firstn_skipnN. * rewrite lengthN_skipnN. lia. * rewrite H1. exists v'. auto.
    - destruct (_ <=? _) eqn:E.
      + apply unit_ok. destruct (vb_push_block_ok c nb k Hc Hnb Hk v l x HV Hop ltac:(lia)) as [v' [H1 H2]]. exists v'. split; [exact H1|].
        unfold padded. rewrite (full_app nb l) in * by lia. rewrite (whole_len ((blocks_for nb (lengthN l) + 1) * nb)); [exact H2|].
        rewrite !lengthN_app, lengthN_repeatN, lengthN_bits_of, padding_spec by lia. lia.
      + apply unit_panics. eapply vb_push_block_full; eauto. lia.
    - destruct (lengthN l =? 0) eqn:E.
      + assert (l = []) as -> by (apply lengthN_0; lia). rewrite (vb_pop_block_empty c nb k Hc Hnb Hk v HV). exists v. split; [reflexivity|].
        assert (Ez : forall m, firstnN m (@nil bool) = []) by (intros m; apply lengthN_0; rewrite lengthN_firstnN, lengthN_nil; lia).
        unfold whole. now rewrite !Ez.
      + destruct (vb_pop_block_ok c nb k Hc Hnb Hk v l HV ltac:(lia)) as [v' [H1 H2]]. rewrite H1. cbn [bind fst snd]. exists v'.
        assert (1 <= blocks_for nb (lengthN l)) by nia. split.
        * unfold block_of. rewrite sub_tail; [reflexivity|]. nia.
        * rewrite whole_firstn by nia. exact H2.
    - destruct Hop as [Hs [Hn Hsp]]. destruct (s + n <=? lengthN l) eqn:E.
      + eapply read_ok; [|exact HV]. destruct Hsp; [lia|]. apply vb_get_bits_ok; auto. lia.
      + apply read_panics. eapply vb_get_bits_oob; eauto. lia.
    - destruct Hop as [[Hs [Hn Hsp]] Hx]. destruct (s + n <=? lengthN l) eqn:E.
      + apply unit_ok. destruct Hsp; [lia|]. destruct (vb_set_bits_ok c nb k Hc Hnb Hk v l s n x HV) as [v' [H1 [H2 _]]]; auto; [lia|]. exists v'. auto.
      + apply unit_panics. eapply vb_set_bits_oob; eauto. lia.
    - destruct (i * nb <? lengthN l) eqn:E.
      + eapply read_ok; [|exact HV]. eapply vb_get_block_ok; eauto. lia.
      + apply read_panics. eapply vb_get_block_oob; eauto. lia.
    - destruct (i * nb <? lengthN l) eqn:E.
      + apply unit_ok. apply vb_set_block_ok; auto; lia.
      + apply unit_panics. eapply vb_set_block_oob; eauto. lia.
    - apply unit_ok. apply vb_truncate_ok; auto.
    - apply unit_ok. destruct (vb_block_truncate_ok c nb k Hc Hnb Hk v l n HV Hop) as [v' [H1 H2]]. exists v'. split; [exact H1|].
      destruct (n <? blocks_for nb (lengthN l)) eqn:E.
      + rewrite whole_firstn by nia. exact H2.
      + rewrite (firstnN_all (n * nb)) by nia. rewrite (whole_R v l HV). exact H2.
    - destruct Hop as [Hn Hx]. destruct (fitsb c nb (n * k)) eqn:E.
      + apply unit_ok. rewrite <- (Vrep_len c nb k Hc Hnb Hk v l HV). apply vb_resize_ok; auto. now apply fitsb_spec.
      + apply unit_panics. eapply vb_resize_full; eauto. now apply fitsb_false.
    - destruct (n * nb <=? max_bits c) eqn:E.
      + apply unit_ok. rewrite resize_blocks_of_fit by lia. rewrite (whole_len (n * nb)) by (apply lengthN_block_fit; lia). apply vb_block_resize_ok; auto; lia.
      + apply unit_panics. eapply vb_block_resize_full; eauto. lia.
    - apply unit_ok. apply (vb_clear_ok c nb k Hnb v l HV).
    - exists v. rewrite <- (Vrep_len c nb k Hc Hnb Hk v l HV). auto.
    - exists v. unfold vb_block_len. cbn [bind]. rewrite E0, lengthN_pack. auto.
    - exists v. split; [|exact HV]. unfold vb_is_empty. rewrite E0, lengthN_pack. do 3 f_equal. destruct l as [|b l].
      + change (lengthN []) with 0. unfold blocks_for. rewrite N.div_small by lia. reflexivity.
      + rewrite lengthN_cons in *. apply N.eqb_neq. nia.
  Qed.
  Lemma vb_make_sim t : vmake_ok c nb k t -> ends R (vb_make c nb k t) (spec_vmake c nb k t).
  Proof.
    intros Hok. destruct t; cbn [vb_make spec_vmake vmake_ok] in *.
    - apply (vb_block_with_capacity_ok c nb k); auto. pose proof (max_bits_lt c). lia.
    - destruct Hok as [Hn Hov]. destruct (fitsb c nb (n * k)) eqn:E.
      + apply (vb_with_capacity_ok c nb k); auto. now apply fitsb_spec.
      + apply (vb_with_capacity_full c nb k); auto. now apply fitsb_false.
    - destruct (n * nb <=? max_bits c) eqn:E.
      + apply (vb_block_with_capacity_ok c nb k); auto. lia.
      + apply vb_block_with_capacity_full. lia.
    - destruct Hok as [Hn Hx]. destruct (fitsb c nb (n * k)) eqn:E.
      + apply vb_with_fill_ok; auto. now apply fitsb_spec.
      + apply vb_with_fill_full; auto. now apply fitsb_false.
    - destruct Hok as [Hn Hx]. destruct (n * nb <=? max_bits c) eqn:E.
      + destruct (vb_block_with_fill_ok c nb k Hc Hnb Hk n x Hx ltac:(lia)) as [v [H1 H2]]. exists v. split; [exact H1|].
        rewrite (whole_len (n * nb)); [exact H2|]. rewrite lengthN_bits_of_blocks, lengthN_repeatN. lia.
      + apply vb_block_with_fill_full. lia.
  Qed.
  Lemma vb_program_sim t ops : vprogram_ok c nb k t ops ->
    fst (vb_program c nb k t ops) = fst (spec_vprogram c nb k t ops) /\
    ends R (snd (vb_program c nb k t ops)) (snd (spec_vprogram c nb k t ops)).
  Proof.
    intros [Ht Hops]. pose proof (vb_make_sim t Ht) as Hm. unfold vb_program, spec_vprogram.
    destruct (spec_vmake c nb k t) as [l|].
    - destruct Hm as [v [E HV]]. rewrite E.
      destruct (run_sim (fun _ => vb_step c nb k) (spec_vstep c nb k) R (vop_ok c nb) ops) with (l := l) as [n0 H]; auto.
      { intros l' o Ho. exists 0%nat. intros _ s _ HR. now apply vb_step_sim. }
      exact (H n0 v (le_n _) HV).
    - destruct Hm as [p E]. rewrite E. cbn. split; [reflexivity|]. exists p. reflexivity.
  Qed.
End BaseRun.
