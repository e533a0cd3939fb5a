(** * Simulation of [IntVector] programs. *)
From Verif Require Export PIntVector.

Section IntRun.
  Variables (c : cfg) (nb k : N).
  Hypothesis Hc : wf_cfg c.
  Hypothesis Hnb : wf_nb nb.
  Hypothesis Hk : 1 <= k <= nb.
  Let nb_range := wf_nb_range nb Hnb.
  Let ptr_range := wf_ptr c Hc.
  Let nb_pos := wf_nb_pos nb Hnb.
  Let R := R_iv c nb k.
  Let Rb := R_ivb c nb k.
  Let cvr_ok := check_value_random_ok c nb k Hc Hnb Hk.
  Let cvr_bad := check_value_random_bad c nb k Hc Hnb Hk.

  Lemma iv_push_ok v xs x : R v xs -> x < 2 ^ k -> fits c nb ((lengthN xs + 1) * k) ->
    exists v', iv_push c nb v x = Ok v' /\ R v' (xs ++ [x]).
  Proof.
    intros HR Hx Hf. pose proof HR as [Ek [HV Hall]].
    assert (Hxn : x < 2 ^ nb) by (eapply N.lt_le_trans; [exact Hx|apply N.pow_le_mono_r; lia]).
    unfold iv_push, check_value. rewrite Ek, cvr_ok by (auto; lia). cbn [bind].
    apply (iv_lift_R c nb k); auto.
    - apply Forall_app. split; [assumption|]. now constructor.
    - rewrite bits_of_blocks_snoc. apply vb_push_bits_ok; auto. rewrite lengthN_bits_of_blocks.
      replace (lengthN xs * k + k) with ((lengthN xs + 1) * k) by lia. exact Hf.
  Qed.
  Lemma iv_push_bad v xs x : R v xs -> x < 2 ^ nb -> 2 ^ k <= x \/ ~ fits c nb ((lengthN xs + 1) * k) ->
    panics (iv_push c nb v x).
  Proof.
    intros HR Hx Hbad. pose proof HR as [Ek [HV Hall]].
    unfold iv_push, check_value. rewrite Ek. destruct (N.lt_ge_cases x (2 ^ k)) as [H|H].
    - rewrite cvr_ok by (auto; lia). cbn [bind]. apply bind_panics.
      destruct Hbad as [Hbad|Hbad]; [lia|]. eapply vb_push_bits_full; eauto. rewrite lengthN_bits_of_blocks.
      replace (lengthN xs * k + k) with ((lengthN xs + 1) * k) by lia. exact Hbad.
    - rewrite cvr_bad by (auto; lia). cbn [bind]. auto.
  Qed.
  Lemma Forall_snoc_inv {A} (P : A -> Prop) l x : Forall P (l ++ [x]) -> Forall P l /\ P x.
  Proof. intros H. apply Forall_app in H. destruct H as [H1 H2]. split; [assumption|]. now inversion H2. Qed.
  Lemma iv_pop_snoc v xs x : R v (xs ++ [x]) -> exists v', iv_pop c nb v = Ok (Some x, v') /\ R v' xs.
  Proof.
    intros HR. pose proof HR as [Ek [HV Hall]]. rewrite bits_of_blocks_snoc in HV.
    apply Forall_snoc_inv in Hall. destruct Hall as [Ha Hx].
    destruct (vb_pop_bits_ok c nb k Hc Hnb Hk _ _ _ HV) as [b [Hb HVb]]; [apply lengthN_bits_of|].
    unfold iv_pop. rewrite Ek, Hb. cbn [bind fst snd]. rewrite int_of_bits_small by assumption.
    eexists; split; [reflexivity|]. split; [reflexivity|]. now split.
  Qed.
  Lemma iv_pop_nil v : R v [] -> iv_pop c nb v = Ok (None, v).
  Proof.
    intros HR. pose proof HR as [Ek [HV Hall]]. change (bits_of_blocks k []) with (@nil bool) in HV.
    unfold iv_pop. rewrite Ek, (vb_pop_bits_empty c nb k Hc Hnb Hk _ HV). cbn [bind fst snd].
    destruct v as [w b]. cbn in *. now subst.
  Qed.
  Lemma iv_resize_ok v xs n x : R v xs -> x < 2 ^ nb -> fits c nb (n * k) ->
    exists v', iv_resize c nb v n x = Ok v' /\ R v' (fit n (x mod 2 ^ k) xs).
  Proof.
    intros HR Hx Hf. pose proof HR as [Ek [HV Hall]]. pose proof (pow2_pos k) as Hpk.
    unfold iv_resize. apply (iv_lift_R c nb k); auto.
    - unfold fit. apply Forall_app. split; [now apply Forall_firstnN|]. apply Forall_repeatN. apply N.mod_lt. lia.
    - destruct (vb_resize_ok c nb k Hc Hnb Hk _ _ n x HV Hx Hf) as [b [Hb HVb]]. rewrite Ek. exists b. split; [exact Hb|].
      rewrite fit_alt, bits_of_blocks_firstn, bits_of_blocks_app, bits_of_blocks_repeat_mod.
      pose proof (R_iv_len c nb k Hc Hnb Hk v xs HR) as El. unfold iv_len in El. now rewrite <- El.
  Qed.

  Lemma iv_step_sim xs op : iop_ok c nb k xs op ->
    exists n0, forall fuel v, (n0 <= fuel)%nat -> R v xs -> matches R (iv_step c nb fuel v op) (spec_istep c nb k xs op).
  Proof.
    intros Hop. exists (S (length xs)). intros fuel v Hf HR.
    pose proof HR as [Ek [HV Hall]].
    pose proof (R_iv_bits c nb k v xs HR) as HRb.
    pose proof (R_iv_63 c nb k Hc Hnb Hk v xs HR) as H63.
    assert (HtoR : forall r l, (exists v', r = Ok v' /\ Rb v' l) -> exists v', r = Ok v' /\ R v' (ints_of k l)).
    { intros r l [v' [E H]]. exists v'. split; [exact E|]. now apply (R_iv_ints c nb k Hc Hnb Hk). }
    pose proof (iv_lawful_bits c nb k Hc Hnb Hk) as LB. pose proof (iv_lawful_mut c nb k Hc Hnb Hk) as LM.
    assert (Ll : lengthN (bits_of_blocks k xs) = lengthN xs * k) by apply lengthN_bits_of_blocks.
    destruct op; cbn [iv_step spec_istep iop_ok] in *.
    - (* push *) destruct (x <? 2 ^ k) eqn:E1, (fitsb c nb ((lengthN xs + 1) * k)) eqn:E2; cbn [andb].
      + apply unit_ok. apply iv_push_ok; auto; [lia|now apply fitsb_spec].
      + apply unit_panics. eapply iv_push_bad; eauto. right. now apply fitsb_false.
      + apply unit_panics. eapply iv_push_bad; eauto. left. lia.
      + apply unit_panics. eapply iv_push_bad; eauto. left. lia.
    - (* pop *) destruct xs as [|a xs0].
      + rewrite (iv_pop_nil v HR). exists v. auto.
      + destruct (app_snoc_inv (a :: xs0)) as [xs' [x E]]; [discriminate|]. rewrite E in *.
        destruct (iv_pop_snoc v xs' x HR) as [v' [H1 H2]]. rewrite H1. cbn [bind fst snd].
        rewrite removelast_snoc, last_snoc. destruct xs'; exists v'; auto.
    - (* get *) destruct (nthN xs i) as [x|] eqn:E.
      + eapply read_ok; [|exact HR]. eapply iv_get_ok; eauto.
      + apply read_panics. apply nthN_None in E. eapply iv_get_oob; eauto.
    - (* set *) destruct Hop as [Hi Hx]. destruct (x <? 2 ^ k) eqn:E1, (i <? lengthN xs) eqn:E2; cbn [andb].
      + apply unit_ok. apply iv_set_ok; auto; lia.
      + apply unit_panics. eapply iv_set_bad; eauto. lia.
      + apply unit_panics. eapply iv_set_bad; eauto. lia.
      + apply unit_panics. eapply iv_set_bad; eauto. lia.
    - (* resize *) destruct Hop as [Hn Hx]. destruct (fitsb c nb (n * k)) eqn:E.
      + apply unit_ok. apply iv_resize_ok; auto. now apply fitsb_spec.
      + apply unit_panics. unfold iv_resize. apply bind_panics. rewrite Ek. eapply vb_resize_full; eauto. now apply fitsb_false.
    - (* block_resize *) destruct Hop as [Hn Hx]. destruct (n * nb <=? max_bits c) eqn:E.
      + apply unit_ok. rewrite resize_blocks_of_fit by lia. unfold iv_block_resize. rewrite Ek.
        destruct (vb_block_resize_ok c nb k Hc Hnb Hk _ _ n x HV Hx) as [b [Hb HVb]]; [lia|].
        rewrite Hb. cbn [bind]. eexists; split; [reflexivity|]. apply R_iv_ints_firstn; auto.
        cbn [iv_base]. rewrite lengthN_block_fit by lia. exact HVb.
      + apply unit_panics. unfold iv_block_resize. apply bind_panics. rewrite Ek. eapply vb_block_resize_full; eauto. lia.
    - (* truncate *) apply unit_ok. unfold iv_truncate. apply (iv_lift_R c nb k); auto using Forall_firstnN.
      rewrite Ek, bits_of_blocks_firstn. now apply vb_truncate_ok.
    - (* block_truncate *) apply unit_ok. unfold iv_block_truncate.
      destruct (vb_block_truncate_ok c nb k Hc Hnb Hk _ _ n HV Hop) as [b [Hb HVb]]. rewrite Ek, Hb. cbn [bind].
      eexists; split; [reflexivity|]. split; [reflexivity|]. cbn [iv_base].
      destruct (n <? blocks_for nb (lengthN (bits_of_blocks k xs))); (split; [|auto using Forall_firstnN]);
        [rewrite bits_of_blocks_firstn|]; exact HVb.
    - (* clear *) apply unit_ok. unfold iv_clear. apply (iv_lift_R c nb k); auto.
      exact (vb_clear_ok c nb k Hnb _ _ HV).
    - (* len *) exists v. rewrite (R_iv_len c nb k Hc Hnb Hk v xs HR). auto.
    - (* is_empty *) exists v. split; [|assumption]. unfold iv_is_empty. rewrite (R_iv_len c nb k Hc Hnb Hk v xs HR).
      destruct xs; [reflexivity|]. rewrite lengthN_cons. destruct (lengthN xs + 1 =? 0) eqn:E; [lia|reflexivity].
    - (* iter *) eapply read_ok; [|exact HR]. apply (collect_ok _ (It_rep c nb k)); [|lia|].
      + intros it ys Hy. destruct (it_next_ok c nb k Hc Hnb Hk it ys Hy) as [it' [E [H1 _]]]. exists it'.
        rewrite hd_error_match. auto.
      + left. unfold iv_iter. rewrite Ek. apply it_new_ok; auto. now split.
    - (* get_random *) destruct Hop as [Ho [Hi Hw]]. pose proof (wf_k_lt nb w Hnb ltac:(lia)) as Hw32.
      unfold iv_get_random, compute_address_random, checked_mul, checked_add.
      destruct (i * w + off + w <=? _) eqn:E.
      + destruct (i * w <? 2 ^ 64) eqn:E1; [|lia]. destruct (i * w + off <? 2 ^ 64) eqn:E2; [|lia]. cbn [expect bind].
        eapply read_ok; [|exact HR]. rewrite Ek. apply vb_get_bits_ok; auto; lia.
      + apply read_panics. destruct (i * w <? 2 ^ 64) eqn:E1; cbn [expect bind]; [|auto].
        destruct (i * w + off <? 2 ^ 64) eqn:E2; cbn [expect bind]; [|auto].
        rewrite Ek. eapply vb_get_bits_oob; eauto; lia.
    - (* set_random *) destruct Hop as [Ho [Hi [Hw Hx]]]. pose proof (wf_k_lt nb w Hnb ltac:(lia)) as Hw32.
      unfold iv_set_random. destruct (x <? 2 ^ w) eqn:E0.
      2:{ cbn [andb]. apply unit_panics. rewrite cvr_bad by (auto; lia). cbn [bind]. auto. }
      rewrite cvr_ok by (auto; lia). cbn [bind andb].
      unfold compute_address_random, checked_mul, checked_add.
      destruct (i * w + off + w <=? _) eqn:E.
      + destruct (i * w <? 2 ^ 64) eqn:E1; [|lia]. destruct (i * w + off <? 2 ^ 64) eqn:E2; [|lia]. cbn [expect bind].
        apply unit_ok. apply HtoR. apply (iv_lift c nb k); auto. rewrite Ek.
        destruct (vb_set_bits_ok c nb k Hc Hnb Hk _ _ (i * w + off) w x HV) as [b [Hb [HVb _]]]; [lia|lia|assumption|lia|].
        exists b. auto.
      + apply unit_panics. destruct (i * w <? 2 ^ 64) eqn:E1; cbn [expect bind]; [|auto].
        destruct (i * w + off <? 2 ^ 64) eqn:E2; cbn [expect bind]; [|auto].
        apply bind_panics. rewrite Ek. eapply vb_set_bits_oob; eauto; lia.
    - eapply read_ok; [|exact HR]. exact (iv_bit_len_ok c nb k Hc Hnb Hk v _ HRb).
    - eapply read_ok; [|exact HR]. eapply iv_block_len_ok; eauto.
    - destruct (nthN (bits_of_blocks k xs) i) as [b|] eqn:E.
      + eapply read_ok; [|exact HR]. eapply (lb_get_bit _ _ _ LB); eauto.
      + apply read_panics. apply nthN_None in E. eapply (lb_get_bit_oob _ _ _ LB); eauto.
    - destruct (i * nb <? lengthN (bits_of_blocks k xs)) eqn:E.
      + eapply read_ok; [|exact HR]. eapply iv_get_block_ok; eauto. lia.
      + apply read_panics. eapply iv_get_block_oob; eauto. lia.
    - destruct Hop as [Hs [Hn Hsp]]. destruct (s + n <=? lengthN (bits_of_blocks k xs)) eqn:E.
      + eapply read_ok; [|exact HR]. destruct Hsp; [lia|].
        apply def_get_bits; eauto using iv_bit_len_ok, Rb_fits, iv_get_block_ok; lia.
      + apply read_panics. eapply def_get_bits_oob_all; eauto using iv_bit_len_ok, Rb_fits, iv_get_block_ok, iv_get_block_oob. lia.
    - destruct (i <? lengthN (bits_of_blocks k xs)) eqn:E.
      + apply unit_ok. apply HtoR. eapply (lm_set_bit _ _ _ LM); eauto. lia.
      + apply unit_panics. eapply (lm_set_bit_oob _ _ _ LM); eauto. lia.
    - destruct Hop as [Hi Hx]. destruct (i * nb <? lengthN (bits_of_blocks k xs)) eqn:E.
      + apply unit_ok. apply HtoR. apply iv_set_block_ok; auto. lia.
      + apply unit_panics. eapply iv_set_block_oob; eauto. lia.
    - destruct Hop as [[Hs [Hn Hsp]] Hx]. destruct (s + n <=? lengthN (bits_of_blocks k xs)) eqn:E.
      + apply unit_ok. destruct Hsp; [lia|]. apply HtoR.
        eapply def_set_bits; eauto using iv_bit_len_ok, Rb_fits, iv_get_block_ok; [|lia].
        intros t' l' i0 v0 G1 G2 G3 G4. apply iv_set_block_ok; auto. lia.
      + apply unit_panics. eapply def_set_bits_oob_all; eauto using iv_bit_len_ok, Rb_fits, iv_get_block_ok, iv_get_block_oob. lia.
  Qed.

  Lemma iv_program_sim t ops : iprogram_ok c nb k t ops ->
    exists n0, forall fuel, (n0 <= fuel)%nat ->
      fst (iv_program c nb k fuel t ops) = fst (spec_iprogram c nb k t ops) /\
      ends R (snd (iv_program c nb k fuel t ops)) (snd (spec_iprogram c nb k t ops)).
  Proof.
    intros [Ht Hops]. pose proof (iv_make_sim c nb k Hc Hnb Hk t Ht) as Hm. unfold iv_program, spec_iprogram.
    destruct (spec_imake c nb k t) as [l|].
    - destruct Hm as [v [-> HV]].
      destruct (run_sim (iv_step c nb) (spec_istep c nb k) R (iop_ok c nb k) ops iv_step_sim l Hops) as [n0 H].
      exists n0. intros fuel Hf. now apply H.
    - destruct Hm as [p ->]. exists 0%nat. intros. cbn. split; [reflexivity|]. now exists p.
  Qed.
  Lemma iv_ends_R t ops v : iprogram_ok c nb k t ops -> iv_ends c nb k t ops v ->
    exists xs, snd (spec_iprogram c nb k t ops) = Some xs /\ R v xs.
  Proof.
    intros Hok [n0 H]. destruct (iv_program_sim t ops Hok) as [n1 H1].
    destruct (H1 (Nat.max n0 n1)) as [_ H2]; [lia|]. rewrite (H (Nat.max n0 n1)) in H2 by lia.
    destruct (snd (spec_iprogram c nb k t ops)) as [l|].
    - destruct H2 as [v' [E HR]]. injection E as <-. exists l. auto.
    - destruct H2 as [p E]. discriminate.
  Qed.
End IntRun.

(** Invalid widths are rejected by every constructor. *)
Lemma nofuel_wrap c w x : nofuel (wrap c w x).
Proof. unfold wrap. destruct (x <? 2 ^ w); [discriminate|]. destruct (debug c); discriminate. Qed.
Lemma iv_make_invalid c nb k t : wf_cfg c -> wf_nb nb -> k = 0 \/ nb < k -> panics (iv_make c nb k t).
Proof.
  intros Hc Hnb Hk.
  assert (K : forall r, nofuel r -> panics (iv_create nb k r)).
  { intros r Hr. unfold iv_create. destruct r as [b|p|]; cbn [bind]; [|auto|contradiction].
    unfold check_element_bits. destruct (k =? 0) eqn:E; cbn [negb assert_ bind]; [auto|].
    rewrite assert_false by lia. cbn [bind]. auto. }
  destruct t; cbn [iv_make]; apply K;
    unfold vb_new, vb_with_capacity, vb_block_with_capacity, vb_with_fill, vb_block_with_fill, alloc, vec_fill, alloc,
      len_to_block_len, checked_ceil_div_nbits, set_len_from_blocks, clear_extra_bits, vb_set_bits,
      blocks_set_bits, default_set_bits, blocks_bit_len, blocks_get_block, blocks_set_block, address_new,
      blk_with_bits, mul_nbits, checked_div_nbits, mod_nbits, last_block_bits, low_mask, wadd, wmul, wsub, wdiv, wmod, wshl, wshr, assert_,
      index_set;
    nofuel_tac; try apply nofuel_wrap.
Qed.

(** Iterators: any interleaving of calls. *)
Lemma it_run_sim {A} c (next next_back : vbiter -> res (option A * vbiter)) nth (R : vbiter -> list A -> Prop)
    (P : list A -> itop -> Prop) :
  (forall xs op, P xs op -> itop_ok c xs op) ->
  (forall it xs, R it xs -> exists it', next it = Ok (hd_error xs, it') /\ R it' (tl xs)) ->
  (forall it xs, R it xs -> exists it', next_back it = Ok (hd_error (rev xs), it') /\ R it' (removelast xs)) ->
  (forall it xs n, R it xs -> P xs (ItNth n) -> exists it', nth it n = Ok (nthN xs n, it') /\ R it' (tl (skipnN n xs))) ->
  forall ops xs it, along spec_itstep P xs ops -> R it xs ->
  fst (run (it_step next next_back nth) it ops) = fst (spec_run spec_itstep xs ops) /\
  ends R (snd (run (it_step next next_back nth) it ops)) (snd (spec_run spec_itstep xs ops)).
Proof.
  intros HP H1 H2 H3 ops xs it Hal HR.
  destruct (run_sim (fun _ => it_step next next_back nth) spec_itstep R P ops) with (l := xs) as [n0 H]; auto.
  - intros l o Ho. exists 0%nat. intros _ s _ Hs. unfold it_step, spec_itstep, matches. destruct o as [| |n].
    + destruct (H1 s l Hs) as [it' [E G]]. rewrite E. cbn. eauto.
    + destruct (H2 s l Hs) as [it' [E G]]. rewrite E. cbn. eauto.
    + destruct (H3 s l n Hs Ho) as [it' [E G]]. rewrite E. cbn. eauto.
  - exact (H n0 it (Nat.le_refl _) HR).
Qed.

Lemma iv_it_next c nb k it xs : wf_cfg c -> wf_nb nb -> 1 <= k <= nb -> It_rep c nb k it xs ->
  exists it', it_next c nb it = Ok (hd_error xs, it') /\ It_rep c nb k it' (tl xs) /\
    (It_exact c nb k it xs -> It_exact c nb k it' (tl xs)).
Proof. intros Hc Hnb Hk H. rewrite hd_error_match. now apply it_next_ok. Qed.
Lemma iv_it_next_back c nb k it xs : wf_cfg c -> wf_nb nb -> 1 <= k <= nb -> It_rep c nb k it xs ->
  exists it', it_next_back c nb it = Ok (hd_error (rev xs), it') /\ It_rep c nb k it' (removelast xs) /\
    (It_exact c nb k it xs -> It_exact c nb k it' (removelast xs)).
Proof.
  intros Hc Hnb Hk H. destruct (it_next_back_ok c nb k Hc Hnb Hk it xs H) as [it' [E H']].
  rewrite vec_pop_removelast in *. eauto.
Qed.
Lemma iv_it_nth c nb k it xs n : wf_cfg c -> wf_nb nb -> 1 <= k <= nb -> It_rep c nb k it xs -> n < 2 ^ 64 ->
  exists it', it_nth c nb it n = Ok (nthN xs n, it') /\ It_rep c nb k it' (tl (skipnN n xs)) /\
    (It_exact c nb k it xs -> n <= lengthN xs -> It_exact c nb k it' (tl (skipnN n xs))).
Proof.
  intros Hc Hnb Hk H Hn. rewrite <- nthN_skipnN_hd, hd_error_match. now apply it_nth_ok.
Qed.

(** An index of an existing element needs no conversion to [usize] that loses bits. *)
Lemma iv_index_ok c nb k v xs i : wf_cfg c -> wf_nb nb -> 1 <= k <= nb -> R_iv c nb k v xs -> i < lengthN xs -> index_ok c nb k i.
Proof.
  intros Hc Hnb Hk HR Hi. pose proof (R_iv_63 c nb k Hc Hnb Hk v xs HR). split; [nia|]. intros ->.
  pose proof (R_iv_fits c nb nb v xs HR) as Hf. unfold fits in Hf. pose proof (wf_nb_range nb Hnb).
  rewrite blocks_for_mul in Hf by lia. unfold max_bits in Hf.
  assert (lengthN xs * 8 <= lengthN xs * nb) by nia.
  destruct Hc as [E|E]; rewrite E in *; [change (32 =? 32) with true in Hf|change (64 =? 32) with false in Hf]; cbv iota in Hf; lia.
Qed.

Lemma spec_total {A} (xs : list A) calls : exists rest, snd (spec_run spec_itstep xs calls) = Some rest.
Proof.
  revert xs. induction calls as [|o calls IH]; intros xs; cbn; [eauto|].
  set (p := match o with ItNext => _ | ItNextBack => _ | ItNth n => _ end). destruct p as [s x].
  destruct (IH s) as [rest E]. destruct (spec_run spec_itstep s calls). cbn in *. eauto.
Qed.
