(** * [IntVector] as a list of [k]-bit integers: representation, operations, programs. *)
From Verif Require Export MIntVector PRun.

Lemma lengthN_ints_of k l : 0 < k -> lengthN (ints_of k l) = lengthN l / k.
Proof. intros H. unfold ints_of. rewrite lengthN_map. unfold lengthN at 1. rewrite seq_length. lia. Qed.
Lemma nthN_ints_of k l i : nthN (ints_of k l) i = if i <? lengthN l / k then Some (int_of (sub (i * k) k l)) else None.
Proof.
  unfold ints_of. rewrite nthN_map, nthN_seq. rewrite N2Nat.id. destruct (i <? lengthN l / k); [|reflexivity].
  cbn. now rewrite N2Nat.id.
Qed.
Lemma ints_of_lt k l : 0 < k -> Forall (fun x => x < 2 ^ k) (ints_of k l).
Proof.
  intros H. apply Forall_nthN. intros i a. rewrite nthN_ints_of.
  destruct (i <? lengthN l / k) eqn:E; [|discriminate]. intros [= <-].
  eapply N.lt_le_trans; [apply int_of_lt|]. apply N.pow_le_mono_r; [lia|]. rewrite lengthN_sub. lia.
Qed.
Lemma div_floor n k : 0 < k -> n / k * k <= n.
Proof. intros H. pose proof (N.div_mod n k ltac:(lia)). nia. Qed.
Lemma bits_of_ints k l : 0 < k -> bits_of_blocks k (ints_of k l) = firstnN (lengthN l / k * k) l.
Proof.
  intros H. pose proof (div_floor (lengthN l) k H) as Hd.
  assert (El : lengthN (bits_of_blocks k (ints_of k l)) = lengthN l / k * k).
  { rewrite lengthN_bits_of_blocks, lengthN_ints_of by assumption. reflexivity. }
  apply list_bit_ext.
  - rewrite El, lengthN_firstnN. lia.
  - intros j Hj. rewrite El in Hj.
    pose proof (N.div_mod j k ltac:(lia)) as E. pose proof (N.mod_lt j k ltac:(lia)) as Hr.
    set (q := j / k) in *. set (r := j mod k) in *. clearbody q r. subst j. rewrite (N.mul_comm k) in *.
    assert (Hq : q < lengthN l / k).
    { destruct (N.lt_ge_cases q (lengthN l / k)) as [H1|H1]; [exact H1|].
      pose proof (N.mul_le_mono_r _ _ k H1). lia. }
    rewrite (bit_at_bits_of_blocks k (ints_of k l) q r (int_of (sub (q * k) k l))); [|lia|lia|].
    2:{ rewrite nthN_ints_of. destruct (q <? lengthN l / k) eqn:E1; [reflexivity|lia]. }
    rewrite testbit_int_of, bit_at_sub. destruct (r <? k) eqn:E1; [|lia]. cbn [andb].
    unfold bit_at. rewrite nthN_firstnN. destruct (q * k + r <? lengthN l / k * k) eqn:E2; [reflexivity|lia].
Qed.
Lemma ints_of_bits k xs : 0 < k -> Forall (fun x => x < 2 ^ k) xs -> ints_of k (bits_of_blocks k xs) = xs.
Proof.
  intros H Hx. apply (bits_of_blocks_inj k); [lia|now apply ints_of_lt|assumption|].
  rewrite bits_of_ints, lengthN_bits_of_blocks, N.div_mul by lia. apply firstnN_all. rewrite lengthN_bits_of_blocks. lia.
Qed.
Lemma bits_of_mod k x : bits_of k (x mod 2 ^ k) = bits_of k x.
Proof.
  apply nthN_ext. intros i. rewrite !nthN_bits_of. destruct (i <? k) eqn:E; [|reflexivity].
  f_equal. rewrite N.mod_pow2_bits_low by lia. reflexivity.
Qed.
Lemma bits_of_blocks_repeat_mod k x n : bits_of_blocks k (repeatN (x mod 2 ^ k) n) = bits_of_blocks k (repeatN x n).
Proof.
  unfold repeatN. induction (N.to_nat n) as [|m IH]; [reflexivity|]. cbn [repeat].
  change (bits_of k (x mod 2 ^ k) ++ bits_of_blocks k (repeat (x mod 2 ^ k) m) = bits_of k x ++ bits_of_blocks k (repeat x m)).
  now rewrite IH, bits_of_mod.
Qed.
Lemma fit_alt {A} n (b : A) l : fit n b l = firstnN n (l ++ repeatN b (n - lengthN l)).
Proof.
  unfold fit. destruct (N.le_gt_cases n (lengthN l)) as [H|H].
  - replace (n - lengthN l) with 0 by lia. now rewrite repeatN_0, !app_nil_r.
  - rewrite firstnN_all by lia. symmetry. apply firstnN_all. rewrite lengthN_app, lengthN_repeatN. lia.
Qed.

(** ** No operation of the model runs out of fuel unless it takes fuel. *)
Definition nofuel {A} (r : res A) : Prop := r <> OutOfFuel.
Lemma nofuel_ok {A} (a : A) : nofuel (Ok a). Proof. discriminate. Qed.
Lemma nofuel_panic {A} p : nofuel (@Panic A p). Proof. discriminate. Qed.
Lemma nofuel_bind {A B} (m : res A) (f : A -> res B) : nofuel m -> (forall a, nofuel (f a)) -> nofuel (bind m f).
Proof. intros H1 H2. destruct m; cbn; [apply H2|discriminate|contradiction]. Qed.
Lemma nofuel_if {A} (b : bool) (x y : res A) : nofuel x -> nofuel y -> nofuel (if b then x else y).
Proof. now destruct b. Qed.
Lemma nofuel_for_loop {S} (body : N -> S -> res S) n : forall i s,
  (forall i s, nofuel (body i s)) -> nofuel (for_loop n i body s).
Proof. induction n as [|n IH]; intros i s H; [discriminate|]. cbn. apply nofuel_bind; [apply H|]. intros a. now apply IH. Qed.
Lemma nofuel_for_range {S} (body : N -> S -> res S) a b s :
  (forall i s, nofuel (body i s)) -> nofuel (for_range a b body s).
Proof. intros H. unfold for_range. now apply nofuel_for_loop. Qed.
Lemma nofuel_expect {A} (o : option A) : nofuel (expect o). Proof. now destruct o. Qed.
Lemma nofuel_index {A} (l : list A) i : nofuel (index l i). Proof. unfold index. now destruct (nthN l i). Qed.
Ltac nofuel_tac :=
  repeat first
   [ apply nofuel_ok | apply nofuel_panic | apply nofuel_bind; [|intros ?] | apply nofuel_if
   | apply nofuel_for_range; intros ? ? | apply nofuel_expect | apply nofuel_index
   | match goal with |- nofuel (match ?x with _ => _ end) => destruct x end ].
Lemma nofuel_panics {A} (r : res A) : nofuel r -> (forall a, r <> Ok a) -> panics r.
Proof. intros H1 H2. destruct r as [a|p|]; [now elim (H2 a)|now exists p|contradiction]. Qed.

(** ** Representation *)
Definition R_iv (c : cfg) (nb k : N) (v : intvec) (xs : list N) : Prop :=
  iv_bits v = k /\ Irep c nb k (iv_base v) xs.
(** The same at the level of bits. *)
Definition R_ivb (c : cfg) (nb k : N) (v : intvec) (l : list bool) : Prop :=
  iv_bits v = k /\ Vrep c nb k (iv_base v) l.

Section IntVector.
  Variables (c : cfg) (nb k : N).
  Hypothesis Hc : wf_cfg c.
  Hypothesis Hnb : wf_nb nb.
  Hypothesis Hk : 1 <= k <= nb.
  Let nb_range := wf_nb_range nb Hnb.
  Let ptr_range := wf_ptr c Hc.
  Let nb_pos := wf_nb_pos nb Hnb.
  Let R := R_iv c nb k.
  Let Rb := R_ivb c nb k.

  Lemma R_iv_bits v xs : R v xs -> Rb v (bits_of_blocks k xs).
  Proof. intros [H1 [H2 _]]. now split. Qed.
  Lemma R_iv_ints v l : Rb v l -> R v (ints_of k l).
  Proof.
    intros [H1 H2]. split; [assumption|]. split; [|apply ints_of_lt; lia].
    rewrite bits_of_ints by lia. rewrite firstnN_all; [assumption|].
    destruct H2 as [_ [E _]]. rewrite <- E, N.div_mul by lia. lia.
  Qed.
  Lemma R_iv_ints_firstn v l : iv_bits v = k -> Vrep c nb k (iv_base v) (firstnN (lengthN l / k * k) l) -> R v (ints_of k l).
  Proof.
    intros H1 H2. split; [assumption|]. split; [|apply ints_of_lt; lia]. now rewrite bits_of_ints by lia.
  Qed.
  Lemma R_iv_of_Vrep v xs : iv_bits v = k -> Forall (fun x => x < 2 ^ k) xs -> Vrep c nb k (iv_base v) (bits_of_blocks k xs) -> R v xs.
  Proof. intros H1 H2 H3. now split. Qed.
  Lemma R_iv_fits v xs : R v xs -> fits c nb (lengthN xs * k).
  Proof. intros [_ H]. eapply Irep_fits; eauto. Qed.
  Lemma R_iv_63 v xs : R v xs -> lengthN xs * k <= 2 ^ 63.
  Proof. intros [_ H]. eapply Irep_63; eauto. Qed.
  Lemma R_iv_all v xs : R v xs -> Forall (fun x => x < 2 ^ k) xs.
  Proof. now intros [_ [_ H]]. Qed.
  Lemma R_iv_len v xs : R v xs -> iv_len v = lengthN xs.
  Proof. intros [_ H]. unfold iv_len. eapply Irep_len; eauto. Qed.

  (** *** Checks and addresses *)
  Lemma check_element_bits_ok : check_element_bits nb k = Ok tt.
  Proof. unfold check_element_bits. rewrite assert_true by lia. cbn [bind]. rewrite assert_true by lia. reflexivity. Qed.
  Lemma check_value_random_ok w x : w <= nb -> x < 2 ^ w -> check_value_random c nb w x = Ok tt.
  Proof.
    intros Hw Hx. unfold check_value_random. rewrite low_mask_ok by assumption. cbn [bind].
    apply assert_true. rewrite ones_eq. lia.
  Qed.
  Lemma check_value_random_bad w x : w <= nb -> 2 ^ w <= x -> check_value_random c nb w x = Panic PAssert.
  Proof.
    intros Hw Hx. unfold check_value_random. rewrite low_mask_ok by assumption. cbn [bind].
    apply assert_false. rewrite ones_eq. pose proof (pow2_pos w). lia.
  Qed.

  (** *** Constructors *)
  Lemma iv_create_ok b xs : (exists v, b = Ok v /\ Vrep c nb k v (bits_of_blocks k xs)) -> Forall (fun x => x < 2 ^ k) xs ->
    exists v, iv_create nb k b = Ok v /\ R v xs.
  Proof.
    intros [v [-> HV]] Hx. unfold iv_create. cbn [bind]. rewrite check_element_bits_ok. cbn [bind].
    eexists; split; [reflexivity|]. split; [reflexivity|]. split; assumption.
  Qed.
  Lemma iv_create_panics b : panics b -> panics (iv_create nb k b).
  Proof. intros H. unfold iv_create. now apply bind_panics. Qed.
  Lemma Forall_nil_lt : Forall (fun x => x < 2 ^ k) []. Proof. constructor. Qed.

  Lemma iv_make_sim t : imake_ok c nb k t -> ends R (iv_make c nb k t) (spec_imake c nb k t).
  Proof.
    intros Hok. unfold spec_imake. destruct ((k =? 0) || (nb <? k)) eqn:E; [lia|].
    destruct t; cbn [iv_make imake_ok ends] in *.
    - apply iv_create_ok; [|constructor]. apply (vb_block_with_capacity_ok c nb k); auto. pose proof (max_bits_lt c). lia.
    - destruct Hok as [Hn Hov]. destruct (fitsb c nb (n * k)) eqn:F; cbn [ends].
      + apply iv_create_ok; [|constructor]. apply (vb_with_capacity_ok c nb k); auto. now apply fitsb_spec.
      + apply iv_create_panics. apply vb_with_capacity_full; auto. now apply fitsb_false.
    - destruct (n * nb <=? max_bits c) eqn:F; cbn [ends].
      + apply iv_create_ok; [|constructor]. apply (vb_block_with_capacity_ok c nb k); auto. lia.
      + apply iv_create_panics. apply vb_block_with_capacity_full. lia.
    - destruct Hok as [Hn Hx]. destruct (fitsb c nb (n * k)) eqn:F; cbn [ends].
      + apply iv_create_ok.
        * rewrite bits_of_blocks_repeat_mod. apply vb_with_fill_ok; auto. now apply fitsb_spec.
        * apply Forall_repeatN. apply N.mod_lt. pose proof (pow2_pos k). lia.
      + apply iv_create_panics. apply vb_with_fill_full; auto. now apply fitsb_false.
    - destruct Hok as [Hn Hx]. destruct (n * nb <=? max_bits c) eqn:F; cbn [ends].
      + apply iv_create_ok; [|apply ints_of_lt; lia]. rewrite bits_of_ints by lia.
        rewrite lengthN_bits_of_blocks, lengthN_repeatN. apply vb_block_with_fill_ok; auto. lia.
      + apply iv_create_panics. apply vb_block_with_fill_full. lia.
  Qed.

  (** Lifting an operation of the base. *)
  Lemma iv_lift w r l : w = k -> (exists b, r = Ok b /\ Vrep c nb k b l) ->
    exists v', (b <- r ;; Ok {| iv_bits := w; iv_base := b |}) = Ok v' /\ Rb v' l.
  Proof. intros H [b [-> HV]]. cbn [bind]. eexists; split; [reflexivity|]. now split. Qed.
  Lemma Rb_R v' xs : Forall (fun x => x < 2 ^ k) xs -> Rb v' (bits_of_blocks k xs) -> R v' xs.
  Proof. intros H1 [H2 H3]. now split. Qed.
  Lemma iv_lift_R w r xs : w = k -> Forall (fun x => x < 2 ^ k) xs ->
    (exists b, r = Ok b /\ Vrep c nb k b (bits_of_blocks k xs)) ->
    exists v', (b <- r ;; Ok {| iv_bits := w; iv_base := b |}) = Ok v' /\ R v' xs.
  Proof.
    intros H1 H2 H3. destruct (iv_lift w r _ H1 H3) as [v' [E HR]]. exists v'. split; [exact E|]. now apply Rb_R.
  Qed.
  Lemma iv_lift_panics (w : N) (r : res vbase) : panics r ->
    panics (b <- r ;; Ok {| iv_bits := w; iv_base := b |}).
  Proof. apply bind_panics. Qed.

  (** *** Element access *)
  Lemma Irep_elem (xs : list N) i : i < lengthN xs -> i * k + k <= lengthN xs * k.
  Proof. intros H. nia. Qed.
  Lemma iv_get_ok v xs i x : R v xs -> index_ok c nb k i -> nthN xs i = Some x -> iv_get c nb v i = Ok x.
  Proof.
    intros HR [Hi Hu] Hx. pose proof HR as [Ek HI]. pose proof (nthN_lt _ _ _ Hx) as Hlt.
    pose proof (R_iv_63 v xs HR) as H63. pose proof (Irep_elem xs i Hlt) as Hel.
    pose proof (Irep_get c nb k Hc Hnb Hk _ _ _ _ HI Hx) as Hg.
    unfold iv_get, iv_is_block_sized. rewrite Ek. destruct (k =? nb) eqn:E.
    - assert (k = nb) as Eknb by lia. rewrite as_usize_small by auto. destruct HI as [HV Hall].
      rewrite (vb_get_block_ok c nb k Hnb _ _ i HV) by (rewrite lengthN_bits_of_blocks, <- Eknb; lia).
      f_equal. unfold block_of. rewrite <- Eknb. rewrite (sub_bits_of_blocks k xs i x Hx).
      apply int_of_bits_small. exact (proj1 (Forall_nthN _ _) Hall i x Hx).
    - unfold compute_address, checked_mul. rewrite Ek. destruct (i * k <? 2 ^ 64) eqn:E2; [|lia].
      cbn [expect bind]. exact Hg.
  Qed.
  Lemma iv_get_oob v xs i : R v xs -> index_ok c nb k i -> lengthN xs <= i -> panics (iv_get c nb v i).
  Proof.
    intros HR [Hi Hu] Hge. pose proof HR as [Ek HI]. destruct HI as [HV Hall].
    pose proof (N.mul_le_mono_r _ _ k Hge) as Hm.
    unfold iv_get, iv_is_block_sized. rewrite Ek. destruct (k =? nb) eqn:E.
    - assert (k = nb) as Eknb by lia. rewrite as_usize_small by auto.
      eapply (vb_get_block_oob c nb k); eauto. rewrite lengthN_bits_of_blocks, <- Eknb. exact Hm.
    - unfold compute_address, checked_mul. rewrite Ek. destruct (i * k <? 2 ^ 64) eqn:E2; cbn [expect bind]; [|auto].
      eapply (vb_get_bits_oob c nb k); eauto; [rewrite lengthN_bits_of_blocks; lia|lia|].
      pose proof (wf_k_lt nb k Hnb). lia.
  Qed.
  Lemma updN_all xs i x : Forall (fun x => x < 2 ^ k) xs -> x < 2 ^ k -> Forall (fun x => x < 2 ^ k) (updN xs i x).
  Proof.
    intros H1 H2. apply Forall_nthN. intros j a. rewrite nthN_updN. destruct (j =? i).
    - destruct (i <? lengthN xs); [|discriminate]. now intros [= <-].
    - intros Ha. exact (proj1 (Forall_nthN _ _) H1 j a Ha).
  Qed.
  Lemma iv_set_ok v xs i x : R v xs -> index_ok c nb k i -> x < 2 ^ k -> i < lengthN xs ->
    exists v', iv_set c nb v i x = Ok v' /\ R v' (updN xs i x).
  Proof.
    intros HR [Hi Hu] Hx Hlt. pose proof HR as [Ek HI]. destruct HI as [HV Hall].
    pose proof (R_iv_63 v xs HR) as H63. pose proof (Irep_elem xs i Hlt) as Hel.
    assert (Hxn : x < 2 ^ nb) by (eapply N.lt_le_trans; [exact Hx|apply N.pow_le_mono_r; lia]).
    unfold iv_set, iv_is_block_sized. rewrite Ek. destruct (k =? nb) eqn:E.
    - assert (Eknb : nb = k) by lia. rewrite as_usize_small by auto. apply iv_lift_R; auto using updN_all.
      destruct (vb_set_block_ok c nb k Hc Hnb Hk _ _ i x HV) as [b [Hb HVb]];
        [rewrite lengthN_bits_of_blocks, Eknb; lia|assumption|].
      assert (Es : set_block_of nb i x (bits_of_blocks k xs) = bits_of_blocks k (updN xs i x)).
      { rewrite Eknb. unfold set_block_of. rewrite firstnN_all by (rewrite lengthN_bits_of, lengthN_bits_of_blocks; lia).
        now apply put_bits_of_blocks. }
      rewrite Es in HVb. exists b. now split.
    - unfold check_value. rewrite Ek. rewrite check_value_random_ok by (auto; lia). cbn [bind].
      unfold compute_address, checked_mul. rewrite Ek. destruct (i * k <? 2 ^ 64) eqn:E2; [|lia].
      cbn [expect bind]. apply iv_lift_R; auto using updN_all.
      destruct (vb_set_bits_ok c nb k Hc Hnb Hk _ _ (i * k) k x HV) as [b [Hb [HVb _]]];
        [rewrite lengthN_bits_of_blocks; lia|lia|assumption|lia|].
      exists b. split; [exact Hb|]. now rewrite put_bits_of_blocks in HVb by assumption.
  Qed.
  Lemma iv_set_bad v xs i x : R v xs -> index_ok c nb k i -> x < 2 ^ nb -> 2 ^ k <= x \/ lengthN xs <= i ->
    panics (iv_set c nb v i x).
  Proof.
    intros HR [Hi Hu] Hx Hbad. pose proof HR as [Ek HI]. destruct HI as [HV Hall].
    unfold iv_set, iv_is_block_sized. rewrite Ek. destruct (k =? nb) eqn:E.
    - assert (k = nb) as Eknb by lia. rewrite as_usize_small by auto. apply bind_panics.
      eapply (vb_set_block_oob c nb k); eauto. rewrite lengthN_bits_of_blocks, <- Eknb.
      destruct Hbad as [Hbad|Hbad]; [rewrite Eknb in Hbad; lia|]. now apply N.mul_le_mono_r.
    - unfold check_value. rewrite Ek. destruct (N.lt_ge_cases x (2 ^ k)) as [Hs|Hs].
      + rewrite check_value_random_ok by (auto; lia). cbn [bind]. destruct Hbad as [Hbad|Hbad]; [lia|].
        pose proof (N.mul_le_mono_r _ _ k Hbad) as Hm.
        unfold compute_address, checked_mul. rewrite Ek. destruct (i * k <? 2 ^ 64) eqn:E2; cbn [expect bind]; [|auto].
        apply bind_panics. eapply (vb_set_bits_oob c nb k); eauto; [rewrite lengthN_bits_of_blocks; lia|lia|].
        pose proof (wf_k_lt nb k Hnb). lia.
      + rewrite check_value_random_bad by (auto; lia). cbn [bind]. auto.
  Qed.

  (** *** The bit-level view *)
  Lemma Rb_63 v l : Rb v l -> lengthN l <= 2 ^ 63.
  Proof. intros [_ [_ [_ H]]]. eapply fits63; eauto. Qed.
  Lemma Rb_fits v l : Rb v l -> fits c nb (lengthN l).
  Proof. now intros [_ [_ [_ H]]]. Qed.
  Lemma iv_bit_len_ok v l : Rb v l -> iv_bit_len c v = Ok (lengthN l).
  Proof.
    intros HR. pose proof (Rb_63 v l HR) as H63. destruct HR as [Ek [_ [El _]]].
    unfold iv_bit_len. rewrite Ek. rewrite N.mul_comm in El. rewrite wmul_ok by lia. now rewrite El.
  Qed.
  Lemma iv_block_len_ok v l : Rb v l -> iv_block_len v = Ok (blocks_for nb (lengthN l)).
  Proof. intros [_ [E _]]. unfold iv_block_len, vb_block_len. now rewrite E, lengthN_pack. Qed.
  Lemma iv_get_block_ok v l i : Rb v l -> i * nb < lengthN l -> iv_get_block v i = Ok (block_of nb i l).
  Proof. intros [_ HV] H. eapply vb_get_block_ok; eauto. Qed.
  Lemma iv_get_block_oob v l i : Rb v l -> lengthN l <= i * nb -> panics (iv_get_block v i).
  Proof. intros [_ HV] H. eapply vb_get_block_oob; eauto. Qed.
  Lemma iv_set_block_ok v l i x : Rb v l -> i * nb < lengthN l -> x < 2 ^ nb ->
    exists v', iv_set_block c nb v i x = Ok v' /\ Rb v' (set_block_of nb i x l).
  Proof.
    intros [Ek HV] H Hx. unfold iv_set_block. apply iv_lift; [assumption|]. rewrite Ek. now apply vb_set_block_ok.
  Qed.
  Lemma iv_set_block_oob v l i x : Rb v l -> lengthN l <= i * nb -> panics (iv_set_block c nb v i x).
  Proof.
    intros [Ek HV] H. unfold iv_set_block. apply iv_lift_panics. rewrite Ek. eapply vb_set_block_oob; eauto.
  Qed.
  Theorem iv_lawful_bits : lawful_bits c (iv_bitvec c nb) Rb.
  Proof.
    constructor; cbn.
    - exact Hnb.
    - exact Rb_fits.
    - exact iv_bit_len_ok.
    - intros t l i b HR Hi. eapply def_get_bit; eauto using iv_bit_len_ok, Rb_fits, iv_get_block_ok.
    - intros t l i HR Hi _. eapply def_get_bit_oob; eauto using iv_bit_len_ok.
    - intros t l s n HR H1 H2 H3. apply def_get_bits; eauto using iv_bit_len_ok, Rb_fits, iv_get_block_ok. tauto.
    - intros t l s n HR H1 H2 H3.
      eapply def_get_bits_oob_all; eauto using iv_bit_len_ok, Rb_fits, iv_get_block_ok, iv_get_block_oob. lia.
  Qed.
  Theorem iv_lawful_blocks : lawful_blocks c (iv_bitvec c nb) Rb.
  Proof.
    constructor; cbn.
    - exact iv_block_len_ok.
    - exact iv_get_block_ok.
    - intros. eapply iv_get_block_oob; eauto.
  Qed.
  Theorem iv_lawful_mut : lawful_mut c (iv_bitvecmut c nb) Rb.
  Proof.
    assert (Hset : forall (l : list bool) (t' : intvec) (l' : list bool) (i0 v : N), Rb t' l' -> lengthN l' = lengthN l ->
      i0 * nb < lengthN l -> v < 2 ^ nb -> exists t'', iv_set_block c nb t' i0 v = Ok t'' /\ Rb t'' (set_block_of nb i0 v l')).
    { intros l t' l' i0 v H1 H2 H3 H4. apply iv_set_block_ok; auto. lia. }
    constructor; cbn.
    - intros t l i b HR Hi. eapply def_set_bit; eauto using iv_bit_len_ok, Rb_fits, iv_get_block_ok.
    - intros t l i b HR Hi _. eapply def_set_bit_oob; eauto using iv_bit_len_ok.
    - intros t l s n v HR H1 H2 H3 H4.
      eapply def_set_bits; eauto using iv_bit_len_ok, Rb_fits, iv_get_block_ok. tauto.
    - intros t l s n v HR H1 H2 H3.
      eapply def_set_bits_oob_all; eauto using iv_bit_len_ok, Rb_fits, iv_get_block_ok, iv_get_block_oob. lia.
  Qed.
  Theorem iv_lawful_mutblocks : lawful_mutblocks c (iv_bitvecmut c nb) Rb.
  Proof.
    constructor; cbn.
    - intros. now apply iv_set_block_ok.
    - intros. eapply iv_set_block_oob; eauto.
  Qed.
End IntVector.
