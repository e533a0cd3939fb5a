(** * Proofs about the codes: unary, lifting, Elias. *)
From Verif Require Import Machine MStorage MTraits MStream MCoding SpecBits SpecCfg SpecStream PBase PBits PDefaults PStream.

(** ** Prefixes *)
Lemma prefix_app p w1 w2 : proper_prefix p (w1 ++ w2) ->
  proper_prefix p w1 \/ exists q, p = w1 ++ q /\ proper_prefix q w2.
Proof.
  revert p. induction w1 as [|b w1 IH]; intros p H; [right; exists p; auto|].
  destruct H as (q & Hq & E). destruct p as [|b' p].
  - left. exists (b :: w1). split; [discriminate|reflexivity].
  - cbn [app] in E. injection E as -> E. destruct (IH p) as [(q' & Hq' & ->)|(q' & -> & Hq')].
    + exists q. split; auto.
    + left. exists q'. auto.
    + right. exists q'. auto.
Qed.
Lemma prefix_1 p b : proper_prefix p [b] -> p = [].
Proof.
  intros (q & Hq & E). destruct p as [|x p]; [reflexivity|]. cbn [app] in E. injection E as -> E.
  destruct p; [|discriminate]. destruct q; [congruence|discriminate].
Qed.
Lemma prefix_length p w : proper_prefix p w -> lengthN p < lengthN w.
Proof. intros (q & Hq & ->). rewrite lengthN_app. destruct q; [congruence|]. rewrite lengthN_cons. lia. Qed.
Lemma prefix_repeat p b n : proper_prefix p (repeatN b n) -> exists m, m < n /\ p = repeatN b m.
Proof.
  intros H. exists (lengthN p). pose proof (prefix_length p _ H) as Hl. rewrite lengthN_repeatN in Hl. split; [exact Hl|].
  destruct H as (q & Hq & E). apply nthN_ext. intros i. rewrite nthN_repeatN. destruct (i <? lengthN p) eqn:Ei.
  - rewrite <- (nthN_app_l p q i) by lia. rewrite <- E, nthN_repeatN. destruct (i <? n) eqn:E1; [reflexivity|lia].
  - apply nthN_None. lia.
Qed.

(** ** Unary *)
Section Unary.
  Context (c : cfg).
  Lemma unary_zeros {S} (snk : sink S) v s fuel : (N.to_nat v < fuel)%nat ->
    loop_io fuel (fun value =>
        if 0 <? value then
          try_ (write_bit snk false) (fun _ =>
          try_ (lift (wsub c 64 value 1)) (fun v =>
          ret (Continue v)))
        else ret (Return tt)) v s = write_all snk (repeatN false v) s.
  Proof.
    unfold repeatN. revert v s. induction fuel as [|fuel IH]; intros v s Hf; [lia|].
    cbn [loop_io]. destruct (0 <? v) eqn:E.
    - replace (N.to_nat v) with (Datatypes.S (N.to_nat (v - 1))) by lia. cbn [repeat write_all]. unfold try_ at 1 2.
      destruct (write_bit snk false s) as [[[u|e] s']| |]; cbn [bind]; auto.
      unfold try_ at 1. unfold lift. rewrite wsub_ok by lia. cbn [bind]. unfold ret at 1. cbn [bind]. apply IH. lia.
    - assert (v = 0) as -> by lia. reflexivity.
  Qed.
  Lemma unary_encode_ok {S} (snk : sink S) v s fuel : (N.to_nat v < fuel)%nat ->
    unary_encode c snk fuel v s = write_all snk (unary_word v) s.
  Proof.
    intros Hf. unfold unary_encode, unary_word. rewrite write_all_app. unfold try_ at 1 5. rewrite unary_zeros by exact Hf.
    destruct (write_all snk _ s) as [[[u|e] s']| |]; cbn [bind]; auto.
  Qed.

  Context {S : Type} (src : source S).
  Notation body := (fun st : N * bool =>
        let '(result, consumed) := st in
        try_ (read_bit src) (fun ob : option bool =>
        match ob with
        | Some bit =>
            if bit then ret (Return (Some result))
            else try_ (lift (wadd c 64 result 1)) (fun r => ret (Continue (r, true)))
        | None => if consumed then fail UnexpectedEof else ret (Return None)
        end)).
  Lemma unary_loop n : forall fuel r (b : bool) s s', reads src s (repeat false n) s' -> r + N.of_nat n < 2 ^ 64 -> (n <= fuel)%nat ->
    loop_io fuel body (r, b) s = loop_io (fuel - n) body (r + N.of_nat n, b || (0 <? N.of_nat n)) s'.
  Proof.
    induction n as [|n IH]; intros fuel r b s s' H Hr Hf.
    - apply reads_nil_inv in H. subst s'. rewrite N.add_0_r, Nat.sub_0_r. cbn. now rewrite orb_false_r.
    - cbn [repeat] in H. apply reads_inv in H. destruct H as (s1 & E & H). destruct fuel as [|fuel]; [lia|].
      cbn [loop_io Nat.sub]. rewrite (try_ok _ _ s (Continue (r + 1, true)) s1).
      + rewrite (IH fuel (r + 1) true s1 s' H) by lia. f_equal. f_equal; [lia|]. destruct b; [reflexivity|].
        destruct (0 <? N.of_nat (Datatypes.S n)) eqn:E0; [reflexivity|lia].
      + rewrite (try_ok _ _ _ _ _ E). rewrite (try_lift _ (r + 1)) by (apply wadd_ok; lia). reflexivity.
  Qed.
  Lemma unary_decode_ok v s s' fuel : v < 2 ^ 64 -> (N.to_nat v < fuel)%nat -> reads src s (unary_word v) s' ->
    unary_decode c src fuel s = Ok (IOk (Some v), s').
  Proof.
    intros Hv Hf H. unfold unary_word in H. apply reads_app in H. destruct H as (s1 & H1 & H2).
    unfold unary_decode. rewrite (unary_loop (N.to_nat v) fuel 0 false s s1 H1) by lia. rewrite N2Nat.id.
    destruct (fuel - N.to_nat v)%nat as [|m] eqn:Em; [lia|]. cbn [loop_io]. apply reads_inv in H2. destruct H2 as (s2 & E & H2).
    apply reads_nil_inv in H2. subst s2. unfold try_ at 1 2. rewrite E. reflexivity.
  Qed.
  Lemma unary_decode_stop v p s s' o s'' fuel : v < 2 ^ 64 -> (N.to_nat v < fuel)%nat -> proper_prefix p (unary_word v) ->
    reads src s p s' -> stops src s' o s'' -> unary_decode c src fuel s = Ok (stopped o p, s'').
  Proof.
    intros Hv Hf Hp H [E Ho]. 
    assert (exists m, m <= v /\ p = repeatN false m) as (m & Hm & ->).
    { apply prefix_app in Hp. destruct Hp as [Hp|(q & -> & Hq)].
      - apply prefix_repeat in Hp. destruct Hp as (m & Hm & ->). exists m. split; [lia|reflexivity].
      - apply prefix_1 in Hq. subst q. exists v. rewrite app_nil_r. split; [lia|reflexivity]. }
    unfold unary_decode. rewrite (unary_loop (N.to_nat m) fuel 0 false s s' H) by lia. rewrite N2Nat.id.
    destruct (fuel - N.to_nat m)%nat as [|k] eqn:Ek; [lia|]. cbn [loop_io]. unfold try_ at 1 2. rewrite E. cbn [bind].
    destruct o as [[b|]|e]; [contradiction| |reflexivity]. unfold stopped, repeatN.
    destruct (N.to_nat m) as [|j] eqn:Ej.
    - assert (m = 0) as -> by lia. reflexivity.
    - destruct (0 <? m) eqn:E1; [reflexivity|lia].
  Qed.
End Unary.

Lemma unary_codeword c v : v < 2 ^ 64 -> codeword (unary c) v (unary_word v).
Proof.
  intros Hv. split.
  - unfold unary_word. destruct (repeatN false v); discriminate.
  - exists (Datatypes.S (N.to_nat v)). intros fuel Hf S snk s. apply unary_encode_ok. lia.
  - exists (Datatypes.S (N.to_nat v)). intros fuel Hf S src s s' H. apply unary_decode_ok; auto.
Qed.
Lemma unary_truncates c v : v < 2 ^ 64 -> truncates (unary c) (unary_word v).
Proof.
  intros Hv. exists (Datatypes.S (N.to_nat v)). intros fuel Hf S src s p s' o s'' Hp H Ho. eapply unary_decode_stop; eauto.
Qed.

(** ** Lift0 *)
Lemma lift0_codeword c C v w : v + 1 < 2 ^ 64 -> codeword C (v + 1) w -> codeword (lift0 c C) v w.
Proof.
  intros Hv [H0 [n1 H1] [n2 H2]]. split; [exact H0| |].
  - exists n1. intros fuel Hf S snk s. cbn. unfold lift0_encode, checked_add. destruct (v + 1 <? 2 ^ 64) eqn:E; [|lia]. now apply H1.
  - exists n2. intros fuel Hf S src s s' H. cbn. unfold lift0_decode. rewrite (try_ok _ _ _ _ _ (H2 fuel Hf S src s s' H)).
    rewrite (try_lift _ v); [reflexivity|]. rewrite wsub_ok by lia. f_equal. lia.
Qed.
Lemma lift0_truncates c C w : truncates C w -> truncates (lift0 c C) w.
Proof.
  intros [n H]. exists n. intros fuel Hf S src s p s' o s'' Hp Hr Ho. cbn. unfold lift0_decode, try_.
  rewrite (H fuel Hf S src s p s' o s'' Hp Hr Ho). cbn [bind]. unfold stopped. destruct o as [a|e]; [|reflexivity]. destruct p; reflexivity.
Qed.

(** ** Elias *)
Lemma size_log2 v : v <> 0 -> N.size v = N.log2 v + 1.
Proof. intros H. rewrite N.size_log2 by exact H. lia. Qed.
Lemma log2_lt v w : v <> 0 -> v < 2 ^ w -> N.log2 v < w.
Proof. intros H0 H. apply N.log2_lt_pow2; lia. Qed.
Lemma low_high v : v <> 0 -> N.lor (v mod 2 ^ N.log2 v) (2 ^ N.log2 v) = v.
Proof.
  intros Hv. apply N.bits_inj. intros i. rewrite N.lor_spec. destruct (N.compare_spec i (N.log2 v)) as [->|H|H].
  - rewrite N.pow2_bits_true, N.bit_log2 by exact Hv. apply orb_true_r.
  - rewrite N.mod_pow2_bits_low, N.pow2_bits_false by lia. apply orb_false_r.
  - rewrite N.mod_pow2_bits_high, N.pow2_bits_false by lia. rewrite N.bits_above_log2 by exact H. reflexivity.
Qed.
Lemma elias_codeword c H v hw : wf_cfg c -> v <> 0 -> v < 2 ^ 64 -> codeword H (N.log2 v) hw ->
  codeword (elias c H) v (hw ++ bits_of (N.log2 v) v).
Proof.
  intros Hc Hv0 Hv [H0 [n1 H1] [n2 H2]]. pose proof (log2_lt v 64 Hv0 Hv) as Hk. pose proof (wf_ptr c Hc) as Hp. set (k := N.log2 v) in *. split.
  - intros E. apply app_eq_nil in E. tauto.
  - exists n1. intros fuel Hf S snk s. cbn. unfold elias_encode. unfold leading_zeros. rewrite size_log2 by exact Hv0. fold k.
    rewrite (try_lift _ tt). 2:{ apply assert_true. destruct (v =? 0) eqn:E; [lia|reflexivity]. }
    rewrite (try_lift _ 63) by (now rewrite wsub_ok by lia).
    rewrite (try_lift _ k) by (rewrite wsub_ok by lia; f_equal; lia).
    rewrite write_all_app. unfold try_. rewrite H1 by exact Hf. destruct (write_all snk hw s) as [[[u|e] s']| |]; cbn [bind]; auto.
    now rewrite write_int_ok by lia.
  - exists n2. intros fuel Hf S src s s' Hr. apply reads_app in Hr. destruct Hr as (s1 & Hr1 & Hr2).
    cbn. unfold elias_decode. rewrite (try_ok _ _ _ _ _ (H2 fuel Hf S src s s1 Hr1)).
    destruct (63 <? k) eqn:E; [lia|]. rewrite as_usize_small by lia.
    rewrite (try_ok _ _ _ _ _ (read_int_ok c src 64 ltac:(lia) k (bits_of k v) s1 s' (lengthN_bits_of k v) Hr2)).
    rewrite (try_lift _ (2 ^ k)).
    2:{ rewrite wshl_ok by lia. rewrite N.shiftl_1_l, N.mod_small by (apply N.pow_lt_mono_r; lia). reflexivity. }
    unfold ret. f_equal. f_equal. f_equal. f_equal. rewrite int_of_bits_of. rewrite N.mod_small.
    + now apply low_high.
    + eapply N.lt_trans; [apply N.mod_lt; pose proof (pow2_pos k); lia|]. apply N.pow_lt_mono_r; lia.
Qed.
Lemma elias_truncates c H v hw : wf_cfg c -> v <> 0 -> v < 2 ^ 64 -> codeword H (N.log2 v) hw -> truncates H hw ->
  truncates (elias c H) (hw ++ bits_of (N.log2 v) v).
Proof.
  intros Hc Hv0 Hv [H0 _ [n2 H2]] [n3 H3]. pose proof (log2_lt v 64 Hv0 Hv) as Hk. pose proof (wf_ptr c Hc) as Hptr. set (k := N.log2 v) in *.
  exists (n2 + n3)%nat. intros fuel Hf S src s p s' o s'' Hp Hr Ho. cbn. unfold elias_decode. apply prefix_app in Hp.
  destruct Hp as [Hp|(q & -> & Hq)].
  - unfold try_ at 1. rewrite (H3 fuel ltac:(lia) S src s p s' o s'' Hp Hr Ho). cbn [bind]. unfold stopped. destruct o as [a|e]; [|reflexivity]. destruct p; reflexivity.
  - apply reads_app in Hr. destruct Hr as (s1 & Hr1 & Hr2). rewrite (try_ok _ _ _ _ _ (H2 fuel ltac:(lia) S src s s1 Hr1)).
    destruct (63 <? k) eqn:E; [lia|]. rewrite as_usize_small by lia.
    pose proof (prefix_length _ _ Hq) as Hl. rewrite lengthN_bits_of in Hl. unfold try_.
    rewrite (read_int_stop c src 64 ltac:(lia) k q s1 s' o s'' Hl Hr2 Ho). cbn [bind]. unfold stopped.
    destruct o as [a|e]; [|reflexivity]. destruct hw; [congruence|]. destruct q; reflexivity.
Qed.

Lemma gamma_codeword c v : wf_cfg c -> v <> 0 -> v < 2 ^ 64 -> codeword (gamma c) v (gamma_word v).
Proof. intros Hc H0 Hv. apply elias_codeword; auto. apply unary_codeword. pose proof (log2_lt v 64 H0 Hv). lia. Qed.
Lemma gamma_truncates c v : wf_cfg c -> v <> 0 -> v < 2 ^ 64 -> truncates (gamma c) (gamma_word v).
Proof.
  intros Hc H0 Hv. pose proof (log2_lt v 64 H0 Hv). apply elias_truncates; auto; [apply unary_codeword|apply unary_truncates]; lia.
Qed.
Lemma delta_codeword c v : wf_cfg c -> v <> 0 -> v < 2 ^ 64 -> codeword (delta c) v (delta_word v).
Proof.
  intros Hc H0 Hv. pose proof (log2_lt v 64 H0 Hv). apply elias_codeword; auto. apply lift0_codeword; [lia|]. apply gamma_codeword; auto; lia.
Qed.
Lemma delta_truncates c v : wf_cfg c -> v <> 0 -> v < 2 ^ 64 -> truncates (delta c) (delta_word v).
Proof.
  intros Hc H0 Hv. pose proof (log2_lt v 64 H0 Hv). apply elias_truncates; auto.
  - apply lift0_codeword; [lia|]. apply gamma_codeword; auto; lia.
  - apply lift0_truncates. apply gamma_truncates; auto; lia.
Qed.

(** ** Omega *)
Definition group (v : N) : list bool := rev (bits_of (N.log2 v + 1) v).
Lemma group_cons v : v <> 0 -> group v = true :: rev (bits_of (N.log2 v) v).
Proof. intros H. unfold group. rewrite bits_of_snoc_rev, N.bit_log2 by exact H. reflexivity. Qed.
Lemma omega_groups_exists v : v <> 0 -> exists g, omega_groups v g.
Proof.
  induction v as [v IH] using (well_founded_induction N.lt_wf_0). intros Hv. destruct (N.eq_dec v 1) as [->|H1]; [exists []; constructor|].
  assert (N.log2 v <> 0). { intros E. apply N.log2_null in E. lia. }
  destruct (IH (N.log2 v)) as [g Hg]; auto; [apply N.log2_lt_lin; lia|]. exists (g ++ group v). constructor; auto. lia.
Qed.
Lemma omega_groups_nil v g : omega_groups v g -> (g = [] <-> v = 1).
Proof.
  intros H. destruct H as [|v w H1 H2]; [tauto|]. split; [|lia]. intros E. apply app_eq_nil in E. destruct E as [_ E].
  fold (group v) in E. rewrite group_cons in E by lia. discriminate.
Qed.
Section Omega.
  Context (c : cfg).
  Hypothesis Hc : wf_cfg c.

  Lemma omega_write_ok {S} (snk : sink S) st : Forall (fun p => 1 <= fst p <= 64) st -> forall s,
    omega_write c snk st s = write_all snk (flat_map (fun p => rev (bits_of (fst p) (snd p))) st) s.
  Proof.
    induction 1 as [|[n v] st [H1 H2] HF IH]; intros s; [reflexivity|]. cbn [omega_write flat_map fst snd] in *.
    rewrite write_all_app. unfold try_. rewrite write_int_be_ok by (auto; lia).
    destruct (write_all snk _ s) as [[[u|e] s']| |]; cbn [bind]; auto.
  Qed.
  Lemma omega_stack_ok v : v < 2 ^ 64 -> v <> 0 -> exists st, Forall (fun p : N * N => 1 <= fst p <= 64) st /\
    omega_groups v (flat_map (fun p => rev (bits_of (fst p) (snd p))) st) /\
    exists n0, forall fuel acc, (n0 <= fuel)%nat ->
    loop_fuel fuel (fun st : N * list (N * N) =>
        let (value, stack) := st in
        if 1 <? value then
          (nbits <- wsub c 32 64 (leading_zeros 64 value) ;;
           v <- wsub c 64 nbits 1 ;;
           Ok (Continue (v, (nbits, value) :: stack)))%res
        else Ok (Return stack)) (v, acc) = Ok (st ++ acc).
  Proof.
    induction v as [v IH] using (well_founded_induction N.lt_wf_0). intros Hv H0. destruct (N.eq_dec v 1) as [->|H1].
    - exists []. split; [constructor|]. split; [constructor|]. exists 1%nat. intros fuel acc Hf. destruct fuel; [lia|]. reflexivity.
    - assert (Hl0 : N.log2 v <> 0). { intros E. apply N.log2_null in E. lia. }
      assert (Hl : N.log2 v < v) by (apply N.log2_lt_lin; lia). pose proof (log2_lt v 64 H0 Hv) as Hk.
      destruct (IH (N.log2 v) Hl ltac:(lia) Hl0) as (st & HF & HG & n0 & HL).
      exists (st ++ [(N.log2 v + 1, v)]). split; [|split].
      + apply Forall_app. split; [exact HF|]. constructor; [cbn; lia|constructor].
      + rewrite flat_map_app. cbn [flat_map fst snd]. rewrite app_nil_r. constructor; [lia|exact HG].
      + exists (Datatypes.S n0). intros fuel acc Hf. destruct fuel as [|fuel]; [lia|]. cbn [loop_fuel].
        destruct (1 <? v) eqn:E; [|lia]. unfold leading_zeros. rewrite size_log2 by exact H0. rewrite wsub_ok by lia. cbn [bind].
        replace (64 - (64 - (N.log2 v + 1))) with (N.log2 v + 1) by lia. rewrite wsub_ok by lia. cbn [bind].
        replace (N.log2 v + 1 - 1) with (N.log2 v) by lia. rewrite HL by lia. now rewrite <- app_assoc.
  Qed.
  Definition omega_body {S} (src : source S) (result : N) : io S (flow N (option N)) :=
        try_ (read_bit src) (fun ob : option bool =>
        match ob with
        | Some bit =>
            if negb bit then ret (Return (Some result))
            else
              try_ (read_int_be c src 64 (as_usize c result)) (fun o =>
              match o with
              | Some next =>
                  try_ (lift (wshl c 64 1 (result mod 2 ^ 32))) (fun h =>
                  ret (Continue (N.lor next h)))
              | None => fail UnexpectedEof
              end)
        | None => if result =? 1 then ret (Return None) else fail UnexpectedEof
        end).
  Lemma omega_step {S} (src : source S) u v s s' : v <> 0 -> v < 2 ^ 64 -> u = N.log2 v -> reads src s (group v) s' ->
    omega_body src u s = Ok (IOk (Continue v), s').
  Proof.
    unfold omega_body.
    intros Hv0 Hv -> H. pose proof (log2_lt v 64 Hv0 Hv) as Hk. pose proof (wf_ptr c Hc) as Hp.
    rewrite group_cons in H by exact Hv0. apply reads_inv in H. destruct H as (s1 & E & H).
    rewrite (try_ok _ _ _ _ _ E). cbn [negb]. rewrite as_usize_small by lia. set (k := N.log2 v) in *.
    assert (Hl : lengthN (rev (bits_of k v)) = k) by (now rewrite lengthN_rev, lengthN_bits_of).
    rewrite (try_ok _ _ _ _ _ (read_int_be_ok c src 64 ltac:(lia) k _ s1 s' Hl H)). rewrite rev_involutive.
    rewrite (N.mod_small k) by lia. rewrite (try_lift _ (2 ^ k)).
    2:{ rewrite wshl_ok by lia. rewrite N.shiftl_1_l, N.mod_small by (apply N.pow_lt_mono_r; lia). reflexivity. }
    unfold ret. f_equal. f_equal. f_equal. f_equal. rewrite int_of_bits_of. rewrite N.mod_small.
    + now apply low_high.
    + eapply N.lt_trans; [apply N.mod_lt; pose proof (pow2_pos k); lia|]. apply N.pow_lt_mono_r; lia.
  Qed.
  (** One group cut short. *)
  Lemma omega_cut {S} (src : source S) u v s p s' o s'' : v <> 0 -> v < 2 ^ 64 -> u = N.log2 v -> proper_prefix p (group v) -> p <> [] ->
    reads src s p s' -> stops src s' o s'' ->
    omega_body src u s = Ok (match o with IErr e => IErr e | IOk _ => IErr UnexpectedEof end, s'').
  Proof.
    unfold omega_body.
    intros Hv0 Hv -> Hpp Hne H Ho. pose proof (log2_lt v 64 Hv0 Hv) as Hk. pose proof (wf_ptr c Hc) as Hp.
    rewrite group_cons in Hpp by exact Hv0. destruct Hpp as (q & Hq & Eq). destruct p as [|b p]; [congruence|].
    cbn [app] in Eq. injection Eq as <- Eq. apply reads_inv in H. destruct H as (s1 & E & H).
    rewrite (try_ok _ _ _ _ _ E). cbn [negb]. rewrite as_usize_small by lia. set (k := N.log2 v) in *.
    assert (Hl : lengthN p < k).
    { assert (El : lengthN (rev (bits_of k v)) = k) by (now rewrite lengthN_rev, lengthN_bits_of).
      rewrite Eq, lengthN_app in El. destruct q; [congruence|]. rewrite lengthN_cons in El. lia. }
    unfold try_ at 1. rewrite (read_int_be_stop c src 64 ltac:(lia) k p s1 s' o s'' Hl H Ho). cbn [bind]. unfold stopped.
    destruct o as [a|e]; [|reflexivity]. destruct p; reflexivity.
  Qed.
  Lemma omega_loop v g : omega_groups v g -> v < 2 ^ 64 -> exists n0, forall S (src : source S) fuel s s', (n0 <= fuel)%nat -> reads src s g s' ->
    loop_io fuel (omega_body src) 1 s = loop_io (fuel - n0) (omega_body src) v s'.
  Proof.
    intros HG. induction HG as [|v w H1 HG IH]; intros Hv.
    - exists 0%nat. intros S src fuel s s' _ H. apply reads_nil_inv in H. subst. now rewrite Nat.sub_0_r.
    - pose proof (log2_lt v 64 ltac:(lia) Hv) as Hk. destruct (IH ltac:(lia)) as [n0 HL]. exists (Datatypes.S n0).
      intros S src fuel s s' Hf H. apply reads_app in H. destruct H as (s1 & Hr1 & Hr2). rewrite (HL S src fuel s s1) by (auto; lia).
      destruct (fuel - n0)%nat as [|m] eqn:Em; [lia|]. replace (fuel - Datatypes.S n0)%nat with m by lia. cbn [loop_io].
      rewrite (try_ok _ _ s1 (Continue v) s'); [reflexivity|]. apply omega_step; auto. lia.
  Qed.
End Omega.
Lemma omega_codeword c v w : wf_cfg c -> v < 2 ^ 64 -> omega_word v w -> codeword (omega c) v w.
Proof.
  intros Hc Hv (g & HG & ->). assert (H0 : v <> 0) by (inversion HG; lia). split.
  - intros E. apply app_eq_nil in E. now destruct E.
  - destruct (omega_stack_ok c v Hv H0) as (st & HF & HG' & n0 & HL). exists n0. intros fuel Hf S snk s. cbn. unfold omega_encode.
    rewrite (try_lift _ st).
    2:{ unfold omega_stack. rewrite HL by exact Hf. now rewrite app_nil_r. }
    assert (flat_map (fun p : N * N => rev (bits_of (fst p) (snd p))) st = g) as Eg.
    { clear - HG HG'. revert HG'. generalize (flat_map (fun p : N * N => rev (bits_of (fst p) (snd p))) st). induction HG as [|v w H1 HG IH]; intros l Hl; inversion Hl; subst; auto; try lia.
      f_equal. auto. }
    rewrite write_all_app. unfold try_ at 1 3. rewrite omega_write_ok by auto. rewrite Eg.
    destruct (write_all snk g s) as [[[u|e] s']| |]; cbn [bind]; auto.
  - destruct (omega_loop c Hc v g HG Hv) as [n0 HL]. exists (Datatypes.S n0). intros fuel Hf S src s s' H.
    apply reads_app in H. destruct H as (s1 & Hr1 & Hr2). cbn. unfold omega_decode.
    change (loop_io fuel (omega_body c src) 1 s = Ok (IOk (Some v), s')). rewrite (HL S src fuel s s1) by (auto; lia).
    destruct (fuel - n0)%nat as [|m] eqn:Em; [lia|]. cbn [loop_io]. apply reads_inv in Hr2. destruct Hr2 as (s2 & E & H2).
    apply reads_nil_inv in H2. subst s2. unfold try_, omega_body, try_. rewrite E. reflexivity.
Qed.
Lemma omega_truncates_from c v g : wf_cfg c -> v < 2 ^ 64 -> omega_groups v g -> exists n0, forall fuel, (n0 <= fuel)%nat ->
  forall S (src : source S) s p s' o s'', (proper_prefix p g \/ p = g) -> reads src s p s' -> stops src s' o s'' ->
  loop_io fuel (omega_body c src) 1 s = Ok (stopped o p, s'').
Proof.
  intros Hc Hv HG.
  assert (Hend : forall v g, omega_groups v g -> v < 2 ^ 64 -> exists n0, forall fuel, (n0 <= fuel)%nat ->
     forall S (src : source S) s s' o s'', reads src s g s' -> stops src s' o s'' ->
     loop_io fuel (omega_body c src) 1 s = Ok (stopped o g, s'')).
  { clear - Hc. intros v g HG Hv. destruct (omega_loop c Hc v g HG Hv) as [n0 HL]. exists (Datatypes.S n0).
    intros fuel Hf S src s s' o s'' Hr [E Ho]. rewrite (HL S src fuel s s') by (auto; lia).
    destruct (fuel - n0)%nat as [|m] eqn:Em; [lia|]. cbn [loop_io]. unfold try_, omega_body, try_. rewrite E. cbn [bind].
    pose proof (omega_groups_nil v g HG) as Hn. destruct o as [[b|]|e]; [contradiction| |reflexivity].
    destruct (v =? 1) eqn:E1.
    - destruct Hn as [_ Hn]. rewrite Hn by lia. reflexivity.
    - destruct g; [destruct Hn as [Hn _]; specialize (Hn eq_refl); lia|]. reflexivity. }
  destruct (Hend v g HG Hv) as [m Hm].
  assert (Hin : exists n0, forall fuel, (n0 <= fuel)%nat ->
     forall S (src : source S) s p s' o s'', proper_prefix p g -> reads src s p s' -> stops src s' o s'' ->
     loop_io fuel (omega_body c src) 1 s = Ok (stopped o p, s'')).
  { clear m Hm. induction HG as [|v w H1 HG IH].
    - exists 0%nat. intros fuel _ S src s p s' o s'' (q & Hq & E). destruct p, q; try discriminate. congruence.
    - pose proof (log2_lt v 64 ltac:(lia) Hv) as Hk. destruct (IH ltac:(lia)) as [n1 IH']. clear IH.
      destruct (Hend _ _ HG ltac:(lia)) as [n2 H2]. destruct (omega_loop c Hc _ w HG ltac:(lia)) as [n3 H3].
      exists (Datatypes.S (n1 + n2 + n3)). intros fuel Hf S src s p s' o s'' Hp Hr Ho. apply prefix_app in Hp.
      destruct Hp as [Hp|(q & -> & Hq)]; [eapply IH'; eauto; lia|]. destruct q as [|b q].
      + rewrite app_nil_r in *. eapply H2; eauto. lia.
      + apply reads_app in Hr. destruct Hr as (s1 & Hr1 & Hr2). rewrite (H3 S src fuel s s1) by (auto; lia).
        destruct (fuel - n3)%nat as [|k] eqn:Ek; [lia|]. cbn [loop_io]. unfold try_.
        rewrite (omega_cut c Hc src (N.log2 v) v s1 (b :: q) s' o s''); auto; try lia; try discriminate. cbn [bind].
        unfold stopped. destruct o; [|reflexivity]. destruct w; reflexivity. }
  destruct Hin as [n Hn]. exists (m + n)%nat. intros fuel Hf S src s p s' o s'' [Hp|Hp] Hr Ho.
  - eapply Hn; eauto. lia.
  - subst p. eapply Hm; eauto. lia.
Qed.
Lemma omega_truncates c v w : wf_cfg c -> v < 2 ^ 64 -> omega_word v w -> truncates (omega c) w.
Proof.
  intros Hc Hv (g & HG & ->). destruct (omega_truncates_from c v g Hc Hv HG) as [n0 H]. exists n0.
  intros fuel Hf S src s p s' o s'' Hp Hr Ho. change (loop_io fuel (omega_body c src) 1 s = Ok (stopped o p, s'')).
  eapply H; eauto. apply prefix_app in Hp. destruct Hp as [Hp|(q & -> & Hq)]; [auto|]. apply prefix_1 in Hq. subst q. rewrite app_nil_r. auto.
Qed.
