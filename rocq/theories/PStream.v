(** * Proofs about integer reads and writes on bit streams. *)
From Verif Require Import Machine MStorage MTraits MStream MCoding SpecBits SpecCfg SpecStream PBase PBits PDefaults.

Lemma reads_app {S} (src : source S) s w w' s' : reads src s (w ++ w') s' <->
  exists s1, reads src s w s1 /\ reads src s1 w' s'.
Proof.
  revert s. induction w as [|b w IH]; intros s; cbn [app].
  - split; [intros H; exists s; split; [constructor|exact H]|]. intros (s1 & H1 & H2). inversion H1; subst. exact H2.
  - split.
    + intros H. inversion H as [|? ? s1 ? ? E H']; subst. apply IH in H'. destruct H' as (s2 & H1 & H2). exists s2.
      split; [econstructor; eauto|exact H2].
    + intros (s1 & H1 & H2). inversion H1 as [|? ? s2 ? ? E H']; subst. econstructor; [exact E|]. apply IH. eauto.
Qed.
Lemma reads_inv {S} (src : source S) s b w s' : reads src s (b :: w) s' ->
  exists s1, read_bit src s = Ok (IOk (Some b), s1) /\ reads src s1 w s'.
Proof. intros H. inversion H; subst; eauto. Qed.
Lemma reads_nil_inv {S} (src : source S) s s' : reads src s [] s' -> s' = s.
Proof. intros H. now inversion H. Qed.
Lemma reads_det {S} (src : source S) s w s1 s2 : reads src s w s1 -> reads src s w s2 -> s1 = s2.
Proof.
  intros H1. revert s2. induction H1 as [|s b s1' w s' E H IH]; intros s2 H2; inversion H2; subst; auto.
  apply IH. congruence.
Qed.
Lemma reads_deque w r : reads deque_source (w ++ r) w r.
Proof. induction w as [|b w IH]; [constructor|]. cbn [app]. econstructor; [reflexivity|exact IH]. Qed.
Lemma stops_deque : stops deque_source [] (IOk None) [].
Proof. split; [reflexivity|exact I]. Qed.

Lemma write_all_app {S} (snk : sink S) w w' s : write_all snk (w ++ w') s =
  try_ (write_all snk w) (fun _ => write_all snk w') s.
Proof.
  unfold try_. revert s. induction w as [|b w IH]; intros s; cbn [app write_all bind]; [reflexivity|].
  destruct (write_bit snk b s) as [[[u|e] s']| |]; cbn [bind]; auto.
Qed.
Lemma write_all_deque w l : write_all deque_sink w l = Ok (IOk tt, l ++ w).
Proof.
  revert l. induction w as [|b w IH]; intros l; cbn [write_all]; [now rewrite app_nil_r|].
  cbn. rewrite IH. now rewrite <- app_assoc.
Qed.
Lemma write_all_1 {S} (snk : sink S) b s : write_all snk [b] s = write_bit snk b s.
Proof. cbn. destruct (write_bit snk b s) as [[[[]|e] s']| |]; reflexivity. Qed.

(** Laws of [try_]. *)
Lemma try_ext {S A B} (m : io S A) (f g : A -> io S B) s : (forall a s', f a s' = g a s') -> try_ m f s = try_ m g s.
Proof. intros H. unfold try_. destruct (m s) as [[[a|e] s']| |]; cbn [bind]; auto. Qed.
Lemma try_assoc {S A B D} (m : io S A) (f : A -> io S B) (g : B -> io S D) s :
  try_ (try_ m f) g s = try_ m (fun a => try_ (f a) g) s.
Proof. unfold try_. destruct (m s) as [[[a|e] s']| |]; cbn [bind]; auto. Qed.
Lemma try_ret {S A B} (a : A) (f : A -> io S B) s : try_ (ret a) f s = f a s.
Proof. reflexivity. Qed.
Lemma try_lift {S A B} (m : res A) a (f : A -> io S B) s : m = Ok a -> try_ (lift m) f s = f a s.
Proof. intros ->. reflexivity. Qed.
Lemma try_lift_panic {S A B} (m : res A) (f : A -> io S B) s : panics m -> panics (try_ (lift m) f s).
Proof. intros [p ->]. exists p. reflexivity. Qed.
Lemma try_ok {S A B} (m : io S A) (f : A -> io S B) s a s' : m s = Ok (IOk a, s') -> try_ m f s = f a s'.
Proof. intros E. unfold try_. rewrite E. reflexivity. Qed.
Lemma try_err {S A B} (m : io S A) (f : A -> io S B) s e s' : m s = Ok (IErr e, s') -> try_ m f s = Ok (IErr e, s').
Proof. intros E. unfold try_. rewrite E. reflexivity. Qed.

(** ** write_int *)
Lemma bits_of_0 x : bits_of 0 x = []. Proof. reflexivity. Qed.
Lemma bits_of_S n x : bits_of (n + 1) x = N.testbit x 0 :: bits_of n (N.shiftr x 1).
Proof.
  apply nthN_ext. intros i. rewrite nthN_bits_of, nthN_cons, nthN_bits_of. destruct (i =? 0) eqn:E.
  - assert (i = 0) as -> by lia. destruct (0 <? n + 1) eqn:E1; [reflexivity|lia].
  - rewrite N.shiftr_spec by lia. replace (i - 1 + 1) with i by lia.
    destruct (i <? n + 1) eqn:E1, (i - 1 <? n) eqn:E2; try lia; reflexivity.
Qed.
Lemma write_int_ok {S} c (snk : sink S) w n v s : 1 < w -> write_int c snk w n v s = write_all snk (bits_of n v) s.
Proof.
  intros Hw. unfold write_int. rewrite <- (N2Nat.id n) at 2. generalize (N.to_nat n). clear n. intros n.
  revert v s. induction n as [|n IH]; intros v s; [reflexivity|].
  cbn [for_io]. rewrite Nat2N.inj_succ, <- N.add_1_r, bits_of_S. cbn [write_all]. unfold try_ at 1 2. rewrite low_bit.
  destruct (write_bit snk (N.testbit v 0) s) as [[[u|e] s']| |]; cbn [bind]; auto.
  unfold try_. unfold lift. rewrite wshr_ok by lia. cbn [bind]. unfold ret. cbn [bind]. apply IH.
Qed.

(** ** write_int_be *)
Lemma bits_of_snoc_rev n x : rev (bits_of (n + 1) x) = N.testbit x n :: rev (bits_of n x).
Proof. rewrite bits_of_snoc, rev_app_distr. reflexivity. Qed.
Lemma land_pow2 v n : negb (N.land v (2 ^ n) =? 0) = N.testbit v n.
Proof.
  assert (E : N.land v (2 ^ n) = if N.testbit v n then 2 ^ n else 0).
  { apply N.bits_inj. intros i. rewrite N.land_spec. destruct (N.eq_dec i n) as [->|Hne].
    - rewrite N.pow2_bits_true, andb_true_r. destruct (N.testbit v n); [now rewrite N.pow2_bits_true|now rewrite N.bits_0].
    - rewrite N.pow2_bits_false, andb_false_r by auto. destruct (N.testbit v n); [now rewrite N.pow2_bits_false by auto|now rewrite N.bits_0]. }
  rewrite E. destruct (N.testbit v n); [|reflexivity]. pose proof (pow2_pos n). destruct (2 ^ n =? 0) eqn:E1; [lia|reflexivity].
Qed.
Lemma write_be_loop {S} c (snk : sink S) w n v s : 1 < w ->
  for_io n (fun mask : N => try_ (write_bit snk (negb (N.land v mask =? 0))) (fun _ =>
      try_ (lift (wshr c w mask 1)) (fun m => ret (Continue m)))) (fun _ => ret tt)
    (if Nat.eqb n 0 then 0 else 2 ^ (N.of_nat n - 1)) s = write_all snk (rev (bits_of (N.of_nat n) v)) s.
Proof.
  intros Hw. revert s. induction n as [|n IH]; intros s; [reflexivity|].
  cbn [for_io Nat.eqb]. rewrite Nat2N.inj_succ, <- N.add_1_r, bits_of_snoc_rev. cbn [write_all]. unfold try_ at 1 2.
  replace (N.of_nat n + 1 - 1) with (N.of_nat n) by lia. rewrite land_pow2.
  destruct (write_bit snk (N.testbit v (N.of_nat n)) s) as [[[u|e] s']| |]; cbn [bind]; auto.
  unfold try_. unfold lift. rewrite wshr_ok by lia. cbn [bind]. unfold ret. cbn [bind].
  replace (N.shiftr (2 ^ N.of_nat n) 1) with (if Nat.eqb n 0 then 0 else 2 ^ (N.of_nat n - 1)); [apply IH|].
  destruct n as [|n]; [reflexivity|]. cbn [Nat.eqb]. rewrite N.shiftr_div_pow2.
  replace (N.of_nat (Datatypes.S n)) with (N.of_nat (Datatypes.S n) - 1 + 1) at 2 by lia. rewrite N.pow_add_r, N.div_mul by lia. reflexivity.
Qed.
Lemma write_int_be_ok {S} c (snk : sink S) w n v s : wf_cfg c -> 1 < w -> 1 <= n -> n <= w -> write_int_be c snk w n v s = write_all snk (rev (bits_of n v)) s.
Proof.
  intros Hc Hw Hn Hnw. unfold write_int_be. rewrite (try_lift _ (n - 1)) by (now apply wsub_ok).
  rewrite (try_lift _ (2 ^ (n - 1))).
  - pose proof (write_be_loop c snk w (N.to_nat n) v s Hw) as E. rewrite N2Nat.id in E. rewrite <- E.
    destruct (Nat.eqb (N.to_nat n) 0) eqn:E0; [apply Nat.eqb_eq in E0; lia|]. reflexivity.
  - rewrite wshl_ok by lia. f_equal. rewrite N.shiftl_1_l. apply N.mod_small. apply N.pow_lt_mono_r; lia.
Qed.

(** ** read_int *)
Section Reading.
  Context {S : Type} (c : cfg) (src : source S) (w : N).
  Hypothesis Hw : 1 < w.

  Notation rd_body := (fun st : N * N * bool =>
      let '(result, mask, consumed) := st in
      try_ (read_bit src) (fun ob : option bool =>
      match ob with
      | Some bit =>
          try_ (lift (wshl c w mask 1)) (fun mask' =>
          ret (Continue (if bit then N.lor result mask else result, mask', true)))
      | None => if consumed then fail UnexpectedEof else ret (Return None)
      end)).
  Notation rd_done := (fun st : N * N * bool => ret (Some (fst (fst st)))).

  Lemma mask_shift m : wshl c w (2 ^ m mod 2 ^ w) 1 = Ok (2 ^ (m + 1) mod 2 ^ w).
  Proof.
    rewrite wshl_ok by lia. f_equal. rewrite N.shiftl_mul_pow2. rewrite N.mul_mod_idemp_l by (pose proof (pow2_pos w); lia).
    rewrite <- N.pow_add_r. reflexivity.
  Qed.
  Lemma or_mask l b : (if b : bool then N.lor (int_of l mod 2 ^ w) (2 ^ lengthN l mod 2 ^ w) else int_of l mod 2 ^ w) = int_of (l ++ [b]) mod 2 ^ w.
  Proof.
    apply N.bits_inj. intros i.
    assert (E : forall x, N.testbit (x mod 2 ^ w) i = (i <? w) && N.testbit x i).
    { intros x. destruct (i <? w) eqn:E; [rewrite N.mod_pow2_bits_low by lia|rewrite N.mod_pow2_bits_high by lia]; reflexivity. }
    rewrite E, testbit_int_of, bit_at_app.
    destruct b; [rewrite N.lor_spec|]; rewrite !E, testbit_int_of; destruct (i <? w) eqn:E1; cbn [andb orb]; try reflexivity.
    - rewrite N.pow2_bits_eqb. destruct (i <? lengthN l) eqn:E2.
      + destruct (lengthN l =? i) eqn:E3; [lia|]. apply orb_false_r.
      + rewrite bit_at_oob by lia. cbn [orb]. destruct (lengthN l =? i) eqn:E3.
        * replace (i - lengthN l) with 0 by lia. reflexivity.
        * rewrite bit_at_oob; [reflexivity|]. rewrite lengthN_cons, lengthN_nil. lia.
    - destruct (i <? lengthN l) eqn:E2; [reflexivity|]. rewrite bit_at_oob by lia. destruct (N.eq_dec (i - lengthN l) 0) as [->|Hne]; [reflexivity|].
      rewrite bit_at_oob; [reflexivity|]. rewrite lengthN_cons, lengthN_nil. lia.
  Qed.
  Lemma read_loop q : forall l s s', reads src s q s' -> forall n, (length q <= n)%nat ->
    for_io n rd_body rd_done (int_of l mod 2 ^ w, 2 ^ lengthN l mod 2 ^ w, negb (lengthN l =? 0)) s =
    for_io (n - length q) rd_body rd_done
      (int_of (l ++ q) mod 2 ^ w, 2 ^ lengthN (l ++ q) mod 2 ^ w, negb (lengthN (l ++ q) =? 0)) s'.
  Proof.
    induction q as [|b q IH]; intros l s s' H n Hn.
    - apply reads_nil_inv in H. subst s'. rewrite app_nil_r. cbn [length]. now rewrite Nat.sub_0_r.
    - apply reads_inv in H. destruct H as (s1 & E & H). destruct n as [|n]; [cbn [length] in Hn; lia|].
      cbn [for_io length Nat.sub]. rewrite (try_ok _ _ s (Continue (int_of (l ++ [b]) mod 2 ^ w, 2 ^ lengthN (l ++ [b]) mod 2 ^ w, negb (lengthN (l ++ [b]) =? 0))) s1).
      + rewrite (IH (l ++ [b]) s1 s' H) by (cbn [length] in Hn; lia). now rewrite <- app_assoc.
      + rewrite (try_ok _ _ _ _ _ E). rewrite (try_lift _ (2 ^ (lengthN l + 1) mod 2 ^ w)) by apply mask_shift.
        unfold ret. rewrite or_mask, lengthN_app, lengthN_cons, lengthN_nil. rewrite N.add_0_l.
        destruct (lengthN l + 1 =? 0) eqn:E1; [lia|]. reflexivity.
  Qed.
  Lemma read_int_ok n q s s' : lengthN q = n -> reads src s q s' -> read_int c src w n s = Ok (IOk (Some (int_of q mod 2 ^ w)), s').
  Proof.
    intros Hq H. unfold read_int. pose proof (read_loop q [] s s' H (N.to_nat n) ltac:(unfold lengthN in Hq; lia)) as E.
    cbn [int_of app] in E. change (2 ^ lengthN []) with 1 in E. change (negb (lengthN [] =? 0)) with false in E.
    rewrite N.mod_0_l in E by (pose proof (pow2_pos w); lia).
    rewrite (N.mod_small 1) in E by (change 1 with (2 ^ 0); apply N.pow_lt_mono_r; lia). rewrite E.
    replace (N.to_nat n - length q)%nat with 0%nat by (unfold lengthN in Hq; lia). reflexivity.
  Qed.
  Lemma read_int_stop n q s s' o s'' : lengthN q < n -> reads src s q s' -> stops src s' o s'' ->
    read_int c src w n s = Ok (stopped o q, s'').
  Proof.
    intros Hq H [E Ho]. unfold read_int. pose proof (read_loop q [] s s' H (N.to_nat n) ltac:(unfold lengthN in Hq; lia)) as E'.
    cbn [int_of app] in E'. change (2 ^ lengthN []) with 1 in E'. change (negb (lengthN [] =? 0)) with false in E'.
    rewrite N.mod_0_l in E' by (pose proof (pow2_pos w); lia).
    rewrite (N.mod_small 1) in E' by (change 1 with (2 ^ 0); apply N.pow_lt_mono_r; lia). rewrite E'.
    destruct (N.to_nat n - length q)%nat as [|m] eqn:En; [unfold lengthN in Hq; lia|]. cbn [for_io].
    unfold try_ at 1 2. rewrite E. cbn [bind]. destruct o as [[b|]|e]; [contradiction| |reflexivity].
    unfold stopped. destruct q; reflexivity.
  Qed.

  (** ** read_int_be *)
  Notation be_body := (fun st : N * bool =>
      let '(result, consumed) := st in
      try_ (read_bit src) (fun ob : option bool =>
      match ob with
      | Some bit =>
          try_ (lift (wshl c w result 1)) (fun r =>
          ret (Continue (if bit then N.lor r 1 else r, true)))
      | None => if consumed then fail UnexpectedEof else ret (Return None)
      end)).
  Notation be_done := (fun st : N * bool => ret (Some (fst st))).
  Lemma be_step l b : (x <- wshl c w (int_of l mod 2 ^ w) 1 ;; Ok (if b : bool then N.lor x 1 else x)) = Ok (int_of (b :: l) mod 2 ^ w).
  Proof.
    rewrite wshl_ok by lia. cbn [bind int_of]. f_equal. rewrite N.shiftl_mul_pow2, N.mul_mod_idemp_l by (pose proof (pow2_pos w); lia).
    change (2 ^ 1) with 2. assert (E2 : 2 ^ w = 2 * 2 ^ (w - 1)).
    { replace w with (1 + (w - 1)) at 1 by lia. rewrite N.pow_add_r. reflexivity. }
    pose proof (pow2_pos (w - 1)). rewrite (N.mul_comm (int_of l) 2), E2. rewrite N.mul_mod_distr_l by lia.
    set (y := int_of l mod 2 ^ (w - 1)). assert (Hy : y < 2 ^ (w - 1)) by (apply N.mod_lt; lia).
    assert (Ei : (2 * int_of l) mod (2 * 2 ^ (w - 1)) = 2 * y) by (now rewrite N.mul_mod_distr_l by lia).
    destruct b.
    - replace (N.lor (2 * y) 1) with (2 * y + 1).
      + symmetry. rewrite N.add_comm. 
        pose proof (N.div_mod (int_of l) (2 ^ (w - 1)) ltac:(lia)) as Hd. fold y in Hd.
        symmetry. apply (N.mod_unique _ _ (int_of l / 2 ^ (w - 1))); [lia|]. set (q := int_of l / 2 ^ (w - 1)) in *. set (P := 2 ^ (w - 1)) in *. clearbody q P y. nia.
      + clear. destruct y; reflexivity.
    - rewrite N.add_0_l. now rewrite Ei.
  Qed.
  Lemma be_loop q : forall l s s' (b0 : bool), b0 = negb (lengthN l =? 0) -> reads src s q s' -> forall n, (length q <= n)%nat ->
    for_io n be_body be_done (int_of l mod 2 ^ w, b0) s =
    for_io (n - length q) be_body be_done (int_of (rev q ++ l) mod 2 ^ w, negb (lengthN (rev q ++ l) =? 0)) s'.
  Proof.
    induction q as [|b q IH]; intros l s s' b0 Hb0 H n Hn.
    - apply reads_nil_inv in H. subst s'. cbn [length rev app]. rewrite Nat.sub_0_r. now subst b0.
    - apply reads_inv in H. destruct H as (s1 & E & H). destruct n as [|n]; [cbn [length] in Hn; lia|].
      cbn [for_io length Nat.sub rev]. rewrite (try_ok _ _ s (Continue (int_of (b :: l) mod 2 ^ w, true)) s1).
      + rewrite (IH (b :: l) s1 s' true) with (n := n); auto.
        * rewrite <- app_assoc. reflexivity.
        * cbn [length] in Hn. lia.
      + rewrite (try_ok _ _ _ _ _ E). pose proof (be_step l b) as Eb. unfold try_, lift.
        destruct (wshl c w (int_of l mod 2 ^ w) 1) as [x| |]; try discriminate. cbn [bind] in *. injection Eb as Eb.
        unfold ret. rewrite Eb. reflexivity.
  Qed.
  Lemma read_int_be_ok n q s s' : lengthN q = n -> reads src s q s' -> read_int_be c src w n s = Ok (IOk (Some (int_of (rev q) mod 2 ^ w)), s').
  Proof.
    intros Hq H. unfold read_int_be. pose proof (be_loop q [] s s' false eq_refl H (N.to_nat n) ltac:(unfold lengthN in Hq; lia)) as E.
    cbn [int_of] in E. rewrite N.mod_0_l in E by (pose proof (pow2_pos w); lia). rewrite E.
    replace (N.to_nat n - length q)%nat with 0%nat by (unfold lengthN in Hq; lia). rewrite app_nil_r. reflexivity.
  Qed.
  Lemma read_int_be_stop n q s s' o s'' : lengthN q < n -> reads src s q s' -> stops src s' o s'' ->
    read_int_be c src w n s = Ok (stopped o q, s'').
  Proof.
    intros Hq H [E Ho]. unfold read_int_be. pose proof (be_loop q [] s s' false eq_refl H (N.to_nat n) ltac:(unfold lengthN in Hq; lia)) as E'.
    cbn [int_of] in E'. rewrite N.mod_0_l in E' by (pose proof (pow2_pos w); lia). rewrite E'.
    destruct (N.to_nat n - length q)%nat as [|m] eqn:En; [unfold lengthN in Hq; lia|]. cbn [for_io].
    unfold try_ at 1 2. rewrite E. cbn [bind]. destruct o as [[b|]|e]; [contradiction| |reflexivity].
    unfold stopped. rewrite app_nil_r, lengthN_rev. destruct q as [|b q]; [reflexivity|].
    rewrite lengthN_cons. destruct (lengthN q + 1 =? 0) eqn:E1; [lia|reflexivity].
  Qed.
End Reading.
