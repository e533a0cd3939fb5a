(** * Proofs about integer reads and writes at signed types. *)
From Verif Require Import Machine MStorage MTraits MStream MCoding MSigned SpecBits SpecCfg SpecStream SpecSigned PBase PBits PDefaults PStream.

Lemma lengthN_zbits_of n z : lengthN (zbits_of n z) = n.
Proof. unfold zbits_of, lengthN. rewrite map_length, seq_length. lia. Qed.
Lemma zbits_of_0 z : zbits_of 0 z = []. Proof. reflexivity. Qed.
Lemma zbits_of_S n z : zbits_of (n + 1) z = Z.testbit z 0 :: zbits_of n (Z.shiftr z 1).
Proof.
  unfold zbits_of. replace (N.to_nat (n + 1)) with (Datatypes.S (N.to_nat n)) by lia. cbn [seq map]. f_equal.
  rewrite <- seq_shift, map_map. apply map_ext. intros i. rewrite Z.shiftr_spec by lia. f_equal. lia.
Qed.
Lemma zbits_of_snoc n z : zbits_of (n + 1) z = zbits_of n z ++ [Z.testbit z (Z.of_N n)].
Proof.
  unfold zbits_of. replace (N.to_nat (n + 1)) with (Datatypes.S (N.to_nat n)) by lia. rewrite seq_S, map_app. cbn [map Nat.add].
  now rewrite <- (N_nat_Z n).
Qed.
Lemma zbits_of_N n x : zbits_of n (Z.of_N x) = bits_of n x.
Proof.
  unfold zbits_of, bits_of. apply map_ext. intros i. rewrite <- nat_N_Z. apply Z.testbit_of_N.
Qed.
Lemma zbits_of_mod n m z : n <= m -> zbits_of n (z mod 2 ^ Z.of_N m) = zbits_of n z.
Proof.
  intros H. unfold zbits_of. apply map_ext_in. intros i Hi. apply in_seq in Hi. rewrite Z.mod_pow2_bits_low; [reflexivity|]. lia.
Qed.

(** ** write_int *)
Lemma zland1 z : negb (Z.land z 1 =? 0)%Z = Z.testbit z 0.
Proof. change 1%Z with (Z.ones 1). rewrite Z.land_ones by lia. change (2 ^ 1)%Z with 2%Z. rewrite Z.bit0_odd. rewrite Zmod_odd. now destruct (Z.odd z). Qed.
Lemma sshr_ok c w z : 1 < w -> sshr c w z 1 = Ok (Z.shiftr z 1).
Proof. intros H. unfold sshr. destruct (1 <? w) eqn:E; [reflexivity|lia]. Qed.
Lemma write_sint_ok {S} c (snk : sink S) w n z s : 1 < w -> write_sint c snk w n z s = write_all snk (zbits_of n z) s.
Proof.
  intros Hw. unfold write_sint. rewrite <- (N2Nat.id n) at 2. generalize (N.to_nat n). clear n. intros n.
  revert z s. induction n as [|n IH]; intros z s; [reflexivity|].
  cbn [for_io]. rewrite Nat2N.inj_succ, <- N.add_1_r, zbits_of_S. cbn [write_all]. unfold try_ at 1 2. rewrite zland1.
  destruct (write_bit snk (Z.testbit z 0) s) as [[[u|e] s']| |]; cbn [bind]; auto.
  unfold try_. unfold lift. rewrite sshr_ok by lia. cbn [bind]. unfold ret. cbn [bind]. apply IH.
Qed.

(** ** write_int_be *)
Lemma zland_pow2 z n : (0 <= n)%Z -> negb (Z.land z (2 ^ n) =? 0)%Z = Z.testbit z n.
Proof.
  intros Hn. assert (E : Z.land z (2 ^ n) = if Z.testbit z n then (2 ^ n)%Z else 0%Z).
  { apply Z.bits_inj'. intros i Hi. rewrite Z.land_spec. destruct (Z.eq_dec i n) as [->|Hne].
    - rewrite Z.pow2_bits_true, andb_true_r by lia. destruct (Z.testbit z n); [now rewrite Z.pow2_bits_true|now rewrite Z.bits_0].
    - rewrite Z.pow2_bits_false, andb_false_r by auto. destruct (Z.testbit z n); [now rewrite Z.pow2_bits_false by auto|now rewrite Z.bits_0]. }
  rewrite E. destruct (Z.testbit z n); [|reflexivity]. pose proof (Z.pow_pos_nonneg 2 n ltac:(lia) Hn). destruct (2 ^ n =? 0)%Z eqn:E1; [lia|reflexivity].
Qed.
(** The loop, with a mask that is moved down from [M n] to [M 0] *)
Lemma write_sbe_loop {S} c (snk : sink S) w (M : nat -> Z) z s n : 1 < w ->
  (forall i, (Datatypes.S i < n)%nat -> Z.shiftr (M (Datatypes.S i)) 1 = M i) ->
  for_io n (fun mask : Z => try_ (write_bit snk (negb (Z.land z mask =? 0)%Z)) (fun _ =>
      try_ (lift (sshr c w mask 1)) (fun m => ret (Continue m)))) (fun _ => ret tt)
    (M (n - 1)%nat) s = write_all snk (map (fun i => negb (Z.land z (M i) =? 0)%Z) (rev (seq 0 n))) s.
Proof.
  intros Hw. revert s. induction n as [|n IH]; intros s HM; [reflexivity|].
  rewrite seq_S, rev_app_distr. cbn [for_io rev app map write_all Nat.add]. unfold try_ at 1 2.
  replace (Datatypes.S n - 1)%nat with n by lia.
  destruct (write_bit snk (negb (Z.land z (M n) =? 0)%Z) s) as [[[u|e] s']| |]; cbn [bind]; auto.
  unfold try_. unfold lift. rewrite sshr_ok by lia. cbn [bind]. unfold ret. cbn [bind].
  destruct n as [|n].
  - reflexivity.
  - rewrite HM by lia. specialize (IH s'). replace (Datatypes.S n - 1)%nat with n in IH by lia. apply IH. intros i Hi. apply HM. lia.
Qed.
Lemma swrap_small w z : 1 <= w -> (- 2 ^ Z.of_N (w - 1) <= z < 2 ^ Z.of_N (w - 1))%Z -> swrap w z = z.
Proof. intros Hw Hz. unfold swrap. cbv zeta. rewrite Z.mod_small; lia. Qed.
Lemma write_sint_be_ok {S} c (snk : sink S) w n z s : wf_cfg c -> 1 < w -> 1 <= n -> n < w ->
  write_sint_be c snk w n z s = write_all snk (rev (zbits_of n z)) s.
Proof.
  intros Hc Hw Hn Hnw. unfold write_sint_be. rewrite (try_lift _ (n - 1)) by (now apply wsub_ok).
  rewrite (try_lift _ (2 ^ Z.of_N (n - 1))%Z).
  - pose proof (write_sbe_loop c snk w (fun i => 2 ^ Z.of_nat i)%Z z s (N.to_nat n) Hw) as E.
    cbv beta in E. replace (Z.of_nat (N.to_nat n - 1)) with (Z.of_N (n - 1)) in E by lia. rewrite E.
    + f_equal. unfold zbits_of. rewrite <- map_rev. apply map_ext. intros i. now rewrite zland_pow2 by lia.
    + intros i _. rewrite Z.shiftr_div_pow2 by lia. replace (Z.of_nat (Datatypes.S i)) with (Z.of_nat i + 1)%Z by lia.
      rewrite Z.pow_add_r, Z.div_mul by lia. reflexivity.
  - unfold sshl. destruct (n - 1 <? w) eqn:E; [|lia]. f_equal. rewrite Z.shiftl_1_l. apply swrap_small; [lia|].
    pose proof (Z.pow_pos_nonneg 2 (Z.of_N (n - 1)) ltac:(lia) ltac:(lia)).
    assert (HH : (Z.of_N (n - 1) < Z.of_N (w - 1))%Z) by lia.
    pose proof (Z.pow_lt_mono_r 2 (Z.of_N (n - 1)) (Z.of_N (w - 1)) ltac:(lia) ltac:(lia) HH). lia.
Qed.
(** At full width the mask starts at the sign bit, and the arithmetic shift keeps it. *)
Lemma zland_neg_pow2 z i : (0 <= i)%Z -> negb (Z.land z (- 2 ^ i) =? 0)%Z = (z <? 0)%Z || (2 ^ i <=? z)%Z.
Proof.
  intros Hi. assert (E : Z.land z (- 2 ^ i) = (z / 2 ^ i * 2 ^ i)%Z).
  { rewrite <- Z.shiftl_mul_pow2, <- Z.shiftr_div_pow2 by lia. apply Z.bits_inj'. intros j Hj.
    replace (- 2 ^ i)%Z with (Z.lnot (Z.ones i)) by (rewrite Z.ones_equiv; unfold Z.lnot; lia).
    rewrite Z.land_spec, Z.lnot_spec by lia. destruct (Z_lt_le_dec j i).
    - rewrite Z.ones_spec_low, Z.shiftl_spec_low by lia. apply andb_false_r.
    - rewrite Z.ones_spec_high, Z.shiftl_spec, Z.shiftr_spec by lia. rewrite andb_true_r. f_equal. lia. }
  rewrite E. pose proof (Z.pow_pos_nonneg 2 i ltac:(lia) Hi) as Hp. set (P := (2 ^ i)%Z) in *. clearbody P.
  pose proof (Z.div_mod z P ltac:(lia)) as Hd. pose proof (Z.mod_pos_bound z P Hp) as Hm. set (q := (z / P)%Z) in *.
  destruct (q * P =? 0)%Z eqn:E0.
  - assert (q = 0)%Z by nia. symmetry. cbn [negb]. apply orb_false_iff. split; [apply Z.ltb_ge|apply Z.leb_gt]; nia.
  - symmetry. cbn [negb]. apply orb_true_iff. destruct (Z_lt_le_dec z 0); [left; now apply Z.ltb_lt|right; apply Z.leb_le].
    apply Z.eqb_neq in E0. assert (0 <= q)%Z by (apply Z.div_pos; lia). assert (q <> 0)%Z by (intros ->; lia). nia.
Qed.
Lemma write_sint_be_full {S} c (snk : sink S) w z s : wf_cfg c -> 1 < w -> w < 2 ^ 32 ->
  write_sint_be c snk w w z s =
  write_all snk (rev (map (fun i => (z <? 0)%Z || (2 ^ Z.of_nat i <=? z)%Z) (seq 0 (N.to_nat w)))) s.
Proof.
  intros Hc Hw Hw32. unfold write_sint_be. rewrite (try_lift _ (w - 1)) by (apply wsub_ok; lia).
  rewrite (try_lift _ (- 2 ^ Z.of_N (w - 1))%Z).
  - pose proof (write_sbe_loop c snk w (fun i => - 2 ^ Z.of_nat i)%Z z s (N.to_nat w) Hw) as E.
    cbv beta in E. replace (Z.of_nat (N.to_nat w - 1)) with (Z.of_N (w - 1)) in E by lia. rewrite E.
    + f_equal. rewrite <- map_rev. apply map_ext. intros i. now rewrite zland_neg_pow2 by lia.
    + intros i _. rewrite Z.shiftr_div_pow2 by lia. replace (Z.of_nat (Datatypes.S i)) with (Z.of_nat i + 1)%Z by lia.
      rewrite Z.pow_add_r by lia. rewrite <- Z.mul_opp_l, Z.div_mul by lia. reflexivity.
  - unfold sshl. destruct (w - 1 <? w) eqn:E; [|lia]. f_equal. rewrite Z.shiftl_1_l. unfold swrap. cbv zeta.
    set (h := (2 ^ Z.of_N (w - 1))%Z). replace (h + h)%Z with (1 * (2 * h))%Z by lia.
    rewrite Z_mod_mult. lia.
Qed.

(** ** Reading: the same as at the unsigned type, with the result reinterpreted. *)
Definition sgn (w x : N) : Z := swrap w (Z.of_N x).

Lemma mod_as_N z w : exists x, x < 2 ^ w /\ (z mod 2 ^ Z.of_N w)%Z = Z.of_N x.
Proof.
  pose proof (Z.pow_pos_nonneg 2 (Z.of_N w) ltac:(lia) ltac:(lia)) as Hp. pose proof (Z.mod_pos_bound z (2 ^ Z.of_N w) Hp).
  exists (Z.to_N (z mod 2 ^ Z.of_N w)). rewrite Z2N.id by lia. split; [|reflexivity].
  apply N2Z.inj_lt. rewrite Z2N.id by lia. rewrite N2Z.inj_pow. lia.
Qed.
Lemma two_h w : 1 <= w -> (2 * 2 ^ Z.of_N (w - 1) = 2 ^ Z.of_N w)%Z.
Proof. intros H. rewrite <- Z.pow_succ_r by lia. f_equal. lia. Qed.
(** bits of a wrapped value: those of the pattern, the sign bit repeated *)
Lemma swrap_testbit w z i : 1 <= w -> (0 <= i)%Z ->
  Z.testbit (swrap w z) i = Z.testbit z (Z.min i (Z.of_N w - 1)).
Proof.
  intros Hw Hi. unfold swrap. cbv zeta. rewrite (two_h w Hw).
  pose proof (two_h w Hw) as E2. set (h := (2 ^ Z.of_N (w - 1))%Z) in *. set (P := (2 ^ Z.of_N w)%Z) in *.
  assert (Hh : (0 < h)%Z) by (apply Z.pow_pos_nonneg; lia).
  pose proof (Z.div_mod z P ltac:(lia)) as Hd. pose proof (Z.mod_pos_bound z P ltac:(lia)) as Hm.
  assert (Hlow : forall j, (0 <= j < Z.of_N w)%Z -> Z.testbit (z mod P) j = Z.testbit z j) by (intros j Hj; apply Z.mod_pow2_bits_low; lia).
  assert (Hsgn : Z.testbit z (Z.of_N w - 1) = (h <=? z mod P)%Z).
  { rewrite <- Hlow by lia. rewrite Z.testbit_odd, Z.shiftr_div_pow2 by lia. replace (Z.of_N w - 1)%Z with (Z.of_N (w - 1)) by lia. fold h.
    destruct (h <=? z mod P)%Z eqn:E.
    - apply Z.leb_le in E. replace (z mod P / h)%Z with 1%Z; [reflexivity|]. apply Z.div_unique with (z mod P - h)%Z; lia.
    - apply Z.leb_gt in E. rewrite Z.div_small by lia. reflexivity. }
  assert (Ew : ((z + h) mod P - h = z mod P - (if (h <=? z mod P)%Z then P else 0))%Z).
  { destruct (h <=? z mod P)%Z eqn:E.
    - apply Z.leb_le in E. replace ((z + h) mod P)%Z with (z mod P - h)%Z; [lia|].
      apply Z.mod_unique with (z / P + 1)%Z; [left; lia|]. lia.
    - apply Z.leb_gt in E. replace ((z + h) mod P)%Z with (z mod P + h)%Z; [lia|].
      apply Z.mod_unique with (z / P)%Z; [left; lia|]. lia. }
  rewrite Ew. destruct (Z_lt_le_dec i (Z.of_N w)) as [L|L].
  - rewrite Z.min_l by lia. rewrite <- (Hlow i) by lia. unfold P at 2. fold P. destruct (h <=? z mod P)%Z; [|now rewrite Z.sub_0_r].
    rewrite <- (Z.mod_pow2_bits_low (z mod P - P) (Z.of_N w) i) by lia. fold P.
    f_equal. rewrite <- (Z.mod_add (z mod P - P) 1 P) by lia. replace (z mod P - P + 1 * P)%Z with (z mod P)%Z by lia. apply Z.mod_mod. lia.
  - rewrite Z.min_r by lia. rewrite Hsgn. destruct (h <=? z mod P)%Z eqn:E.
    + rewrite Z.testbit_odd, Z.shiftr_div_pow2 by lia.
      assert (P <= 2 ^ i)%Z by (apply Z.pow_le_mono_r; lia).
      replace ((z mod P - P) / 2 ^ i)%Z with (-1)%Z; [reflexivity|].
      apply Z.div_unique with (z mod P - P + 2 ^ i)%Z; [left; apply Z.leb_le in E; lia|lia].
    + rewrite Z.sub_0_r. apply Z.mod_pow2_bits_high. lia.
Qed.

Lemma sgn_testbit w x i : 1 <= w -> (0 <= i)%Z -> Z.testbit (sgn w x) i = Z.testbit (Z.of_N x) (Z.min i (Z.of_N w - 1)).
Proof. intros Hw Hi. unfold sgn. now apply swrap_testbit. Qed.
Lemma sgn_lor w x y : 1 <= w -> sgn w (N.lor x y) = Z.lor (sgn w x) (sgn w y).
Proof.
  intros Hw. apply Z.bits_inj'. intros i Hi. rewrite Z.lor_spec, !sgn_testbit, !Z.testbit_of_N', N.lor_spec by lia. reflexivity.
Qed.
Lemma sgn_mod w x : 1 <= w -> sgn w (x mod 2 ^ w) = sgn w x.
Proof.
  intros Hw. apply Z.bits_inj'. intros i Hi. rewrite !sgn_testbit, N2Z.inj_mod, N2Z.inj_pow by lia.
  apply Z.mod_pow2_bits_low. lia.
Qed.
Lemma sgn_shl w x : 1 < w -> sgn w (N.shiftl x 1 mod 2 ^ w) = swrap w (Z.shiftl (sgn w x) 1).
Proof.
  intros Hw. rewrite sgn_mod by lia. apply Z.bits_inj'. intros i Hi. rewrite sgn_testbit, swrap_testbit by lia.
  rewrite N.shiftl_mul_pow2, N2Z.inj_mul, N2Z.inj_pow. change (Z.of_N 1) with 1%Z. rewrite <- Z.shiftl_mul_pow2 by lia.
  rewrite !Z.shiftl_spec by lia. set (j := Z.min i (Z.of_N w - 1)). destruct (Z_lt_le_dec (j - 1) 0).
  - now rewrite !Z.testbit_neg_r by lia.
  - rewrite sgn_testbit by lia. f_equal. subst j. lia.
Qed.
Lemma sgn_0 w : 1 <= w -> sgn w 0 = 0%Z.
Proof.
  intros Hw. apply Z.bits_inj'. intros i Hi. rewrite sgn_testbit by lia. now rewrite !Z.bits_0.
Qed.
Lemma sgn_1 w : 1 < w -> sgn w 1 = 1%Z.
Proof.
  intros Hw. apply swrap_small; [lia|]. change (Z.of_N 1) with (2 ^ 0)%Z.
  pose proof (Z.pow_lt_mono_r 2 0 (Z.of_N (w - 1)) ltac:(lia) ltac:(lia)) as H. 
  assert (HH : (0 < Z.of_N (w - 1))%Z) by lia. specialize (H HH). lia.
Qed.

(** The answers of the unsigned read, reinterpreted. *)
Definition reinterpret {S} (w : N) (r : res (ioR (option N) * S)) : res (ioR (option Z) * S) :=
  match r with
  | Ok (IOk (Some x), s) => Ok (IOk (Some (sgn w x)), s)
  | Ok (IOk None, s) => Ok (IOk None, s)
  | Ok (IErr e, s) => Ok (IErr e, s)
  | Panic k => Panic k
  | OutOfFuel => OutOfFuel
  end.
Definition rmap {S A B} (f : A -> B) (r : res (ioR A * S)) : res (ioR B * S) :=
  match r with
  | Ok (IOk a, s) => Ok (IOk (f a), s)
  | Ok (IErr e, s) => Ok (IErr e, s)
  | Panic k => Panic k
  | OutOfFuel => OutOfFuel
  end.
Definition fmap {L L' R R'} (f : L -> L') (g : R -> R') (x : flow L R) : flow L' R' :=
  match x with Continue l => Continue (f l) | Return r => Return (g r) end.
Lemma for_io_sim {S L L' R R'} (f : L -> L') (g : R -> R') (body : L -> io S (flow L R)) (body' : L' -> io S (flow L' R'))
    (done : L -> io S R) (done' : L' -> io S R') n l s :
  (forall l s, body' (f l) s = rmap (fmap f g) (body l s)) -> (forall l s, done' (f l) s = rmap g (done l s)) ->
  for_io n body' done' (f l) s = rmap g (for_io n body done l s).
Proof.
  intros Hb Hd. revert l s. induction n as [|n IH]; intros l s; cbn [for_io]; [apply Hd|].
  unfold try_. rewrite Hb. destruct (body l s) as [[[x|e] s']| |]; cbn [bind rmap]; auto.
  destruct x as [l'|r]; cbn [fmap]; [apply IH|reflexivity].
Qed.
Lemma reinterpret_rmap {S} w (r : res (ioR (option N) * S)) : reinterpret w r = rmap (option_map (sgn w)) r.
Proof. destruct r as [[[[x|]|e] s]| |]; reflexivity. Qed.
Section Sim.
  Context {S : Type} (c : cfg) (src : source S) (w : N).
  Hypothesis Hw : 1 < w.
  Lemma sshl_sim x : sshl c w (sgn w x) 1 = Ok (sgn w (N.shiftl x 1 mod 2 ^ w)).
  Proof. unfold sshl. destruct (1 <? w) eqn:E; [|lia]. now rewrite sgn_shl. Qed.
  Lemma read_sint_sim n s : read_sint c src w n s = reinterpret w (read_int c src w n s).
  Proof.
    rewrite reinterpret_rmap. unfold read_sint, read_int.
    rewrite <- (for_io_sim (fun st : N * N * bool => let '(r, m, b) := st in (sgn w r, sgn w m, b)) (option_map (sgn w))
      _ (fun st : Z * Z * bool => let '(result, mask, consumed) := st in
      try_ (read_bit src) (fun ob => match ob with
      | Some bit => try_ (lift (sshl c w mask 1)) (fun mask' => 
          ret (Continue (if bit then Z.lor result mask else result, mask', true)))
      | None => if consumed then fail UnexpectedEof else ret (Return None)
      end)) _ (fun st => ret (Some (fst (fst st))))).
    - now rewrite sgn_0, sgn_1 by lia.
    - intros [[r m] b] s0. unfold try_, lift. cbv beta. destruct (read_bit src s0) as [[[[bit|]|e] s']| |]; cbn [bind rmap]; auto.
      + rewrite sshl_sim, wshl_ok by lia. cbn [bind]. unfold ret. cbn [rmap fmap].
        destruct bit; [now rewrite sgn_lor by lia|reflexivity].
      + destruct b; reflexivity.
    - intros [[r m] b] s0. reflexivity.
  Qed.
  Lemma read_sint_be_sim n s : read_sint_be c src w n s = reinterpret w (read_int_be c src w n s).
  Proof.
    rewrite reinterpret_rmap. unfold read_sint_be, read_int_be.
    rewrite <- (for_io_sim (fun st : N * bool => let '(r, b) := st in (sgn w r, b)) (option_map (sgn w))
      _ (fun st : Z * bool => let '(result, consumed) := st in
      try_ (read_bit src) (fun ob => match ob with
      | Some bit => try_ (lift (sshl c w result 1)) (fun r => 
          ret (Continue (if bit then Z.lor r 1 else r, true)))
      | None => if consumed then fail UnexpectedEof else ret (Return None)
      end)) _ (fun st => ret (Some (fst st)))).
    - now rewrite sgn_0 by lia.
    - intros [r b] s0. unfold try_, lift. cbv beta. destruct (read_bit src s0) as [[[[bit|]|e] s']| |]; cbn [bind rmap]; auto.
      + rewrite sshl_sim, wshl_ok by lia. cbn [bind]. unfold ret. cbn [rmap fmap].
        destruct bit; [now rewrite sgn_lor, sgn_1 by lia|reflexivity].
      + destruct b; reflexivity.
    - intros [r b] s0. reflexivity.
  Qed.
End Sim.

(** The bits of a signed value, read back. *)
Lemma zbits_nbits n z : exists x, x < 2 ^ n /\ (z mod 2 ^ Z.of_N n)%Z = Z.of_N x /\ zbits_of n z = bits_of n x.
Proof.
  destruct (mod_as_N z n) as (x & Hx & E). exists x. split; [exact Hx|]. split; [exact E|].
  rewrite <- zbits_of_N, <- E. symmetry. apply zbits_of_mod. lia.
Qed.
Lemma sgn_zbits w n z : 1 < w -> (- 2 ^ Z.of_N (w - 1) <= z < 2 ^ Z.of_N (w - 1))%Z ->
  sgn w (int_of (zbits_of n z) mod 2 ^ w) = if n <? w then (z mod 2 ^ Z.of_N n)%Z else z.
Proof.
  intros Hw Hz. rewrite sgn_mod by lia. destruct (zbits_nbits n z) as (x & Hx & E & ->).
  rewrite int_of_bits_of, N.mod_small by assumption. unfold sgn. rewrite <- E. destruct (n <? w) eqn:En.
  - apply N.ltb_lt in En. apply swrap_small; [lia|].
    pose proof (Z.pow_pos_nonneg 2 (Z.of_N n) ltac:(lia) ltac:(lia)). pose proof (Z.mod_pos_bound z (2 ^ Z.of_N n) ltac:(lia)).
    assert (HH : (Z.of_N n <= Z.of_N (w - 1))%Z) by lia. pose proof (Z.pow_le_mono_r 2 _ _ ltac:(lia) HH). lia.
  - apply N.ltb_ge in En. etransitivity; [|apply (swrap_small w z); [lia|exact Hz]].
    apply Z.bits_inj'. intros i Hi. rewrite !swrap_testbit by lia. apply Z.mod_pow2_bits_low. lia.
Qed.
