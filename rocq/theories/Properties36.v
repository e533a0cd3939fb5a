(** * C89: the integers of bit streams at every width: no bits, more bits than the type has, and all in between. *)
From Verif Require Import Machine MStorage MStream MSigned SpecBits SpecCfg SpecStream SpecSigned PBase PStorage PStream PSigned.

(** ** Writing, most significant bit first.  The mask starts at bit [(n - 1) mod w], so that [be_start w n] bits of the value are
    written before it has left the type. *)
Definition be_start (w n : N) : N := (n - 1) mod w + 1.
(** The bits of [write_int_be] where no overflow check stops it. *)
Definition be_bits (w n v : N) : list bool :=
  if n =? 0 then [] else rev (bits_of (be_start w n) v) ++ repeatN false (n - be_start w n).
(** At signed types: if the mask starts at the sign bit, shifting it copies the sign bit, and in the end it is -1 for ever. *)
Definition sbe_bits (w n : N) (z : Z) : list bool :=
  if n =? 0 then []
  else if be_start w n <? w then rev (zbits_of (be_start w n) z) ++ repeatN false (n - be_start w n)
  else rev (map (fun i => (z <? 0)%Z || (2 ^ Z.of_nat i <=? z)%Z) (seq 0 (N.to_nat w))) ++ repeatN (negb (z =? 0)%Z) (n - w).

Lemma be_loop {S} c (snk : sink S) w m r v s : 1 < w ->
  for_io (m + r) (fun mask : N => try_ (write_bit snk (negb (N.land v mask =? 0))) (fun _ =>
      try_ (lift (wshr c w mask 1)) (fun m => ret (Continue m)))) (fun _ => ret tt)
    (if Nat.eqb m 0 then 0 else 2 ^ (N.of_nat m - 1)) s = write_all snk (rev (bits_of (N.of_nat m) v) ++ repeat false r) s.
Proof.
  intros Hw. revert s. induction m as [|m IH]; intros s.
  - cbn [Nat.add Nat.eqb]. change (rev (bits_of (N.of_nat 0) v)) with (@nil bool). cbn [app]. revert s. induction r as [|r IHr]; intros s; [reflexivity|].
    cbn [for_io repeat write_all]. unfold try_ at 1 2. rewrite N.land_0_r. change (negb (0 =? 0)) with false.
    destruct (write_bit snk false s) as [[[u|e] s']| |]; cbn [bind]; auto.
    unfold try_. unfold lift. rewrite wshr_ok by lia. cbn [bind]. unfold ret. cbn [bind]. change (N.shiftr 0 1) with 0. apply IHr.
  - cbn [for_io Nat.eqb Nat.add]. rewrite Nat2N.inj_succ, <- N.add_1_r, bits_of_snoc_rev. cbn [app write_all]. unfold try_ at 1 2.
    replace (N.of_nat m + 1 - 1) with (N.of_nat m) by lia. rewrite land_pow2.
    destruct (write_bit snk (N.testbit v (N.of_nat m)) s) as [[[u|e] s']| |]; cbn [bind]; auto.
    unfold try_. unfold lift. rewrite wshr_ok by lia. cbn [bind]. unfold ret. cbn [bind].
    replace (N.shiftr (2 ^ N.of_nat m) 1) with (if Nat.eqb m 0 then 0 else 2 ^ (N.of_nat m - 1)); [apply IH|].
    destruct m as [|m]; [reflexivity|]. cbn [Nat.eqb]. rewrite N.shiftr_div_pow2.
    replace (N.of_nat (Datatypes.S m)) with (N.of_nat (Datatypes.S m) - 1 + 1) at 2 by lia. rewrite N.pow_add_r, N.div_mul by lia. reflexivity.
Qed.
(** The loop at signed types, with a mask that is moved down from [M (m - 1)] to [M 0] and then to [e], where it stays. *)
Lemma sbe_loop {S} c (snk : sink S) w (M : nat -> Z) e z s m r : 1 < w ->
  (forall i, (Datatypes.S i < m)%nat -> Z.shiftr (M (Datatypes.S i)) 1 = M i) -> Z.shiftr (M 0%nat) 1 = e -> Z.shiftr e 1 = e -> (0 < m)%nat ->
  for_io (m + r) (fun mask : Z => try_ (write_bit snk (negb (Z.land z mask =? 0)%Z)) (fun _ =>
      try_ (lift (sshr c w mask 1)) (fun m => ret (Continue m)))) (fun _ => ret tt)
    (M (m - 1)%nat) s = write_all snk (map (fun i => negb (Z.land z (M i) =? 0)%Z) (rev (seq 0 m)) ++ repeat (negb (Z.land z e =? 0)%Z) r) s.
Proof.
  intros Hw HM H0 He Hm.
  assert (HE : forall r s, for_io r (fun mask : Z => try_ (write_bit snk (negb (Z.land z mask =? 0)%Z)) (fun _ =>
      try_ (lift (sshr c w mask 1)) (fun m => ret (Continue m)))) (fun _ => ret tt) e s = write_all snk (repeat (negb (Z.land z e =? 0)%Z) r) s).
  { clear s r. induction r as [|r IHr]; intros s; [reflexivity|]. cbn [for_io repeat write_all]. unfold try_ at 1 2.
    destruct (write_bit snk (negb (Z.land z e =? 0)%Z) s) as [[[u|e'] s']| |]; cbn [bind]; auto.
    unfold try_. unfold lift. rewrite sshr_ok by lia. cbn [bind]. unfold ret. cbn [bind]. rewrite He. apply IHr. }
  revert s HM Hm. induction m as [|m IH]; intros s HM Hm; [lia|].
  rewrite seq_S, rev_app_distr. cbn [for_io rev app map write_all Nat.add]. unfold try_ at 1 2.
  replace (Datatypes.S m - 1)%nat with m by lia.
  destruct (write_bit snk (negb (Z.land z (M m) =? 0)%Z) s) as [[[u|e'] s']| |]; cbn [bind]; auto.
  unfold try_. unfold lift. rewrite sshr_ok by lia. cbn [bind]. unfold ret. cbn [bind].
  destruct m as [|m].
  - rewrite H0. cbn [seq rev map app]. apply HE.
  - rewrite HM by lia. specialize (IH s'). replace (Datatypes.S m - 1)%nat with m in IH by lia. apply IH; [|lia]. intros i Hi. apply HM. lia.
Qed.

Theorem C89_write_int : forall S c (snk : sink S) w n v z s, wf_nb w ->
  write_int c snk w n v s = write_all snk (bits_of n v) s /\ write_sint c snk w n z s = write_all snk (zbits_of n z) s.
Proof. intros S c snk w n v z s Hw. pose proof (wf_nb_range w Hw). split; [apply write_int_ok|apply write_sint_ok]; lia. Qed.

Lemma be_start_range w n : 0 < w -> 1 <= n -> 1 <= be_start w n <= w /\ be_start w n <= n.
Proof.
  intros Hw Hn. unfold be_start. pose proof (N.mod_lt (n - 1) w ltac:(lia)). pose proof (N.mod_le (n - 1) w ltac:(lia)). lia.
Qed.
Lemma split_nat n m : m <= n -> N.to_nat n = (N.to_nat m + N.to_nat (n - m))%nat.
Proof. lia. Qed.
Theorem C89_write_int_be : forall S c (snk : sink S) w n v s, wf_cfg c -> wf_nb w -> n < 2 ^ ptr c ->
  write_int_be c snk w n v s = if debug c && ((n =? 0) || (w <? n)) then Panic POverflow else write_all snk (be_bits w n v) s.
Proof.
  intros S c snk w n v s Hc Hw Hn. pose proof (wf_nb_range w Hw) as Hr. unfold be_bits. destruct (n =? 0) eqn:E0.
  - cbn [orb]. rewrite andb_true_r. assert (n = 0) as -> by lia. unfold write_int_be. destruct (debug c) eqn:Ed.
    + unfold try_, lift, wsub. rewrite Ed. reflexivity.
    + assert (E1 : wsub c (ptr c) 0 1 = Ok (2 ^ ptr c - 1)).
      { unfold wsub. rewrite Ed. destruct (1 <=? 0) eqn:E; [lia|]. f_equal. rewrite N.mod_small; [reflexivity|]. pose proof (pow2_pos (ptr c)). lia. }
      rewrite (try_lift _ _ _ _ E1). unfold wshl. rewrite Ed. destruct (2 ^ ptr c - 1 <? w); cbn [for_io]; reflexivity.
  - cbn [orb]. unfold write_int_be. rewrite (try_lift _ (n - 1)) by (apply wsub_ok; lia). destruct (be_start_range w n ltac:(lia) ltac:(lia)) as [B1 B2].
    assert (EM : debug c = true -> n <= w -> wshl c w 1 (n - 1) = Ok (2 ^ (be_start w n - 1))).
    { intros _ Hle. rewrite wshl_ok by lia. f_equal. rewrite N.shiftl_1_l. unfold be_start. rewrite (N.mod_small (n - 1) w) by lia.
      rewrite N.mod_small by (apply N.pow_lt_mono_r; lia). f_equal. lia. }
    destruct (debug c && (w <? n)) eqn:E1.
    + apply andb_true_iff in E1. destruct E1 as [Ed E1]. unfold try_, lift, wshl. destruct (n - 1 <? w) eqn:E2; [lia|]. rewrite Ed. reflexivity.
    + rewrite (try_lift _ (2 ^ (be_start w n - 1))).
      * rewrite (split_nat n (be_start w n) B2). pose proof (be_loop c snk w (N.to_nat (be_start w n)) (N.to_nat (n - be_start w n)) v s ltac:(lia)) as EL.
        rewrite N2Nat.id in EL. destruct (Nat.eqb (N.to_nat (be_start w n)) 0) eqn:E2; [apply Nat.eqb_eq in E2; lia|]. exact EL.
      * destruct (debug c) eqn:Ed; [apply EM; auto; cbn [andb] in E1; lia|]. unfold wshl. rewrite Ed.
        assert (HP : 2 ^ ((n - 1) mod w) < 2 ^ w) by (apply N.pow_lt_mono_r; [lia|]; apply N.mod_lt; lia).
        assert (EB : be_start w n - 1 = (n - 1) mod w) by (unfold be_start; lia). rewrite EB.
        destruct (n - 1 <? w) eqn:E2.
        -- rewrite (N.mod_small (n - 1) w) in HP |- * by lia. rewrite N.shiftl_1_l. now rewrite N.mod_small by exact HP.
        -- rewrite N.shiftl_1_l. now rewrite N.mod_small by exact HP.
Qed.

Lemma zland_m1 z : Z.land z (-1) = z.
Proof. apply Z.land_m1_r. Qed.
Theorem C89_write_sint_be : forall S c (snk : sink S) w n z s, wf_cfg c -> wf_nb w -> n < 2 ^ ptr c ->
  write_sint_be c snk w n z s = if debug c && ((n =? 0) || (w <? n)) then Panic POverflow else write_all snk (sbe_bits w n z) s.
Proof.
  intros S c snk w n z s Hc Hw Hn. pose proof (wf_nb_range w Hw) as Hr. unfold sbe_bits. destruct (n =? 0) eqn:E0.
  - cbn [orb]. rewrite andb_true_r. assert (n = 0) as -> by lia. unfold write_sint_be. destruct (debug c) eqn:Ed.
    + unfold try_, lift, wsub. rewrite Ed. reflexivity.
    + assert (E1 : wsub c (ptr c) 0 1 = Ok (2 ^ ptr c - 1)).
      { unfold wsub. rewrite Ed. destruct (1 <=? 0) eqn:E; [lia|]. f_equal. rewrite N.mod_small; [reflexivity|]. pose proof (pow2_pos (ptr c)). lia. }
      rewrite (try_lift _ _ _ _ E1). unfold sshl. rewrite Ed. destruct (2 ^ ptr c - 1 <? w); cbn [for_io]; reflexivity.
  - cbn [orb]. unfold write_sint_be. rewrite (try_lift _ (n - 1)) by (apply wsub_ok; lia). destruct (be_start_range w n ltac:(lia) ltac:(lia)) as [B1 B2].
    destruct (debug c && (w <? n)) eqn:E1.
    + apply andb_true_iff in E1. destruct E1 as [Ed E1]. unfold try_, lift, sshl. destruct (n - 1 <? w) eqn:E2; [lia|]. rewrite Ed. reflexivity.
    + assert (EB : (n - 1) mod w = be_start w n - 1) by (unfold be_start; lia).
      assert (ES : sshl c w 1 (n - 1) = Ok (swrap w (2 ^ Z.of_N (be_start w n - 1)))).
      { unfold sshl. rewrite !Z.shiftl_1_l, EB. destruct (n - 1 <? w) eqn:E2; [rewrite (N.mod_small (n - 1) w) in EB by lia; now rewrite <- EB|].
        destruct (debug c); [cbn [andb] in E1; lia|reflexivity]. }
      rewrite (try_lift _ _ _ _ ES). rewrite (split_nat n (be_start w n) B2).
      destruct (be_start w n <? w) eqn:E3.
      * rewrite swrap_small; [|lia|].
        2:{ pose proof (Z.pow_pos_nonneg 2 (Z.of_N (be_start w n - 1)) ltac:(lia) ltac:(lia)).
            assert (HH : (Z.of_N (be_start w n - 1) < Z.of_N (w - 1))%Z) by lia.
            pose proof (Z.pow_lt_mono_r 2 (Z.of_N (be_start w n - 1)) (Z.of_N (w - 1)) ltac:(lia) ltac:(lia) HH). lia. }
        pose proof (sbe_loop c snk w (fun i => 2 ^ Z.of_nat i)%Z 0%Z z s (N.to_nat (be_start w n)) (N.to_nat (n - be_start w n)) ltac:(lia)) as EL.
        cbv beta in EL. replace (Z.of_nat (N.to_nat (be_start w n) - 1)) with (Z.of_N (be_start w n - 1)) in EL by lia. rewrite EL.
        -- f_equal. unfold repeatN. rewrite Z.land_0_r. f_equal. unfold zbits_of. rewrite <- map_rev. apply map_ext. intros i. now rewrite zland_pow2 by lia.
        -- intros i _. rewrite Z.shiftr_div_pow2 by lia. replace (Z.of_nat (Datatypes.S i)) with (Z.of_nat i + 1)%Z by lia.
           rewrite Z.pow_add_r, Z.div_mul by lia. reflexivity.
        -- reflexivity.
        -- reflexivity.
        -- lia.
      * assert (EW : be_start w n = w) by lia. rewrite EW.
        replace (swrap w (2 ^ Z.of_N (w - 1))) with (- 2 ^ Z.of_N (w - 1))%Z.
        2:{ unfold swrap. cbv zeta. set (h := (2 ^ Z.of_N (w - 1))%Z). replace (h + h)%Z with (1 * (2 * h))%Z by lia. rewrite Z_mod_mult. lia. }
        pose proof (sbe_loop c snk w (fun i => - 2 ^ Z.of_nat i)%Z (-1)%Z z s (N.to_nat w) (N.to_nat (n - w)) ltac:(lia)) as EL.
        cbv beta in EL. replace (Z.of_nat (N.to_nat w - 1)) with (Z.of_N (w - 1)) in EL by lia. rewrite EL.
        -- f_equal. unfold repeatN. rewrite zland_m1. f_equal. rewrite <- map_rev. apply map_ext. intros i. now rewrite zland_neg_pow2 by lia.
        -- intros i _. rewrite Z.shiftr_div_pow2 by lia. replace (Z.of_nat (Datatypes.S i)) with (Z.of_nat i + 1)%Z by lia.
           rewrite Z.pow_add_r by lia. rewrite <- Z.mul_opp_l, Z.div_mul by lia. reflexivity.
        -- reflexivity.
        -- reflexivity.
        -- lia.
Qed.

(** ** Reading any bits [l]: the number they spell, of which the bits that the type has no room for are dropped.  No width makes it panic. *)
Theorem C89_read_int : forall S c (src : source S) w l s s', wf_nb w -> reads src s l s' ->
  read_int c src w (lengthN l) s = Ok (IOk (Some (int_of l mod 2 ^ w)), s') /\
  read_int_be c src w (lengthN l) s = Ok (IOk (Some (int_of (rev l) mod 2 ^ w)), s').
Proof.
  intros S c src w l s s' Hw H. pose proof (wf_nb_range w Hw). split.
  - now apply read_int_ok; [lia|..].
  - now apply read_int_be_ok; [lia|..].
Qed.
Lemma sgn_spec w x : 1 < w -> signed_range w (sgn w x) /\ ((sgn w x) mod 2 ^ Z.of_N w = Z.of_N x mod 2 ^ Z.of_N w)%Z.
Proof.
  intros Hw. unfold sgn, swrap, signed_range. cbv zeta. replace (Z.of_N w - 1)%Z with (Z.of_N (w - 1)) by lia. rewrite (two_h w ltac:(lia)).
  pose proof (two_h w ltac:(lia)) as E2. set (h := (2 ^ Z.of_N (w - 1))%Z) in *. set (P := (2 ^ Z.of_N w)%Z) in *.
  assert (Hh : (0 < h)%Z) by (apply Z.pow_pos_nonneg; lia). pose proof (Z.mod_pos_bound (Z.of_N x + h) P ltac:(lia)). split; [lia|].
  rewrite Zminus_mod_idemp_l. f_equal. lia.
Qed.
Theorem C89_read_sint : forall S c (src : source S) w l s s', wf_nb w -> reads src s l s' ->
  exists z zb, signed_range w z /\ signed_range w zb /\
    (z mod 2 ^ Z.of_N w = Z.of_N (int_of l) mod 2 ^ Z.of_N w)%Z /\ (zb mod 2 ^ Z.of_N w = Z.of_N (int_of (rev l)) mod 2 ^ Z.of_N w)%Z /\
    read_sint c src w (lengthN l) s = Ok (IOk (Some z), s') /\ read_sint_be c src w (lengthN l) s = Ok (IOk (Some zb), s').
Proof.
  intros S c src w l s s' Hw H. pose proof (wf_nb_range w Hw). destruct (C89_read_int S c src w l s s' Hw H) as [E1 E2].
  rewrite read_sint_sim, read_sint_be_sim by lia. rewrite E1, E2. cbn [reinterpret]. rewrite !sgn_mod by lia.
  destruct (sgn_spec w (int_of l) ltac:(lia)) as [A B]. destruct (sgn_spec w (int_of (rev l)) ltac:(lia)) as [C D]. exists (sgn w (int_of l)), (sgn w (int_of (rev l))). auto 8.
Qed.
(** The end of the stream, or an error, before all the bits have come. *)
Theorem C89_read_stops : forall S c (src : source S) w n l s s' o s'', wf_nb w -> lengthN l < n -> reads src s l s' -> stops src s' o s'' ->
  read_int c src w n s = Ok (stopped o l, s'') /\ read_int_be c src w n s = Ok (stopped o l, s'') /\
  read_sint c src w n s = Ok (stopped o l, s'') /\ read_sint_be c src w n s = Ok (stopped o l, s'').
Proof.
  intros S c src w n l s s' o s'' Hw Hl H Ho. pose proof (wf_nb_range w Hw).
  rewrite read_sint_sim, read_sint_be_sim by lia.
  rewrite (read_int_stop c src w ltac:(lia) n l s s' o s'' Hl H Ho), (read_int_be_stop c src w ltac:(lia) n l s s' o s'' Hl H Ho).
  destruct o as [o|e], l; repeat split; reflexivity.
Qed.

(** ** Round trips.  Least significant bit first, a value survives at every width that has room for it, also beyond the width of its type. *)
Theorem C89_wide_roundtrip : forall c w n v z l rest, wf_nb w -> w <= n -> v < 2 ^ w -> signed_range w z ->
  (exists x, write_int c deque_sink w n v l = Ok (IOk tt, l ++ x) /\ read_int c deque_source w n (x ++ rest) = Ok (IOk (Some v), rest)) /\
  (exists x, write_sint c deque_sink w n z l = Ok (IOk tt, l ++ x) /\ read_sint c deque_source w n (x ++ rest) = Ok (IOk (Some z), rest)).
Proof.
  intros c w n v z l rest Hw Hn Hv Hz. pose proof (wf_nb_range w Hw). destruct (C89_write_int _ c deque_sink w n v z l Hw) as [-> ->]. rewrite !write_all_deque. split.
  - exists (bits_of n v). split; [reflexivity|]. pose proof (proj1 (C89_read_int _ c _ w _ _ _ Hw (reads_deque (bits_of n v) rest))) as E. rewrite lengthN_bits_of in E. rewrite E.
    rewrite int_of_bits_of. assert (2 ^ w <= 2 ^ n) by (apply N.pow_le_mono_r; lia). do 4 f_equal. rewrite (N.mod_small v) by lia. apply N.mod_small. exact Hv.
  - exists (zbits_of n z). split; [reflexivity|]. rewrite read_sint_sim by lia. pose proof (proj1 (C89_read_int _ c _ w _ _ _ Hw (reads_deque (zbits_of n z) rest))) as E.
    rewrite lengthN_zbits_of in E. rewrite E. cbn [reinterpret]. unfold signed_range in Hz. replace (Z.of_N w - 1)%Z with (Z.of_N (w - 1)) in Hz by lia.
    rewrite sgn_zbits by (lia || assumption). destruct (n <? w) eqn:E1; [lia|reflexivity].
Qed.
Lemma int_of_zeros k l : int_of (repeatN false k ++ l) = int_of l * 2 ^ k.
Proof.
  unfold repeatN. rewrite <- (N2Nat.id k) at 2. generalize (N.to_nat k). clear k. intros k. induction k as [|k IH].
  - cbn [repeat app]. change (2 ^ N.of_nat 0) with 1. lia.
  - cbn [repeat app int_of]. rewrite IH, Nat2N.inj_succ, N.pow_succ_r'. set (P := 2 ^ N.of_nat k). clearbody P. cbn [N.b2n]. lia.
Qed.
(** Most significant bit first, without overflow checks, a value written with more bits than its type has does not survive: what is read is the
    low bits of the value, moved to the top. *)
Theorem C89_wide_be : forall c w n v l rest, wf_cfg c -> wf_nb w -> debug c = false -> w < n -> n < 2 ^ ptr c -> v < 2 ^ w ->
  exists x, write_int_be c deque_sink w n v l = Ok (IOk tt, l ++ x) /\ lengthN x = n /\
    read_int_be c deque_source w n (x ++ rest) = Ok (IOk (Some (v mod 2 ^ be_start w n * 2 ^ (n - be_start w n) mod 2 ^ w)), rest).
Proof.
  intros c w n v l rest Hc Hw Hd Hn Hp Hv. pose proof (wf_nb_range w Hw). destruct (be_start_range w n ltac:(lia) ltac:(lia)) as [B1 B2].
  rewrite (C89_write_int_be _ c deque_sink w n v l Hc Hw Hp), Hd. cbn [andb]. rewrite write_all_deque.
  assert (EL : lengthN (be_bits w n v) = n).
  { unfold be_bits. destruct (n =? 0) eqn:E; [lia|]. rewrite lengthN_app, lengthN_rev, lengthN_bits_of, lengthN_repeatN. lia. }
  exists (be_bits w n v). split; [reflexivity|]. split; [exact EL|].
  pose proof (proj2 (C89_read_int _ c _ w _ _ _ Hw (reads_deque (be_bits w n v) rest))) as E. rewrite EL in E. rewrite E.
  do 4 f_equal. unfold be_bits. clear E. destruct (n =? 0) eqn:E0; [lia|]. rewrite rev_app_distr, rev_involutive.
  assert (ER : rev (repeatN false (n - be_start w n)) = repeatN false (n - be_start w n)).
  { unfold repeatN. generalize (N.to_nat (n - be_start w n)). intros k. induction k as [|k IH]; [reflexivity|]. cbn [repeat rev]. rewrite IH. clear. induction k as [|k IH]; [reflexivity|]. cbn [repeat app]. now rewrite IH. }
  rewrite ER, int_of_zeros, int_of_bits_of. reflexivity.
Qed.

Example C89_ex :
  write_int_be rel64 deque_sink 8 9 5 [] = Ok (IOk tt, [true; false; false; false; false; false; false; false; false]) /\
  be_start 8 9 = 1 /\ read_int_be rel64 deque_source 8 9 [true; false; false; false; false; false; false; false; false] = Ok (IOk (Some 0), []) /\
  write_int_be dbg64 deque_sink 8 9 5 [] = Panic POverflow /\
  write_int rel64 deque_sink 8 9 5 [] = Ok (IOk tt, [true; false; true; false; false; false; false; false; false]) /\
  write_sint_be rel32 deque_sink 8 16 4 [] = Ok (IOk tt, repeatN false 5 ++ repeatN true 11) /\ sbe_bits 8 16 4 = repeatN false 5 ++ repeatN true 11 /\
  write_sint rel32 deque_sink 8 10 (-3) [] = Ok (IOk tt, [true; false; true; true; true; true; true; true; true; true]) /\
  read_sint dbg64 deque_source 8 10 [true; false; true; true; true; true; true; true; false; false; true] = Ok (IOk (Some (-3)%Z), [true]) /\
  signed_range 8 (-3) /\ wf_nb 8 /\ 16 < 2 ^ ptr rel32.
Proof.
  repeat (split; [vm_compute; reflexivity|]). split; [split; vm_compute; congruence|]. split; [unfold wf_nb; lia|vm_compute; reflexivity].
Qed.
Print Assumptions C89_write_int.
Print Assumptions C89_write_int_be.
Print Assumptions C89_write_sint_be.
Print Assumptions C89_read_int.
Print Assumptions C89_read_sint.
Print Assumptions C89_read_stops.
Print Assumptions C89_wide_roundtrip.
Print Assumptions C89_wide_be.
