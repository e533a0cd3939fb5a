(** * When broadword selection answers None, exactly. *)
From Verif Require Import Machine MStorage MTraits MRank MBroadword SpecBits SpecCfg SpecLaws SpecRank PBase PStorage PBits PBlocks PDefaults PRank PBroadword PBroadword2 PBroadword3.

(** What the signed comparison of lanes says of a count [s] and any byte [y] *)
Definition passes (s y : N) : bool := if y <? 128 then s <=? y else y - 128 <? s.
Definition g (s y : N) : N := if passes s y then 1 else 0.
Lemma le_lane_g x y : x < 128 -> byte y -> le_lane x y = 128 * g x y.
Proof.
  intros Hx Hy. assert (Hb : byte x) by (unfold byte; lia).
  assert (H : forall a b, byte a -> byte b -> ((128 <=? a) || (le_lane a b =? 128 * g a b)) = true).
  { apply by_bytes2 with (P := fun a b => (128 <=? a) || (le_lane a b =? 128 * g a b)). vm_compute. reflexivity. }
  specialize (H x y Hb Hy). lia.
Qed.
Lemma g_le s y : g s y <= 1. Proof. unfold g. destruct (passes s y); lia. Qed.
Lemma count_lanes_g {A} c s0 s1 s2 s3 s4 s5 s6 s7 y0 y1 y2 y3 y4 y5 y6 y7 :
  Forall (fun s => s < 128) [s0; s1; s2; s3; s4; s5; s6; s7] -> Forall byte [y0; y1; y2; y3; y4; y5; y6; y7] ->
  let E := g s0 y0 + g s1 y1 + g s2 y2 + g s3 y3 + g s4 y4 + g s5 y5 + g s6 y6 + g s7 y7 in
  (forall k : N -> res A, (t <- le8 c (word [s0; s1; s2; s3; s4; s5; s6; s7]) (word [y0; y1; y2; y3; y4; y5; y6; y7]) ;;
   t <- wshr c 64 t 7 ;; b <- wshr c 64 (wrapping_mul 64 t L8) 53 ;; k b) = k (8 * E)) /\
  (forall k : N -> res A, (t <- le8 c (word [s0; s1; s2; s3; s4; s5; s6; s7]) (word [y0; y1; y2; y3; y4; y5; y6; y7]) ;;
   t <- wshr c 64 t 7 ;; b <- wshr c 64 (wrapping_mul 64 t L8) 56 ;; k b) = k E).
Proof.
  intros H HY E. rewrite le8_word; auto.
  2:{ eapply Forall_impl; [|exact H]. unfold byte. intros. lia. }
  repeat match goal with H : Forall _ (_ :: _) |- _ => inversion H; subst; clear H end.
  cbn [bind zip]. rewrite !le_lane_g by assumption. rewrite !wshr_ok by lia. cbn [bind].
  rewrite word_shr.
  2:{ repeat constructor; change (2 ^ 7) with 128; apply N.divide_factor_l. }
  cbn [map]. rewrite !(fun y => N.shiftr_div_pow2 y 7). change (2 ^ 7) with 128. rewrite !(N.mul_comm 128), !N.div_mul by lia.
  pose proof (g_le s0 y0). pose proof (g_le s1 y1). pose proof (g_le s2 y2). pose proof (g_le s3 y3).
  pose proof (g_le s4 y4). pose proof (g_le s5 y5). pose proof (g_le s6 y6). pose proof (g_le s7 y7).
  rewrite mul_L8 by lia. rewrite !wshr_ok by lia. cbn [bind]. split; intros k.
  - rewrite shr53; [reflexivity|]. repeat constructor; lia.
  - rewrite shr56; [reflexivity|]. repeat constructor; unfold byte; lia.
Qed.

(** The tail after [8 * k] with [k < 8] stays below 72; after 64 it compares the counts within the lowest byte with the same lanes. *)
Lemma tail_exact c r b0 bs sl y0 y1 y2 y3 y4 y5 y6 y7 : wf_cfg c -> Forall byte (b0 :: bs) -> length bs = 7%nat -> r < 2 ^ 64 ->
  lane sl 0 = 0 -> Forall byte [y0; y1; y2; y3; y4; y5; y6; y7] -> wrapping_mul 64 r L8 = word [y0; y1; y2; y3; y4; y5; y6; y7] ->
  let h i := count_ones (b0 mod 2 ^ i) in
  tail c r (word (b0 :: bs)) 64 sl = Ok (64 + (g (h 1) y0 + g (h 2) y1 + g (h 3) y2 + g (h 4) y3 + g (h 5) y4 + g (h 6) y5 + g (h 7) y6 + g (h 8) y7)).
Proof.
  intros Hc HF HL Hr Hs HY EY h. pose proof (wf_ptr c Hc) as Hptr. unfold tail, wrapping_shr.
  change ((64 mod 2 ^ 32) mod 64) with (8 * 0).
  change (N.land (N.shiftr sl (8 * 0)) 255) with (lane sl 0). rewrite Hs.
  change (N.land (N.shiftr (word (b0 :: bs)) (8 * 0)) 255) with (lane (word (b0 :: bs)) 0). rewrite lane_word by exact HF. change (nthN (b0 :: bs) 0) with (Some b0). cbv iota.
  rewrite wsub_ok by lia. cbn [bind]. rewrite N.sub_0_r, EY.
  assert (Hbb : byte b0) by (inversion HF; assumption).
  pose proof (byte_head_ok c b0 Hbb) as E1. unfold byte_head in E1.
  destruct (u_nz8 c _) as [t1| |] eqn:D1; try discriminate. cbn [bind] in *.
  destruct (wshr c 64 t1 7) as [t2| |] eqn:D2; try discriminate. cbn [bind] in *. assert (E2 : wrapping_mul 64 t2 L8 = word (pre b0)) by congruence. cbv zeta. rewrite E2.
  assert (Hcnt : forall i, count_ones (b0 mod 2 ^ i) <= 8).
  { intros i. apply count_byte. unfold byte in *. eapply N.le_lt_trans; [apply N.mod_le|exact Hbb]. pose proof (pow2_pos i). lia. }
  assert (HB : Forall (fun s => s < 128) (pre b0)) by (unfold pre; apply Forall_map, Forall_forall; intros i _; pose proof (Hcnt i); lia).
  unfold pre in *. cbn [map] in *. fold (h 1) (h 2) (h 3) (h 4) (h 5) (h 6) (h 7) (h 8) in *. clearbody h.
  destruct (count_lanes_g (A := N) c _ _ _ _ _ _ _ _ _ _ _ _ _ _ _ _ HB HY) as (_ & K). cbv zeta in K.
  rewrite (K (fun t => q <- wadd c 64 64 t ;; Ok (as_usize c q))).
  pose proof (g_le (h 1) y0). pose proof (g_le (h 2) y1). pose proof (g_le (h 3) y2). pose proof (g_le (h 4) y3).
  pose proof (g_le (h 5) y4). pose proof (g_le (h 6) y5). pose proof (g_le (h 7) y6). pose proof (g_le (h 8) y7).
  rewrite wadd_ok by lia. cbn [bind]. rewrite as_usize_small by lia. reflexivity.
Qed.

Lemma g1 s y : g s y = 1 <-> passes s y = true.
Proof. unfold g. destruct (passes s y); split; intros; congruence || discriminate. Qed.
Lemma count_mod_word bs k : Forall byte bs -> k <= lengthN bs -> count_ones (word bs mod 2 ^ (8 * k)) = sum (map count_ones (firstnN k bs)).
Proof.
  intros HF. revert k. induction bs as [|b bs IH]; intros k Hk.
  - replace k with 0 by (unfold lengthN in Hk; cbn in Hk; lia). reflexivity.
  - destruct (N.eq_dec k 0) as [->|Hk0]; [change (2 ^ (8 * 0)) with 1; rewrite N.mod_1_r; reflexivity|].
    inversion HF as [|? ? Hb HF']; subst. rewrite lengthN_cons in Hk. replace k with (N.succ (k - 1)) at 2 by lia.
    unfold firstnN. rewrite N2Nat.inj_succ. cbn [firstn map sum]. fold (firstnN (k - 1) bs). rewrite <- IH by (auto; lia).
    rewrite <- count_ones_cons by exact Hb. f_equal. cbn [word].
    replace (2 ^ (8 * k)) with (256 * 2 ^ (8 * (k - 1))) by (replace (8 * k) with (8 + 8 * (k - 1)) by lia; rewrite N.pow_add_r; reflexivity).
    set (P := 2 ^ (8 * (k - 1))). assert (HP : 0 < P) by apply pow2_pos. clearbody P. unfold byte in Hb. symmetry.
    pose proof (N.div_mod (word bs) P ltac:(lia)) as HD. pose proof (N.mod_lt (word bs) P ltac:(lia)). set (q := word bs / P) in *. set (m := word bs mod P) in *. clearbody q m.
    apply (N.mod_unique _ _ q); [lia|]. rewrite HD. lia.
Qed.

(** Beyond the word, the right answer is "none": it is given exactly when every lane passes. *)
Lemma select1_raw_none c r x : wf_cfg c -> x < 2 ^ 64 -> 64 <= r < 2 ^ 64 -> exists p, select1_raw c r x = Ok p /\
  (p = 72 <-> forall j, j < 8 -> passes (count_ones (x mod 2 ^ (8 * (j + 1)))) (lane (wrapping_mul 64 r L8) j) = true /\
                                 passes (count_ones (x mod 2 ^ (j + 1))) (lane (wrapping_mul 64 r L8) j) = true).
Proof.
  intros Hc Hx Hr.
  assert (Hy : wrapping_mul 64 r L8 < 2 ^ 64) by (unfold wrapping_mul; apply N.mod_lt; lia).
  destruct (word8 _ Hy) as (y0 & y1 & y2 & y3 & y4 & y5 & y6 & y7 & HY & EY).
  destruct (word8 x Hx) as (b0 & b1 & b2 & b3 & b4 & b5 & b6 & b7 & HF & ->).
  change (select1_raw c r (word [b0; b1; b2; b3; b4; b5; b6; b7])) with
   (let x := word [b0; b1; b2; b3; b4; b5; b6; b7] in
    t <- wshr c 64 (N.land x 0xAAAAAAAAAAAAAAAA) 1 ;;
    s <- wsub c 64 x t ;;
    t <- wshr c 64 s 2 ;;
    s <- wadd c 64 (N.land s 0x3333333333333333) (N.land t 0x3333333333333333) ;;
    t <- wshr c 64 s 4 ;;
    t <- wadd c 64 s t ;;
    (fun s => let s := wrapping_mul 64 s L8 in
       t <- le8 c s (wrapping_mul 64 r L8) ;;
       t <- wshr c 64 t 7 ;;
       b <- wshr c 64 (wrapping_mul 64 t L8) 53 ;;
       (fun b => t <- wshl c 64 s 8 ;; tail c r x b t) b) (N.land t 0x0F0F0F0F0F0F0F0F)).
  cbv zeta. rewrite sideways by auto. cbn [map sum].
  assert (byte b0 /\ byte b1 /\ byte b2 /\ byte b3 /\ byte b4 /\ byte b5 /\ byte b6 /\ byte b7) as (Hb0 & ? & ? & ? & ? & ? & ? & ?).
  { clear - HF. repeat match goal with H : Forall _ (_ :: _) |- _ => inversion H; subst; clear H end. repeat split; assumption. }
  repeat match goal with H : byte ?b |- _ => lazymatch goal with _ : count_ones b <= 8 |- _ => fail | _ => pose proof (count_byte b H) end end.
  rewrite mul_L8 by lia.
  match goal with |- context [le8 c (word [?s0; ?s1; ?s2; ?s3; ?s4; ?s5; ?s6; ?s7]) _] =>
    set (S0 := s0); set (S1 := s1); set (S2 := s2); set (S3 := s3); set (S4 := s4); set (S5 := s5); set (S6 := s6); set (S7 := s7) end.
  assert (HL : Forall (fun s => s < 128) [S0; S1; S2; S3; S4; S5; S6; S7]) by (repeat constructor; lia).
  rewrite EY.
  destruct (count_lanes_g (A := N) c _ _ _ _ _ _ _ _ _ _ _ _ _ _ _ _ HL HY) as (K & _). cbv zeta in K.
  rewrite K. clear K. cbv beta. unfold wshl. cbn [N.ltb]. change (8 <? 64) with true. cbv iota. cbn [bind].
  rewrite shl8 by (repeat constructor; unfold byte; lia).
  set (sl := [0; S0; S1; S2; S3; S4; S5; S6]). assert (HS : Forall byte sl) by (unfold sl; repeat constructor; unfold byte; lia).
  assert (HS64 : Forall (fun s => s <= 64) sl) by (unfold sl; repeat constructor; lia).
  (* the counts as the statement has them *)
  assert (C1 : forall k, k <= 8 -> count_ones (word [b0; b1; b2; b3; b4; b5; b6; b7] mod 2 ^ (8 * k)) = sum (map count_ones (firstnN k [b0; b1; b2; b3; b4; b5; b6; b7]))).
  { intros k Hk. apply count_mod_word; [exact HF|exact Hk]. }
  assert (C2 : forall k, k <= 8 -> count_ones (word [b0; b1; b2; b3; b4; b5; b6; b7] mod 2 ^ k) = count_ones (b0 mod 2 ^ k)).
  { intros k Hk. f_equal. change (word [b0; b1; b2; b3; b4; b5; b6; b7]) with (b0 + 256 * word [b1; b2; b3; b4; b5; b6; b7]).
    replace 256 with (2 ^ (8 - k) * 2 ^ k) by (rewrite <- N.pow_add_r; replace (8 - k + k) with 8 by lia; reflexivity).
    pose proof (pow2_pos k). rewrite <- N.mul_assoc, (N.mul_comm (2 ^ k)), N.mul_assoc, N.mod_add by lia. reflexivity. }
  assert (LY : forall j, lane (word [y0; y1; y2; y3; y4; y5; y6; y7]) j = match nthN [y0; y1; y2; y3; y4; y5; y6; y7] j with Some b => b | None => 0 end) by (intros; now apply lane_word).
  set (W := word [b0; b1; b2; b3; b4; b5; b6; b7]) in *.
  set (h := fun i => count_ones (b0 mod 2 ^ i)).
  assert (Spec : (forall j, j < 8 -> passes (count_ones (W mod 2 ^ (8 * (j + 1)))) (lane (word [y0; y1; y2; y3; y4; y5; y6; y7]) j) = true /\
                                     passes (count_ones (W mod 2 ^ (j + 1))) (lane (word [y0; y1; y2; y3; y4; y5; y6; y7]) j) = true) <->
    (g S0 y0 = 1 /\ g S1 y1 = 1 /\ g S2 y2 = 1 /\ g S3 y3 = 1 /\ g S4 y4 = 1 /\ g S5 y5 = 1 /\ g S6 y6 = 1 /\ g S7 y7 = 1) /\
    (g (h 1) y0 = 1 /\ g (h 2) y1 = 1 /\ g (h 3) y2 = 1 /\ g (h 4) y3 = 1 /\ g (h 5) y4 = 1 /\ g (h 6) y5 = 1 /\ g (h 7) y6 = 1 /\ g (h 8) y7 = 1)).
  { assert (R : forall j S y, j < 8 -> sum (map count_ones (firstnN (j + 1) [b0; b1; b2; b3; b4; b5; b6; b7])) = S -> match nthN [y0; y1; y2; y3; y4; y5; y6; y7] j with Some b => b | None => 0 end = y ->
      (passes (count_ones (W mod 2 ^ (8 * (j + 1)))) (lane (word [y0; y1; y2; y3; y4; y5; y6; y7]) j) = true /\
       passes (count_ones (W mod 2 ^ (j + 1))) (lane (word [y0; y1; y2; y3; y4; y5; y6; y7]) j) = true) <-> g S y = 1 /\ g (h (j + 1)) y = 1).
    { intros j S y Hj ES Ey. rewrite C1, C2, LY, ES, Ey by lia. rewrite !g1. reflexivity. }
    pose proof (R 0 S0 y0 ltac:(lia) ltac:(change (firstnN (0 + 1) [b0; b1; b2; b3; b4; b5; b6; b7]) with [b0]; cbn [map sum]; lia) eq_refl) as R0.
    pose proof (R 1 S1 y1 ltac:(lia) ltac:(change (firstnN (1 + 1) [b0; b1; b2; b3; b4; b5; b6; b7]) with [b0; b1]; cbn [map sum]; lia) eq_refl) as R1.
    pose proof (R 2 S2 y2 ltac:(lia) ltac:(change (firstnN (2 + 1) [b0; b1; b2; b3; b4; b5; b6; b7]) with [b0; b1; b2]; cbn [map sum]; lia) eq_refl) as R2.
    pose proof (R 3 S3 y3 ltac:(lia) ltac:(change (firstnN (3 + 1) [b0; b1; b2; b3; b4; b5; b6; b7]) with [b0; b1; b2; b3]; cbn [map sum]; lia) eq_refl) as R3.
    pose proof (R 4 S4 y4 ltac:(lia) ltac:(change (firstnN (4 + 1) [b0; b1; b2; b3; b4; b5; b6; b7]) with [b0; b1; b2; b3; b4]; cbn [map sum]; lia) eq_refl) as R4.
    pose proof (R 5 S5 y5 ltac:(lia) ltac:(change (firstnN (5 + 1) [b0; b1; b2; b3; b4; b5; b6; b7]) with [b0; b1; b2; b3; b4; b5]; cbn [map sum]; lia) eq_refl) as R5.
    pose proof (R 6 S6 y6 ltac:(lia) ltac:(change (firstnN (6 + 1) [b0; b1; b2; b3; b4; b5; b6; b7]) with [b0; b1; b2; b3; b4; b5; b6]; cbn [map sum]; lia) eq_refl) as R6.
    pose proof (R 7 S7 y7 ltac:(lia) ltac:(change (firstnN (7 + 1) [b0; b1; b2; b3; b4; b5; b6; b7]) with [b0; b1; b2; b3; b4; b5; b6; b7]; cbn [map sum]; lia) eq_refl) as R7.
    change (0 + 1) with 1 in R0. change (1 + 1) with 2 in R1. change (2 + 1) with 3 in R2. change (3 + 1) with 4 in R3. change (4 + 1) with 5 in R4. change (5 + 1) with 6 in R5. change (6 + 1) with 7 in R6. change (7 + 1) with 8 in R7.
    split.
    - intros HA. pose proof (proj1 R0 (HA 0 ltac:(lia))). pose proof (proj1 R1 (HA 1 ltac:(lia))). pose proof (proj1 R2 (HA 2 ltac:(lia))). pose proof (proj1 R3 (HA 3 ltac:(lia))).
      pose proof (proj1 R4 (HA 4 ltac:(lia))). pose proof (proj1 R5 (HA 5 ltac:(lia))). pose proof (proj1 R6 (HA 6 ltac:(lia))). pose proof (proj1 R7 (HA 7 ltac:(lia))). tauto.
    - intros HA j Hj.
      destruct (N.eq_dec j 0) as [->|]; [apply R0; tauto|]. destruct (N.eq_dec j 1) as [->|]; [apply R1; tauto|]. destruct (N.eq_dec j 2) as [->|]; [apply R2; tauto|].
      destruct (N.eq_dec j 3) as [->|]; [apply R3; tauto|]. destruct (N.eq_dec j 4) as [->|]; [apply R4; tauto|]. destruct (N.eq_dec j 5) as [->|]; [apply R5; tauto|].
      destruct (N.eq_dec j 6) as [->|]; [apply R6; tauto|]. replace j with 7 by lia. apply R7; tauto. }
  match type of Spec with _ <-> ?Q => enough (HX : exists p, tail c r W (8 * (g S0 y0 + g S1 y1 + g S2 y2 + g S3 y3 + g S4 y4 + g S5 y5 + g S6 y6 + g S7 y7)) (word sl) = Ok p /\ (p = 72 <-> Q)) end.
  { destruct HX as (p & E & HX). exists p. split; [exact E|]. rewrite Spec. exact HX. }
  clear Spec C1 C2 LY.
  pose proof (g_le S0 y0). pose proof (g_le S1 y1). pose proof (g_le S2 y2). pose proof (g_le S3 y3).
  pose proof (g_le S4 y4). pose proof (g_le S5 y5). pose proof (g_le S6 y6). pose proof (g_le S7 y7).
  set (E := g S0 y0 + g S1 y1 + g S2 y2 + g S3 y3 + g S4 y4 + g S5 y5 + g S6 y6 + g S7 y7).
  destruct (N.eq_dec E 8) as [E8|E8].
  - rewrite E8. unfold E in E8. clear E. change (8 * 8) with 64.
    pose proof (tail_exact c r b0 [b1; b2; b3; b4; b5; b6; b7] (word sl) _ _ _ _ _ _ _ _ Hc HF eq_refl ltac:(lia) ltac:(rewrite lane_word by exact HS; reflexivity) HY EY) as T.
    cbv beta zeta in T. change (tail c r W 64 (word sl) = Ok (64 + (g (h 1) y0 + g (h 2) y1 + g (h 3) y2 + g (h 4) y3 + g (h 5) y4 + g (h 6) y5 + g (h 7) y6 + g (h 8) y7))) in T. rewrite T. clear T. eexists. split; [reflexivity|]. clearbody h.
    pose proof (g_le (h 1) y0). pose proof (g_le (h 2) y1). pose proof (g_le (h 3) y2). pose proof (g_le (h 4) y3).
    pose proof (g_le (h 5) y4). pose proof (g_le (h 6) y5). pose proof (g_le (h 7) y6). pose proof (g_le (h 8) y7).
      repeat match goal with |- context [g ?a ?b] => let n := fresh "G" in set (n := g a b) in *; clearbody n end. lia.
  - destruct (tail_any c r [b0; b1; b2; b3; b4; b5; b6; b7] (word sl) E Hc HF eq_refl ltac:(lia) ltac:(lia)) as (p & Ep & Hp & _).
    + intros i. rewrite lane_word by exact HS. destruct (nthN sl i) eqn:En; [|lia]. exact (proj1 (Forall_nthN _ _) HS64 _ _ En).
    + lia.
    + exists p. split; [exact Ep|]. split; [lia|]. intros [HA _]. exfalso. unfold E in E8. lia.
Qed.
