(** * Broadword selection. *)
From Verif Require Import Machine MStorage MTraits MRank MBroadword SpecBits SpecCfg SpecLaws SpecRank PBase PStorage PBits PBlocks PDefaults PRank PBroadword.

(** ** Counting the lanes at most [l] *)
Definition e (s l : N) : N := if s <=? l then 1 else 0.
Lemma mul_const r : r < 256 -> wrapping_mul 64 r L8 = word [r; r; r; r; r; r; r; r].
Proof. intros H. unfold wrapping_mul, L8. rewrite N.mod_small by lia. cbn [word]. lia. Qed.
Lemma le_lane_small x y : x < 128 -> y < 128 -> le_lane x y = 128 * e x y.
Proof.
  intros Hx Hy. unfold e. rewrite le_lane_ok by (unfold byte; lia). destruct (x <? 128) eqn:E1; [|lia]. destruct (y <? 128) eqn:E2; [|lia].
  cbn [eqb]. unfold signed8. rewrite E1, E2. destruct (x <=? y) eqn:E3.
  - destruct (Z.of_N x <=? Z.of_N y)%Z eqn:E4; lia.
  - destruct (Z.of_N x <=? Z.of_N y)%Z eqn:E4; lia.
Qed.
Lemma shr53 b0 b1 b2 b3 b4 b5 b6 b7 : Forall (fun b => b < 32) [b0; b1; b2; b3; b4; b5; b6; b7] ->
  N.shiftr (word [b0; b1; b2; b3; b4; b5; b6; b7]) 53 = 8 * b7.
Proof.
  intros H. repeat match goal with H : Forall _ (_ :: _) |- _ => inversion H; subst; clear H end.
  rewrite N.shiftr_div_pow2. symmetry. apply (N.div_unique _ _ _ (word [b0; b1; b2; b3; b4; b5; b6])); cbn [word]; lia.
Qed.
Lemma shl8 b0 b1 b2 b3 b4 b5 b6 b7 : Forall byte [b0; b1; b2; b3; b4; b5; b6; b7] ->
  N.shiftl (word [b0; b1; b2; b3; b4; b5; b6; b7]) 8 mod 2 ^ 64 = word [0; b0; b1; b2; b3; b4; b5; b6].
Proof.
  intros H. repeat match goal with H : Forall _ (_ :: _) |- _ => inversion H; subst; clear H end. unfold byte in *.
  rewrite N.shiftl_mul_pow2. symmetry. apply (N.mod_unique _ _ b7); cbn [word]; lia.
Qed.
Lemma e_le s l : e s l <= 1. Proof. unfold e. destruct (s <=? l); lia. Qed.

Lemma count_lanes {A} c s0 s1 s2 s3 s4 s5 s6 s7 l (k : N -> res A) :
  Forall (fun s => s < 128) [s0; s1; s2; s3; s4; s5; s6; s7] -> l < 128 ->
  let E := e s0 l + e s1 l + e s2 l + e s3 l + e s4 l + e s5 l + e s6 l + e s7 l in
  (t <- le8 c (word [s0; s1; s2; s3; s4; s5; s6; s7]) (wrapping_mul 64 l L8) ;;
   t <- wshr c 64 t 7 ;; b <- wshr c 64 (wrapping_mul 64 t L8) 53 ;; k b) = k (8 * E) /\
  (t <- le8 c (word [s0; s1; s2; s3; s4; s5; s6; s7]) (wrapping_mul 64 l L8) ;;
   t <- wshr c 64 t 7 ;; b <- wshr c 64 (wrapping_mul 64 t L8) 56 ;; k b) = k E.
Proof.
  intros H Hl E. rewrite mul_const by lia.
  rewrite le8_word; auto.
  2:{ eapply Forall_impl; [|exact H]. unfold byte. intros. lia. }
  2:{ repeat constructor; unfold byte; lia. }
  repeat match goal with H : Forall _ (_ :: _) |- _ => inversion H; subst; clear H end.
  cbn [bind zip]. rewrite !le_lane_small by lia. rewrite !wshr_ok by lia. cbn [bind].
  rewrite word_shr.
  2:{ repeat constructor; change (2 ^ 7) with 128; apply N.divide_factor_l. }
  cbn [map]. rewrite !(fun y => N.shiftr_div_pow2 y 7). change (2 ^ 7) with 128. rewrite !(N.mul_comm 128), !N.div_mul by lia.
  pose proof (e_le s0 l). pose proof (e_le s1 l). pose proof (e_le s2 l). pose proof (e_le s3 l).
  pose proof (e_le s4 l). pose proof (e_le s5 l). pose proof (e_le s6 l). pose proof (e_le s7 l).
  rewrite mul_L8 by lia. rewrite !wshr_ok by lia. cbn [bind]. split.
  - rewrite shr53; [reflexivity|]. repeat constructor; lia.
  - rewrite shr56; [reflexivity|]. repeat constructor; unfold byte; lia.
Qed.

(** ** Selection in a byte *)
Definition byte_head (c : cfg) (v : N) : res N :=
  t <- u_nz8 c (N.land (wrapping_mul 64 v L8) 0x8040201008040201) ;;
  t <- wshr c 64 t 7 ;;
  Ok (wrapping_mul 64 t L8).
Definition byte_tail (c : cfg) (s l : N) : res N :=
  t <- le8 c s (wrapping_mul 64 l L8) ;;
  t <- wshr c 64 t 7 ;;
  wshr c 64 (wrapping_mul 64 t L8) 56.
Definition pre (v : N) : list N := map (fun i => count_ones (v mod 2 ^ i)) [1; 2; 3; 4; 5; 6; 7; 8].
Definition eqb_res (r : res N) (n : N) : bool := match r with Ok q => q =? n | _ => false end.
Lemma eqb_res_ok r n : eqb_res r n = true -> r = Ok n.
Proof. destruct r; try discriminate. cbn. intros H. f_equal. lia. Qed.
Lemma byte_head_ok c v : byte v -> byte_head c v = Ok (word (pre v)).
Proof. intros H. apply eqb_res_ok. revert v H. destruct c as [[|] p]; apply by_bytes; vm_compute; reflexivity. Qed.
Definition esum (l : N) (ss : list N) : N := fold_left N.add (map (fun s => e s l) ss) 0.
Lemma byte_tail_ok c v l : byte v -> l < 128 -> byte_tail c (word (pre v)) l = Ok (esum l (pre v)).
Proof.
  intros Hv Hl. unfold byte_tail. unfold pre at 1. cbn [map].
  assert (Hs : forall i, count_ones (v mod 2 ^ i) <= 8).
  { intros i. apply count_byte. unfold byte in *. eapply N.le_lt_trans; [apply N.mod_le|exact Hv]. pose proof (pow2_pos i). lia. }
  pose proof (proj2 (count_lanes c (count_ones (v mod 2 ^ 1)) (count_ones (v mod 2 ^ 2)) (count_ones (v mod 2 ^ 3))
     (count_ones (v mod 2 ^ 4)) (count_ones (v mod 2 ^ 5)) (count_ones (v mod 2 ^ 6)) (count_ones (v mod 2 ^ 7)) (count_ones (v mod 2 ^ 8))
     l Ok ltac:(repeat constructor; eapply N.le_lt_trans; [apply Hs| |apply Hs| |apply Hs| |apply Hs| |apply Hs| |apply Hs| |apply Hs| |apply Hs|]; reflexivity) Hl)) as E.
  transitivity (t <- le8 c
        (word
           [count_ones (v mod 2 ^ 1); count_ones (v mod 2 ^ 2); count_ones (v mod 2 ^ 3);
            count_ones (v mod 2 ^ 4); count_ones (v mod 2 ^ 5); count_ones (v mod 2 ^ 6);
            count_ones (v mod 2 ^ 7); count_ones (v mod 2 ^ 8)]) (wrapping_mul 64 l L8) ;;
        t0 <- wshr c 64 t 7 ;; b <- wshr c 64 (wrapping_mul 64 t0 L8) 56 ;; Ok b).
  { destruct (le8 c _ _); reflexivity. }
  rewrite E. reflexivity.
Qed.
Lemma esum_ok v l : byte v -> 
  if l <? count_ones v then esum l (pre v) < 8 /\ N.testbit v (esum l (pre v)) = true /\ count_ones (v mod 2 ^ esum l (pre v)) = l
  else esum l (pre v) = 8.
Proof.
  intros Hv. 
  assert (H : forall n : nat, (if N.of_nat n <? count_ones v then (esum (N.of_nat n) (pre v) <? 8) && N.testbit v (esum (N.of_nat n) (pre v)) && (count_ones (v mod 2 ^ esum (N.of_nat n) (pre v)) =? N.of_nat n)
      else esum (N.of_nat n) (pre v) =? 8) = true).
  { intros n. destruct (Nat.ltb n 9) eqn:En.
    - apply Nat.ltb_lt in En. revert v Hv. do 9 (destruct n as [|n]; [apply by_bytes; vm_compute; reflexivity|]). lia.
    - apply Nat.ltb_ge in En. set (m := N.of_nat n). assert (Hm : 9 <= m) by lia. clearbody m. clear n En.
      pose proof (count_byte v Hv). destruct (m <? count_ones v) eqn:E; [lia|].
      assert (Hs : forall i, e (count_ones (v mod 2 ^ i)) m = 1).
      { intros i. unfold e. assert (count_ones (v mod 2 ^ i) <= 8).
        { apply count_byte. unfold byte in *. eapply N.le_lt_trans; [apply N.mod_le|exact Hv]. pose proof (pow2_pos i). lia. }
        destruct (count_ones (v mod 2 ^ i) <=? m) eqn:E1; [reflexivity|lia]. }
      unfold esum, pre. cbn [map fold_left]. rewrite !Hs. reflexivity. }
  specialize (H (N.to_nat l)). rewrite N2Nat.id in H. destruct (l <? count_ones v); [|lia].
  apply andb_true_iff in H. destruct H as [H H3]. apply andb_true_iff in H. destruct H as [H1 H2]. split; [lia|]. split; [exact H2|lia].
Qed.
Lemma byte_part_ok {A} c v l (k : N -> res A) : byte v -> l < 128 -> exists q,
  (t <- u_nz8 c (N.land (wrapping_mul 64 v L8) 0x8040201008040201) ;;
   t <- wshr c 64 t 7 ;;
   let s := wrapping_mul 64 t L8 in
   t <- le8 c s (wrapping_mul 64 l L8) ;;
   t <- wshr c 64 t 7 ;;
   t <- wshr c 64 (wrapping_mul 64 t L8) 56 ;; k t) = k q /\
  if l <? count_ones v then q < 8 /\ N.testbit v q = true /\ count_ones (v mod 2 ^ q) = l else q = 8.
Proof.
  intros Hv Hl. exists (esum l (pre v)). split; [|now apply esum_ok].
  pose proof (byte_head_ok c v Hv) as E1. pose proof (byte_tail_ok c v l Hv Hl) as E2. unfold byte_head in E1. unfold byte_tail in E2.
  destruct (u_nz8 c _) as [t1| |] eqn:D1; try discriminate. cbn [bind] in *.
  destruct (wshr c 64 t1 7) as [t2| |] eqn:D2; try discriminate. cbn [bind] in *. injection E1 as E1. rewrite E1.
  destruct (le8 c _ _) as [t3| |] eqn:D3; try discriminate. cbn [bind] in *.
  destruct (wshr c 64 t3 7) as [t4| |] eqn:D4; try discriminate. cbn [bind] in *. rewrite E2. reflexivity.
Qed.

(** ** The parts of a word above and below a position *)
Lemma testbit_word bs k b q : Forall byte bs -> nthN bs k = Some b -> q < 8 -> N.testbit (word bs) (8 * k + q) = N.testbit b q.
Proof.
  intros HF. revert k. induction HF as [|x bs Hx HF IH]; intros k Hk Hq; [rewrite nthN_nil in Hk; discriminate|].
  cbn [word]. rewrite testbit_byte by auto. rewrite nthN_cons in Hk. destruct (k =? 0) eqn:E.
  - injection Hk as ->. destruct (8 * k + q <? 8) eqn:E1; [|lia]. f_equal. lia.
  - destruct (8 * k + q <? 8) eqn:E1; [lia|]. replace (8 * k + q - 8) with (8 * (k - 1) + q) by lia. auto.
Qed.
Fixpoint sum (l : list N) : N := match l with [] => 0 | x :: t => x + sum t end.
Lemma count_word_mod bs k b q : Forall byte bs -> nthN bs k = Some b -> q < 8 ->
  count_ones (word bs mod 2 ^ (8 * k + q)) = sum (map count_ones (firstnN k bs)) + count_ones (b mod 2 ^ q).
Proof.
  intros HF. revert k. induction HF as [|x bs Hx HF IH]; intros k Hk Hq; [rewrite nthN_nil in Hk; discriminate|].
  cbn [word]. rewrite nthN_cons in Hk. destruct (k =? 0) eqn:E.
  - injection Hk as ->. assert (k = 0) as -> by lia. rewrite firstnN_0. cbn [map sum]. rewrite N.mul_0_r, !N.add_0_l. f_equal.
    replace 256 with (2 ^ (8 - q) * 2 ^ q) by (rewrite <- N.pow_add_r; replace (8 - q + q) with 8 by lia; reflexivity).
    replace (b + 2 ^ (8 - q) * 2 ^ q * word bs) with (b + (2 ^ (8 - q) * word bs) * 2 ^ q) by lia.
    apply N.mod_add. pose proof (pow2_pos q). lia.
  - replace (firstnN k (x :: bs)) with (x :: firstnN (k - 1) bs).
    2:{ unfold firstnN. replace (N.to_nat k) with (Datatypes.S (N.to_nat (k - 1))) by lia. reflexivity. }
    cbn [map sum]. rewrite <- N.add_assoc, <- (IH (k - 1)) by auto. rewrite <- count_ones_cons by exact Hx. f_equal.
    replace (8 * k + q) with (8 + (8 * (k - 1) + q)) by lia. rewrite N.pow_add_r. change (2 ^ 8) with 256.
    set (m := 2 ^ (8 * (k - 1) + q)). assert (0 < m) by (apply pow2_pos).
    pose proof (N.div_mod (word bs) m ltac:(lia)) as Hd. pose proof (N.mod_lt (word bs) m ltac:(lia)) as Hm.
    unfold byte in Hx. symmetry. apply (N.mod_unique _ _ (word bs / m)); set (y := word bs mod m) in *; clearbody y m; nia.
Qed.
Lemma sum_word bs : Forall byte bs -> count_ones (word bs) = sum (map count_ones bs).
Proof. induction 1 as [|x bs Hx HF IH]; [reflexivity|]. cbn [word map sum]. rewrite count_ones_cons by exact Hx. now rewrite IH. Qed.

Lemma bits_of_mod p x : p <= 64 -> count true (firstnN p (bits_of 64 x)) = count_ones (x mod 2 ^ p).
Proof.
  intros Hp. rewrite <- int_of_bits_of, count_ones_int_of. f_equal. apply nthN_ext. intros i.
  rewrite nthN_firstnN, !nthN_bits_of. destruct (i <? p) eqn:E1, (i <? 64) eqn:E2; try lia; reflexivity.
Qed.
Lemma is_select_bits x r p : p < 64 -> N.testbit x p = true -> count_ones (x mod 2 ^ p) = r ->
  is_select true (bits_of 64 x) r p.
Proof.
  intros H1 H2 H3. split; [|rewrite bits_of_mod by lia; exact H3]. rewrite nthN_bits_of. destruct (p <? 64) eqn:E; [|lia]. now rewrite H2.
Qed.

(** ** The whole word *)
Definition tail (c : cfg) (r x b sl : N) : res N :=
  l <- wsub c 64 r (N.land (wrapping_shr 64 sl (b mod 2 ^ 32)) 0xFF) ;;
  t <- u_nz8 c (N.land (wrapping_mul 64 (N.land (wrapping_shr 64 x (b mod 2 ^ 32)) 0xFF) L8)
                     0x8040201008040201) ;;
  t <- wshr c 64 t 7 ;;
  let s := wrapping_mul 64 t L8 in
  t <- le8 c s (wrapping_mul 64 l L8) ;;
  t <- wshr c 64 t 7 ;;
  t <- wshr c 64 (wrapping_mul 64 t L8) 56 ;;
  q <- wadd c 64 b t ;;
  Ok (as_usize c q).

(** The byte chosen contains the answer. *)
Lemma tail_in c r bs sl k b (Hc : wf_cfg c) : length bs = 8%nat -> Forall byte bs -> k < 8 -> nthN bs k = Some b ->
  lane sl k = sum (map count_ones (firstnN k bs)) -> sum (map count_ones (firstnN k bs)) <= r -> r < 128 ->
  r < sum (map count_ones (firstnN k bs)) + count_ones b ->
  exists p, tail c r (word bs) (8 * k) sl = Ok p /\ p < 64 /\ is_select true (bits_of 64 (word bs)) r p.
Proof.
  intros Hl HF Hk Hb Hs H1 Hr H2. pose proof (wf_ptr c Hc) as Hptr. unfold tail, wrapping_shr.
  assert (Em : (8 * k) mod 2 ^ 32 = 8 * k) by (apply N.mod_small; lia). rewrite Em.
  assert (Em2 : (8 * k) mod 64 = 8 * k) by (apply N.mod_small; lia). rewrite Em2.
  change (N.land (N.shiftr sl (8 * k)) 255) with (lane sl k). rewrite Hs.
  change (N.land (N.shiftr (word bs) (8 * k)) 255) with (lane (word bs) k). rewrite lane_word, Hb by exact HF.
  set (sk := sum (map count_ones (firstnN k bs))) in *. rewrite wsub_ok by lia. cbn [bind].
  assert (Hbb : byte b) by exact (proj1 (Forall_nthN _ _) HF _ _ Hb).
  destruct (byte_part_ok c b (r - sk) (fun t => q <- wadd c 64 (8 * k) t ;; Ok (as_usize c q)) Hbb ltac:(lia)) as (q & E & Hq).
  cbv zeta in E. rewrite E. destruct (r - sk <? count_ones b) eqn:E1; [|lia]. destruct Hq as (Hq1 & Hq2 & Hq3).
  rewrite wadd_ok by lia. cbn [bind]. rewrite as_usize_small by lia. exists (8 * k + q). split; [reflexivity|]. split; [lia|].
  apply is_select_bits; [lia| |].
  - rewrite (testbit_word bs k b q); auto.
  - rewrite (count_word_mod bs k b q); auto. fold sk. lia.
Qed.
(** No byte contains it: the last part runs on the lowest byte and finds nothing. *)
Lemma tail_out c r bs sl b (Hc : wf_cfg c) : Forall byte bs -> nthN bs 0 = Some b -> lane sl 0 = 0 -> count_ones b <= r -> r < 128 ->
  tail c r (word bs) 64 sl = Ok 72.
Proof.
  intros HF Hb Hs H1 Hr. pose proof (wf_ptr c Hc) as Hptr. unfold tail, wrapping_shr.
  change ((64 mod 2 ^ 32) mod 64) with (8 * 0).
  change (N.land (N.shiftr sl (8 * 0)) 255) with (lane sl 0). rewrite Hs.
  change (N.land (N.shiftr (word bs) (8 * 0)) 255) with (lane (word bs) 0). rewrite lane_word, Hb by exact HF.
  rewrite wsub_ok by lia. cbn [bind]. rewrite N.sub_0_r.
  assert (Hbb : byte b) by exact (proj1 (Forall_nthN _ _) HF _ _ Hb).
  destruct (byte_part_ok c b r (fun t => q <- wadd c 64 64 t ;; Ok (as_usize c q)) Hbb Hr) as (q & E & Hq).
  cbv zeta in E. rewrite E. destruct (r <? count_ones b) eqn:E1; [lia|]. subst q. rewrite wadd_ok by lia. cbn [bind]. rewrite as_usize_small by lia. reflexivity.
Qed.

Lemma select1_raw_ok c r x : wf_cfg c -> x < 2 ^ 64 -> r < 128 -> exists p, select1_raw c r x = Ok p /\
  if r <? count true (bits_of 64 x) then p < 64 /\ is_select true (bits_of 64 x) r p else p = 72.
Proof.
  intros Hc Hx Hr.
  assert (Ecount : count true (bits_of 64 x) = count_ones x).
  { rewrite <- count_ones_int_of, int_of_bits_of, N.mod_small by exact Hx. reflexivity. }
  rewrite Ecount. destruct (word8 x Hx) as (b0 & b1 & b2 & b3 & b4 & b5 & b6 & b7 & HF & ->). clear Ecount.
  rewrite sum_word by exact HF.
  change (select1_raw c r (word [b0; b1; b2; b3; b4; b5; b6; b7])) with
   (let x := word [b0; b1; b2; b3; b4; b5; b6; b7] in
    t <- wshr c 64 (N.land x 0xAAAAAAAAAAAAAAAA) 1 ;;
    s <- wsub c 64 x t ;;
    t <- wshr c 64 s 2 ;;
    s <- wadd c 64 (N.land s 0x3333333333333333) (N.land t 0x3333333333333333) ;;
    t <- wshr c 64 s 4 ;;
    t <- wadd c 64 s t ;;
    (fun s => let s := wrapping_mul 64 s L8 in
       t <- le8 c s (wrapping_mul 64 r L8) ;;
       t <- wshr c 64 t 7 ;;
       b <- wshr c 64 (wrapping_mul 64 t L8) 53 ;;
       (fun b => t <- wshl c 64 s 8 ;; tail c r x b t) b) (N.land t 0x0F0F0F0F0F0F0F0F)).
  cbv zeta. rewrite sideways by auto. cbn [map sum].
  assert (byte b0 /\ byte b1 /\ byte b2 /\ byte b3 /\ byte b4 /\ byte b5 /\ byte b6 /\ byte b7) as (? & ? & ? & ? & ? & ? & ? & ?).
  { clear - HF. repeat match goal with H : Forall _ (_ :: _) |- _ => inversion H; subst; clear H end. repeat split; assumption. }
  repeat match goal with H : byte ?b |- _ => lazymatch goal with _ : count_ones b <= 8 |- _ => fail | _ => pose proof (count_byte b H) end end.
  rewrite mul_L8 by lia. 
  match goal with |- context [le8 c (word [?s0; ?s1; ?s2; ?s3; ?s4; ?s5; ?s6; ?s7]) _] =>
    assert (HL : Forall (fun s => s < 128) [s0; s1; s2; s3; s4; s5; s6; s7]) by (repeat constructor; lia) end.
  rewrite (proj1 (count_lanes c _ _ _ _ _ _ _ _ r _ HL Hr)).
  cbv beta. unfold wshl. cbn [N.ltb]. change (8 <? 64) with true. cbv iota. cbn [bind].
  rewrite shl8 by (repeat constructor; unfold byte; lia).
  set (S1 := count_ones b0) in *. set (S2 := S1 + count_ones b1). set (S3 := S2 + count_ones b2). set (S4 := S3 + count_ones b3).
  set (S5 := S4 + count_ones b4). set (S6 := S5 + count_ones b5). set (S7 := S6 + count_ones b6). set (S8 := S7 + count_ones b7).
  set (sl := word [0; S1; S2; S3; S4; S5; S6; S7]).
  assert (HS : Forall byte [0; S1; S2; S3; S4; S5; S6; S7]) by (repeat constructor; unfold byte; lia).
  set (bs := [b0; b1; b2; b3; b4; b5; b6; b7]) in *.
  assert (Elane : forall k, lane sl k = match nthN [0; S1; S2; S3; S4; S5; S6; S7] k with Some b => b | None => 0 end)
    by (intros; now apply lane_word).
  Ltac inside k b bs lst Sk :=
    match goal with |- context [tail _ ?r ?w ?n ?sl] => change n with (8 * k) end;
    match goal with |- context [if ?e then _ else _] => assert (e = true) as -> by lia end;
    apply (tail_in _ _ _ _ k b); [assumption|reflexivity|assumption|reflexivity|reflexivity| | |assumption|];
    change (firstnN k bs) with lst; cbn [map sum]; [transitivity Sk; [|lia]|lia|lia].
  unfold e.
  destruct (S1 <=? r) eqn:E1.
  2:{ assert ((S2 <=? r) = false /\ (S3 <=? r) = false /\ (S4 <=? r) = false /\ (S5 <=? r) = false /\ (S6 <=? r) = false
        /\ (S7 <=? r) = false /\ (S8 <=? r) = false) as (-> & -> & -> & -> & -> & -> & ->) by lia.
      inside 0 b0 bs (@nil N) 0. rewrite Elane. reflexivity. }
  destruct (S2 <=? r) eqn:E2.
  2:{ assert ((S3 <=? r) = false /\ (S4 <=? r) = false /\ (S5 <=? r) = false /\ (S6 <=? r) = false /\ (S7 <=? r) = false /\ (S8 <=? r) = false) as (-> & -> & -> & -> & -> & ->) by lia.
      inside 1 b1 bs [b0] S1. rewrite Elane. reflexivity. }
  destruct (S3 <=? r) eqn:E3.
  2:{ assert ((S4 <=? r) = false /\ (S5 <=? r) = false /\ (S6 <=? r) = false /\ (S7 <=? r) = false /\ (S8 <=? r) = false) as (-> & -> & -> & -> & ->) by lia.
      inside 2 b2 bs [b0; b1] S2. rewrite Elane. reflexivity. }
  destruct (S4 <=? r) eqn:E4.
  2:{ assert ((S5 <=? r) = false /\ (S6 <=? r) = false /\ (S7 <=? r) = false /\ (S8 <=? r) = false) as (-> & -> & -> & ->) by lia.
      inside 3 b3 bs [b0; b1; b2] S3. rewrite Elane. reflexivity. }
  destruct (S5 <=? r) eqn:E5.
  2:{ assert ((S6 <=? r) = false /\ (S7 <=? r) = false /\ (S8 <=? r) = false) as (-> & -> & ->) by lia.
      inside 4 b4 bs [b0; b1; b2; b3] S4. rewrite Elane. reflexivity. }
  destruct (S6 <=? r) eqn:E6.
  2:{ assert ((S7 <=? r) = false /\ (S8 <=? r) = false) as (-> & ->) by lia.
      inside 5 b5 bs [b0; b1; b2; b3; b4] S5. rewrite Elane. reflexivity. }
  destruct (S7 <=? r) eqn:E7.
  2:{ assert ((S8 <=? r) = false) as -> by lia.
      inside 6 b6 bs [b0; b1; b2; b3; b4; b5] S6. rewrite Elane. reflexivity. }
  destruct (S8 <=? r) eqn:E8.
  2:{ inside 7 b7 bs [b0; b1; b2; b3; b4; b5; b6] S7. rewrite Elane. reflexivity. }
  match goal with |- context [if ?e then _ else _] => assert (e = false) as -> by lia end.
  match goal with |- context [tail _ ?r ?w ?n ?sl] => change n with 64 end.
  exists 72. split; [|reflexivity]. apply (tail_out _ _ _ _ b0); auto; try lia. rewrite Elane. reflexivity.
Qed.
