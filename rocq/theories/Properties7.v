(** * Properties C38-C40: broadword operations (src/broadword.rs).
    Byte [i] of a word is written [byte_at x i]; bits and sequences as in SpecBits. *)
From Verif Require Import Machine MStorage MTraits MRank MSelect MBroadword SpecBits SpecCfg SpecLaws SpecRank
  PBase PStorage PBits PBlocks PRank PSelect PBroadword PBroadword2.

Definition byte_at (x i : N) : N := (x / 2 ^ (8 * i)) mod 256.
Definition i8_at (x i : N) : Z := let b := byte_at x i in if b <? 128 then Z.of_N b else (Z.of_N b - 256)%Z.

Lemma lane_byte_at x i : lane x i = byte_at x i.
Proof. unfold lane, byte_at. change 0xFF with (N.ones 8). rewrite N.land_ones, N.shiftr_div_pow2. reflexivity. Qed.
Lemma testbit_lane x j : N.testbit x j = N.testbit (lane x (j / 8)) (j mod 8).
Proof.
  unfold lane. rewrite N.land_spec, N.shiftr_spec by lia. change 255 with (N.ones 8).
  rewrite N.ones_spec_low by (apply N.mod_lt; lia). rewrite andb_true_r. f_equal. pose proof (N.div_mod j 8). lia.
Qed.
Lemma lane_high bs i : length bs = 8%nat -> Forall byte bs -> 8 <= i -> lane (word bs) i = 0.
Proof. intros Hl HF Hi. rewrite lane_word by exact HF. assert (nthN bs i = None) as -> by (apply nthN_None; unfold lengthN; lia). reflexivity. Qed.
(** A word whose lanes are 0x80 or 0 as told by [p]. *)
Lemma lanes_bits bs (p : N -> bool) : length bs = 8%nat -> Forall byte bs ->
  (forall i, i < 8 -> lane (word bs) i = if p i then 128 else 0) ->
  forall j, N.testbit (word bs) j = (j mod 8 =? 7) && (j <? 64) && p (j / 8).
Proof.
  intros Hl HF H j. rewrite testbit_lane. pose proof (N.div_mod j 8 ltac:(lia)) as Hd. pose proof (N.mod_lt j 8 ltac:(lia)) as Hm.
  set (q := j / 8) in *. set (m := j mod 8) in *. clearbody q m. destruct (j <? 64) eqn:E.
  - rewrite H by lia. assert (m = 0 \/ m = 1 \/ m = 2 \/ m = 3 \/ m = 4 \/ m = 5 \/ m = 6 \/ m = 7) as Hc by lia.
    repeat (destruct Hc as [-> | Hc]; [destruct (p q); reflexivity|]). subst m. destruct (p q); reflexivity.
  - rewrite lane_high by (auto; lia). rewrite N.bits_0. destruct (m =? 7); reflexivity.
Qed.

(** ** C38 *)
Theorem C38_count_ones : forall c x, wf_cfg c -> x < 2 ^ 64 -> bw_count_ones c x = Ok (count true (bits_of 64 x)).
Proof.
  intros c x Hc Hx. rewrite bw_count_ones_ok by auto. f_equal.
  rewrite <- count_ones_int_of, int_of_bits_of, N.mod_small by exact Hx. reflexivity.
Qed.
Definition is_word (x : N) (l : list bool) : Prop := x < 2 ^ 64 /\ l = bits_of 64 x.
Lemma broadword_lawful c : wf_cfg c -> lawful_rank (broadword_bitrank c) is_word.
Proof.
  intros Hc. apply mk_bitrank_lawful.
  - intros x l [_ ->]. rewrite lengthN_bits_of. reflexivity.
  - intros x l [_ ->]. now rewrite lengthN_bits_of.
  - intros x l p [Hx ->] Hp. rewrite lengthN_bits_of in Hp. now apply broadword_rank1_ok.
Qed.
Theorem C38_broadword_rank : forall c x p, wf_cfg c -> x < 2 ^ 64 -> p < 64 ->
  br_rank1 (broadword_bitrank c) x p = Ok (count true (firstnN (p + 1) (bits_of 64 x))) /\
  br_rank0 (broadword_bitrank c) x p = Ok (count false (firstnN (p + 1) (bits_of 64 x))) /\
  (forall v, rs_rank (br_rs (broadword_bitrank c)) x p v = Ok (count v (firstnN (p + 1) (bits_of 64 x)))) /\
  rs_limit (br_rs (broadword_bitrank c)) x = Ok 64.
Proof.
  intros c x p Hc Hx Hp. pose proof (broadword_lawful c Hc) as LR. assert (HR : is_word x (bits_of 64 x)) by (split; auto).
  assert (Hl : p < lengthN (bits_of 64 x)) by (now rewrite lengthN_bits_of).
  split; [exact (lr_rank1 _ _ LR _ _ _ HR Hl)|]. split; [exact (lr_rank0 _ _ LR _ _ _ HR Hl)|].
  split; [|reflexivity]. intros v. exact (lr_rank _ _ LR _ _ _ v HR Hl).
Qed.
(** The two population counts agree: rank by the intrinsic and by broadword. *)
Theorem C38_same_as_primitive : forall c x p, wf_cfg c -> x < 2 ^ 64 -> p < 64 ->
  br_rank1 (broadword_bitrank c) x p = br_rank1 (prim_bitrank c 64) x p /\
  bw_count_ones c x = Ok (count_ones x).
Proof.
  intros c x p Hc Hx Hp. split; [|now apply bw_count_ones_ok].
  rewrite (proj1 (C38_broadword_rank c x p Hc Hx Hp)). cbn. fold (rank_of true (bits_of 64 x) p). rewrite <- (prim_rank1_int_of c 64) by auto with wf.
  rewrite int_of_bits_of, N.mod_small by exact Hx. reflexivity.
Qed.
Example C38_ex : wf_cfg dbg32 /\ 0xdeadbeef01234567 < 2 ^ 64 /\ 40 < 64 /\
  bw_count_ones dbg32 0xdeadbeef01234567 = Ok 36 /\ bw_count_ones rel64 (2 ^ 64 - 1) = Ok 64 /\
  bw_count_ones dbg64 0 = Ok 0 /\ br_rank1 (broadword_bitrank dbg32) 0xdeadbeef01234567 40 = Ok 19 /\
  br_rank0 (broadword_bitrank dbg32) 0xdeadbeef01234567 40 = Ok 22.
Proof. split; [auto with wf|]. vm_compute. intuition congruence. Qed.

(** ** C39.  The claim, for every [r], is
    [bw_select1 c r x = Ok o] with [o = Some p <-> is_select true (bits_of 64 x) r p] and
    [o = None <-> count true (bits_of 64 x) <= r]; it is proved here for [r <= 127]. *)
Theorem C39_select1_partial : forall c r x, wf_cfg c -> x < 2 ^ 64 -> r <= 127 ->
  exists o, bw_select1 c r x = Ok o /\
    (forall p, o = Some p <-> nthN (bits_of 64 x) p = Some true /\ count true (firstnN p (bits_of 64 x)) = r) /\
    (o = None <-> count true (bits_of 64 x) <= r).
Proof.
  intros c r x Hc Hx Hr. destruct (select1_raw_ok c r x Hc Hx ltac:(lia)) as (p & E & H).
  unfold bw_select1. rewrite E. cbn [bind]. destruct (r <? count true (bits_of 64 x)) eqn:Ec.
  - destruct H as [Hp Hs]. exists (Some p). destruct (p =? 72) eqn:E1; [lia|]. split; [reflexivity|]. split.
    + intros q. split; [intros [= <-]; exact Hs|]. intros Hq. f_equal. exact (is_select_unique _ _ _ _ _ Hs Hq).
    + split; [discriminate|lia].
  - subst p. exists None. split; [reflexivity|]. split.
    + intros q. split; [discriminate|]. intros Hq. pose proof (is_select_exists _ _ _ _ Hq). lia.
    + split; [lia|reflexivity].
Qed.
(** [select1_raw]: 72 when there is no such bit. *)
Theorem C39_select1_raw_partial : forall c r x, wf_cfg c -> x < 2 ^ 64 -> r <= 127 ->
  exists p, select1_raw c r x = Ok p /\
    (r < count true (bits_of 64 x) -> nthN (bits_of 64 x) p = Some true /\ count true (firstnN p (bits_of 64 x)) = r) /\
    (count true (bits_of 64 x) <= r -> p = 72).
Proof.
  intros c r x Hc Hx Hr. destruct (select1_raw_ok c r x Hc Hx ltac:(lia)) as (p & E & H). exists p. split; [exact E|].
  destruct (r <? count true (bits_of 64 x)) eqn:Ec; split; intros; try lia. exact (proj2 H).
Qed.
(** [Broadword::select1] and the binary search over [Broadword] give the same answers. *)
Theorem C39_broadword_select_partial : forall c i x fuel, wf_cfg c -> x < 2 ^ 64 -> i <= 127 -> (64 < fuel)%nat ->
  exists o, broadword_select1 c x i = Ok o /\ bss_select1 c (broadword_bitrank c) fuel x i = Ok o /\
    (forall p, o = Some p <-> nthN (bits_of 64 x) p = Some true /\ count true (firstnN p (bits_of 64 x)) = i) /\
    (o = None <-> count true (bits_of 64 x) <= i).
Proof.
  intros c i x fuel Hc Hx Hi Hf. pose proof (wf_ptr c Hc). unfold broadword_select1. rewrite as_usize_small by lia.
  destruct (C39_select1_partial c i x Hc Hx Hi) as (o & E & H1 & H2). exists o. split; [exact E|]. split; [|split; assumption].
  destruct (bss_select1_ok c _ _ (broadword_lawful c Hc) x (bits_of 64 x) i fuel (conj Hx eq_refl) ltac:(lia) Hf) as (o' & E' & Ho').
  rewrite E'. f_equal. destruct o' as [q|].
  - symmetry. now apply H1.
  - symmetry. apply H2. exact Ho'.
Qed.
Example C39_ex : wf_cfg dbg64 /\ 0xdeadbeef01234567 < 2 ^ 64 /\ 20 <= 127 /\
  bw_select1 dbg64 20 0xdeadbeef01234567 = Ok (Some 42) /\ N.testbit 0xdeadbeef01234567 42 = true /\
  bw_select1 dbg64 36 0xdeadbeef01234567 = Ok None /\ bw_select1 rel32 63 (2 ^ 64 - 1) = Ok (Some 63) /\
  bw_select1 rel32 0 (2 ^ 63) = Ok (Some 63) /\ bw_select1 rel32 0 0 = Ok None /\
  broadword_select1 rel64 0xdeadbeef01234567 20 = Ok (Some 42).
Proof. split; [auto with wf|]. vm_compute. intuition congruence. Qed.
(** The claim is false: asking for the one bit number 128 of a word answers position 0; on 32-bit
    targets [Broadword::select1] drops the upper half of the index. *)
Theorem C39_select1_refuted : exists c r x, wf_cfg c /\ x < 2 ^ 64 /\ count true (bits_of 64 x) <= r /\
  bw_select1 c r x = Ok (Some 0) /\ nthN (bits_of 64 x) 0 = Some false.
Proof.
  exists dbg64, 128, 0. split; [auto with wf|]. split; [reflexivity|]. split; [vm_compute; congruence|].
  split; vm_compute; reflexivity.
Qed.
Theorem C39_select1_u64_refuted : exists c i x, wf_cfg c /\ x < 2 ^ 64 /\ i < 2 ^ 64 /\ count true (bits_of 64 x) <= i /\
  broadword_select1 c x i = Ok (Some 5).
Proof.
  exists dbg32, (2 ^ 32), (2 ^ 5). split; [auto with wf|]. split; [reflexivity|]. split; [reflexivity|].
  split; [vm_compute; congruence|]. vm_compute; reflexivity.
Qed.

(** ** C40.  Bit [j] of the result, for every [j]: only the top bit of a byte can be set. *)
Theorem C40_u_le8 : forall c x y, x < 2 ^ 64 -> y < 2 ^ 64 -> exists r, u_le8 c x y = Ok r /\
  forall j, N.testbit r j = (j mod 8 =? 7) && (j <? 64) && (byte_at x (j / 8) <=? byte_at y (j / 8)).
Proof.
  intros c x y Hx Hy. destruct (as_word x Hx) as (xs & Lx & Fx & ->). destruct (as_word y Hy) as (ys & Ly & Fy & ->).
  rewrite u_le8_word by auto. eexists. split; [reflexivity|].
  apply (lanes_bits _ (fun i => byte_at (word xs) i <=? byte_at (word ys) i)).
  - rewrite zip_length; congruence.
  - apply zip_byte; auto using u_le_lane_byte.
  - intros i Hi. rewrite lane_zip by auto using u_le_lane_byte. rewrite u_le_lane_ok by apply lane_byte. now rewrite !lane_byte_at.
Qed.
Theorem C40_u_nz8 : forall c x, x < 2 ^ 64 -> exists r, u_nz8 c x = Ok r /\
  forall j, N.testbit r j = (j mod 8 =? 7) && (j <? 64) && negb (byte_at x (j / 8) =? 0).
Proof.
  intros c x Hx. destruct (as_word x Hx) as (xs & Lx & Fx & ->).
  rewrite u_nz8_word by auto. eexists. split; [reflexivity|].
  apply (lanes_bits _ (fun i => negb (byte_at (word xs) i =? 0))).
  - rewrite map_length; congruence.
  - apply Forall_map. eapply Forall_impl; [|exact Fx]. apply nz_lane_byte.
  - intros i Hi. rewrite lane_map by auto using nz_lane_byte. rewrite nz_lane_ok by apply lane_byte. rewrite lane_byte_at.
    destruct (byte_at (word xs) i =? 0); reflexivity.
Qed.
(** [le8] is the signed comparison in the lanes where the signs agree; in the other lanes it
    compares the low seven bits, the wrong way round. *)
Theorem C40_le8_partial : forall c x y, x < 2 ^ 64 -> y < 2 ^ 64 -> exists r, le8 c x y = Ok r /\
  forall j, N.testbit r j = (j mod 8 =? 7) && (j <? 64) &&
    (if eqb (byte_at x (j / 8) <? 128) (byte_at y (j / 8) <? 128) then (i8_at x (j / 8) <=? i8_at y (j / 8))%Z
     else byte_at y (j / 8) mod 128 <? byte_at x (j / 8) mod 128).
Proof.
  intros c x y Hx Hy. destruct (as_word x Hx) as (xs & Lx & Fx & ->). destruct (as_word y Hy) as (ys & Ly & Fy & ->).
  rewrite le8_word by auto. eexists. split; [reflexivity|].
  apply (lanes_bits _ (fun i => if eqb (byte_at (word xs) i <? 128) (byte_at (word ys) i <? 128) then (i8_at (word xs) i <=? i8_at (word ys) i)%Z
     else byte_at (word ys) i mod 128 <? byte_at (word xs) i mod 128)).
  - rewrite zip_length; congruence.
  - apply zip_byte; auto using le_lane_byte.
  - intros i Hi. rewrite lane_zip by auto using le_lane_byte. rewrite le_lane_ok by apply lane_byte. rewrite !lane_byte_at.
    unfold i8_at, signed8. destruct (eqb _ _); [reflexivity|].
    destruct (byte_at (word xs) i mod 128 <=? byte_at (word ys) i mod 128) eqn:E1;
    destruct (byte_at (word ys) i mod 128 <? byte_at (word xs) i mod 128) eqn:E2; try lia; reflexivity.
Qed.
Example C40_ex : 0x0102808000ff7f80 < 2 ^ 64 /\ 0x0201808100fe80ff < 2 ^ 64 /\
  u_le8 dbg64 0x0102808000ff7f80 0x0201808100fe80ff = Ok 0x8000808080008080 /\
  u_nz8 dbg64 0x0102808000ff7f80 = Ok 0x8080808000808080 /\
  le8 rel32 0x0102808000ff7f80 0x0201808100fe80ff = Ok 0x8000808080008080 /\
  u_le8 dbg64 0 0 = Ok 0x8080808080808080 /\ u_nz8 rel64 0 = Ok 0.
Proof. vm_compute. intuition congruence. Qed.
(** In the lane 0 of [le8 0x80 0], -128 <= 0 but the bit is clear. *)
Theorem C40_le8_refuted : exists c x y r, wf_cfg c /\ x < 2 ^ 64 /\ y < 2 ^ 64 /\ le8 c x y = Ok r /\
  (i8_at x 0 <= i8_at y 0)%Z /\ N.testbit r 7 = false.
Proof.
  exists dbg64, 128, 0, 0x8080808080808000. split; [auto with wf|]. split; [reflexivity|]. split; [reflexivity|].
  split; [vm_compute; reflexivity|]. split; [vm_compute; congruence|vm_compute; reflexivity].
Qed.

Print Assumptions C38_count_ones.
Print Assumptions C38_broadword_rank.
Print Assumptions C38_same_as_primitive.
Print Assumptions C39_select1_partial.
Print Assumptions C39_select1_raw_partial.
Print Assumptions C39_broadword_select_partial.
Print Assumptions C39_select1_refuted.
Print Assumptions C39_select1_u64_refuted.
Print Assumptions C40_u_le8.
Print Assumptions C40_u_nz8.
Print Assumptions C40_le8_partial.
Print Assumptions C40_le8_refuted.
