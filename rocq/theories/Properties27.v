(** * The QuickCheck properties of the crate's own test modules, for every input (C80).
    The properties are those of MQuickCheck.v; the unit tests proper are in UnitTests.v. *)
From Verif Require Import Machine MStorage MTraits MRank MSelect MBroadword MStream MCoding MQuickCheck SpecBits SpecCfg SpecLaws SpecRank SpecStream
  PBase PStorage PBits PDefaults PRank PSelect PBroadword PBroadword2 PStream PCoding PCoding2 PCoding3 Properties1 Properties6 Properties7 Properties9 Properties18 Properties25 Properties26.

Lemma pow2_64_ok c e : e <= 63 -> pow2_64 c e = Ok (2 ^ e).
Proof.
  intros H. unfold pow2_64, wrap. pose proof (N.pow_le_mono_r 2 e 63 ltac:(lia) H). change (2 ^ 63) with 9223372036854775808 in *.
  destruct (2 ^ e <? 2 ^ 64) eqn:E; [reflexivity|]. change (2 ^ 64) with 18446744073709551616 in E. lia.
Qed.
Lemma pow2_64_64 c : pow2_64 c 64 = if debug c then Panic POverflow else Ok 0.
Proof. unfold pow2_64, wrap. destruct (debug c); reflexivity. Qed.

(** ** [floor_lg], [ceil_lg]: true as long as the power of two the property itself computes is below 2^64 *)
Theorem C80_floor_lg : forall c n, n < 2 ^ 64 ->
  (n = 0 -> prop_floor_lg c n = Ok None) /\
  (1 <= n < 2 ^ 63 -> prop_floor_lg c n = Ok (Some true)) /\
  (2 ^ 63 <= n -> if debug c then panics (prop_floor_lg c n) else prop_floor_lg c n = Ok (Some false)).
Proof.
  intros c n Hn. split; [|split].
  - intros ->. reflexivity.
  - intros H. unfold prop_floor_lg. destruct (n =? 0) eqn:E0; [lia|]. rewrite floor_lg_ok by lia. cbn [bind].
    pose proof (N.log2_spec n ltac:(lia)) as [L1 L2]. assert (HL : N.log2 n <= 62).
    { destruct (N.le_gt_cases (N.log2 n) 62) as [?|Hg]; [assumption|]. pose proof (N.pow_le_mono_r 2 63 (N.log2 n) ltac:(lia) ltac:(lia)). lia. }
    rewrite pow2_64_ok by lia. cbn [bind]. destruct (2 ^ N.log2 n <=? n) eqn:E1; [|lia]. rewrite wadd_ok by (change (2 ^ 32) with 4294967296; lia). cbn [bind].
    rewrite pow2_64_ok by lia. cbn [bind]. rewrite <- N.add_1_r in L2. destruct (n <? 2 ^ (N.log2 n + 1)) eqn:E2; [reflexivity|lia].
  - intros H. unfold prop_floor_lg. change (2 ^ 63) with 9223372036854775808 in H. destruct (n =? 0) eqn:E0; [lia|]. rewrite floor_lg_ok by lia. cbn [bind].
    assert (HL : N.log2 n = 63) by (apply N.log2_unique; [lia|split; [exact H|exact Hn]]). rewrite HL.
    rewrite pow2_64_ok by lia. cbn [bind]. change (2 ^ 63) with 9223372036854775808. destruct (9223372036854775808 <=? n) eqn:E1; [|lia].
    rewrite wadd_ok by (change (2 ^ 32) with 4294967296; lia). cbn [bind]. change (63 + 1) with 64. rewrite pow2_64_64. destruct (debug c); cbn [bind].
    + eexists; reflexivity. + destruct (n <? 0) eqn:E2; [lia|reflexivity].
Qed.
Theorem C80_ceil_lg : forall c n, n < 2 ^ 64 ->
  (n <= 1 -> prop_ceil_lg c n = Ok None) /\
  (2 <= n <= 2 ^ 63 -> prop_ceil_lg c n = Ok (Some true)) /\
  (2 ^ 63 < n -> if debug c then panics (prop_ceil_lg c n) else prop_ceil_lg c n = Ok (Some false)).
Proof.
  intros c n Hn. split; [|split].
  - intros H. unfold prop_ceil_lg. destruct (n <=? 1) eqn:E; [reflexivity|lia].
  - intros H. unfold prop_ceil_lg. destruct (n <=? 1) eqn:E0; [lia|]. rewrite ceil_lg_ok by lia. cbn [bind].
    pose proof (N.log2_up_spec n ltac:(lia)) as [L1 L2]. assert (HL : N.log2_up n <= 63) by (apply N.log2_up_le_pow2; lia).
    assert (HL1 : 0 < N.log2_up n) by (apply N.log2_up_pos; lia).
    rewrite pow2_64_ok by lia. cbn [bind]. destruct (n <=? 2 ^ N.log2_up n) eqn:E1; [|lia]. rewrite wsub_ok by lia. cbn [bind].
    rewrite pow2_64_ok by lia. cbn [bind]. rewrite <- N.sub_1_r in L1. destruct (2 ^ (N.log2_up n - 1) <? n) eqn:E2; [reflexivity|lia].
  - intros H. unfold prop_ceil_lg. change (2 ^ 63) with 9223372036854775808 in H. destruct (n <=? 1) eqn:E0; [lia|]. rewrite ceil_lg_ok by lia. cbn [bind].
    assert (HL : N.log2_up n = 64) by (apply N.log2_up_unique; [lia|split; [exact H|apply N.lt_le_incl; exact Hn]]). rewrite HL.
    rewrite pow2_64_64. destruct (debug c); cbn [bind].
    + eexists; reflexivity. + destruct (n <=? 0) eqn:E2; [lia|reflexivity].
Qed.

(** ** [ceil_div]: without overflow checks, exactly when [n + m] does not pass 2^64; with them, an overflow (of the
    property's own product, or of the sum in [ceil_div]) panics *)
Lemma ceil_char n m q : 0 < m -> n <= q * m -> (forall k, n <= k * m -> q <= k) -> 0 < n -> 1 <= q /\ m * (q - 1) < n /\ m * q < n + m.
Proof.
  intros Hm H1 H2 Hn. assert (1 <= q) by (destruct (N.eq_dec q 0) as [->|]; lia). split; [assumption|].
  assert (K : (q - 1) * m < n) by (destruct (N.le_gt_cases n ((q - 1) * m)) as [Hx|Hx]; [specialize (H2 _ Hx); lia|exact Hx]).
  split; [lia|]. replace (m * q) with ((q - 1) * m + m) by (rewrite N.mul_sub_distr_r; pose proof (N.mul_le_mono_r 1 q m ltac:(lia)); lia). lia.
Qed.
Theorem C80_ceil_div_unchecked : forall c n m, debug c = false -> n < 2 ^ 64 -> m < 2 ^ 64 ->
  prop_ceil_div c n m = Ok (if (n * m) mod 2 ^ 64 =? 0 then None else Some (n + m <=? 2 ^ 64)).
Proof.
  intros c n m Hd Hn Hm. unfold prop_ceil_div. unfold wmul at 1. unfold wrap at 1. rewrite Hd.
  assert (E : (if n * m <? 2 ^ 64 then Ok (n * m) else Ok ((n * m) mod 2 ^ 64)) = Ok ((n * m) mod 2 ^ 64)).
  { destruct (n * m <? 2 ^ 64) eqn:E; [|reflexivity]. f_equal. symmetry. apply N.mod_small. lia. }
  rewrite E. cbn [bind]. destruct ((n * m) mod 2 ^ 64 =? 0) eqn:E0; [reflexivity|].
  assert (0 < n) by (destruct (N.eq_dec n 0) as [->|]; [rewrite N.mul_0_l, N.mod_0_l in E0 by discriminate; discriminate|lia]).
  assert (0 < m) by (destruct (N.eq_dec m 0) as [->|]; [rewrite N.mul_0_r, N.mod_0_l in E0 by discriminate; discriminate|lia]).
  destruct (C05_without_checks c 64 n m Hd ltac:(lia) Hn) as (q & Eq & K1 & K2). rewrite Eq. cbn [bind]. clear E E0 Eq.
  destruct (n + m <=? 2 ^ 64) eqn:Es.
  - destruct (K1 ltac:(lia)) as [A B]. destruct (ceil_char n m q ltac:(lia) A B ltac:(lia)) as (Q1 & Q2 & Q3).
    rewrite wmul_ok by lia. cbn [bind]. destruct (n <=? m * q) eqn:E1; [|lia]. rewrite wsub_ok by lia. cbn [bind]. rewrite wmul_ok by lia. cbn [bind].
    destruct (m * (q - 1) <? n) eqn:E2; [reflexivity|lia].
  - destruct (K2 ltac:(lia)) as [_ A]. rewrite wmul_ok by lia. cbn [bind]. destruct (n <=? m * q) eqn:E1; [lia|reflexivity].
Qed.
Theorem C80_ceil_div_checked : forall c n m, debug c = true -> n < 2 ^ 64 -> m < 2 ^ 64 ->
  (n * m = 0 -> prop_ceil_div c n m = Ok None) /\
  (1 <= n * m < 2 ^ 64 -> n + m < 2 ^ 64 -> prop_ceil_div c n m = Ok (Some true)) /\
  (2 ^ 64 <= n * m \/ n * m <> 0 /\ 2 ^ 64 <= n + m -> panics (prop_ceil_div c n m)).
Proof.
  intros c n m Hd Hn Hm. split; [|split].
  - intros H. unfold prop_ceil_div. rewrite wmul_ok by lia. cbn [bind]. now rewrite H.
  - intros H Hs. unfold prop_ceil_div. rewrite wmul_ok by lia. cbn [bind]. destruct (n * m =? 0) eqn:E0; [lia|].
    assert (0 < n) by (destruct (N.eq_dec n 0) as [->|]; lia). assert (0 < m) by (destruct (N.eq_dec m 0) as [->|]; lia).
    destruct (C05_ceil_div_partial c 64 n m ltac:(lia) Hs) as (q & Eq & A & B). rewrite Eq. cbn [bind]. destruct (ceil_char n m q ltac:(lia) A B ltac:(lia)) as (Q1 & Q2 & Q3).
    rewrite wmul_ok by lia. cbn [bind]. destruct (n <=? m * q) eqn:E1; [|lia]. rewrite wsub_ok by lia. cbn [bind]. rewrite wmul_ok by lia. cbn [bind].
    destruct (m * (q - 1) <? n) eqn:E2; [reflexivity|lia].
  - intros H. unfold prop_ceil_div. destruct (N.le_gt_cases (2 ^ 64) (n * m)) as [Hp|Hp].
    + unfold wmul, wrap. rewrite Hd. destruct (n * m <? 2 ^ 64) eqn:E; [lia|]. eexists; reflexivity.
    + rewrite wmul_ok by lia. cbn [bind]. destruct (n * m =? 0) eqn:E0; [lia|]. destruct (C05_overflow_detected_with_checks c 64 n m Hd ltac:(lia)) as (k & ->). eexists; reflexivity.
Qed.

(** ** Broadword: the three properties hold of every word *)
Theorem C80_count_ones : forall c x, wf_cfg c -> x < 2 ^ 64 -> count_ones_prop c x = Ok true.
Proof. intros c x Hc Hx. unfold count_ones_prop. rewrite bw_count_ones_ok by auto. cbn [bind]. now rewrite N.eqb_refl. Qed.

Theorem C80_select1 : forall c fuel r x, wf_cfg c -> r < 2 ^ 8 -> x < 2 ^ 64 -> (64 < fuel)%nat ->
  select1_prop c fuel r x = Ok (if 64 <? r then None else Some true).
Proof.
  intros c fuel r x Hc Hr Hx Hf. unfold select1_prop. destruct (64 <? r) eqn:E; [reflexivity|].
  destruct (C39_select1_partial c r x Hc Hx ltac:(lia)) as (o & Eo & H1 & H2). rewrite Eo. cbn [bind].
  assert (LR : lawful_rank (prim_bitrank c 64) (fun x l => x < 2 ^ 64 /\ l = bits_of 64 x)) by (apply (proj2 (proj2 (C35_rank_structures _ c (prim_bitvec c 64) (R_prim 64) Hc (prim_lawful_bits c 64 Hc wf64) (prim_lawful_blocks c 64 Hc wf64))) 64 wf64)).
  destruct (bss_select1_ok c _ _ LR x (bits_of 64 x) r fuel (conj Hx eq_refl) ltac:(lia) Hf) as (o' & E' & Ho').
  rewrite E'. cbn [bind]. assert (o' = o) as ->.
  { destruct o' as [q|]; symmetry; [now apply H1|now apply H2]. }
  destruct o; [now rewrite N.eqb_refl|reflexivity].
Qed.

Lemma bytes_ok_all check : (forall i, i < 8 -> check i = Ok true) -> bytes_ok check 8 0 = Ok true.
Proof.
  intros H. assert (K : forall k i, i + N.of_nat k <= 8 -> bytes_ok check k i = Ok true).
  { induction k as [|k IH]; intros i Hi; [reflexivity|]. cbn [bytes_ok]. rewrite H by lia. cbn [bind]. apply IH. lia. }
  apply K. cbn. lia.
Qed.
Lemma field_byte x i : field x (8 * i) 8 = byte_at x i.
Proof. unfold field, byte_at. rewrite N.land_ones, N.shiftr_div_pow2. reflexivity. Qed.
Lemma flag_byte r (f : N -> bool) i : i < 8 -> (forall j, N.testbit r j = (j mod 8 =? 7) && (j <? 64) && f (j / 8)) -> byte_at r i = if f i then 128 else 0.
Proof.
  intros Hi H. apply N.bits_inj. intros k. unfold byte_at. change 256 with (2 ^ 8). rewrite <- N.shiftr_div_pow2.
  destruct (k <? 8) eqn:Ek.
  - rewrite N.mod_pow2_bits_low by lia. rewrite N.shiftr_spec', H.
    assert (E1 : (k + 8 * i) mod 8 = k) by (rewrite N.mul_comm, N.mod_add by discriminate; apply N.mod_small; lia).
    assert (E2 : (k + 8 * i) / 8 = i) by (rewrite N.mul_comm, N.div_add by discriminate; rewrite N.div_small by lia; lia).
    rewrite E1, E2. destruct (k + 8 * i <? 64) eqn:E3; [|lia]. rewrite Bool.andb_true_r.
    assert (k = 0 \/ k = 1 \/ k = 2 \/ k = 3 \/ k = 4 \/ k = 5 \/ k = 6 \/ k = 7) as [->|[->|[->|[->|[->|[->|[->| ->]]]]]]] by lia; destruct (f i); reflexivity.
  - rewrite N.mod_pow2_bits_high by lia. destruct (f i); [|now rewrite N.bits_0].
    change 128 with (2 ^ 7). symmetry. apply N.pow2_bits_false. lia.
Qed.
Theorem C80_u_nz8 : forall c n, wf_cfg c -> n < 2 ^ 64 -> u_nz8_prop c n = Ok true.
Proof.
  intros c n Hc Hn. unfold u_nz8_prop. destruct (C40_u_nz8 c n Hn) as (r & E & Hr). rewrite E. cbn [bind].
  assert (Hr64 : r < 2 ^ 64).
  { destruct (N.eq_dec r 0) as [->|Hz]; [reflexivity|]. apply N.log2_lt_pow2; [lia|]. destruct (N.le_gt_cases 64 (N.log2 r)) as [Hl|Hl]; [|exact Hl].
    pose proof (N.bit_log2 r Hz) as Hb. rewrite Hr in Hb. destruct (N.log2 r <? 64) eqn:El; [lia|]. rewrite Bool.andb_false_r in Hb. discriminate. }
  apply bytes_ok_all. intros i Hi. rewrite !blk_get_bits_ok by (auto with wf; lia). cbn [bind]. rewrite !field_byte.
  rewrite (flag_byte r (fun i => negb (byte_at n i =? 0)) i Hi Hr). destruct (byte_at n i =? 0); reflexivity.
Qed.
Theorem C80_u_le8 : forall c n m, wf_cfg c -> n < 2 ^ 64 -> m < 2 ^ 64 -> u_le8_prop c n m = Ok true.
Proof.
  intros c n m Hc Hn Hm. unfold u_le8_prop. destruct (C40_u_le8 c n m Hn Hm) as (r & E & Hr). rewrite E. cbn [bind].
  assert (Hr64 : r < 2 ^ 64).
  { destruct (N.eq_dec r 0) as [->|Hz]; [reflexivity|]. apply N.log2_lt_pow2; [lia|]. destruct (N.le_gt_cases 64 (N.log2 r)) as [Hl|Hl]; [|exact Hl].
    pose proof (N.bit_log2 r Hz) as Hb. rewrite Hr in Hb. destruct (N.log2 r <? 64) eqn:El; [lia|]. rewrite Bool.andb_false_r in Hb. discriminate. }
  apply bytes_ok_all. intros i Hi. rewrite !blk_get_bits_ok by (auto with wf; lia). cbn [bind]. rewrite !field_byte.
  rewrite (flag_byte r (fun i => byte_at n i <=? byte_at m i) i Hi Hr). destruct (byte_at n i <=? byte_at m i); reflexivity.
Qed.

(** ** The codes: every list is decoded as it was encoded, as long as the values plus one can be encoded *)
(** [v] is what the property encodes for [i], and from which it recovers [i]. *)
Definition shifted (c : cfg) (i v : N) : Prop := wadd c 64 i 1 = Ok v /\ wsub c 64 v 1 = Ok i.
Lemma cd_encode_ok c C vs ws : Forall2 (fun i w => exists u, wadd c 64 i 1 = Ok u /\ encodes C u w) vs ws ->
  exists n0, forall fuel, (n0 <= fuel)%nat -> forall more dv, cd_encode c C fuel (vs ++ more) dv = cd_encode c C fuel more (dv ++ concat ws).
Proof.
  induction 1 as [|i w vs ws (u & H1 & [n2 K2]) HF [n1 K1]].
  - exists O. intros. cbn. now rewrite app_nil_r.
  - exists (n1 + n2)%nat. intros fuel Hf more dv. cbn [cd_encode app]. rewrite H1. cbn [bind]. rewrite (K2 fuel ltac:(lia)), write_all_deque. cbn [bind].
    rewrite K1 by lia. cbn [concat]. now rewrite app_assoc.
Qed.
Lemma cd_loop_ok c C vs ws : Forall2 (fun j w => exists u, wsub c 64 u 1 = Ok j /\ decodes C w u) vs ws -> clean_end C ->
  exists n0, forall fuel k, (n0 <= fuel)%nat -> (length vs < k)%nat -> forall acc,
  loop_fuel k (fun st : list bool * list N =>
    let '(dv, vec2) := st in
    r <- decode C deque_source fuel dv ;;
    match r with
    | (IOk (Some i), dv') => j <- wsub c 64 i 1 ;; Ok (Continue (dv', vec2 ++ [j]))
    | _ => Ok (Return vec2)
    end) (concat ws, acc) = Ok (acc ++ vs).
Proof.
  intros H HC. induction H as [|j w vs ws (u & H1 & [n2 K2]) HF [n1 K1]].
  - destruct HC as [n0 HC]. exists n0. intros fuel k Hf Hk acc. destruct k as [|k]; [cbn in Hk; lia|]. cbn [loop_fuel concat].
    rewrite (HC fuel Hf _ deque_source [] []) by reflexivity. cbn [bind]. now rewrite app_nil_r.
  - exists (n1 + n2)%nat. intros fuel k Hf Hk acc. destruct k as [|k]; [cbn in Hk; lia|]. cbn [loop_fuel concat].
    rewrite (K2 fuel ltac:(lia) _ deque_source _ _ (reads_deque w (concat ws))). cbn [bind]. rewrite H1. cbn [bind].
    rewrite K1 by (cbn in Hk; lia). now rewrite <- app_assoc.
Qed.
Lemma code_decode_gen c C vs vs' ws : Forall2 (fun i w => exists u, wadd c 64 i 1 = Ok u /\ encodes C u w) vs ws ->
  Forall2 (fun j w => exists u, wsub c 64 u 1 = Ok j /\ decodes C w u) vs' ws -> clean_end C ->
  exists n0, forall fuel, (n0 <= fuel)%nat -> code_decode c C fuel vs = Ok (if list_eq_dec N.eq_dec vs vs' then true else false).
Proof.
  intros HE HD HC. destruct (cd_encode_ok c C vs ws HE) as [n1 K1]. destruct (cd_loop_ok c C vs' ws HD HC) as [n2 K2].
  exists (n1 + n2 + Datatypes.S (length vs'))%nat. intros fuel Hf. unfold code_decode. rewrite <- (app_nil_r vs) at 1. rewrite K1 by lia. cbn [bind app cd_encode].
  unfold cd_decode. rewrite K2 by lia. cbn [bind app]. destruct (list_eq_dec N.eq_dec vs' vs), (list_eq_dec N.eq_dec vs vs'); congruence.
Qed.
Lemma shifted_encodes c C vs us ws : Forall2 (shifted c) vs us -> Forall2 (codeword C) us ws ->
  Forall2 (fun i w => exists u, wadd c 64 i 1 = Ok u /\ encodes C u w) vs ws.
Proof.
  intros HS. revert ws. induction HS as [|v u vs us [H1 _] HS IH]; intros ws H; inversion H as [|? w ? ws' W HW]; subst; constructor; [|now apply IH].
  exists u. split; [exact H1|exact (cw_encodes _ _ _ W)].
Qed.
Lemma shifted_decodes c C vs us ws : Forall2 (shifted c) vs us -> Forall2 (codeword C) us ws ->
  Forall2 (fun i w => exists u, wsub c 64 u 1 = Ok i /\ decodes C w u) vs ws.
Proof.
  intros HS. revert ws. induction HS as [|v u vs us [_ H1] HS IH]; intros ws H; inversion H as [|? w ? ws' W HW]; subst; constructor; [|now apply IH].
  exists u. split; [exact H1|exact (cw_decodes _ _ _ W)].
Qed.
Lemma code_decode_ok c C vs us ws : Forall2 (shifted c) vs us -> Forall2 (codeword C) us ws -> clean_end C ->
  exists n0, forall fuel, (n0 <= fuel)%nat -> code_decode c C fuel vs = Ok true.
Proof.
  intros HS HW HC. destruct (code_decode_gen c C vs vs ws (shifted_encodes c C vs us ws HS HW) (shifted_decodes c C vs us ws HS HW) HC) as [n0 K].
  exists n0. intros fuel Hf. rewrite (K fuel Hf). destruct (list_eq_dec N.eq_dec vs vs); [reflexivity|contradiction].
Qed.
Lemma shifted_small c vs : Forall (fun i => i + 1 < 2 ^ 64) vs -> Forall2 (shifted c) vs (map (fun i => i + 1) vs).
Proof.
  induction 1 as [|i vs H HF IH]; constructor; [|exact IH]. split; [now apply wadd_ok|]. rewrite wsub_ok by lia. f_equal. lia.
Qed.
Theorem C80_code_decode : forall c strict C D vec, wf_cfg c -> provided c strict C D -> Forall (fun i => i + 1 < 2 ^ 64 /\ D (i + 1)) vec ->
  exists n0, forall fuel, (n0 <= fuel)%nat -> code_decode c C fuel vec = Ok true.
Proof.
  intros c strict C D vec Hc HP HF.
  destruct (provided_words c strict C D (map (fun i => i + 1) vec) Hc HP) as (ws & Hws).
  { apply Forall_map. eapply Forall_impl; [|exact HF]. cbn; tauto. }
  apply (code_decode_ok c C vec (map (fun i => i + 1) vec) ws); [|exact Hws|exact (provided_clean c strict C D HP)].
  apply shifted_small. eapply Forall_impl; [|exact HF]. cbn; tauto.
Qed.
(** [u64::MAX] is the one value for which the property adds one and overflows.  With overflow checks it panics. *)
Theorem C80_max_checked : forall c strict C D pre post, wf_cfg c -> debug c = true -> provided c strict C D ->
  Forall (fun i => i + 1 < 2 ^ 64 /\ D (i + 1)) pre ->
  exists n0, forall fuel, (n0 <= fuel)%nat -> panics (code_decode c C fuel (pre ++ (2 ^ 64 - 1) :: post)).
Proof.
  intros c strict C D vec post Hc Hd HP HF.
  destruct (provided_words c strict C D (map (fun i => i + 1) vec) Hc HP) as (ws & Hws).
  { apply Forall_map. eapply Forall_impl; [|exact HF]. cbn; tauto. }
  destruct (cd_encode_ok c C vec ws (shifted_encodes c C vec _ ws (shifted_small c vec ltac:(eapply Forall_impl; [|exact HF]; cbn; tauto)) Hws)) as [n0 K].
  exists n0. intros fuel Hf. unfold code_decode. rewrite K by exact Hf. cbn [cd_encode]. unfold wadd, wrap. rewrite Hd. eexists; reflexivity.
Qed.
(** Without them the value becomes 0: the Elias codes (so gamma and delta) and Fibonacci panic, the comma codes pass all the same. *)
Theorem C80_max_elias : forall c H fuel post, debug c = false -> panics (code_decode c (elias c H) fuel ((2 ^ 64 - 1) :: post)).
Proof.
  intros c H fuel post Hd. unfold code_decode. cbn [cd_encode]. unfold wadd, wrap. rewrite Hd. change (2 ^ 64 - 1 + 1 <? 2 ^ 64) with false. cbv iota. cbn [bind].
  change ((2 ^ 64 - 1 + 1) mod 2 ^ 64) with 0. destruct (C47_zero_panics c H _ deque_sink fuel []) as (k & ->). eexists; reflexivity.
Qed.
Theorem C80_max_fibonacci : forall c fuel post, debug c = false -> panics (code_decode c (fibonacci c) fuel ((2 ^ 64 - 1) :: post)).
Proof.
  intros c fuel post Hd. unfold code_decode. cbn [cd_encode]. unfold wadd, wrap. rewrite Hd. change (2 ^ 64 - 1 + 1 <? 2 ^ 64) with false. cbv iota. cbn [bind].
  change ((2 ^ 64 - 1 + 1) mod 2 ^ 64) with 0. destruct (C50_zero_panics c _ deque_sink fuel []) as (k & ->). eexists; reflexivity.
Qed.
Theorem C80_comma_unchecked : forall c n vec, wf_cfg c -> debug c = false -> 2 <= n <= 63 -> Forall (fun i => i < 2 ^ 64) vec ->
  exists n0, forall fuel, (n0 <= fuel)%nat -> code_decode c (comma c n) fuel vec = Ok true.
Proof.
  intros c n vec Hc Hd Hn HF. pose (us := map (fun i => (i + 1) mod 2 ^ 64) vec).
  destruct (provided_words c true (comma c n) _ us Hc (pr_comma c n Hn)) as (ws & Hws).
  { apply Forall_map. apply Forall_forall. intros i _. apply N.mod_lt. discriminate. }
  apply (code_decode_ok c _ vec us ws); [|exact Hws|exact (provided_clean c true _ _ (pr_comma c n Hn))].
  subst us. clear Hws. induction HF as [|i vs Hi HF IH]; constructor; [|exact IH]. split.
  - unfold wadd, wrap. rewrite Hd. destruct (i + 1 <? 2 ^ 64) eqn:E; [|reflexivity]. now rewrite N.mod_small by lia.
  - destruct (i + 1 <? 2 ^ 64) eqn:E.
    + rewrite N.mod_small by lia. rewrite wsub_ok by lia. f_equal. lia.
    + replace i with (2 ^ 64 - 1) by lia. unfold wsub. rewrite Hd. reflexivity.
Qed.
(** The Fibonacci code refuses large values, and the property unwraps the error. *)
Theorem C80_fibonacci_large : forall c i post, fib_max <= i + 1 < 2 ^ 64 -> exists n0, forall fuel, (n0 <= fuel)%nat ->
  panics (code_decode c (fibonacci c) fuel (i :: post)).
Proof.
  intros c i post Hi. destruct (C50_too_large c (i + 1) ltac:(lia)) as [n0 K]. exists n0. intros fuel Hf. unfold code_decode. cbn [cd_encode].
  rewrite wadd_ok by lia. cbn [bind]. rewrite (K fuel Hf). eexists; reflexivity.
Qed.
(** Omega writes the 0 as a 1, which is read back as the value 0: the property is false exactly for the lists with [u64::MAX]. *)
Theorem C80_omega_unchecked : forall c vec, wf_cfg c -> debug c = false -> Forall (fun i => i < 2 ^ 64) vec ->
  exists n0 b, (forall fuel, (n0 <= fuel)%nat -> code_decode c (omega c) fuel vec = Ok b) /\ (b = false <-> In (2 ^ 64 - 1) vec).
Proof.
  intros c vec Hc Hd HF.
  pose (us := map (fun i => if i =? 2 ^ 64 - 1 then 1 else i + 1) vec). pose (vec' := map (fun i => if i =? 2 ^ 64 - 1 then 0 else i) vec).
  destruct (provided_words c true (omega c) _ us Hc (pr_omega c)) as (ws & Hws).
  { apply Forall_map. eapply Forall_impl; [|exact HF]. cbn beta. intros i Hi. destruct (i =? 2 ^ 64 - 1) eqn:E; [split; reflexivity|]. lia. }
  destruct (code_decode_gen c (omega c) vec vec' ws) as [n0 K].
  - subst us vec'. clear - Hd HF Hws. revert ws Hws. induction HF as [|i vs Hi HF IH]; intros ws Hws; inversion Hws as [|? w ? ws' W HW]; subst; constructor; [|now apply IH].
    destruct (cw_encodes _ _ _ W) as [n1 K1]. destruct (i =? 2 ^ 64 - 1) eqn:E.
    + exists 0. split; [apply N.eqb_eq in E; subst i; unfold wadd, wrap; rewrite Hd; reflexivity|]. exists n1. intros fuel Hf T snk t. rewrite C49_zero_as_one. now apply K1.
    + exists (i + 1). split; [apply wadd_ok; lia|]. now exists n1.
  - subst us vec'. clear - Hd HF Hws. revert ws Hws. induction HF as [|i vs Hi HF IH]; intros ws Hws; inversion Hws as [|? w ? ws' W HW]; subst; constructor; [|now apply IH].
    eexists. split; [|exact (cw_decodes _ _ _ W)]. destruct (i =? 2 ^ 64 - 1) eqn:E; [reflexivity|]. rewrite wsub_ok by lia. f_equal. lia.
  - exact (provided_clean c true _ _ (pr_omega c)).
  - exists n0, (if list_eq_dec N.eq_dec vec vec' then true else false). split; [exact K|].
    subst vec'. clear. induction vec as [|i vec IH]; [cbn; intuition congruence|].
    destruct (list_eq_dec N.eq_dec (i :: vec) _) as [e|n].
    + split; [discriminate|]. injection e as e1 e2. intros [->|HI]; [rewrite N.eqb_refl in e1; discriminate|].
      rewrite <- IH in HI. destruct (list_eq_dec N.eq_dec vec _) in HI; [discriminate|contradiction].
    + split; [intros _|reflexivity]. destruct (i =? 2 ^ 64 - 1) eqn:E; [left; now apply N.eqb_eq|].
      right. apply IH. destruct (list_eq_dec N.eq_dec vec _) as [e|]; [|reflexivity]. exfalso. apply n. cbn. rewrite E. now rewrite <- e.
Qed.

Example C80_ex : wf_cfg dbg64 /\ 1 <= 1000 < 2 ^ 63 /\ prop_floor_lg dbg64 1000 = Ok (Some true) /\ prop_floor_lg rel64 (2 ^ 63) = Ok (Some false) /\
  prop_ceil_lg dbg64 (2 ^ 63) = Ok (Some true) /\ prop_ceil_lg dbg64 (2 ^ 63 + 1) = Panic POverflow /\
  prop_ceil_div dbg64 1000 7 = Ok (Some true) /\ prop_ceil_div rel64 (2 ^ 63 + 5) (2 ^ 63 + 1) = Ok (Some false) /\ prop_ceil_div rel64 (2 ^ 40) (2 ^ 40) = Ok None /\
  prop_ceil_div dbg64 1 (2 ^ 64 - 1) = Panic POverflow /\
  count_ones_prop dbg64 0xdeadbeef = Ok true /\ select1_prop dbg64 70 9 0xdeadbeef = Ok (Some true) /\ select1_prop dbg64 70 65 3 = Ok None /\
  u_nz8_prop rel32 0xff00000000001200 = Ok true /\ u_le8_prop rel32 0xff00000000001200 0x8000000000001300 = Ok true.
Proof. split; [auto with wf|]. vm_compute. intuition congruence. Qed.
Example C80_codes_ex : provided dbg64 false (fibonacci dbg64) (fun v => 1 <= v < fib_max) /\ Forall (fun i => i + 1 < 2 ^ 64 /\ 1 <= i + 1 < fib_max) [0; 5; 10 ^ 15] /\
  code_decode dbg64 (fibonacci dbg64) 100 [0; 5; 10 ^ 15] = Ok true /\ code_decode rel64 (comma rel64 3) 100 [7; 2 ^ 64 - 1] = Ok true /\
  code_decode dbg64 (delta dbg64) 100 [0; 2 ^ 64 - 2] = Ok true /\ code_decode rel32 (fibonacci rel32) 100 [2 ^ 64 - 2] = Panic PExpect /\
  code_decode rel64 (omega rel64) 100 [3; 2 ^ 64 - 1] = Ok false /\ code_decode rel64 (omega rel64) 100 [3; 2 ^ 64 - 2] = Ok true.
Proof. split; [constructor|]. split; [repeat constructor; vm_compute; congruence|]. vm_compute. intuition congruence. Qed.

Print Assumptions C80_floor_lg.
Print Assumptions C80_ceil_lg.
Print Assumptions C80_ceil_div_unchecked.
Print Assumptions C80_ceil_div_checked.
Print Assumptions C80_count_ones.
Print Assumptions C80_select1.
Print Assumptions C80_u_nz8.
Print Assumptions C80_u_le8.
Print Assumptions C80_code_decode.
Print Assumptions C80_max_checked.
Print Assumptions C80_max_elias.
Print Assumptions C80_max_fibonacci.
Print Assumptions C80_comma_unchecked.
Print Assumptions C80_fibonacci_large.
Print Assumptions C80_omega_unchecked.
