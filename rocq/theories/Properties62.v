(** * Property C116: masks, logarithms and addresses, for every argument. *)
From Verif Require Import Machine MStorage MDerive2 SpecCfg PBase PStorage Properties18.

(** ** Masks *)
Theorem C116_low_mask : forall c nb k,
  wf_cfg c -> wf_nb nb -> nb < k -> k < 2 ^ ptr c ->
  (debug c = true -> panics (low_mask c nb k) /\ panics (default_low_mask c nb k)) /\
  (debug c = false ->
    low_mask c nb k = Ok (if N.odd (k / nb) then 2 ^ nb - 1 else 2 ^ (k mod nb) - 1) /\
    default_low_mask c nb k = Ok (2 ^ (k mod nb) - 1) /\
    (low_mask c nb k = default_low_mask c nb k <-> N.odd (k / nb) = false)).
Proof.
  intros c nb k Hc Hn Hk Hp. pose proof (wf_nb_range nb Hn). split; intros Hd.
  - unfold low_mask, default_low_mask, debug_assert. rewrite Hd, (proj2 (N.leb_gt k nb)) by lia. cbn [bind]. split; eexists; reflexivity.
  - assert (L : low_mask c nb k = Ok (if N.odd (k / nb) then 2 ^ nb - 1 else 2 ^ (k mod nb) - 1)).
    { rewrite (low_mask_release c nb k Hc Hn Hd Hp). unfold wrapped_mask. destruct (N.odd (k / nb)); rewrite ones_eq; reflexivity. }
    assert (M : default_low_mask c nb k = Ok (2 ^ (k mod nb) - 1)).
    { unfold default_low_mask, debug_assert, wshl. rewrite Hd. cbn [bind]. rewrite (proj2 (N.eqb_neq k nb)), (proj2 (N.ltb_ge k nb)) by lia. cbn [bind].
      rewrite N.shiftl_1_l. pose proof (N.mod_lt k nb). assert (2 ^ (k mod nb) < 2 ^ nb) by (apply N.pow_lt_mono_r; lia).
      pose proof (pow2_pos (k mod nb)). rewrite N.mod_small by assumption. now rewrite wsub_ok by lia. }
    split; [exact L|]. split; [exact M|]. rewrite L, M. destruct (N.odd (k / nb)); split; intros E; try reflexivity; try discriminate.
    exfalso. assert (E' : 2 ^ nb - 1 = 2 ^ (k mod nb) - 1) by congruence. pose proof (N.mod_lt k nb).
    assert (2 ^ (k mod nb) < 2 ^ nb) by (apply N.pow_lt_mono_r; lia). pose proof (pow2_pos (k mod nb)). lia.
Qed.
Example C116_low_mask_ex : low_mask rel64 8 11 = Ok 255 /\ default_low_mask rel64 8 11 = Ok 7 /\
  low_mask rel32 16 37 = Ok 31 /\ default_low_mask rel32 16 37 = Ok 31 /\ low_mask dbg64 8 11 = Panic PDebug.
Proof. repeat (split; [vm_compute; reflexivity|]). vm_compute. reflexivity. Qed.

Theorem C116_nth_mask : forall c nb i,
  wf_nb nb ->
  (i < nb -> nth_mask c nb i = Ok (2 ^ i)) /\
  (nb <= i -> if debug c then panics (nth_mask c nb i) else nth_mask c nb i = Ok (2 ^ (i mod nb))).
Proof.
  intros c nb i Hn. pose proof (wf_nb_range nb Hn). split; intros Hi; [now apply nth_mask_ok|].
  unfold nth_mask, wshl. rewrite (proj2 (N.ltb_ge i nb)) by exact Hi. destruct (debug c); [eexists; reflexivity|].
  rewrite N.shiftl_1_l, N.mod_small; [reflexivity|]. apply N.pow_lt_mono_r; [lia|]. apply N.mod_lt. lia.
Qed.
Example C116_nth_mask_ex : nth_mask rel64 16 21 = Ok 32 /\ nth_mask dbg64 16 21 = Panic POverflow /\ nth_mask dbg64 16 15 = Ok 32768.
Proof. repeat (split; [vm_compute; reflexivity|]). vm_compute. reflexivity. Qed.

(** ** Logarithms: the two agree on the powers of two, on zero and on no other number *)
Theorem C116_logarithms : forall c w x,
  x < 2 ^ w ->
  exists f g, floor_lg c w x = Ok f /\ ceil_lg c w x = Ok g /\ f <= g <= f + 1 /\
    (f = g <-> x = 0 \/ exists n, x = 2 ^ n) /\ (x = 0 -> f = 0) /\ (x <= 1 -> g = 0) /\ (0 < w -> f < w) /\ g <= w.
Proof.
  intros c w x Hx. exists (N.log2 x), (N.log2_up x).
  assert (F : floor_lg c w x = Ok (N.log2 x)).
  { destruct (N.eq_dec x 0) as [->|H0]; [reflexivity|]. apply floor_lg_ok; [lia|exact Hx]. }
  split; [exact F|]. split; [now apply ceil_lg_ok|].
  destruct (N.eq_dec x 0) as [->|H0].
  { change (N.log2 0) with 0. change (N.log2_up 0) with 0. split; [lia|]. split; [split; intros; auto|]. split; [reflexivity|]. split; [reflexivity|]. split; lia. }
  assert (0 < x) by lia. pose proof (N.le_log2_log2_up x) as L1. pose proof (N.le_log2_up_succ_log2 x) as L2.
  split; [lia|]. split.
  { split.
    - intros E. right. exists (N.log2 x). destruct (N.log2_spec x ltac:(lia)) as [A _].
      destruct (N.eq_dec x 1) as [->|H1]; [reflexivity|]. destruct (N.log2_up_spec x ltac:(lia)) as [_ B]. rewrite <- E in B. lia.
    - intros [E|[n ->]]; [lia|]. rewrite N.log2_pow2, N.log2_up_pow2 by lia. reflexivity. }
  split; [lia|]. split; [intros; apply N.log2_up_null; lia|].
  pose proof (log2_lt_pow2 x w ltac:(lia) Hx). split; [intros; lia|lia].
Qed.
Example C116_logarithms_ex : floor_lg dbg64 8 200 = Ok 7 /\ ceil_lg dbg64 8 200 = Ok 8 /\ floor_lg dbg64 8 64 = Ok 6 /\ ceil_lg dbg64 8 64 = Ok 6.
Proof. repeat (split; [vm_compute; reflexivity|]). vm_compute. reflexivity. Qed.

(** ** Addresses: the fields are public, so any pair of numbers is one *)
Theorem C116_bit_index : forall c nb a,
  wf_cfg c -> wf_nb nb -> block_index a < 2 ^ ptr c -> bit_offset a < 2 ^ ptr c ->
  let x := (block_index a * nb) mod 2 ^ 64 + bit_offset a in
  (x < 2 ^ 64 -> address_bit_index c nb a = Ok x) /\
  (2 ^ 64 <= x -> if debug c then panics (address_bit_index c nb a) else address_bit_index c nb a = Ok (x - 2 ^ 64)) /\
  (ptr c = 32 -> x = block_index a * nb + bit_offset a /\ x < 2 ^ 64).
Proof.
  intros c nb a Hc Hn Hb Ho x. pose proof (wf_nb_range nb Hn). pose proof (wf_ptr c Hc).
  assert (P64 : 2 ^ ptr c <= 2 ^ 64) by (destruct Hc as [E|E]; rewrite E; vm_compute; congruence).
  assert (Hb64 : block_index a < 2 ^ 64) by (apply N.lt_le_trans with (2 ^ ptr c); assumption).
  assert (Ho64 : bit_offset a < 2 ^ 64) by (apply N.lt_le_trans with (2 ^ ptr c); assumption).
  pose proof (N.mod_lt (block_index a * nb) (2 ^ 64) ltac:(lia)) as Hm.
  unfold address_bit_index. rewrite (proj2 (C07_wrapped c nb (block_index a) Hc Hn Hb64)). cbn [bind]. unfold wadd, wrap. fold x.
  split; [intros Hx; now rewrite (proj2 (N.ltb_lt _ _) Hx)|]. split.
  - intros Hx. rewrite (proj2 (N.ltb_ge _ _) Hx). destruct (debug c); [eexists; reflexivity|]. f_equal. symmetry. apply (N.mod_unique _ _ 1); lia.
  - intros E. unfold x. rewrite E in *. rewrite (N.mod_small (block_index a * nb)) by nia. split; [reflexivity|nia].
Qed.
Example C116_bit_index_ex : address_bit_index dbg64 8 {| block_index := 2; bit_offset := 21 |} = Ok 37 /\
  address_bit_index rel64 8 {| block_index := 2 ^ 61 + 1; bit_offset := 2 |} = Ok 10 /\
  address_bit_index dbg64 8 {| block_index := 2 ^ 61 - 1; bit_offset := 9 |} = Panic POverflow /\
  address_bit_index rel64 8 {| block_index := 2 ^ 61 - 1; bit_offset := 9 |} = Ok 1.
Proof. repeat (split; [vm_compute; reflexivity|]). vm_compute. reflexivity. Qed.

(** An address is the one that [Address::new] makes of its position exactly when it is within its block and its position is below
    [2^64]; two such addresses with the same position are equal, and the order of the addresses is that of the positions. *)
Theorem C116_address : forall c nb a,
  wf_cfg c -> wf_nb nb -> block_index a < 2 ^ ptr c -> bit_offset a < 2 ^ ptr c ->
  ((exists i, i < 2 ^ 64 /\ address_new c nb i = Ok a) <-> bit_offset a < nb /\ block_index a * nb < 2 ^ 64) /\
  (forall i, address_bit_index c nb a = Ok i -> (address_new c nb i = Ok a <-> bit_offset a < nb /\ block_index a * nb < 2 ^ 64)).
Proof.
  intros c nb a Hc Hn Hb Ho. pose proof (wf_nb_range nb Hn) as Hr.
  assert (E64 : 2 ^ 64 = 2 ^ 64 / nb * nb) by (destruct Hn as [E|[E|[E|E]]]; rewrite E; reflexivity).
  assert (New : forall i, i < 2 ^ 64 -> address_new c nb i = Ok a -> bit_offset a < nb /\ block_index a * nb < 2 ^ 64 /\ i = block_index a * nb + bit_offset a).
  { intros i Hi E. destruct (N.lt_ge_cases (i / nb) (2 ^ ptr c)) as [H|H].
    - rewrite (address_new_ok c nb i Hc Hn H) in E. injection E as <-. cbn [block_index bit_offset].
      pose proof (N.mod_lt i nb ltac:(lia)). pose proof (N.div_mod i nb ltac:(lia)). lia.
    - rewrite (address_new_panic c nb i Hc Hn H) in E. discriminate. }
  assert (Old : bit_offset a < nb -> block_index a * nb < 2 ^ 64 ->
    block_index a * nb + bit_offset a < 2 ^ 64 /\ address_new c nb (block_index a * nb + bit_offset a) = Ok a).
  { intros H1 H2. split.
    - assert (block_index a < 2 ^ 64 / nb) by nia. rewrite E64. nia.
    - assert (D : (block_index a * nb + bit_offset a) / nb = block_index a) by (symmetry; apply (N.div_unique _ _ _ (bit_offset a)); lia).
      assert (M : (block_index a * nb + bit_offset a) mod nb = bit_offset a) by (symmetry; apply (N.mod_unique _ _ (block_index a)); lia).
      rewrite address_new_ok by (auto; now rewrite D). rewrite D, M. now destruct a. }
  split.
  - split; [intros (i & Hi & E); destruct (New i Hi E) as (A & B & _); auto|]. intros [A B]. destruct (Old A B) as [C D]. eauto.
  - intros i Ei. destruct (C116_bit_index c nb a Hc Hn Hb Ho) as (X & Y & _).
    set (x := (block_index a * nb) mod 2 ^ 64 + bit_offset a) in *.
    assert (Hi : i < 2 ^ 64).
    { destruct (N.lt_ge_cases x (2 ^ 64)) as [H|H]; [rewrite (X H) in Ei; congruence|]. specialize (Y H).
      destruct (debug c); [destruct Y as [p Y]; congruence|]. rewrite Y in Ei. injection Ei as <-.
      pose proof (N.mod_lt (block_index a * nb) (2 ^ 64) ltac:(lia)).
      assert (P64 : 2 ^ ptr c <= 2 ^ 64) by (destruct Hc as [E|E]; rewrite E; vm_compute; congruence).
      assert (bit_offset a < 2 ^ 64) by (apply N.lt_le_trans with (2 ^ ptr c); assumption). subst x. lia. }
    split; [intros E; destruct (New i Hi E) as (A & B & _); auto|]. intros [A B]. destruct (Old A B) as [C D].
    rewrite <- D. f_equal. assert (E : x = block_index a * nb + bit_offset a) by (subst x; rewrite N.mod_small by exact B; reflexivity).
    rewrite X in Ei by (rewrite E; exact C). congruence.
Qed.
Theorem C116_order : forall c nb a b i j,
  wf_cfg c -> wf_nb nb -> block_index a < 2 ^ ptr c -> block_index b < 2 ^ ptr c ->
  bit_offset a < nb -> bit_offset b < nb -> block_index a * nb < 2 ^ 64 -> block_index b * nb < 2 ^ 64 ->
  address_bit_index c nb a = Ok i -> address_bit_index c nb b = Ok j ->
  addr_cmp a b = (i ?= j) /\ addr_eq a b = (i =? j).
Proof.
  intros c nb a b i j Hc Hn Ha Hb Oa Ob Pa Pb Ei Ej. pose proof (wf_nb_range nb Hn) as Hr. pose proof (wf_ptr c Hc).
  assert (Hnp : nb < 2 ^ ptr c) by (destruct Hc as [E|E]; rewrite E; lia).
  assert (E64 : 2 ^ 64 = 2 ^ 64 / nb * nb) by (destruct Hn as [E|[E|[E|E]]]; rewrite E; reflexivity).
  assert (K : forall a i, block_index a < 2 ^ ptr c -> bit_offset a < nb -> block_index a * nb < 2 ^ 64 ->
    address_bit_index c nb a = Ok i -> i = block_index a * nb + bit_offset a).
  { intros a0 i0 H1 H2 H3 H4. destruct (C116_bit_index c nb a0 Hc Hn H1 ltac:(lia)) as (X & _). rewrite (N.mod_small _ _ H3) in X.
    assert (block_index a0 < 2 ^ 64 / nb) by nia. rewrite X in H4 by (rewrite E64; nia). congruence. }
  rewrite (K a i Ha Oa Pa Ei), (K b j Hb Ob Pb Ej). clear - Oa Ob. unfold addr_cmp, addr_eq.
  destruct (N.compare_spec (block_index a) (block_index b)) as [E|L|L].
  - rewrite E, N.eqb_refl. cbn [andb]. split.
    + destruct (N.compare_spec (bit_offset a) (bit_offset b)); symmetry; [apply N.compare_eq_iff|apply N.compare_lt_iff|apply N.compare_gt_iff]; lia.
    + destruct (N.eqb_spec (bit_offset a) (bit_offset b)); symmetry; [apply N.eqb_eq|apply N.eqb_neq]; lia.
  - rewrite (proj2 (N.eqb_neq (block_index a) (block_index b))) by lia. split; symmetry; [apply N.compare_lt_iff|apply N.eqb_neq]; nia.
  - rewrite (proj2 (N.eqb_neq (block_index a) (block_index b))) by lia. split; symmetry; [apply N.compare_gt_iff|apply N.eqb_neq]; nia.
Qed.
(** Outside their blocks, unequal addresses name the same bit, and their order is not that of the positions. *)
Example C116_address_ex : exists a b i,
  address_bit_index dbg64 8 a = Ok i /\ address_bit_index dbg64 8 b = Ok i /\ addr_eq a b = false /\
  (exists d j, address_bit_index dbg64 8 d = Ok j /\ j < i /\ addr_cmp d a = Gt).
Proof.
  exists {| block_index := 0; bit_offset := 21 |}, {| block_index := 2; bit_offset := 5 |}, 21.
  repeat (split; [vm_compute; reflexivity|]). exists {| block_index := 1; bit_offset := 0 |}, 8. repeat (split; [vm_compute; reflexivity|]). vm_compute. reflexivity.
Qed.

Print Assumptions C116_low_mask.
Print Assumptions C116_nth_mask.
Print Assumptions C116_logarithms.
Print Assumptions C116_bit_index.
Print Assumptions C116_address.
Print Assumptions C116_order.
