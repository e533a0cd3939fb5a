(** * Further exact behaviour where claims fail: C39 beyond the word, C49, C65. *)
From Verif Require Import Machine MStorage MTraits MVectorBase MIntVector MStream MCoding MRank MBroadword SpecBits SpecCfg SpecLaws SpecOps SpecRank SpecStream
  PBase PBits PBlocks PRun PIntVector PIntRun PStream PCoding PRank PBroadword PBroadword2 PBroadword3 PBroadword4 Properties4 Properties7.

(** ** C39: no argument makes selection panic; an answer below 72 is all that is known from 128 on, and from 192 to 255 the answer is
    always the wrong [Some 0]. *)
Theorem C39_never_panics : forall c r x, wf_cfg c -> x < 2 ^ 64 -> r < 2 ^ 64 ->
  exists o, bw_select1 c r x = Ok o /\ (forall p, o = Some p -> p < 72) /\ (192 <= r < 256 -> o = Some 0).
Proof.
  intros c r x Hc Hx Hr. destruct (N.lt_ge_cases r 64) as [Hs|Hs].
  - destruct (select1_raw_ok c r x Hc Hx ltac:(lia)) as (p & E & H). unfold bw_select1. rewrite E. cbn [bind]. eexists. split; [reflexivity|]. split; [|lia].
    intros q Hq. destruct (r <? count true (bits_of 64 x)).
    + destruct (p =? 72) eqn:E1; [discriminate|]. injection Hq as <-. destruct H. lia.
    + subst p. discriminate.
  - destruct (select1_raw_any c r x Hc Hx ltac:(lia)) as (p & E & H & H0). unfold bw_select1. rewrite E. cbn [bind]. eexists. split; [reflexivity|]. split.
    + intros q Hq. destruct (p =? 72) eqn:E1; [discriminate|]. injection Hq as <-. lia.
    + intros H192. now rewrite H0.
Qed.
Example C39_never_panics_ex : bw_select1 dbg64 200 (2 ^ 64 - 1) = Ok (Some 0) /\ bw_select1 dbg64 (2 ^ 64 - 1) (2 ^ 64 - 1) = Ok (Some 0) /\
  bw_select1 dbg32 128 0xff00ff0000f0 = Ok (Some 68).
Proof. vm_compute. repeat split; reflexivity. Qed.

(** From 64 on the right answer is None.  It is given exactly when 16 comparisons come out true: the numbers of ones in the first 8, 16, .., 64 bits
    and in the first 1, 2, .., 8 bits against the bytes of [r * 0x0101010101010101].  A byte below 128 wants at most that many ones, but one from
    128 on wants more than 128 less (the signed comparison of lanes is reversed for signs that differ, C40). *)
Definition lane_wants (ones y : N) : bool := if y <? 128 then ones <=? y else y - 128 <? ones.
Lemma lane_of_product r j : j < 8 -> lane (wrapping_mul 64 r L8) j = (r * 0x0101010101010101) / 256 ^ j mod 256.
Proof.
  intros Hj. unfold lane, wrapping_mul. change 255 with (N.ones 8). rewrite N.land_ones, N.shiftr_div_pow2. change (2 ^ 8) with 256. change L8 with 0x0101010101010101.
  set (a := r * 0x0101010101010101). clearbody a. change 256 with (2 ^ 8). rewrite <- N.pow_mul_r. apply N.bits_inj. intros i.
  destruct (N.lt_ge_cases i 8) as [Hi|Hi]; [|rewrite !N.mod_pow2_bits_high by lia; reflexivity].
  rewrite !N.mod_pow2_bits_low by lia. rewrite !N.div_pow2_bits. now rewrite N.mod_pow2_bits_low by lia.
Qed.
Theorem C39_beyond : forall c r x, wf_cfg c -> x < 2 ^ 64 -> 64 <= r < 2 ^ 64 ->
  let y j := (r * 0x0101010101010101) / 256 ^ j mod 256 in
  bw_select1 c r x = Ok None <->
  (forall j, j < 8 -> lane_wants (count true (firstnN (8 * (j + 1)) (bits_of 64 x))) (y j) = true /\
                      lane_wants (count true (firstnN (j + 1) (bits_of 64 x))) (y j) = true).
Proof.
  intros c r x Hc Hx Hr y. destruct (select1_raw_none c r x Hc Hx Hr) as (p & E & H). unfold bw_select1. rewrite E. cbn [bind].
  assert (Hy : forall j, j < 8 -> (passes (count_ones (x mod 2 ^ (8 * (j + 1)))) (lane (wrapping_mul 64 r L8) j) = true /\
      passes (count_ones (x mod 2 ^ (j + 1))) (lane (wrapping_mul 64 r L8) j) = true) <->
    (lane_wants (count true (firstnN (8 * (j + 1)) (bits_of 64 x))) (y j) = true /\ lane_wants (count true (firstnN (j + 1) (bits_of 64 x))) (y j) = true)).
  { intros j Hj. rewrite !bits_of_mod by lia. rewrite lane_of_product by exact Hj. reflexivity. }
  clearbody y. split.
  - intros HN j Hj. apply Hy; [exact Hj|]. apply H; [|exact Hj]. destruct (p =? 72) eqn:E1; [lia|discriminate].
  - intros HA. assert (p = 72) as -> by (apply H; intros j Hj; apply Hy; [exact Hj|]; apply HA; exact Hj). reflexivity.
Qed.
(** Just past the range of the theorem for small [r], the answer is right in one case only. *)
Theorem C39_next : forall c r x, wf_cfg c -> x < 2 ^ 64 -> 128 <= r < 256 -> bw_select1 c r x = Ok None <-> r = 128 /\ N.odd x = true.
Proof.
  intros c r x Hc Hx Hr. rewrite (C39_beyond c r x Hc Hx) by lia. cbv zeta.
  assert (Hy : forall j, j < 8 -> (r * 0x0101010101010101) / 256 ^ j mod 256 = r).
  { intros j Hj. rewrite <- lane_of_product by exact Hj. rewrite mul_const by lia. rewrite lane_word by (repeat constructor; unfold byte; lia).
    destruct (N.eq_dec j 0) as [->|]; [reflexivity|]. destruct (N.eq_dec j 1) as [->|]; [reflexivity|]. destruct (N.eq_dec j 2) as [->|]; [reflexivity|].
    destruct (N.eq_dec j 3) as [->|]; [reflexivity|]. destruct (N.eq_dec j 4) as [->|]; [reflexivity|]. destruct (N.eq_dec j 5) as [->|]; [reflexivity|].
    destruct (N.eq_dec j 6) as [->|]; [reflexivity|]. replace j with 7 by lia. reflexivity. }
  assert (H1 : count true (firstnN 1 (bits_of 64 x)) = N.b2n (N.odd x)).
  { rewrite bits_of_mod by lia. change (2 ^ 1) with 2. rewrite <- N.bit0_mod, N.bit0_odd. now destruct (N.odd x). }
  split.
  - intros HA. destruct (HA 0 ltac:(lia)) as [_ H]. rewrite Hy in H by lia. change (0 + 1) with 1 in H. rewrite H1 in H. unfold lane_wants in H.
    replace (r <? 128) with false in H by (symmetry; apply N.ltb_ge; lia). apply N.ltb_lt in H. destruct (N.odd x); cbn [N.b2n] in H; [split; [lia|reflexivity]|lia].
  - intros [-> Ho] j Hj. rewrite Hy by exact Hj. unfold lane_wants. change (128 <? 128) with false. cbv iota. rewrite Ho in H1. cbn [N.b2n] in H1.
    pose proof (count_mono true 1 (8 * (j + 1)) (bits_of 64 x) ltac:(lia)). pose proof (count_mono true 1 (j + 1) (bits_of 64 x) ltac:(lia)).
    split; apply N.ltb_lt; lia.
Qed.
Example C39_beyond_ex : bw_select1 dbg64 128 1 = Ok None /\ bw_select1 dbg64 128 6 = Ok (Some 71) /\ bw_select1 rel32 129 7 = Ok (Some 71) /\
  bw_select1 dbg64 (2 ^ 32 + 5) 0xf = Ok None /\ bw_select1 dbg64 256 2 = Ok (Some 56) /\ bw_select1 dbg64 300 1000 = Ok None.
Proof. vm_compute. repeat split; reflexivity. Qed.

(** ** C49: on every sink, Omega writes 0 exactly as it writes 1. *)
Theorem C49_zero_as_one : forall c fuel S (snk : sink S) s, encode (omega c) snk fuel 0 s = encode (omega c) snk fuel 1 s.
Proof. intros c fuel S snk s. cbn. unfold omega_encode. destruct fuel; reflexivity. Qed.
Example C49_zero_as_one_ex : encode (omega rel32) deque_sink 5 0 [true] = Ok (IOk tt, [true; false]).
Proof. reflexivity. Qed.

(** ** C65: every span that passes the last element panics, whether or not it stays within the blocks. *)
Theorem C65_tail_panics : forall c nb k t ops v off w i x,
  wf_cfg c -> wf_nb nb -> 1 <= k <= nb -> iprogram_ok c nb k t ops -> iv_ends c nb k t ops v ->
  off < 2 ^ 64 -> i < 2 ^ 64 -> 1 <= w <= nb -> x < 2 ^ nb -> iv_len v * k < i * w + off + w ->
  panics (iv_get_random c nb v off w i) /\ panics (iv_set_random c nb v off w i x).
Proof.
  intros c nb k t ops v off w i x Hc Hnb Hk O E Ho Hi Hw Hx Hl. destruct (iv_ends_R c nb k Hc Hnb Hk t ops v O E) as [xs [S HR]].
  rewrite (PIntVector.R_iv_len c nb k Hc Hnb Hk v xs HR) in Hl.
  pose proof (C19_get_random c nb k t ops v xs off w i Hc Hnb Hk O E S Ho Hi Hw) as G.
  pose proof (C19_set_random c nb k t ops v xs off w i x Hc Hnb Hk O E S Ho Hi Hw Hx) as G'.
  destruct (i * w + off + w <=? lengthN xs * k) eqn:E1; [lia|]. rewrite andb_false_r in G'. now split.
Qed.
Example C65_tail_ex : iv_len {| iv_bits := 5; iv_base := {| vb_len := 3; vb_vec := [9513] |} |} * 5 < 2 * 4 + 7 + 4 /\
  iv_get_random rel32 16 {| iv_bits := 5; iv_base := {| vb_len := 3; vb_vec := [9513] |} |} 7 4 1 = Ok 4 /\
  panics (iv_get_random rel32 16 {| iv_bits := 5; iv_base := {| vb_len := 3; vb_vec := [9513] |} |} 7 4 2).
Proof. split; [reflexivity|]. split; [vm_compute; reflexivity|eexists; vm_compute; reflexivity]. Qed.

Print Assumptions C39_never_panics.
Print Assumptions C39_beyond.
Print Assumptions C39_next.
Print Assumptions C49_zero_as_one.
Print Assumptions C65_tail_panics.
