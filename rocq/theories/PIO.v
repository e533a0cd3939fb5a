(** * Proofs about block I/O. *)
From Verif Require Import PBits MIO MStream.

Lemma seq_shift_n k a n : map (fun i => (k + i)%nat) (seq a n) = seq (k + a) n.
Proof.
  revert a. induction n as [|n IH]; intros a; cbn [seq map]; [reflexivity|]. f_equal. rewrite IH. f_equal. lia.
Qed.
Lemma length_low_bytes n x : length (low_bytes n x) = n.
Proof. revert x. induction n as [|n IH]; intros x; cbn [low_bytes length]; [reflexivity|now rewrite IH]. Qed.
Lemma low_bytes_lt n x : Forall (fun b => b < 2 ^ 8) (low_bytes n x).
Proof.
  revert x. induction n as [|n IH]; intros x; cbn [low_bytes]; constructor; auto.
  change 255 with (N.ones 8). rewrite N.land_ones. apply N.mod_lt. discriminate.
Qed.
Lemma of_low_bytes_low n x : of_low_bytes (low_bytes n x) = x mod 2 ^ (8 * N.of_nat n).
Proof.
  revert x. induction n as [|n IH]; intros x; cbn [low_bytes of_low_bytes].
  - cbn. now rewrite N.mod_1_r.
  - rewrite IH. change 255 with (N.ones 8). apply N.bits_inj. intros i.
    rewrite N.lor_spec, N.land_spec. destruct (N.lt_ge_cases i 8) as [H|H].
    + rewrite N.shiftl_spec_low, orb_false_r, N.ones_spec_low, andb_true_r by assumption.
      rewrite N.mod_pow2_bits_low by lia. reflexivity.
    + rewrite N.ones_spec_high, andb_false_r by assumption. cbn [orb]. rewrite N.shiftl_spec_high' by assumption.
      destruct (N.lt_ge_cases (i - 8) (8 * N.of_nat n)) as [H2|H2].
      * rewrite !N.mod_pow2_bits_low by lia. rewrite N.shiftr_spec'. f_equal. lia.
      * rewrite !N.mod_pow2_bits_high by lia. reflexivity.
Qed.
(** The bytes, least significant first, are the bits of the number. *)
Lemma low_bytes_bits n x : flat_map (bits_of 8) (low_bytes n x) = bits_of (8 * N.of_nat n) x.
Proof.
  revert x. induction n as [|n IH]; intros x; cbn [low_bytes flat_map]; [reflexivity|].
  rewrite IH. unfold bits_of. replace (N.to_nat (8 * N.of_nat (S n))) with (8 + 8 * n)%nat by lia.
  replace (N.to_nat (8 * N.of_nat n)) with (8 * n)%nat by lia. change (N.to_nat 8) with 8%nat.
  rewrite seq_app, map_app. f_equal.
  - apply map_ext_in. intros i Hi. apply in_seq in Hi. rewrite N.land_spec. change 255 with (N.ones 8).
    rewrite N.ones_spec_low by lia. apply andb_true_r.
  - change (0 + 8)%nat with (8 + 0)%nat. rewrite <- (seq_shift_n 8 0), map_map. apply map_ext. intros i.
    rewrite N.shiftr_spec'. f_equal. lia.
Qed.

Lemma length_to_bytes o w x : lengthN (to_bytes o w x) = w / 8.
Proof. unfold to_bytes, lengthN. destruct o; rewrite ?rev_length, length_low_bytes; lia. Qed.
Lemma of_to_bytes o w x : of_bytes o (to_bytes o w x) = x mod 2 ^ (8 * (w / 8)).
Proof.
  unfold of_bytes, to_bytes. destruct o; rewrite ?rev_involutive, of_low_bytes_low; do 2 f_equal; lia.
Qed.

Lemma type_bits_cases c t : wf_cfg c -> type_bits c t = 8 \/ type_bits c t = 16 \/ type_bits c t = 32 \/ type_bits c t = 64.
Proof. intros [H|H]; destruct t; cbn; rewrite ?H; auto. Qed.

(** Reading and writing give and take exactly these bytes, through any source or sink. *)
Lemma write_block_bytes c S t (sink : byte_sink S) o x s : wf_cfg c -> x < 2 ^ type_bits c t ->
  write_block c S t sink o x s = sink (to_bytes o (type_bits c t) x) s.
Proof.
  intros Hc Hx. destruct t; cbn [write_block type_bits]; try reflexivity.
  - unfold to_bytes. change (N.to_nat (8 / 8)) with 1%nat. cbn [low_bytes]. change 255 with (N.ones 8).
    rewrite N.land_ones, N.mod_small by exact Hx. destruct o; reflexivity.
  - cbn [type_bits] in Hx. destruct Hc as [E|E]; rewrite E in *; cbn [N.eqb Pos.eqb]; unfold write_uint; [|reflexivity].
    now rewrite N.mod_small.
Qed.
Lemma read_block_bytes c S t (src : byte_source S) o s : wf_cfg c ->
  (forall n s l s', src n s = Ok (IOk l, s') -> lengthN l = n /\ Forall (fun b => b < 2 ^ 8) l) ->
  read_block c S t src o s = try_ (src (type_bits c t / 8)) (fun l => ret (of_bytes o l)) s.
Proof.
  intros Hc Hs. destruct t; cbn [read_block type_bits]; try reflexivity.
  - change (8 / 8) with 1. unfold try_. destruct (src 1 s) as [[[l|e] s']|p|] eqn:E; cbn [bind]; try reflexivity.
    destruct (Hs _ _ _ _ E) as [H _]. unfold ret, of_bytes.
    destruct l as [|b [|b' l]]; unfold lengthN in H; cbn [length] in H; try lia. destruct o; reflexivity.
  - assert (Hlt : forall l, Forall (fun b => b < 2 ^ 8) l -> of_low_bytes l < 2 ^ (8 * lengthN l)).
    { intros l Hl. induction Hl as [|b l Hb _ IH]; cbn [of_low_bytes]; [reflexivity|].
      rewrite lengthN_cons. replace (8 * (lengthN l + 1)) with (8 + 8 * lengthN l) by lia.
      destruct (N.eq_dec (N.lor b (N.shiftl (of_low_bytes l) 8)) 0) as [->|Hn]; [apply N.neq_0_lt_0, N.pow_nonzero; lia|].
      apply N.log2_lt_pow2; [lia|]. rewrite N.log2_lor. apply N.max_lub_lt.
      - destruct (N.eq_dec b 0) as [->|Hb0]; [cbn; lia|]. apply N.log2_lt_pow2 in Hb; lia.
      - destruct (N.eq_dec (of_low_bytes l) 0) as [->|Hl0]; [cbn; lia|]. rewrite N.log2_shiftl by assumption.
        apply N.log2_lt_pow2 in IH; lia. }
    destruct Hc as [E|E]; rewrite E; (change (32 =? 64) with false || change (64 =? 64) with true); cbv iota; unfold read_uint, try_, ret; cbv beta.
    + change (32 / 8) with 4. destruct (src 4 s) as [[[l|e] s']|p|] eqn:Es; cbn [bind]; try reflexivity.
      destruct (Hs _ _ _ _ Es) as [H1 H2]. unfold as_usize, of_bytes. rewrite E, N.mod_small; [reflexivity|].
      change 32 with (8 * 4). rewrite <- H1. destruct o; [now apply Hlt|].
      rewrite <- (rev_involutive l) at 2. unfold lengthN. rewrite rev_length. apply Hlt. now apply Forall_rev.
    + change (64 / 8) with 8. destruct (src 8 s) as [[[l|e] s']|p|] eqn:Es; cbn [bind]; try reflexivity.
      destruct (Hs _ _ _ _ Es) as [H1 H2]. unfold as_usize, of_bytes. rewrite E, N.mod_small; [reflexivity|].
      change 64 with (8 * 8). rewrite <- H1 at 2. destruct o; [now apply Hlt|].
      rewrite <- (rev_involutive l) at 2. unfold lengthN. rewrite rev_length. apply Hlt. now apply Forall_rev.
Qed.
