(** * Properties C46-C58: the universal codes (src/coding/*.rs).
    [codeword C v w] says: encoding [v] into any sink writes the bits [w] (stopping at the first
    error); decoding from any source that delivers [w] next answers [v] and reads exactly [w];
    [w] is not empty.  The loops run on fuel; all statements are about all sufficient fuel.
    The words themselves ([unary_word] ... [comma_word]) are defined in [SpecStream.v]. *)
From Verif Require Import Machine MStorage MTraits MVectorBase MBitVector MStream MCoding
  SpecBits SpecCfg SpecLaws SpecOps SpecStream SpecBuffer PBase PBits PBitVector PVectorBase3 PRun PStream PBuffer PCoding PCoding2 PCoding3.

(** ** C46 *)
Theorem C46_unary : forall c v, v < 2 ^ 64 -> codeword (unary c) v (repeatN false v ++ [true]).
Proof. intros c v Hv. exact (unary_codeword c v Hv). Qed.
Example C46_ex : encode (unary dbg64) deque_sink 10 5 [] = Ok (IOk tt, [false; false; false; false; false; true]) /\
  decode (unary dbg64) deque_source 10 [false; false; false; false; false; true; true; false] = Ok (IOk (Some 5), [true; false]).
Proof. split; vm_compute; reflexivity. Qed.

(** ** C47 *)
Theorem C47_gamma : forall c v, wf_cfg c -> 1 <= v -> v < 2 ^ 64 -> codeword (gamma c) v (gamma_word v).
Proof. intros c v Hc H1 Hv. apply gamma_codeword; auto. lia. Qed.
Theorem C47_delta : forall c v, wf_cfg c -> 1 <= v -> v < 2 ^ 64 -> codeword (delta c) v (delta_word v).
Proof. intros c v Hc H1 Hv. apply delta_codeword; auto. lia. Qed.
Theorem C47_elias_generic : forall c H v hw, wf_cfg c -> 1 <= v -> v < 2 ^ 64 ->
  codeword H (N.log2 v) hw -> codeword (elias c H) v (hw ++ bits_of (N.log2 v) v).
Proof. intros c H v hw Hc H1 Hv Hh. apply elias_codeword; auto. lia. Qed.
Theorem C47_zero_panics : forall c H S (snk : sink S) fuel s, panics (encode (elias c H) snk fuel 0 s).
Proof. intros c H S snk fuel s. eexists. reflexivity. Qed.
Example C47_ex : encode (gamma rel64) deque_sink 70 13 [] = Ok (IOk tt, [false; false; false; true; true; false; true]) /\
  gamma_word 13 = [false; false; false; true; true; false; true] /\
  decode (gamma rel32) deque_source 70 [false; false; false; true; true; false; true; true] = Ok (IOk (Some 13), [true]) /\
  encode (delta dbg64) deque_sink 70 13 [] = Ok (IOk tt, delta_word 13) /\
  delta_word 13 = [false; false; true; false; false; true; false; true] /\
  decode (delta dbg64) deque_source 70 (delta_word 13 ++ [true]) = Ok (IOk (Some 13), [true]) /\
  (let m := 2 ^ 64 - 1 in decode (delta dbg64) deque_source 70 (delta_word m ++ [false]) = Ok (IOk (Some m), [false])).
Proof. vm_compute. intuition congruence. Qed.

(** ** C48 *)
Theorem C48_omega : forall c v w, wf_cfg c -> v < 2 ^ 64 -> omega_word v w -> codeword (omega c) v w.
Proof. intros c v w Hc Hv Hw. now apply omega_codeword. Qed.
Theorem C48_omega_words_exist : forall v, 1 <= v -> exists w, omega_word v w.
Proof. intros v Hv. destruct (omega_groups_exists v ltac:(lia)) as (g & Hg). exists (g ++ [false]), g. auto. Qed.
Example C48_ex : omega_word 17 [true; false; true; false; false; true; false; false; false; true; false] /\
  encode (omega dbg64) deque_sink 20 17 [] = Ok (IOk tt, [true; false; true; false; false; true; false; false; false; true; false]) /\
  decode (omega dbg64) deque_source 20 [true; false; true; false; false; true; false; false; false; true; false; true] = Ok (IOk (Some 17), [true]).
Proof.
  split; [|split; vm_compute; reflexivity]. exists [true; false; true; false; false; true; false; false; false; true]. split; [|reflexivity].
  apply (og_more 17 [true; false; true; false; false]); [lia|]. apply (og_more 4 [true; false]); [lia|]. apply (og_more 2 []); [lia|]. apply og_one.
Qed.

(** ** C49: refuted: [0] is written as the word of [1]. *)
Theorem C49_omega_zero_refuted : exists c w, wf_cfg c /\
  encode (omega c) deque_sink 20 0 [] = Ok (IOk tt, w) /\ encode (omega c) deque_sink 20 1 [] = Ok (IOk tt, w) /\
  decode (omega c) deque_source 20 w = Ok (IOk (Some 1), []).
Proof. exists dbg64, [false]. split; [auto with wf|]. repeat split; vm_compute; reflexivity. Qed.

(** ** C50 *)
Theorem C50_fibonacci : forall c v w, 1 <= v -> v < fib_max -> fib_word v w -> codeword (fibonacci c) v w.
Proof. intros c v w H1 Hv Hw. now apply fib_codeword. Qed.
Theorem C50_fibonacci_words : forall v, 1 <= v -> v < fib_max -> exists w, fib_word v w /\ forall w', fib_word v w' -> w' = w.
Proof. intros v H1 Hv. destruct (fib_word_exists v H1 Hv) as (w & Hw). exists w. split; [exact Hw|]. intros w' Hw'. now apply (fib_unique v). Qed.
Theorem C50_too_large : forall c v, fib_max <= v -> exists n0, forall fuel, (n0 <= fuel)%nat ->
  forall S (snk : sink S) s, encode (fibonacci c) snk fuel v s = Ok (IErr InvalidData, s).
Proof. intros c v Hv. exists 93%nat. intros fuel Hf S snk s. now apply fib_encode_big. Qed.
Theorem C50_zero_panics : forall c S (snk : sink S) fuel s, panics (encode (fibonacci c) snk fuel 0 s).
Proof. intros c S snk fuel s. eexists. reflexivity. Qed.
Example C50_ex : fib_word 11 [false; false; true; false; true; true] /\
  encode (fibonacci rel64) deque_sink 100 11 [] = Ok (IOk tt, [false; false; true; false; true; true]) /\
  decode (fibonacci dbg64) deque_source 100 [false; false; true; false; true; true; true; false] = Ok (IOk (Some 11), [true; false]) /\
  (exists w, encode (fibonacci dbg64) deque_sink 100 (fib_max - 1) [] = Ok (IOk tt, w) /\ decode (fibonacci dbg64) deque_source 100 (w ++ [true]) = Ok (IOk (Some (fib_max - 1)), [true])).
Proof.
  split; [|split; [vm_compute; reflexivity|split; [vm_compute; reflexivity|]]].
  - exists [false; false; true; false; true]. split; [reflexivity|]. split; [|split; reflexivity].
    intros i [H1 H2]. pose proof (nthN_lt _ _ _ H1) as Hl. change (lengthN [false; false; true; false; true]) with 5 in Hl.
    assert (Hi : i = 0 \/ i = 1 \/ i = 2 \/ i = 3 \/ i = 4) by lia. destruct Hi as [->|[->|[->|[->| ->]]]]; vm_compute in H1, H2; congruence.
  - eexists. split; [vm_compute; reflexivity|]. vm_compute. reflexivity.
Qed.

(** ** C51 *)
Theorem C51_comma : forall c n v w, 2 <= n <= 63 -> v < 2 ^ 64 -> comma_word n v w -> codeword (comma c n) v w.
Proof. intros c n v w Hn Hv Hw. now apply comma_codeword. Qed.
Theorem C51_comma_words : forall n v, 2 <= n <= 63 -> exists w, comma_word n v w.
Proof. intros n v Hn. destruct (comma_encode_ok dbg64 n Hn v) as (w & Hw & _). now exists w. Qed.
Example C51_ex : comma_word 2 11 [true; false; false; false; false; true; true; true] /\
  encode (comma dbg32 2) deque_sink 20 11 [] = Ok (IOk tt, [true; false; false; false; false; true; true; true]) /\
  decode (comma dbg32 2) deque_source 20 [true; false; false; false; false; true; true; true; false] = Ok (IOk (Some 11), [false]) /\
  (let m := 2 ^ 64 - 1 in exists w, encode (comma dbg64 63) deque_sink 20 m [] = Ok (IOk tt, w) /\ decode (comma dbg64 63) deque_source 20 w = Ok (IOk (Some m), [])).
Proof.
  split; [|split; [vm_compute; reflexivity|split; [vm_compute; reflexivity|]]].
  - exists [1; 0; 2]. split; [repeat constructor|]. split; [cbn; lia|]. split; reflexivity.
  - eexists. split; [vm_compute; reflexivity|]. vm_compute. reflexivity.
Qed.

(** ** C52: [n] is a u8.  Comma(1) loops forever on every positive value; without overflow checks
    so do Comma(65), Comma(129) and Comma(193), whose shift amount wraps. *)
Theorem C52_comma_terminates_partial : forall c n v, v < 2 ^ 64 ->
  (if debug c then n <> 1 else n mod 64 <> 1) ->
  exists n0, forall fuel, (n0 <= fuel)%nat -> forall S (snk : sink S) s,
    (forall b s, write_bit snk b s <> OutOfFuel) -> encode (comma c n) snk fuel v s <> OutOfFuel.
Proof. intros c n v Hv Hn. apply comma_terminates; [exact Hv|]. destruct (debug c); auto. Qed.
Theorem C52_comma_terminates_refuted : exists c n v, wf_cfg c /\ n < 2 ^ 8 /\ v < 2 ^ 64 /\
  forall fuel, encode (comma c n) deque_sink fuel v [] = OutOfFuel.
Proof.
  exists dbg64, 1, 1. split; [auto with wf|]. split; [lia|]. split; [lia|]. intros fuel. cbn. unfold comma_encode. rewrite (try_lift _ 1) by reflexivity.
  unfold try_ at 1, lift. replace (comma_stack fuel 1 1) with (@OutOfFuel (list N)); [reflexivity|]. unfold comma_stack.
  generalize (@nil N). induction fuel as [|fuel IH]; intros acc; [reflexivity|]. cbn [loop_fuel]. exact (IH (0 :: acc)).
Qed.
Example C52_ex : encode (comma dbg64 3) deque_sink 20 9 [] = Ok (IOk tt, [true; false; false; false; true; false; true; true; true]) /\
  encode (comma rel64 65) deque_sink 1000 1 [] = OutOfFuel /\ panics (encode (comma dbg64 0) deque_sink 20 9 []).
Proof. split; [vm_compute; reflexivity|]. split; [vm_compute; reflexivity|]. eexists. vm_compute. reflexivity. Qed.

(** ** C53 *)
Theorem C53_lift0 : forall c C v w, v + 1 < 2 ^ 64 -> codeword C (v + 1) w -> codeword (lift0 c C) v w.
Proof. exact lift0_codeword. Qed.
Theorem C53_max : forall c C S (snk : sink S) fuel s, encode (lift0 c C) snk fuel (2 ^ 64 - 1) s = Ok (IErr InvalidData, s).
Proof. reflexivity. Qed.
Example C53_ex : encode (lift0 dbg64 (gamma dbg64)) deque_sink 70 0 [] = Ok (IOk tt, [true]) /\
  decode (lift0 dbg64 (gamma dbg64)) deque_source 70 [true; false] = Ok (IOk (Some 0), [false]) /\
  (let m := 2 ^ 64 - 2 in decode (lift0 dbg64 (gamma dbg64)) deque_source 70 (gamma_word (m + 1)) = Ok (IOk (Some m), [])).
Proof. vm_compute. intuition congruence. Qed.

(** ** C54: [provided c _ C D]: [C] is one of the codes of the library, or one built from them
    with Lift0 and Elias, and [D] its domain. *)
Theorem C54_any_stream : forall c strict C D vs, wf_cfg c -> provided c strict C D -> Forall D vs ->
  exists w n0, forall fuel, (n0 <= fuel)%nat ->
    (forall S (snk : sink S) s, encode_list C snk fuel vs s = write_all snk w s) /\
    (forall S (src : source S) s s' s'', reads src s w s' -> read_bit src s' = Ok (IOk None, s'') ->
       decode_list C src fuel s = Ok (IOk vs, s'')).
Proof.
  intros c strict C D vs Hc HP HF. destruct (provided_words c strict C D vs Hc HP HF) as (ws & Hws).
  destruct (encode_list_ok C vs ws Hws) as [n1 H1]. destruct (decode_list_ok C vs ws Hws (provided_clean c strict C D HP)) as [n2 H2].
  exists (concat ws), (n1 + n2)%nat. intros fuel Hf. split; intros.
  - apply H1. lia. - apply (H2 fuel ltac:(lia) S src s s' s''); auto.
Qed.
Theorem C54_queue : forall c strict C D vs, wf_cfg c -> provided c strict C D -> Forall D vs ->
  exists n0, forall fuel, (n0 <= fuel)%nat -> exists l,
    encode_list C deque_sink fuel vs [] = Ok (IOk tt, l) /\ decode_list C deque_source fuel l = Ok (IOk vs, []).
Proof.
  intros c strict C D vs Hc HP HF. destruct (C54_any_stream c strict C D vs Hc HP HF) as (w & n0 & K). exists n0. intros fuel Hf. exists w.
  destruct (K fuel Hf) as [K1 K2]. rewrite K1, write_all_deque. split; [reflexivity|]. pose proof (reads_deque w []) as Hr. rewrite app_nil_r in Hr.
  apply (K2 _ deque_source w [] [] Hr). reflexivity.
Qed.
(** Through a [BitBuffer] over a [BitVector], as far as the encoded list fits in memory. *)
Theorem C54_bit_buffer : forall c nb strict C D vs, wf_cfg c -> wf_nb nb -> provided c strict C D -> Forall D vs ->
  exists w n0, forall fuel, (n0 <= fuel)%nat -> encode_list C deque_sink fuel vs [] = Ok (IOk tt, w) /\
    (fits c nb (lengthN w) -> exists b0 b1 b2 b3, bb_new c nb = Ok b0 /\
       encode_list C (bb_sink c (bvec_bitvecpush c nb) fuel) fuel vs b0 = Ok (IOk tt, b1) /\
       bb_seek (bvec_bitvec c nb) 0 b1 = Ok (IOk tt, b2) /\
       decode_list C (bb_source c (bvec_bitvec c nb)) fuel b2 = Ok (IOk vs, b3)).
Proof.
  intros c nb strict C D vs Hc Hnb HP HF. pose proof (wf_nb_range nb Hnb). destruct (C54_any_stream c strict C D vs Hc HP HF) as (w & n0 & K). exists w, (n0 + 2)%nat. intros fuel Hf.
  destruct (K fuel ltac:(lia)) as [K1 K2]. split; [now rewrite K1, write_all_deque|]. intros Hfit.
  destruct (vb_with_capacity_ok c nb 1 Hc Hnb ltac:(lia) 0) as (v0 & E0 & R0); [apply fits_0; lia|].
  pose (LB := bvec_lawful_bits c nb Hc Hnb). pose (LK := bvec_lawful_blocks c nb Hc Hnb).
  assert (LP : lawful_push c (bvec_bitvecpush c nb) (R_bv c nb) (fun n => fitsb c nb n = true)).
  { destruct (bvec_lawful_push c nb Hc Hnb) as [A1 A2 A3 A4]. split; auto.
    - intros t0 l0 b H0 H1. apply A1; auto. now apply fitsb_spec.
    - intros t0 l0 b H0 H1. apply A2 with (l := l0); auto. intros H2. apply H1. now apply fitsb_spec. }
  assert (Hb0 : R_buf (R_bv c nb) {| bb_data := v0; bb_pos := 0 |} ([], @lengthN bool [])) by (split; [exact R0|split; reflexivity || (cbn; lia)]).
  destruct (bb_write_all c (bvec_bitvecpush c nb) (R_bv c nb) (fitsb c nb) Hc LB LK (mutblocks_setblock _ _ _ (bvec_lawful_mutblocks c nb Hc Hnb)) LP fuel w ltac:(lia) _ [] Hb0) as (b1 & E1 & HR1 & Hp1 & _).
  { intros n Hn. rewrite lengthN_nil in Hn. apply fitsb_spec. apply (fits_mono c nb n (lengthN w)); [lia|lia|exact Hfit]. }
  cbn [app fst snd] in *.
  destruct (bb_reads_all c (bvec_bitvec c nb) (R_bv c nb) Hc LB LK (bb_data b1) w HR1) as [Hr [Hs _]].
  eexists. exists b1, {| bb_data := bb_data b1; bb_pos := 0 |}. eexists. split; [unfold bb_new, bb_with_capacity, bvec_with_capacity; rewrite E0; reflexivity|].
  split; [now rewrite K1|]. split.
  - unfold bb_seek. rewrite (lb_bit_len _ _ _ LB _ w HR1). cbn [bind]. destruct (0 <=? lengthN w) eqn:E; [reflexivity|lia].
  - apply (K2 _ (bb_source c (bvec_bitvec c nb)) _ _ _ Hr Hs).
Qed.
Example C54_ex : provided dbg64 true (delta dbg64) (fun v => 1 <= v < 2 ^ 64) /\ Forall (fun v => 1 <= v < 2 ^ 64) [7; 1; 2 ^ 64 - 1; 100] /\
  exists l, encode_list (delta dbg64) deque_sink 70 [7; 1; 2 ^ 64 - 1; 100] [] = Ok (IOk tt, l) /\
    decode_list (delta dbg64) deque_source 70 l = Ok (IOk [7; 1; 2 ^ 64 - 1; 100], []).
Proof. split; [constructor|]. split; [repeat constructor; lia|]. eexists. split; [vm_compute; reflexivity|]. vm_compute. reflexivity. Qed.

(** ** C55 *)
Theorem C55_prefix_free : forall c strict C D v1 v2, wf_cfg c -> provided c strict C D -> D v1 -> D v2 ->
  exists n0, forall fuel, (n0 <= fuel)%nat -> exists w1 w2,
    encode C deque_sink fuel v1 [] = Ok (IOk tt, w1) /\ encode C deque_sink fuel v2 [] = Ok (IOk tt, w2) /\
    ((exists q, w2 = w1 ++ q) -> v1 = v2).
Proof.
  intros c strict C D v1 v2 Hc HP H1 H2. destruct (provided_codeword c strict C D v1 Hc HP H1) as (w1 & W1 & _).
  destruct (provided_codeword c strict C D v2 Hc HP H2) as (w2 & W2 & _). pose proof W1 as [_ [n1 E1] _]. pose proof W2 as [_ [n2 E2] _].
  exists (n1 + n2)%nat. intros fuel Hf. exists w1, w2. rewrite E1, E2, !write_all_deque by lia. split; [reflexivity|]. split; [reflexivity|].
  intros [q Eq]. now destruct (codeword_prefix C v1 w1 v2 w2 q W1 W2 Eq).
Qed.
Example C55_ex : encode (fibonacci dbg64) deque_sink 100 1 [] = Ok (IOk tt, [true; true]) /\
  encode (fibonacci dbg64) deque_sink 100 4 [] = Ok (IOk tt, [true; false; true; true]).
Proof. split; vm_compute; reflexivity. Qed.

(** ** C56: true for every code but Fibonacci; [o] is what the source answers after the [p] bits. *)
Theorem C56_truncation_partial : forall c C D v, wf_cfg c -> provided c true C D -> D v ->
  exists w n0, forall fuel, (n0 <= fuel)%nat -> encode C deque_sink fuel v [] = Ok (IOk tt, w) /\
    forall S (src : source S) s p q s' s'', w = p ++ q -> p <> [] -> q <> [] ->
      reads src s p s' -> read_bit src s' = Ok (IOk None, s'') -> decode C src fuel s = Ok (IErr UnexpectedEof, s'').
Proof.
  intros c C D v Hc HP Hv. destruct (provided_codeword c true C D v Hc HP Hv) as (w & [_ [n1 H1] _] & Ht). destruct (Ht eq_refl) as [n2 H2].
  exists w, (n1 + n2)%nat. intros fuel Hf. rewrite H1, write_all_deque by lia. split; [reflexivity|].
  intros S src s p q s' s'' Ew Hp Hq Hr E. rewrite (H2 fuel ltac:(lia) S src s p s' (IOk None) s''); [|exists q; auto|exact Hr|split; [exact E|exact I]].
  destruct p; [congruence|reflexivity].
Qed.
(** A truncated Fibonacci word is detected once it contains a one. *)
Theorem C56_fibonacci_partial : forall c v w, v < fib_max -> fib_word v w ->
  exists n0, forall fuel, (n0 <= fuel)%nat -> forall S (src : source S) s p q s' s'', w = p ++ q -> q <> [] ->
    reads src s p s' -> read_bit src s' = Ok (IOk None, s'') ->
    decode (fibonacci c) src fuel s = Ok (if existsb (fun b => b) p then IErr UnexpectedEof else IOk None, s'').
Proof.
  intros c v w Hv Hw. destruct (fib_decode_stop c v w Hv Hw) as [n0 H]. exists n0. intros fuel Hf S src s p q s' s'' Ew Hq Hr E.
  rewrite (H fuel Hf S src s p s' (IOk None) s''); [|exists q; auto|exact Hr|split; [exact E|exact I]].
  destruct p as [|b p]; [reflexivity|]. destruct (existsb (fun b => b) (b :: p)); reflexivity.
Qed.
Theorem C56_fibonacci_refuted : exists c v w p q, wf_cfg c /\ encode (fibonacci c) deque_sink 100 v [] = Ok (IOk tt, w) /\
  w = p ++ q /\ p <> [] /\ q <> [] /\ decode (fibonacci c) deque_source 100 p = Ok (IOk None, []).
Proof.
  exists dbg64, 5, [false; false; false; true; true], [false; false; false], [true; true]. split; [auto with wf|].
  repeat (split; [first [vm_compute; reflexivity|discriminate]|]). vm_compute. reflexivity.
Qed.
Example C56_ex : provided dbg64 true (gamma dbg64) (fun v => 1 <= v < 2 ^ 64) /\
  encode (gamma dbg64) deque_sink 70 6 [] = Ok (IOk tt, [false; false; true; false; true]) /\
  decode (gamma dbg64) deque_source 70 [false; false; true; false] = Ok (IErr UnexpectedEof, []) /\
  decode (gamma dbg64) deque_source 70 [false; false; true] = Ok (IErr UnexpectedEof, []) /\
  decode (fibonacci dbg64) deque_source 100 [false; true; false] = Ok (IErr UnexpectedEof, []).
Proof. split; [constructor|]. vm_compute. intuition congruence. Qed.

(** ** C57: [l] is everything the source still delivers; then it stops, with end of data or an
    error. *)
Definition decoding_returns (C : code) (l : list bool) : Prop :=
  exists n0, forall fuel, (n0 <= fuel)%nat -> forall S (src : source S) s s' o s'',
    reads src s l s' -> stops src s' o s'' -> exists r, decode C src fuel s = Ok r.
Lemma survives_returns C ok l : survives C ok l -> decoding_returns C l.
Proof.
  intros [n0 H]. exists n0. intros fuel Hf S src s s' o s'' Hr Ho.
  destruct (H fuel Hf S src s s' o s'' Hr Ho) as [(e & t & E)|[(t & E)|(v & p & q & t & E & _)]]; eauto.
Qed.
Theorem C57_unary_gamma_delta : forall c l, wf_cfg c -> lengthN l < 2 ^ 64 ->
  decoding_returns (unary c) l /\ decoding_returns (gamma c) l /\ decoding_returns (delta c) l.
Proof.
  intros c l Hc Hl. split; [|split]; eapply survives_returns; [now apply unary_survives|now apply gamma_survives|now apply delta_survives].
Qed.
Theorem C57_unchecked_builds_partial : forall c l n, wf_cfg c -> debug c = false ->
  decoding_returns (omega c) l /\ decoding_returns (fibonacci c) l /\ decoding_returns (comma c n) l.
Proof.
  intros c l n Hc Hd. split; [|split]; eapply survives_returns; [now apply omega_survives|now apply fib_survives|now apply comma_survives].
Qed.
Theorem C57_omega_refuted : exists c l, wf_cfg c /\ panics (decode (omega c) deque_source 100 l).
Proof.
  exists dbg64, ([true; false] ++ [true; true; false] ++ (true :: repeatN false 6) ++ (true :: repeatN false 64)). split; [auto with wf|]. eexists. vm_compute. reflexivity.
Qed.
Theorem C57_fibonacci_refuted : exists c l, wf_cfg c /\ panics (decode (fibonacci c) deque_source 100 l).
Proof. exists dbg64, (concat (repeat [false; true] 46)). split; [auto with wf|]. eexists. vm_compute. reflexivity. Qed.
Theorem C57_comma_refuted : exists c n l, wf_cfg c /\ 2 <= n <= 63 /\ panics (decode (comma c n) deque_source 100 l).
Proof.
  exists dbg64, 32, (repeatN true 31 ++ [false] ++ repeatN true 31 ++ [false] ++ repeatN true 31 ++ [false]). split; [auto with wf|]. split; [lia|]. eexists. vm_compute. reflexivity.
Qed.
Example C57_ex : decode (gamma dbg64) deque_source 100 (repeatN false 64 ++ [true; true]) = Ok (IErr InvalidData, [true]) /\
  decode (fibonacci rel64) deque_source 100 (concat (repeat [false; true] 46)) = Ok (IErr InvalidData, []).
Proof. split; vm_compute; reflexivity. Qed.

(** ** C58: for an arbitrary sink encoding is writing the bits of the word up to the first error;
    for a sink that fails on one bit this means that the bits delivered are a prefix. *)
Theorem C58_any_sink : forall c strict C D v, wf_cfg c -> provided c strict C D -> D v ->
  exists w n0, forall fuel, (n0 <= fuel)%nat -> forall S (snk : sink S) s, encode C snk fuel v s = write_all snk w s.
Proof. intros c strict C D v Hc HP Hv. destruct (provided_codeword c strict C D v Hc HP Hv) as (w & [_ [n0 H] _] & _). exists w, n0. exact H. Qed.
Theorem C58_failing_sink : forall c strict C D v, wf_cfg c -> provided c strict C D -> D v ->
  exists w n0, forall fuel, (n0 <= fuel)%nat -> encode C deque_sink fuel v [] = Ok (IOk tt, w) /\
    forall m e l, lengthN l <= m -> encode C (limited_sink m e) fuel v l =
      Ok (if lengthN l + lengthN w <=? m then (IOk tt, l ++ w) else (IErr e, l ++ firstnN (m - lengthN l) w)).
Proof.
  intros c strict C D v Hc HP Hv. destruct (C58_any_sink c strict C D v Hc HP Hv) as (w & n0 & H). exists w, n0. intros fuel Hf.
  split; [now rewrite H, write_all_deque|]. intros m e l Hl. rewrite H by exact Hf. now apply write_all_limited.
Qed.
Example C58_ex : encode (gamma dbg64) (limited_sink 4 IoOther) 70 13 [true] = Ok (IErr IoOther, [true; false; false; false]) /\
  encode (gamma dbg64) (limited_sink 8 IoOther) 70 13 [true] = Ok (IOk tt, [true; false; false; false; true; true; false; true]).
Proof. split; vm_compute; reflexivity. Qed.
Print Assumptions C46_unary.
Print Assumptions C47_gamma.
Print Assumptions C47_delta.
Print Assumptions C47_elias_generic.
Print Assumptions C47_zero_panics.
Print Assumptions C48_omega.
Print Assumptions C48_omega_words_exist.
Print Assumptions C49_omega_zero_refuted.
Print Assumptions C50_fibonacci.
Print Assumptions C50_fibonacci_words.
Print Assumptions C50_too_large.
Print Assumptions C50_zero_panics.
Print Assumptions C51_comma.
Print Assumptions C51_comma_words.
Print Assumptions C52_comma_terminates_partial.
Print Assumptions C52_comma_terminates_refuted.
Print Assumptions C53_lift0.
Print Assumptions C53_max.
Print Assumptions C54_any_stream.
Print Assumptions C54_queue.
Print Assumptions C54_bit_buffer.
Print Assumptions C55_prefix_free.
Print Assumptions C56_truncation_partial.
Print Assumptions C56_fibonacci_partial.
Print Assumptions C56_fibonacci_refuted.
Print Assumptions C57_unary_gamma_delta.
Print Assumptions C57_unchecked_builds_partial.
Print Assumptions C57_omega_refuted.
Print Assumptions C57_fibonacci_refuted.
Print Assumptions C57_comma_refuted.
Print Assumptions C58_any_sink.
Print Assumptions C58_failing_sink.
