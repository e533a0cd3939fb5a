(** * Property C119: a code of the user's own (Rice) next to those of the library and under and over its combinators.
    [codeword], [truncates], [survives] and [provided] are those of [SpecStream.v]. *)
From Verif Require Import Machine MStorage MTraits MStream MCoding MRice
  SpecBits SpecCfg SpecStream PBase PBits PStream PCoding PCoding2 PCoding3.

(** ** Arithmetic *)
Lemma rice_join k v : N.lor (v mod 2 ^ k) (N.shiftl (v / 2 ^ k) k) = v.
Proof.
  apply N.bits_inj. intros i. rewrite N.lor_spec. destruct (N.lt_ge_cases i k) as [H|H].
  - rewrite N.mod_pow2_bits_low, N.shiftl_spec_low by exact H. apply orb_false_r.
  - rewrite N.mod_pow2_bits_high, N.shiftl_spec_high by lia. rewrite N.div_pow2_bits. cbn [orb]. f_equal. lia.
Qed.
Lemma rice_limit k : k < 64 -> N.shiftr (wnot 64 0) k = 2 ^ (64 - k) - 1.
Proof.
  intros Hk. replace (wnot 64 0) with (N.ones 64) by reflexivity. rewrite N.shiftr_div_pow2, N.ones_div_pow2 by lia.
  rewrite N.ones_equiv. pose proof (pow2_pos (64 - k)). lia.
Qed.
Lemma rice_high k v : k < 64 -> v < 2 ^ 64 -> v / 2 ^ k < 2 ^ (64 - k).
Proof.
  intros Hk Hv. apply N.div_lt_upper_bound; [pose proof (pow2_pos k); lia|]. rewrite <- N.pow_add_r. now replace (k + (64 - k)) with 64 by lia.
Qed.

(** ** The code word: that of the quotient, then the remainder in [k] bits *)
Theorem C119_word : forall c H k v hw, wf_cfg c -> k < 64 -> v < 2 ^ 64 -> codeword H (v / 2 ^ k) hw ->
  codeword (rice c H k) v (hw ++ bits_of k v).
Proof.
  intros c H k v hw Hc Hk Hv [H0 [n1 H1] [n2 H2]]. pose proof (rice_high k v Hk Hv) as Hq. split.
  - intros E. apply app_eq_nil in E. tauto.
  - exists n1. intros fuel Hf S snk s. cbn. unfold rice_encode. rewrite (try_lift _ (v / 2 ^ k)) by (rewrite wshr_ok by exact Hk; now rewrite N.shiftr_div_pow2).
    rewrite write_all_app. unfold try_. rewrite H1 by exact Hf. destruct (write_all snk hw s) as [[[u|e] s']| |]; cbn [bind]; auto.
    now rewrite write_int_ok by lia.
  - exists n2. intros fuel Hf S src s s' Hr. apply reads_app in Hr. destruct Hr as (s1 & Hr1 & Hr2).
    cbn. unfold rice_decode. rewrite (try_ok _ _ _ _ _ (H2 fuel Hf S src s s1 Hr1)).
    rewrite (try_lift _ (2 ^ (64 - k) - 1)) by (rewrite wshr_ok by exact Hk; now rewrite rice_limit).
    destruct (2 ^ (64 - k) - 1 <? v / 2 ^ k) eqn:E; [lia|].
    rewrite (try_ok _ _ _ _ _ (read_int_ok c src 64 ltac:(lia) k (bits_of k v) s1 s' (lengthN_bits_of k v) Hr2)).
    rewrite (try_lift _ (N.shiftl (v / 2 ^ k) k)).
    2:{ rewrite wshl_ok by exact Hk. f_equal. apply N.mod_small. rewrite N.shiftl_mul_pow2.
        eapply N.le_lt_trans; [|exact Hv]. rewrite N.mul_comm. apply N.mul_div_le. pose proof (pow2_pos k); lia. }
    unfold ret. rewrite int_of_bits_of. rewrite N.mod_small; [now rewrite rice_join|].
    eapply N.lt_trans; [apply N.mod_lt; pose proof (pow2_pos k); lia|]. apply N.pow_lt_mono_r; lia.
Qed.

(** ** A word cut short is an error, not an end *)
Theorem C119_truncated : forall c H k v hw, wf_cfg c -> k < 64 -> v < 2 ^ 64 -> codeword H (v / 2 ^ k) hw -> truncates H hw ->
  truncates (rice c H k) (hw ++ bits_of k v).
Proof.
  intros c H k v hw Hc Hk Hv [H0 _ [n2 H2]] [n3 H3]. pose proof (rice_high k v Hk Hv) as Hq0.
  exists (n2 + n3)%nat. intros fuel Hf S src s p s' o s'' Hp Hr Ho. cbn. unfold rice_decode. apply prefix_app in Hp.
  destruct Hp as [Hp|(q & -> & Hq)].
  - unfold try_ at 1. rewrite (H3 fuel ltac:(lia) S src s p s' o s'' Hp Hr Ho). cbn [bind]. unfold stopped. destruct o as [a|e]; [|reflexivity]. destruct p; reflexivity.
  - apply reads_app in Hr. destruct Hr as (s1 & Hr1 & Hr2). rewrite (try_ok _ _ _ _ _ (H2 fuel ltac:(lia) S src s s1 Hr1)).
    rewrite (try_lift _ (2 ^ (64 - k) - 1)) by (rewrite wshr_ok by exact Hk; now rewrite rice_limit).
    destruct (2 ^ (64 - k) - 1 <? v / 2 ^ k) eqn:E; [lia|].
    pose proof (prefix_length _ _ Hq) as Hl. rewrite lengthN_bits_of in Hl. unfold try_.
    rewrite (read_int_stop c src 64 ltac:(lia) k q s1 s' o s'' Hl Hr2 Ho). cbn [bind]. unfold stopped.
    destruct o as [a|e]; [|reflexivity]. destruct hw; [congruence|]. destruct q; reflexivity.
Qed.

(** ** A quotient too large for the result is refused, right after the header *)
Theorem C119_too_large : forall c H k hw q, wf_cfg c -> k < 64 -> decodes H hw q -> 2 ^ (64 - k) <= q ->
  exists n0, forall fuel, (n0 <= fuel)%nat -> forall S (src : source S) s s', reads src s hw s' ->
    decode (rice c H k) src fuel s = Ok (IErr InvalidData, s').
Proof.
  intros c H k hw q Hc Hk [n0 HD] Hq. exists n0. intros fuel Hf S src s s' Hr. cbn. unfold rice_decode.
  rewrite (try_ok _ _ _ _ _ (HD fuel Hf S src s s' Hr)).
  rewrite (try_lift _ (2 ^ (64 - k) - 1)) by (rewrite wshr_ok by exact Hk; now rewrite rice_limit).
  pose proof (pow2_pos (64 - k)). destruct (2 ^ (64 - k) - 1 <? q) eqn:E; [reflexivity|lia].
Qed.

(** ** On any input: no panic if its header does not panic on it, and every value delivered is a u64 *)
Theorem C119_any_input : forall c H k ok l, wf_cfg c -> k < 64 -> survives H ok l -> survives (rice c H k) (fun v => v < 2 ^ 64) l.
Proof.
  intros c H k ok l Hc Hk [n0 Hs]. exists n0. intros fuel Hf S src s s' o s'' Hr Ho. cbn. unfold rice_decode.
  destruct (Hs fuel Hf S src s s' o s'' Hr Ho) as [(e & t & E)|[(t & E)|(v & p & q & t & E & Hv & -> & H1 & H2)]]; unfold try_ at 1; rewrite E; cbn [bind].
  - left. eauto. - right. left. unfold ret. eauto.
  - rewrite (try_lift _ (2 ^ (64 - k) - 1)) by (rewrite wshr_ok by exact Hk; now rewrite rice_limit).
    destruct (2 ^ (64 - k) - 1 <? v) eqn:Ev; [left; unfold fail; eauto|].
    destruct (read_int_cases src s' o s'' Ho c k t q H2) as [(e & t' & E')|[(t' & E')|(x & p' & q' & t' & E' & -> & Hp & H1' & H2')]]; unfold try_ at 1; rewrite E'; cbn [bind].
    + left. eauto. + left. unfold fail. eauto.
    + right. right. rewrite (try_lift _ (N.shiftl v k mod 2 ^ 64)) by now apply wshl_ok.
      assert (Hx : x < 2 ^ 64).
      { rewrite (read_int_ok c src 64 ltac:(lia) k p' t t' Hp H1') in E'. injection E' as <-. apply N.mod_lt. lia. }
      exists (N.lor x (N.shiftl v k mod 2 ^ 64)), (p ++ p'), q', t'. split; [reflexivity|]. split.
      * apply bits_lt. intros i Hi. rewrite N.lor_spec, N.mod_pow2_bits_high by lia. rewrite orb_false_r.
        destruct (N.eq_dec x 0) as [->|Hx0]; [apply N.bits_0|]. apply N.bits_above_log2. pose proof (log2_lt x 64 Hx0 Hx). lia.
      * split; [now rewrite app_assoc|]. split; [|exact H2']. apply reads_app. eauto.
Qed.

(** ** Towers: the codes of the library and the Rice code, under Lift0, Elias and Rice in any order and to any depth *)
Inductive tower_code (c : cfg) : bool -> code -> (N -> Prop) -> Prop :=
| tc_lib : forall strict C D, provided c strict C D -> tower_code c strict C D
| tc_lift0 : forall strict C D, tower_code c strict C D -> tower_code c strict (lift0 c C) (fun v => v + 1 < 2 ^ 64 /\ D (v + 1))
| tc_elias : forall strict H D, tower_code c strict H D -> tower_code c strict (elias c H) (fun v => 1 <= v < 2 ^ 64 /\ D (N.log2 v))
| tc_rice : forall strict H D k, k < 64 -> tower_code c strict H D -> tower_code c strict (rice c H k) (fun v => v < 2 ^ 64 /\ D (v / 2 ^ k)).

Lemma tower_codeword c b C D v : wf_cfg c -> tower_code c b C D -> D v -> exists w, codeword C v w /\ (b = true -> truncates C w).
Proof.
  intros Hc HP. revert v. induction HP as [b C D HP|b C D HP IH|b H D HP IH|b H D k Hk HP IH]; intros v Hv.
  - exact (provided_codeword c b C D v Hc HP Hv).
  - destruct Hv as [Hv Hd]. destruct (IH _ Hd) as (w & Hw & Ht). exists w. split; [now apply lift0_codeword|]. intros Hb. apply lift0_truncates. auto.
  - destruct Hv as [Hv Hd]. destruct (IH _ Hd) as (w & Hw & Ht). exists (w ++ bits_of (N.log2 v) v).
    split; [apply elias_codeword; auto; lia|]. intros Hb. apply elias_truncates; auto; lia.
  - destruct Hv as [Hv Hd]. destruct (IH _ Hd) as (w & Hw & Ht). exists (w ++ bits_of k v).
    split; [apply C119_word; auto|]. intros Hb. apply C119_truncated; auto.
Qed.
Lemma tower_clean c b C D : tower_code c b C D -> clean_end C.
Proof.
  induction 1 as [b C D HP|b C D HP [n0 H]|b C D HP [n0 H]|b C D k Hk HP [n0 H]]; [exact (provided_clean c b C D HP)| | |];
    exists n0; intros fuel Hf S src s s' E; cbn; unfold lift0_decode, elias_decode, rice_decode; rewrite (try_ok _ _ _ _ _ (H fuel Hf S src s s' E)); reflexivity.
Qed.

(** Lists of values come back, through any stream. *)
Theorem C119_any_stream : forall c strict C D vs, wf_cfg c -> tower_code c strict C D -> Forall D vs ->
  exists w n0, forall fuel, (n0 <= fuel)%nat ->
    (forall S (snk : sink S) s, encode_list C snk fuel vs s = write_all snk w s) /\
    (forall S (src : source S) s s' s'', reads src s w s' -> read_bit src s' = Ok (IOk None, s'') ->
       decode_list C src fuel s = Ok (IOk vs, s'')).
Proof.
  intros c strict C D vs Hc HP HF.
  assert (exists ws, Forall2 (codeword C) vs ws) as (ws & Hws).
  { induction HF as [|v vs Hv HF [ws IH]]; [exists []; constructor|]. destruct (tower_codeword c strict C D v Hc HP Hv) as (w & Hw & _). exists (w :: ws). now constructor. }
  destruct (encode_list_ok C vs ws Hws) as [n1 H1]. destruct (decode_list_ok C vs ws Hws (tower_clean c strict C D HP)) as [n2 H2].
  exists (concat ws), (n1 + n2)%nat. intros fuel Hf. split; intros.
  - apply H1. lia. - apply (H2 fuel ltac:(lia) S src s s' s''); auto.
Qed.
(** No word is a prefix of another. *)
Theorem C119_prefix_free : forall c strict C D v1 v2, wf_cfg c -> tower_code c strict C D -> D v1 -> D v2 ->
  exists n0, forall fuel, (n0 <= fuel)%nat -> exists w1 w2,
    encode C deque_sink fuel v1 [] = Ok (IOk tt, w1) /\ encode C deque_sink fuel v2 [] = Ok (IOk tt, w2) /\
    ((exists q, w2 = w1 ++ q) -> v1 = v2).
Proof.
  intros c strict C D v1 v2 Hc HP H1 H2. destruct (tower_codeword c strict C D v1 Hc HP H1) as (w1 & W1 & _).
  destruct (tower_codeword c strict C D v2 Hc HP H2) as (w2 & W2 & _). pose proof W1 as [_ [n1 E1] _]. pose proof W2 as [_ [n2 E2] _].
  exists (n1 + n2)%nat. intros fuel Hf. exists w1, w2. rewrite E1, E2, !write_all_deque by lia. split; [reflexivity|]. split; [reflexivity|].
  intros [q Eq]. now destruct (codeword_prefix C v1 w1 v2 w2 q W1 W2 Eq).
Qed.
(** Data that ends within a word are reported as such. *)
Theorem C119_cut : forall c C D v, wf_cfg c -> tower_code c true C D -> D v -> exists n0, forall fuel, (n0 <= fuel)%nat -> exists w,
  encode C deque_sink fuel v [] = Ok (IOk tt, w) /\
  forall S (src : source S) s p s' o s'', proper_prefix p w -> reads src s p s' -> stops src s' o s'' ->
    decode C src fuel s = Ok (stopped o p, s'').
Proof.
  intros c C D v Hc HP Hv. destruct (tower_codeword c true C D v Hc HP Hv) as (w & [_ [n1 H1] _] & Ht). destruct (Ht eq_refl) as [n2 H2].
  exists (n1 + n2)%nat. intros fuel Hf. exists w. split; [rewrite H1 by lia; now rewrite write_all_deque|]. intros S src s p s' o s'' Hp Hr Ho. exact (H2 fuel ltac:(lia) S src s p s' o s'' Hp Hr Ho).
Qed.

(** ** The classical code, with a unary quotient, and its length *)
Theorem C119_unary : forall c k v, wf_cfg c -> k < 64 -> v < 2 ^ 64 ->
  codeword (rice c (unary c) k) v (repeatN false (v / 2 ^ k) ++ [true] ++ bits_of k v) /\
  lengthN (repeatN false (v / 2 ^ k) ++ [true] ++ bits_of k v) = v / 2 ^ k + 1 + k.
Proof.
  intros c k v Hc Hk Hv. split.
  - rewrite app_assoc. apply (C119_word c (unary c) k v (unary_word (v / 2 ^ k))); auto. apply unary_codeword.
    eapply N.le_lt_trans; [apply N.div_le_upper_bound with (q := v)|exact Hv]; pose proof (pow2_pos k); [lia|]. rewrite <- (N.mul_1_l v) at 1. apply N.mul_le_mono_r. lia.
  - rewrite !lengthN_app, lengthN_cons, lengthN_nil, lengthN_repeatN, lengthN_bits_of. lia.
Qed.

Example C119_ex :
  encode (rice dbg64 (unary dbg64) 3) deque_sink 20 21 [] = Ok (IOk tt, [false; false; true; true; false; true]) /\
  decode (rice dbg64 (unary dbg64) 3) deque_source 20 [false; false; true; true; false; true; true] = Ok (IOk (Some 21), [true]) /\
  decode (rice dbg64 (unary dbg64) 3) deque_source 20 [false; false; true; true] = Ok (IErr UnexpectedEof, []) /\
  decode (rice dbg64 (unary dbg64) 63) deque_source 20 [false; false; true; true] = Ok (IErr InvalidData, [true]) /\
  decode (rice rel32 (unary rel32) 63) deque_source 20 [] = Ok (IOk None, []) /\
  (let C := elias rel32 (lift0 rel32 (elias rel32 (rice rel32 (unary rel32) 1))) in
   encode_list C deque_sink 70 [1; 5; 2 ^ 64 - 1; 1000] [] = encode_list C deque_sink 90 [1; 5; 2 ^ 64 - 1; 1000] [] /\
   exists l, encode_list C deque_sink 70 [1; 5; 2 ^ 64 - 1; 1000] [] = Ok (IOk tt, l) /\ lengthN l = 96 /\
     decode_list C deque_source 70 l = Ok (IOk [1; 5; 2 ^ 64 - 1; 1000], [])).
Proof.
  do 6 (split; [vm_compute; reflexivity|]). eexists. split; [vm_compute; reflexivity|]. split; vm_compute; reflexivity.
Qed.
(** The hypotheses are met: the tower of the example and its values; a header that survives; a quotient that is too large. *)
Example C119_ex_ok :
  (exists D, tower_code rel32 true (elias rel32 (lift0 rel32 (elias rel32 (rice rel32 (unary rel32) 1)))) D /\ Forall D [1; 5; 2 ^ 64 - 1; 1000]) /\
  survives (unary dbg64) (fun v => v <= 3) [false; false; true] /\
  (decodes (unary dbg64) [false; false; true] 2 /\ 2 ^ (64 - 63) <= 2) /\
  (exists D, tower_code dbg64 false (rice dbg64 (lift0 dbg64 (fibonacci dbg64)) 10) D /\ D 0 /\ D 123456789).
Proof.
  split; [|split; [|split]].
  - eexists. split.
    + apply tc_elias, tc_lift0, tc_elias, tc_rice; [lia|]. apply tc_lib, pr_unary.
    + repeat constructor; vm_compute; congruence || reflexivity.
  - exact (unary_survives dbg64 [false; false; true] ltac:(vm_compute; reflexivity)).
  - split; [exact (cw_decodes _ _ _ (unary_codeword dbg64 2 ltac:(lia)))|vm_compute; congruence].
  - eexists. split; [apply tc_rice; [lia|]; apply tc_lift0, tc_lib, pr_fib|]. split; vm_compute; repeat split; congruence || reflexivity.
Qed.

Print Assumptions C119_word.
Print Assumptions C119_truncated.
Print Assumptions C119_too_large.
Print Assumptions C119_any_input.
Print Assumptions C119_any_stream.
Print Assumptions C119_prefix_free.
Print Assumptions C119_cut.
Print Assumptions C119_unary.
