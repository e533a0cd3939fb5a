(** * Property C72: the lengths of code words (src/coding).  "[C] needs [n] bits for [v]": encoding appends exactly
    [n] bits to a queue. *)
From Verif Require Import Machine MStorage MStream MCoding SpecBits SpecCfg SpecStream PBase PBits PStream PCoding PCoding2 PCoding3.

Definition needs (C : code) (v n : N) : Prop :=
  exists n0, forall fuel, (n0 <= fuel)%nat -> forall l, exists w,
    encode C deque_sink fuel v l = Ok (IOk tt, l ++ w) /\ lengthN w = n.
Lemma codeword_needs C v w : codeword C v w -> needs C v (lengthN w).
Proof. intros [_ [n0 H] _]. exists n0. intros fuel Hf l. exists w. rewrite H, write_all_deque by exact Hf. auto. Qed.

Theorem C72_unary : forall c v, v < 2 ^ 64 -> needs (unary c) v (v + 1).
Proof.
  intros c v Hv. replace (v + 1) with (lengthN (unary_word v)); [now apply codeword_needs, unary_codeword|].
  unfold unary_word. now rewrite lengthN_app, lengthN_repeatN.
Qed.
Lemma length_gamma_word v : lengthN (gamma_word v) = 2 * N.log2 v + 1.
Proof. unfold gamma_word, unary_word. rewrite !lengthN_app, lengthN_repeatN, lengthN_bits_of. change (lengthN [true]) with 1. lia. Qed.
Theorem C72_gamma : forall c v, wf_cfg c -> 1 <= v -> v < 2 ^ 64 -> needs (gamma c) v (2 * N.log2 v + 1).
Proof. intros c v Hc H1 Hv. rewrite <- length_gamma_word. apply codeword_needs, gamma_codeword; auto. lia. Qed.
Theorem C72_delta : forall c v, wf_cfg c -> 1 <= v -> v < 2 ^ 64 ->
  needs (delta c) v (N.log2 v + 2 * N.log2 (N.log2 v + 1) + 1).
Proof.
  intros c v Hc H1 Hv. replace (N.log2 v + 2 * N.log2 (N.log2 v + 1) + 1) with (lengthN (delta_word v)).
  - apply codeword_needs, delta_codeword; auto. lia.
  - unfold delta_word. rewrite lengthN_app, length_gamma_word, lengthN_bits_of. lia.
Qed.
(** Omega: one bit for 1, and for larger numbers the number itself and the word of its length less one. *)
Theorem C72_omega : forall c, wf_cfg c -> needs (omega c) 1 1 /\
  forall v n, 1 < v -> v < 2 ^ 64 -> (needs (omega c) v (N.log2 v + 1 + n) <-> needs (omega c) (N.log2 v) n).
Proof.
  assert (D : forall c v n m, needs (omega c) v n -> needs (omega c) v m -> n = m).
  { intros c v n m [a A] [b B]. destruct (A (a + b)%nat ltac:(lia) []) as (w & E & <-). destruct (B (a + b)%nat ltac:(lia) []) as (w' & E' & <-).
    rewrite E in E'. now injection E' as <-. }
  intros c Hc. assert (K : forall v g, v < 2 ^ 64 -> omega_groups v g -> needs (omega c) v (lengthN g + 1)).
  { intros v g Hv Hg. replace (lengthN g + 1) with (lengthN (g ++ [false])) by (now rewrite lengthN_app). apply codeword_needs, omega_codeword; auto. exists g. auto. }
  split; [apply (K 1 [] ltac:(lia) og_one)|]. intros v n H1 Hv.
  destruct (omega_groups_exists (N.log2 v)) as (g & Hg); [pose proof (N.log2_pos v H1); lia|].
  assert (Hl : N.log2 v < 2 ^ 64) by (pose proof (N.log2_le_lin v ltac:(lia)); lia).
  pose proof (K _ _ Hl Hg) as K1. pose proof (K v _ Hv (og_more v g H1 Hg)) as K2.
  rewrite lengthN_app, lengthN_rev, lengthN_bits_of in K2. split; intros H.
  - assert (n = lengthN g + 1) as -> by (pose proof (D _ _ _ _ H K2); lia). exact K1.
  - assert (n = lengthN g + 1) as -> by (exact (D _ _ _ _ H K1)). replace (N.log2 v + 1 + (lengthN g + 1)) with (lengthN g + (N.log2 v + 1) + 1) by lia. exact K2.
Qed.
(** Comma: [n] bits for each digit in base 2^n - 1 and for the comma. *)
Theorem C72_comma : forall c n v d, 2 <= n <= 63 -> v < 2 ^ 64 ->
  v < (2 ^ n - 1) ^ d -> (d = 0 \/ (2 ^ n - 1) ^ (d - 1) <= v) -> needs (comma c n) v (n * (d + 1)).
Proof.
  intros c n v d Hn Hv H1 H2. destruct (comma_encode_ok c n Hn v) as (w & Hw & _). pose proof Hw as (ds & Hd & Hh & Hf & Ew).
  pose proof (N.pow_le_mono_r 2 2 n ltac:(lia) ltac:(lia)). change (2 ^ 2) with 4 in *. set (B := 2 ^ n - 1) in *. assert (HB : 3 <= B) by lia.
  assert (Hlen : lengthN w = n * (lengthN ds + 1)).
  { rewrite Ew, lengthN_app, lengthN_bits_of. pose proof (lengthN_bits_of_blocks n ds) as E. unfold bits_of_blocks in E. rewrite E. lia. }
  assert (G : forall l r, Forall (fun d => d < B) l -> r * B ^ lengthN l <= fold_left (fun a d => a * B + d) l r /\
     fold_left (fun a d => a * B + d) l r < (r + 1) * B ^ lengthN l).
  { clear - HB. induction l as [|x l IH]; intros r Hl; cbn [fold_left].
    - change (B ^ lengthN []) with 1. lia.
    - inversion Hl as [|? ? Hx Hl']; subst. destruct (IH (r * B + x) Hl') as [I1 I2]. rewrite lengthN_cons, N.add_1_r, N.pow_succ_r'.
      set (P := B ^ lengthN l) in *. split; nia. }
  assert (lengthN ds = d) as <-.
  { destruct ds as [|x ds].
    - cbn [fold_left] in Hf. subst v. destruct H2 as [->|H2]; [reflexivity|]. pose proof (N.pow_nonzero B (d - 1) ltac:(lia)). lia.
    - cbn [hd fold_left] in *. inversion Hd as [|? ? Hx Hd']; subst. destruct (G ds (0 * B + x) Hd') as [G1 G2]. rewrite lengthN_cons.
      set (v := fold_left _ ds (0 * B + x)) in *. set (k := lengthN ds) in *.
      assert (P1 : B ^ k <= v) by nia. assert (P2 : v < B ^ (k + 1)) by (rewrite N.add_1_r, N.pow_succ_r'; nia).
      apply N.le_antisymm.
      + assert (k < d); [|lia]. apply (N.pow_lt_mono_r_iff B); lia.
      + destruct H2 as [->|H2]; [cbn in H1; lia|]. assert (d - 1 < k + 1); [|lia]. apply (N.pow_lt_mono_r_iff B); lia. }
  rewrite <- Hlen. now apply codeword_needs, comma_codeword.
Qed.
(** Fibonacci numbers 1, 2, 3, 5, 8, ... *)
Fixpoint fib_number (i : nat) : N :=
  match i with
  | O => 1
  | Datatypes.S j => match j with O => 2 | Datatypes.S k => fib_number j + fib_number k end
  end.
(** Fibonacci: the number of Fibonacci numbers up to [v], plus one. *)
Theorem C72_fibonacci : forall c v k, v < fib_max ->
  fib_number k <= v -> v < fib_number (Datatypes.S k) -> needs (fibonacci c) v (N.of_nat k + 2).
Proof.
  intros c v k Hv H1 H2.
  assert (F : forall i, fi (fibp i) = fib_number i /\ fi (fibp (Datatypes.S i)) = fib_number (Datatypes.S i)).
  { induction i as [|i [I1 I2]]; [split; reflexivity|]. split; [exact I2|]. rewrite !fibp_S in *. cbn [fi fi_1] in *.
    change (fib_number (Datatypes.S (Datatypes.S i))) with (fib_number (Datatypes.S i) + fib_number i). lia. }
  assert (1 <= v). { etransitivity; [|exact H1]. rewrite <- (proj1 (F k)). pose proof (fibp_pos k). lia. }
  destruct (fib_word_exists v) as (w & Hw); auto. pose proof (codeword_needs _ _ _ (fib_codeword c v w ltac:(auto) Hv Hw)) as K.
  replace (N.of_nat k + 2) with (lengthN w); [exact K|]. destruct Hw as (z & Hz & Hn & Hl & ->). rewrite lengthN_app. change (lengthN [true]) with 1.
  pose proof (fsum_last 0 z Hl) as L1. destruct (fsum_bound z Hn) as [L2 _]. unfold fsum in L1, L2. change (fi_1 (fibp 0)) with 1 in *. change (fi (fibp 0)) with 1 in *.
  rewrite Hz in L1, L2. destruct z as [|b z]; [discriminate|]. cbn [length Nat.add] in L1. replace (Datatypes.S (length z) - 1)%nat with (length z) in L1 by lia.
  cbn [length] in L2. unfold lengthN. cbn [length].
  assert (length z = k); [|lia]. destruct (lt_eq_lt_dec (length z) k) as [[L|L]|L]; [|exact L|].
  - pose proof (fibp_mono (Datatypes.S (length z)) k ltac:(lia)). rewrite (proj1 (F k)) in *. lia.
  - pose proof (fibp_mono (Datatypes.S k) (length z) ltac:(lia)). rewrite (proj2 (F k)) in *. lia.
Qed.
(** The combinators. *)
Theorem C72_lift0 : forall c C v n, v + 1 < 2 ^ 64 -> needs C (v + 1) n -> needs (lift0 c C) v n.
Proof.
  intros c C v n Hv [n0 H]. exists n0. intros fuel Hf l. destruct (H fuel Hf l) as (w & E & El). exists w. split; [|exact El].
  cbn. unfold lift0_encode, checked_add. destruct (v + 1 <? 2 ^ 64) eqn:E1; [exact E|lia].
Qed.
Example C72_ex : exists w1 w2 w3 w4 w5,
  encode (gamma rel64) deque_sink 70 1000 [] = Ok (IOk tt, w1) /\ lengthN w1 = 19 /\
  encode (delta rel64) deque_sink 70 1000 [] = Ok (IOk tt, w2) /\ lengthN w2 = 16 /\
  encode (omega dbg64) deque_sink 70 1000 [] = Ok (IOk tt, w3) /\ lengthN w3 = 17 /\
  encode (comma dbg64 3) deque_sink 70 1000 [] = Ok (IOk tt, w4) /\ lengthN w4 = 3 * (4 + 1) /\ 7 ^ 3 <= 1000 < 7 ^ 4 /\
  encode (fibonacci dbg64) deque_sink 100 1000 [] = Ok (IOk tt, w5) /\ lengthN w5 = 16 /\
  fib_number 14 <= 1000 < fib_number 15.
Proof. do 5 eexists. repeat match goal with |- _ /\ _ => split end; try (vm_compute; reflexivity); vm_compute; congruence. Qed.

Print Assumptions C72_unary.
Print Assumptions C72_gamma.
Print Assumptions C72_delta.
Print Assumptions C72_omega.
Print Assumptions C72_comma.
Print Assumptions C72_fibonacci.
Print Assumptions C72_lift0.
