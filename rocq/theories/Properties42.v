(** * Property C95: longer numbers have no shorter code words, and code words obey the Kraft inequality (src/coding). *)
From Verif Require Import Machine MStorage MStream MCoding SpecBits SpecCfg SpecStream PBase PBits PStream PCoding PCoding2 PCoding3 Properties15.

Definition sumN (l : list N) : N := fold_right N.add 0 l.

(** ** Prefix-free lists of words *)
Definition tails (b : bool) (ws : list (list bool)) : list (list bool) :=
  flat_map (fun w => match w with x :: t => if Bool.eqb x b then [t] else [] | [] => [] end) ws.
Lemma in_tails b ws t : In t (tails b ws) <-> In (b :: t) ws.
Proof.
  unfold tails. rewrite in_flat_map. split.
  - intros ([|x u] & Hi & H); [destruct H|]. destruct (Bool.eqb x b) eqn:E; [|destruct H]. apply Bool.eqb_prop in E. destruct H as [<-|[]]. now subst.
  - intros H. exists (b :: t). split; [exact H|]. rewrite Bool.eqb_reflx. now left.
Qed.
Lemma tails_nodup b ws : NoDup ws -> NoDup (tails b ws).
Proof.
  induction 1 as [|[|x t] ws Hn H IH]; cbn; [constructor|exact IH|]. fold (tails b ws). destruct (Bool.eqb x b) eqn:E; cbn; [|exact IH].
  constructor; [|exact IH]. rewrite in_tails. apply Bool.eqb_prop in E. now subst.
Qed.
Lemma words_kraft : forall m ws, NoDup ws -> (forall w q, In w ws -> In (w ++ q) ws -> q = []) -> Forall (fun w : list bool => (length w <= m)%nat) ws ->
  sumN (map (fun w : list bool => 2 ^ (N.of_nat m - lengthN w)) ws) <= 2 ^ N.of_nat m.
Proof.
  induction m as [|m IH]; intros ws Hn Hp Hf.
  - assert (Hnil : forall w, In w ws -> w = []) by (intros w Hi; rewrite Forall_forall in Hf; specialize (Hf w Hi); destruct w; [reflexivity|cbn in Hf; lia]).
    destruct ws as [|w1 [|w2 ws]]; [apply N.le_0_l| |].
    + rewrite (Hnil w1) by now left. vm_compute. congruence.
    + exfalso. inversion Hn as [|? ? H1 _]; subst. apply H1. left. rewrite (Hnil w1), (Hnil w2); auto; [right; now left|now left].
  - destruct (in_dec (list_eq_dec Bool.bool_dec) [] ws) as [Hi|Hi].
    + assert (Hnil : forall w, In w ws -> w = []) by (intros w Hw; exact (Hp [] w Hi Hw)).
      destruct ws as [|w1 [|w2 ws]]; [apply N.le_0_l| |].
      * rewrite (Hnil w1) by now left. cbn [map sumN fold_right]. change (lengthN []) with 0. rewrite N.sub_0_r, N.add_0_r. lia.
      * exfalso. inversion Hn as [|? ? H1 _]; subst. apply H1. left. rewrite (Hnil w1), (Hnil w2); auto; [right; now left|now left].
    + assert (Hs : sumN (map (fun w : list bool => 2 ^ (N.of_nat (Datatypes.S m) - lengthN w)) ws) =
        sumN (map (fun w : list bool => 2 ^ (N.of_nat m - lengthN w)) (tails true ws)) + sumN (map (fun w : list bool => 2 ^ (N.of_nat m - lengthN w)) (tails false ws))).
      { clear - Hi. induction ws as [|[|x t] ws IH]; [reflexivity|destruct Hi; now left|]. cbn [map sumN fold_right tails flat_map].
        fold (tails true ws) (tails false ws). fold (sumN (map (fun w : list bool => 2 ^ (N.of_nat (Datatypes.S m) - lengthN w)) ws)). rewrite IH by (intros H; apply Hi; now right).
        replace (N.of_nat (Datatypes.S m) - lengthN (x :: t)) with (N.of_nat m - lengthN t) by (rewrite lengthN_cons; lia).
        destruct x; cbn [Bool.eqb app map sumN fold_right]; unfold sumN; lia. }
      rewrite Hs, Nat2N.inj_succ, N.pow_succ_r'.
      assert (K : forall b, sumN (map (fun w : list bool => 2 ^ (N.of_nat m - lengthN w)) (tails b ws)) <= 2 ^ N.of_nat m).
      { intros b. apply IH; [now apply tails_nodup| |].
        - intros w q H1 H2. rewrite in_tails in H1, H2. exact (Hp (b :: w) q H1 H2).
        - rewrite Forall_forall in *. intros w H1. rewrite in_tails in H1. specialize (Hf _ H1). cbn in Hf. lia. }
      pose proof (K true). pose proof (K false). lia.
Qed.

(** ** The lengths of the words of the codes provided *)
Lemma needs_unique C v n m : needs C v n -> needs C v m -> n = m.
Proof.
  intros [a A] [b B]. destruct (A (a + b)%nat ltac:(lia) []) as (w & E & <-). destruct (B (a + b)%nat ltac:(lia) []) as (w' & E' & <-).
  rewrite E in E'. now injection E' as <-.
Qed.
Theorem C95_kraft : forall c strict C D vs ns m, wf_cfg c -> provided c strict C D -> Forall D vs -> NoDup vs ->
  Forall2 (needs C) vs ns -> Forall (fun n => n <= m) ns -> sumN (map (fun n => 2 ^ (m - n)) ns) <= 2 ^ m.
Proof.
  intros c strict C D vs ns m Hc HP HD Hnd HN Hm. destruct (provided_words c strict C D vs Hc HP HD) as (ws & Hws).
  assert (ns = map lengthN ws) as ->.
  { clear - HN Hws. revert ns HN. induction Hws as [|v w vs ws Hw _ IH]; intros ns HN; inversion HN as [|? n ? ns' H1 H2]; subst; [reflexivity|].
    cbn [map]. f_equal; [|now apply IH]. exact (needs_unique _ _ _ _ H1 (codeword_needs _ _ _ Hw)). }
  assert (Hin : forall w, In w ws -> exists v, In v vs /\ codeword C v w).
  { clear - Hws. induction Hws as [|v w vs ws Hw _ IH]; intros u Hu; [destruct Hu|]. destruct Hu as [H|H]; [subst; exists v; split; [now left|exact Hw]|].
    destruct (IH u H) as (x & Hx & Hc). exists x. split; [now right|exact Hc]. }
  assert (Hnw : NoDup ws).
  { clear - Hws Hnd. induction Hws as [|v w vs ws Hw Hws IH]; [constructor|]. inversion Hnd as [|? ? H1 H2]; subst. constructor; [|now apply IH].
    intros Hi. assert (exists v', In v' vs /\ codeword C v' w) as (v' & Hv' & Hc').
    { clear - Hws Hi. induction Hws as [|v' w' vs ws Hw _ IH]; [destruct Hi|]. destruct Hi as [->|Hi]; [exists v'; split; [now left|exact Hw]|].
      destruct (IH Hi) as (x & Hx & Hc). exists x. split; [now right|exact Hc]. }
    destruct (codeword_prefix C v w v' w [] Hw Hc' ltac:(now rewrite app_nil_r)) as [-> _]. contradiction. }
  rewrite map_map. pose proof (words_kraft (N.to_nat m) ws Hnw) as K. rewrite N2Nat.id in K. apply K.
  - intros w q H1 H2. destruct (Hin _ H1) as (v1 & _ & W1). destruct (Hin _ H2) as (v2 & _ & W2).
    exact (proj2 (codeword_prefix C v1 w v2 _ q W1 W2 eq_refl)).
  - rewrite Forall_map in Hm. rewrite Forall_forall in *. intros w Hw. specialize (Hm w Hw). unfold lengthN in Hm. lia.
Qed.
(** So no code of the library gives more than 2^m numbers words of at most m bits. *)
Theorem C95_count : forall c strict C D vs m, wf_cfg c -> provided c strict C D -> Forall D vs -> NoDup vs ->
  Forall (fun v => exists n, n <= m /\ needs C v n) vs -> lengthN vs <= 2 ^ m.
Proof.
  intros c strict C D vs m Hc HP HD Hnd HN.
  assert (exists ns, Forall2 (needs C) vs ns /\ Forall (fun n => n <= m) ns) as (ns & H1 & H2).
  { clear - HN. induction HN as [|v vs (n & Hn & H) _ (ns & I1 & I2)]; [exists []; split; constructor|]. exists (n :: ns). split; constructor; auto. }
  etransitivity; [|exact (C95_kraft c strict C D vs ns m Hc HP HD Hnd H1 H2)]. clear - H1 H2.
  induction H1 as [|v n vs ns _ _ IH]; [apply N.le_0_l|]. inversion H2 as [|? ? Hn H2']; subst. specialize (IH H2'). rewrite lengthN_cons. cbn [map sumN fold_right].
  fold (sumN (map (fun n => 2 ^ (m - n)) ns)). pose proof (N.pow_nonzero 2 (m - n) ltac:(lia)). lia.
Qed.

(** ** Larger numbers have no shorter words *)
Lemma fib_bracket v : 1 <= v -> exists k, fib_number k <= v < fib_number (Datatypes.S k).
Proof.
  intros Hv. assert (G : forall k, exists j, N.of_nat k < fib_number j).
  { induction k as [|k (j & Hj)]; [exists 0%nat; cbn; lia|]. exists (Datatypes.S (Datatypes.S j)). change (fib_number (Datatypes.S (Datatypes.S j))) with (fib_number (Datatypes.S j) + fib_number j).
    assert (1 <= fib_number (Datatypes.S j)); [|lia]. clear. assert (1 <= fib_number j /\ 1 <= fib_number (Datatypes.S j)); [|lia].
    induction j as [|j [I1 I2]]; [cbn; lia|]. split; [lia|]. change (fib_number (Datatypes.S (Datatypes.S j))) with (fib_number (Datatypes.S j) + fib_number j). lia. }
  destruct (G (N.to_nat v)) as (j & Hj). rewrite N2Nat.id in Hj. induction j as [|j IH]; [cbn in Hj; lia|].
  destruct (N.lt_ge_cases v (fib_number j)) as [H|H]; [auto|]. exists j. lia.
Qed.
Lemma fib_number_mono i j : (i <= j)%nat -> fib_number i <= fib_number j.
Proof.
  assert (S1 : forall k, fib_number k <= fib_number (Datatypes.S k)).
  { destruct k as [|k]; [cbn; lia|]. change (fib_number (Datatypes.S (Datatypes.S k))) with (fib_number (Datatypes.S k) + fib_number k). lia. }
  induction 1 as [|j _ IH]; [lia|]. pose proof (S1 j). lia.
Qed.
Lemma digits_exist B v : 2 <= B -> exists d, v < B ^ d /\ (d = 0 \/ B ^ (d - 1) <= v).
Proof.
  intros HB. assert (G : forall k, v < B ^ N.of_nat k -> exists d, v < B ^ d /\ (d = 0 \/ B ^ (d - 1) <= v)).
  { induction k as [|k IH]; intros H; [exists 0; auto|]. destruct (N.lt_ge_cases v (B ^ N.of_nat k)) as [L|L]; [auto|].
    exists (N.of_nat (Datatypes.S k)). split; [exact H|]. right. replace (N.of_nat (Datatypes.S k) - 1) with (N.of_nat k) by lia. exact L. }
  apply (G (N.to_nat v)). rewrite N2Nat.id. apply N.pow_gt_lin_r. lia.
Qed.

Theorem C95_monotone : forall c strict C D v1 v2 n1 n2, wf_cfg c -> provided c strict C D -> D v1 -> D v2 -> v1 <= v2 ->
  needs C v1 n1 -> needs C v2 n2 -> n1 <= n2.
Proof.
  intros c strict C D v1 v2 n1 n2 Hc HP. revert v1 v2 n1 n2. induction HP as [| | | | |n Hn|b C D HP IH|b H D HP IH]; intros v1 v2 n1 n2 H1 H2 Hle N1 N2; cbv beta in H1, H2.
  - rewrite (needs_unique _ _ _ _ N1 (C72_unary c v1 H1)), (needs_unique _ _ _ _ N2 (C72_unary c v2 H2)). lia.
  - rewrite (needs_unique _ _ _ _ N1 (C72_gamma c v1 Hc ltac:(lia) ltac:(lia))), (needs_unique _ _ _ _ N2 (C72_gamma c v2 Hc ltac:(lia) ltac:(lia))).
    pose proof (N.log2_le_mono v1 v2 Hle). lia.
  - rewrite (needs_unique _ _ _ _ N1 (C72_delta c v1 Hc ltac:(lia) ltac:(lia))), (needs_unique _ _ _ _ N2 (C72_delta c v2 Hc ltac:(lia) ltac:(lia))).
    pose proof (N.log2_le_mono v1 v2 Hle). pose proof (N.log2_le_mono (N.log2 v1 + 1) (N.log2 v2 + 1) ltac:(lia)). lia.
  - destruct (C72_omega c Hc) as [O1 O2]. revert v1 n1 n2 H1 H2 Hle N1 N2. induction v2 as [v2 IH] using (well_founded_induction N.lt_wf_0). intros v1 n1 n2 H1 H2 Hle N1 N2.
    assert (Hl : forall v n, 1 < v < 2 ^ 64 -> needs (omega c) v n -> exists m, n = N.log2 v + 1 + m /\ needs (omega c) (N.log2 v) m).
    { intros v n Hv Hn. pose proof (N.log2_pos v ltac:(lia)). pose proof (N.log2_lt_lin v ltac:(lia)).
      destruct (provided_codeword c true (omega c) _ (N.log2 v) Hc (pr_omega c) ltac:(cbv beta; lia)) as (w & W & _). exists (lengthN w).
      pose proof (codeword_needs _ _ _ W) as K. split; [|exact K]. apply (needs_unique (omega c) v); [exact Hn|]. apply O2; [lia|lia|exact K]. }
    destruct (N.eq_dec v2 1) as [->|Hv2].
    { assert (v1 = 1) as -> by lia. rewrite (needs_unique _ _ _ _ N1 N2). lia. }
    destruct (Hl v2 n2 ltac:(lia) N2) as (m2 & -> & M2). destruct (N.eq_dec v1 1) as [->|Hv1].
    { rewrite (needs_unique _ _ _ _ N1 O1). lia. }
    destruct (Hl v1 n1 ltac:(lia) N1) as (m1 & -> & M1). pose proof (N.log2_le_mono v1 v2 Hle). pose proof (N.log2_pos v1 ltac:(lia)).
    pose proof (N.log2_lt_lin v2 ltac:(lia)). assert (m1 <= m2); [|lia].
    apply (IH (N.log2 v2) ltac:(lia) (N.log2 v1)); auto; lia.
  - destruct (fib_bracket v1 ltac:(lia)) as (k1 & K1). destruct (fib_bracket v2 ltac:(lia)) as (k2 & K2).
    rewrite (needs_unique _ _ _ _ N1 (C72_fibonacci c v1 k1 ltac:(lia) ltac:(lia) ltac:(lia))), (needs_unique _ _ _ _ N2 (C72_fibonacci c v2 k2 ltac:(lia) ltac:(lia) ltac:(lia))).
    assert (k1 <= k2)%nat; [|lia]. destruct (Nat.le_gt_cases k1 k2) as [|L]; [assumption|]. pose proof (fib_number_mono (Datatypes.S k2) k1 L). lia.
  - pose proof (N.pow_le_mono_r 2 2 n ltac:(lia) ltac:(lia)). change (2 ^ 2) with 4 in *. set (B := 2 ^ n - 1).
    destruct (digits_exist B v1 ltac:(subst B; lia)) as (d1 & A1 & A2). destruct (digits_exist B v2 ltac:(subst B; lia)) as (d2 & B1 & B2).
    rewrite (needs_unique _ _ _ _ N1 (C72_comma c n v1 d1 Hn H1 A1 A2)), (needs_unique _ _ _ _ N2 (C72_comma c n v2 d2 Hn H2 B1 B2)).
    apply N.mul_le_mono_l. assert (d1 <= d2); [|lia]. destruct A2 as [->|A2]; [lia|]. assert (d1 - 1 < d2); [|lia].
    apply (N.pow_lt_mono_r_iff B); [subst B; lia|]. lia.
  - destruct (provided_codeword c b C D (v1 + 1) Hc HP ltac:(tauto)) as (w1 & W1 & _). destruct (provided_codeword c b C D (v2 + 1) Hc HP ltac:(tauto)) as (w2 & W2 & _).
    pose proof (codeword_needs _ _ _ W1) as K1. pose proof (codeword_needs _ _ _ W2) as K2.
    rewrite (needs_unique _ _ _ _ N1 (C72_lift0 c C v1 _ ltac:(tauto) K1)), (needs_unique _ _ _ _ N2 (C72_lift0 c C v2 _ ltac:(tauto) K2)).
    apply (IH (v1 + 1) (v2 + 1)); [tauto|tauto|lia|exact K1|exact K2].
  - destruct H1 as [B1 D1], H2 as [B2 D2].
    destruct (provided_codeword c b H D _ Hc HP D1) as (w1 & W1 & _). destruct (provided_codeword c b H D _ Hc HP D2) as (w2 & W2 & _).
    pose proof (codeword_needs _ _ _ (elias_codeword c H v1 w1 Hc ltac:(lia) ltac:(lia) W1)) as E1. pose proof (codeword_needs _ _ _ (elias_codeword c H v2 w2 Hc ltac:(lia) ltac:(lia) W2)) as E2.
    rewrite (needs_unique _ _ _ _ N1 E1), (needs_unique _ _ _ _ N2 E2), !lengthN_app, !lengthN_bits_of. pose proof (N.log2_le_mono v1 v2 Hle).
    pose proof (IH _ _ _ _ D1 D2 ltac:(lia) (codeword_needs _ _ _ W1) (codeword_needs _ _ _ W2)). lia.
Qed.
(** ** Many numbers one after the other take the sum of their lengths *)
Theorem C95_total : forall C vs ns, Forall2 (needs C) vs ns ->
  exists n0, forall fuel, (n0 <= fuel)%nat -> forall l, exists w,
    encode_list C deque_sink fuel vs l = Ok (IOk tt, l ++ w) /\ lengthN w = sumN ns.
Proof.
  intros C vs ns HN. induction HN as [|v n vs ns [a A] _ (b & IH)].
  - exists 0%nat. intros fuel _ l. exists []. rewrite app_nil_r. split; reflexivity.
  - exists (a + b)%nat. intros fuel Hf l. destruct (A fuel ltac:(lia) l) as (w1 & E1 & L1). destruct (IH fuel ltac:(lia) (l ++ w1)) as (w2 & E2 & L2).
    exists (w1 ++ w2). split; [|rewrite lengthN_app; cbn [sumN fold_right]; fold (sumN ns); lia].
    cbn [encode_list]. unfold try_. rewrite E1. cbn. rewrite E2. now rewrite app_assoc.
Qed.

Example C95_ex : provided dbg64 true (gamma dbg64) (fun v => 1 <= v < 2 ^ 64) /\
  Forall2 (needs (gamma dbg64)) [1; 2; 3; 4; 5; 6; 7] [1; 3; 3; 5; 5; 5; 5] /\
  sumN (map (fun n => 2 ^ (5 - n)) [1; 3; 3; 5; 5; 5; 5]) = 28 /\ 28 <= 2 ^ 5.
Proof.
  split; [constructor|]. split; [|split; [vm_compute; reflexivity|vm_compute; congruence]].
  repeat (constructor; [match goal with |- needs _ ?v ?n => exact (C72_gamma dbg64 v ltac:(auto with wf) ltac:(lia) ltac:(lia)) end|]). constructor.
Qed.
Example C95_ex2 : needs (omega rel32) 15 7 /\ needs (omega rel32) 16 11 /\ needs (comma rel32 3) 6 6 /\ needs (comma rel32 3) 7 9.
Proof.
  assert (Hc : wf_cfg rel32) by auto with wf. destruct (C72_omega rel32 Hc) as [O1 O2].
  split; [|split; [|split]].
  - apply (O2 15 3); [lia|lia|]. apply (O2 3 1); [lia|lia|]. exact O1.
  - apply (O2 16 6); [lia|lia|]. apply (O2 4 3); [lia|lia|]. apply (O2 2 1); [lia|lia|]. exact O1.
  - apply (C72_comma rel32 3 6 1); [lia|lia|vm_compute; reflexivity|right; vm_compute; congruence].
  - apply (C72_comma rel32 3 7 2); [lia|lia|vm_compute; reflexivity|right; vm_compute; congruence].
Qed.

Print Assumptions C95_kraft.
Print Assumptions C95_count.
Print Assumptions C95_monotone.
Print Assumptions C95_total.
