(** * C91: what the bit-vector traits give to a type that implements as little as it may (src/bit_vec/traits.rs). *)
From Verif Require Import Machine MStorage MTraits MMinimal SpecBits SpecLaws SpecBuffer SpecMinimal SpecCfg PBase PStorage PBits PDefaults.

(** ** Reading through [get_bit] *)
Theorem C91_get_bit : forall T c nb (R : T -> list bool -> Prop) bit_len get_bit,
  wf_cfg c -> wf_nb nb -> right_bit_len c nb R bit_len -> right_get_bit R get_bit ->
  let B := bitvec_of_bit c nb bit_len get_bit in lawful_bits c B R /\ lawful_blocks c B R.
Proof.
  intros T c nb R bit_len get_bit Hc Hnb HL HG B. pose proof (wf_nb_range nb Hnb) as Hr.
  assert (L : forall t l, R t l -> bit_len t = Ok (lengthN l)) by (intros t l H; apply (HL t l H)).
  assert (F : forall t l, R t l -> fits c nb (lengthN l)) by (intros t l H; apply (HL t l H)).
  assert (G : forall t l i b, R t l -> nthN l i = Some b -> get_bit t i = Ok b).
  { intros t l i b H E. pose proof (HG t l i H) as K. now rewrite E in K. }
  assert (GO : forall t l i, R t l -> lengthN l <= i -> i < 2 ^ 64 -> panics (get_bit t i)).
  { intros t l i H Hi. pose proof (HG t l i H) as K. now rewrite (proj2 (nthN_None l i) Hi) in K. }
  assert (KL : forall t l, R t l -> default_block_len c nb bit_len t = Ok (blocks_for nb (lengthN l))).
  { intros t l H. apply def_block_len; eauto. }
  assert (K : forall t l i, R t l -> i * nb < lengthN l ->
    default_get_block c nb bit_len (default_block_len c nb bit_len) get_bit t i = Ok (block_of nb i l)).
  { intros t l i H Hi. apply def_get_block; eauto.
    - apply (fits_lt64 c nb); [lia|eauto].
    - intros j Hj. apply (G t l); [exact H|]. now apply nthN_bit_at. }
  split; constructor; cbn [B bitvec_of_bit bv_nb bv_bit_len bv_block_len bv_get_bit bv_get_block bv_get_bits]; auto.
  - intros t l s n H H1 H2 H3. apply def_get_bits; eauto. tauto.
  - intros t l s n H H1 H2 H3. apply def_get_bits_oob with (l := l); eauto.
  - intros t l i H Hi _. apply def_get_block_oob with (l := l); eauto. lia.
Qed.

(** ** Reading through [get_block]: whatever the last block holds past the end of the vector does not show. *)
Definition extended (nb : N) (l lp : list bool) : Prop := lengthN lp = blocks_for nb (lengthN l) * nb /\ firstnN (lengthN l) lp = l.
Lemma extended_bits nb l lp i : 0 < nb -> extended nb l lp -> i < lengthN l -> bit_at lp i = bit_at l i.
Proof. intros Hnb [_ E] Hi. rewrite <- E, bit_at_firstnN. replace (i <? lengthN l) with true by lia. reflexivity. Qed.
Lemma extended_len nb l lp : 0 < nb -> extended nb l lp -> lengthN l <= lengthN lp /\ blocks_for nb (lengthN lp) = blocks_for nb (lengthN l).
Proof. intros Hnb [E _]. rewrite E, blocks_for_mul by assumption. pose proof (blocks_for_spec nb (lengthN l) Hnb). lia. Qed.
Lemma extension {T} c nb (get_block : T -> N -> res N) t (l : list bool) : 0 < nb -> blocks_for nb (lengthN l) <= 2 ^ ptr c ->
  (forall i, i < 2 ^ ptr c -> i * nb < lengthN l -> exists b, get_block t i = Ok b /\ b < 2 ^ nb /\
     forall j, j < nb -> i * nb + j < lengthN l -> N.testbit b j = bit_at l (i * nb + j)) ->
  exists lp, extended nb l lp /\ forall i, i * nb < lengthN lp -> get_block t i = Ok (block_of nb i lp).
Proof.
  intros Hnb Hp HK.
  assert (HB : forall i, i * nb < lengthN l -> exists b, get_block t i = Ok b /\ b < 2 ^ nb /\
     forall j, j < nb -> i * nb + j < lengthN l -> N.testbit b j = bit_at l (i * nb + j)).
  { intros i Hi. apply HK; [|exact Hi]. apply (blocks_for_lt nb) in Hi; lia. }
  clear HK Hp. set (m := blocks_for nb (lengthN l)).
  pose proof (blocks_for_spec nb (lengthN l) Hnb) as Hm. fold m in Hm.
  destruct (N.eq_dec (m * nb) (lengthN l)) as [E|E].
  - exists l. split; [split; [fold m; lia|apply firstnN_all; lia]|]. intros i Hi. destruct (HB i Hi) as (b & Eb & Hb & Hj). rewrite Eb. f_equal.
    apply N.bits_inj. intros j. rewrite testbit_block_of. destruct (j <? nb) eqn:Ej; cbn [andb].
    + assert (i * nb + nb <= lengthN l). { assert (i + 1 <= m) by nia. nia. } apply Hj; lia.
    + rewrite <- (N.mod_small b (2 ^ nb)) by assumption. apply N.mod_pow2_bits_high. lia.
  - assert (Hm0 : m <> 0) by (intros E0; rewrite E0 in *; lia).
    assert (Em : m * nb = (m - 1) * nb + nb) by (replace m with (m - 1 + 1) at 1 by lia; rewrite N.mul_add_distr_r; lia).
    assert (Hm1 : (m - 1) * nb < lengthN l) by lia. destruct (HB (m - 1) Hm1) as (g & Eg & Hg & Hgj).
    set (r := lengthN l - (m - 1) * nb). assert (Hr : r < nb) by (unfold r; lia).
    set (lp := l ++ skipnN r (bits_of nb g)).
    assert (Lp : lengthN lp = m * nb) by (unfold lp; rewrite lengthN_app, lengthN_skipnN, lengthN_bits_of; unfold r; lia).
    assert (El : firstnN (lengthN l) lp = l).
    { unfold lp. apply list_bit_ext; [rewrite lengthN_firstnN, lengthN_app; lia|]. intros i Hi. rewrite lengthN_firstnN, lengthN_app in Hi.
      rewrite bit_at_firstnN, bit_at_app. replace (i <? lengthN l) with true by lia. reflexivity. }
    exists lp. split; [split; [exact Lp|exact El]|]. intros i Hi. rewrite Lp in Hi. assert (Him : i < m) by nia.
    assert (Hil : i * nb < lengthN l) by nia.
    destruct (HB i Hil) as (b & Eb & Hb & Hj). rewrite Eb. f_equal. apply N.bits_inj. intros j. rewrite testbit_block_of. destruct (j <? nb) eqn:Ej; cbn [andb].
    + destruct (N.lt_ge_cases (i * nb + j) (lengthN l)) as [H|H].
      * rewrite Hj by lia. symmetry. apply (extended_bits nb l lp); [exact Hnb|split; assumption|exact H].
      * assert (i = m - 1) as -> by nia. rewrite Eg in Eb. injection Eb as <-. unfold lp. rewrite bit_at_app. replace (_ <? lengthN l) with false by lia.
        unfold bit_at. rewrite nthN_skipnN, nthN_bits_of. replace (r + ((m - 1) * nb + j - lengthN l)) with j by (unfold r; lia).
        rewrite Ej. reflexivity.
    + rewrite <- (N.mod_small b (2 ^ nb)) by assumption. apply N.mod_pow2_bits_high. lia.
Qed.
Lemma get_bits_len {T} c nb (bit_len bit_len' : T -> res N) get_block t n n' s k : bit_len t = Ok n -> bit_len' t = Ok n' -> s + k <= n -> s + k <= n' ->
  s + k < 2 ^ 64 -> default_get_bits c nb bit_len get_block t s k = default_get_bits c nb bit_len' get_block t s k.
Proof. intros E E' H H' H64. unfold default_get_bits. rewrite wadd_ok by lia. cbn [bind]. rewrite E, E'. cbn [bind]. rewrite !assert_true by lia. reflexivity. Qed.
Lemma get_bit_len {T} c nb (bit_len bit_len' : T -> res N) get_block t n n' i : bit_len t = Ok n -> bit_len' t = Ok n' -> i < n -> i < n' ->
  default_get_bit c nb bit_len get_block t i = default_get_bit c nb bit_len' get_block t i.
Proof. intros E E' H H'. unfold default_get_bit. rewrite E, E'. cbn [bind]. rewrite !assert_true by lia. reflexivity. Qed.
Lemma set_bits_len {T} c nb (bit_len bit_len' : T -> res N) get_block set_block t n n' s k v : bit_len t = Ok n -> bit_len' t = Ok n' -> s + k <= n -> s + k <= n' ->
  s + k < 2 ^ 64 -> default_set_bits c nb bit_len get_block set_block t s k v = default_set_bits c nb bit_len' get_block set_block t s k v.
Proof. intros E E' H H' H64. unfold default_set_bits. rewrite wadd_ok by lia. cbn [bind]. rewrite E, E'. cbn [bind]. rewrite !assert_true by lia. reflexivity. Qed.
Lemma set_bit_len {T} c nb (bit_len bit_len' : T -> res N) get_block set_block t n n' i b : bit_len t = Ok n -> bit_len' t = Ok n' -> i < n -> i < n' ->
  default_set_bit c nb bit_len get_block set_block t i b = default_set_bit c nb bit_len' get_block set_block t i b.
Proof. intros E E' H H'. unfold default_set_bit. rewrite E, E'. cbn [bind]. rewrite !assert_true by lia. reflexivity. Qed.

Section Extend.
  Context {T : Type} (c : cfg) (nb : N) (R : T -> list bool -> Prop) (bit_len : T -> res N) (get_block : T -> N -> res N).
  Hypothesis Hc : wf_cfg c.
  Hypothesis Hnb : wf_nb nb.
  Hypothesis HL : right_bit_len c nb R bit_len.
  Hypothesis HK : right_get_block c nb R get_block.
  Lemma find_extension t l : R t l -> exists lp, extended nb l lp /\ fits c nb (lengthN lp) /\ lengthN lp < 2 ^ 64 /\
    forall i, i * nb < lengthN lp -> get_block t i = Ok (block_of nb i lp).
  Proof.
    intros H. destruct (HL t l H) as [_ F]. pose proof (wf_nb_range nb Hnb) as Hr. pose proof (fits_ptr c nb (lengthN l) Hc Hnb F) as Hp.
    destruct (extension c nb get_block t l ltac:(lia)) as (lp & X & K); [lia| |].
    - intros i Hi Hi'. pose proof (HK t l i H Hi) as G. replace (i * nb <? lengthN l) with true in G by lia.
      destruct G as (b & Eb & Hb & Hj). exists b. split; [exact Eb|]. split; [exact Hb|]. intros j Hj1 Hj2. apply Hj; [exact Hj1|]. now apply nthN_bit_at.
    - exists lp. split; [exact X|]. destruct (extended_len nb l lp ltac:(lia) X) as [_ E].
      assert (F' : fits c nb (lengthN lp)) by (unfold fits in *; rewrite E; exact F). split; [exact F'|]. split; [|exact K].
      pose proof (fits_lt64 c nb (lengthN lp) ltac:(lia) F'). lia.
  Qed.
  Lemma block_get_bit t l i b : R t l -> nthN l i = Some b -> default_get_bit c nb bit_len get_block t i = Ok b.
  Proof.
    intros H Hi. destruct (find_extension t l H) as (lp & X & F & H64 & K). pose proof (wf_nb_range nb Hnb) as Hr. pose proof (nthN_lt _ _ _ Hi) as Hl.
    destruct (extended_len nb l lp ltac:(lia) X) as [Hle _].
    rewrite (get_bit_len c nb bit_len (fun _ => Ok (lengthN lp)) get_block t (lengthN l) (lengthN lp)); [|apply (HL t l H)|reflexivity|lia|lia].
    apply def_get_bit with (l := lp); auto. rewrite nthN_bit_at by lia. rewrite (extended_bits nb l lp i ltac:(lia) X Hl). now rewrite (bit_at_Some l i b Hi).
  Qed.
  Lemma block_get_bits t l s n : R t l -> s + n <= lengthN l -> n <= nb -> 1 <= n \/ s < lengthN l ->
    default_get_bits c nb bit_len get_block t s n = Ok (int_of (sub s n l)).
  Proof.
    intros H Hs Hn Hne. destruct (find_extension t l H) as (lp & X & F & H64 & K). pose proof (wf_nb_range nb Hnb) as Hr.
    destruct (extended_len nb l lp ltac:(lia) X) as [Hle _].
    rewrite (get_bits_len c nb bit_len (fun _ => Ok (lengthN lp)) get_block t (lengthN l) (lengthN lp)); [|apply (HL t l H)|reflexivity|lia|lia|lia].
    rewrite (def_get_bits c nb (fun _ => Ok (lengthN lp)) get_block t lp) by (auto; lia). do 2 f_equal. apply list_bit_ext; [rewrite !lengthN_sub; lia|].
    intros i Hi. rewrite lengthN_sub in Hi. rewrite !bit_at_sub. f_equal. apply (extended_bits nb); [lia|exact X|lia].
  Qed.
  Context (set_block : T -> N -> N -> res T).
  Hypothesis HS : forall t l i v, R t l -> i * nb < lengthN l -> v < 2 ^ nb -> exists t', set_block t i v = Ok t' /\ R t' (set_block_of nb i v l).
  Definition Rp (n : N) (t : T) (lp : list bool) : Prop := R t (firstnN n lp) /\ n <= lengthN lp /\ blocks_for nb n * nb = lengthN lp.
  Lemma set_block_ext t0 l0 lp0 : R t0 l0 -> extended nb l0 lp0 -> forall t' l' i v, Rp (lengthN l0) t' l' -> lengthN l' = lengthN lp0 -> i * nb < lengthN lp0 -> v < 2 ^ nb ->
    exists t'', set_block t' i v = Ok t'' /\ Rp (lengthN l0) t'' (set_block_of nb i v l').
  Proof.
    intros H0 X t' l' i v (HR & Hn & E) El Hi Hv. pose proof (wf_nb_range nb Hnb) as Hr. destruct X as [E0 _].
    assert (Hl : lengthN (firstnN (lengthN l0) l') = lengthN l0) by (rewrite lengthN_firstnN; lia).
    assert (Hi' : i * nb < lengthN l0). { apply (blocks_for_lt nb); [lia|]. rewrite E0 in Hi. nia. }
    destruct (HS t' _ i v HR) as (t'' & Et & HR'); [rewrite Hl; exact Hi'|exact Hv|]. exists t''. split; [exact Et|].
    split; [|split; rewrite lengthN_set_block_of; lia].
    replace (firstnN (lengthN l0) (set_block_of nb i v l')) with (set_block_of nb i v (firstnN (lengthN l0) l')); [exact HR'|].
    apply list_bit_ext; [rewrite lengthN_firstnN, !lengthN_set_block_of by lia; lia|]. intros j Hj. rewrite lengthN_set_block_of in Hj by lia.
    rewrite bit_at_firstnN, !bit_at_set_block_of, bit_at_firstnN by lia. rewrite Hl. rewrite Hl in Hj.
    replace (j <? lengthN l0) with true by lia. replace (j <? lengthN l') with true by lia. reflexivity.
  Qed.
  Lemma block_set_bit t l i b : R t l -> i < lengthN l -> exists t', default_set_bit c nb bit_len get_block set_block t i b = Ok t' /\ R t' (updN l i b).
  Proof.
    intros H Hi. destruct (find_extension t l H) as (lp & X & F & H64 & K). pose proof (wf_nb_range nb Hnb) as Hr.
    destruct (extended_len nb l lp ltac:(lia) X) as [Hle _].
    rewrite (set_bit_len c nb bit_len (fun _ => Ok (lengthN lp)) get_block set_block t (lengthN l) (lengthN lp)); [|apply (HL t l H)|reflexivity|lia|lia].
    destruct (def_set_bit c nb (fun _ => Ok (lengthN lp)) get_block set_block t lp (Rp (lengthN l)) i b) as (t' & E & HR & _); auto.
    - destruct X as [X1 X2]. split; [now rewrite X2|]. split; [exact Hle|now symmetry].
    - now apply (set_block_ext t l lp).
    - lia.
    - exists t'. split; [exact E|]. replace (updN l i b) with (firstnN (lengthN l) (updN lp i b)); [exact HR|].
      apply list_bit_ext; [rewrite lengthN_firstnN, !lengthN_updN; lia|]. intros j Hj. rewrite lengthN_firstnN, lengthN_updN in Hj.
      rewrite bit_at_firstnN, !bit_at_updN by lia. replace (j <? lengthN l) with true by lia. cbn [andb]. destruct (j =? i); [reflexivity|].
      apply (extended_bits nb); [lia|exact X|lia].
  Qed.
  Lemma block_set_bits t l s n v : R t l -> s + n <= lengthN l -> n <= nb -> v < 2 ^ nb -> 1 <= n \/ s < lengthN l ->
    exists t', default_set_bits c nb bit_len get_block set_block t s n v = Ok t' /\ R t' (put s (bits_of n v) l).
  Proof.
    intros H Hs Hn Hv Hne. destruct (find_extension t l H) as (lp & X & F & H64 & K). pose proof (wf_nb_range nb Hnb) as Hr.
    destruct (extended_len nb l lp ltac:(lia) X) as [Hle _].
    rewrite (set_bits_len c nb bit_len (fun _ => Ok (lengthN lp)) get_block set_block t (lengthN l) (lengthN lp)); [|apply (HL t l H)|reflexivity|lia|lia|lia].
    destruct (def_set_bits c nb (fun _ => Ok (lengthN lp)) get_block set_block t lp (Rp (lengthN l)) s n v) as (t' & E & HR & _); auto; try lia.
    - destruct X as [X1 X2]. split; [now rewrite X2|]. split; [exact Hle|now symmetry].
    - now apply (set_block_ext t l lp).
    - exists t'. split; [exact E|]. replace (put s (bits_of n v) l) with (firstnN (lengthN l) (put s (bits_of n v) lp)); [exact HR|].
      assert (s + lengthN (bits_of n v) <= lengthN l) by (rewrite lengthN_bits_of; lia).
      apply list_bit_ext; [rewrite lengthN_firstnN, !lengthN_put by lia; lia|]. intros j Hj. rewrite lengthN_firstnN, lengthN_put in Hj by lia.
      rewrite bit_at_firstnN, !bit_at_put by lia. replace (j <? lengthN l) with true by lia. cbn [andb]. destruct (_ && _); [reflexivity|].
      apply (extended_bits nb); [lia|exact X|lia].
  Qed.
End Extend.
Theorem C91_get_block : forall T c nb (R : T -> list bool -> Prop) bit_len get_block,
  wf_cfg c -> wf_nb nb -> right_bit_len c nb R bit_len -> right_get_block c nb R get_block ->
  let B := bitvec_of_block c nb bit_len get_block in lawful_bits c B R /\
  (forall t l, R t l -> bv_block_len B t = Ok (blocks_for nb (lengthN l))) /\
  ((forall t l i, R t l -> i * nb < lengthN l -> get_block t i = Ok (block_of nb i l)) -> lawful_blocks c B R).
Proof.
  intros T c nb R bit_len get_block Hc Hnb HL HK B.
  assert (KL : forall t l, R t l -> default_block_len c nb bit_len t = Ok (blocks_for nb (lengthN l))).
  { intros t l H. destruct (HL t l H). apply def_block_len; auto. }
  split; [|split; [exact KL|]].
  - constructor; cbn [B bitvec_of_block bv_nb bv_bit_len bv_block_len bv_get_bit bv_get_block bv_get_bits].
    + exact Hnb. + intros t l H. apply (HL t l H). + intros t l H. apply (HL t l H).
    + intros t l i b. apply (block_get_bit c nb R); auto.
    + intros t l i H Hi _. apply def_get_bit_oob with (l := l); [apply (HL t l H)|exact Hi].
    + intros t l s n. apply (block_get_bits c nb R); auto.
    + intros t l s n H H1 H2 _. apply def_get_bits_oob with (l := l); auto. apply (HL t l H).
  - intros HX. constructor; cbn [B bitvec_of_block bv_nb bv_bit_len bv_block_len bv_get_bit bv_get_block bv_get_bits]; [exact KL|exact HX|].
    intros t l i H Hi Hp. pose proof (HK t l i H Hp) as G. replace (i * nb <? lengthN l) with false in G by lia. exact G.
Qed.
(** A lawful bit vector reads its blocks as required for the writes below. *)
Lemma lawful_right {T} c (B : bitvec T) R : lawful_bits c B R -> lawful_blocks c B R ->
  right_bit_len c (bv_nb B) R (bv_bit_len B) /\ right_get_block c (bv_nb B) R (bv_get_block B).
Proof.
  intros LB LK. pose proof (wf_nb_range _ (lb_nb _ _ _ LB)) as Hr. split.
  - intros t l H. split; [now apply (lb_bit_len _ _ _ LB)|now apply (lb_fits _ _ _ LB t)].
  - intros t l i H Hp. destruct (i * bv_nb B <? lengthN l) eqn:E.
    + exists (block_of (bv_nb B) i l). split; [apply (lk_get_block _ _ _ LK); [exact H|lia]|]. split; [apply block_of_lt|].
      intros j x Hj Hx. rewrite testbit_block_of. replace (j <? bv_nb B) with true by lia. now apply bit_at_Some.
    + apply (lk_get_block_oob _ _ _ LK t l); auto. lia.
Qed.

(** ** Writing through [set_block], and through [set_bit] *)
Theorem C91_set_block : forall T c (B : bitvec T) (R : T -> list bool -> Prop) set_block,
  wf_cfg c -> wf_nb (bv_nb B) -> right_bit_len c (bv_nb B) R (bv_bit_len B) -> right_get_block c (bv_nb B) R (bv_get_block B) ->
  right_set_block c (bv_nb B) R set_block ->
  let M := bitvecmut_of_block c B set_block in lawful_mut c M R /\ lawful_setblock c M R.
Proof.
  intros T c B R set_block Hc Hnb HL HK HS M. pose proof (wf_nb_range _ Hnb) as Hr.
  assert (S1 : forall t l i v, R t l -> i * bv_nb B < lengthN l -> v < 2 ^ bv_nb B -> exists t', set_block t i v = Ok t' /\ R t' (set_block_of (bv_nb B) i v l)).
  { intros t l i v H Hi Hv. pose proof (fits_ptr c (bv_nb B) (lengthN l) Hc Hnb (proj2 (HL t l H))) as Hp.
    pose proof Hi as Hi'. apply (blocks_for_lt (bv_nb B)) in Hi'; [|lia].
    pose proof (HS t l i v H ltac:(lia)) as G. replace (i * bv_nb B <? lengthN l) with true in G by lia. exact (G Hv). }
  split; constructor; cbn [M bitvecmut_of_block bm_bv bm_set_bit bm_set_block bm_set_bits].
  - intros t l i b. apply (block_set_bit c (bv_nb B) R); auto.
  - intros t l i b H Hi _. apply def_set_bit_oob with (l := l); [apply (HL t l H)|exact Hi].
  - intros t l s n v. apply (block_set_bits c (bv_nb B) R); auto.
  - intros t l s n v H H1 H2 _. apply def_set_bits_oob with (l := l); auto. apply (HL t l H).
  - exact S1.
  - intros t l i v H Hi Hp _. pose proof (HS t l i v H Hp) as G. replace (i * bv_nb B <? lengthN l) with false in G by lia. exact G.
Qed.
Theorem C91_set_bit : forall T c (B : bitvec T) (R : T -> list bool -> Prop) set_bit,
  wf_cfg c -> wf_nb (bv_nb B) -> right_bit_len c (bv_nb B) R (bv_bit_len B) -> right_get_block c (bv_nb B) R (bv_get_block B) ->
  (forall t l, R t l -> bv_block_len B t = Ok (blocks_for (bv_nb B) (lengthN l))) -> right_set_bit R set_bit ->
  let M := bitvecmut_of_bit c B set_bit in lawful_mut c M R /\ lawful_setblock c M R.
Proof.
  intros T c B R set_bit Hc Hnb HL HK HKL HS M. pose proof (wf_nb_range _ Hnb) as Hr.
  assert (F63 : forall t l, R t l -> lengthN l < 2 ^ 64).
  { intros t l H. pose proof (fits_lt64 c (bv_nb B) (lengthN l) ltac:(lia) (proj2 (HL t l H))). lia. }
  assert (S0 : forall t l i b, R t l -> i < lengthN l -> exists t', set_bit t i b = Ok t' /\ R t' (updN l i b)).
  { intros t l i b H Hi. pose proof (F63 t l H). pose proof (HS t l i b H ltac:(lia)) as G. replace (i <? lengthN l) with true in G by lia. exact G. }
  assert (S0o : forall t l i b, R t l -> lengthN l <= i -> i < 2 ^ 64 -> panics (set_bit t i b)).
  { intros t l i b H Hi Hi'. pose proof (HS t l i b H Hi') as G. replace (i <? lengthN l) with false in G by lia. exact G. }
  assert (S1 : forall t l i v, R t l -> i * bv_nb B < lengthN l ->
    exists t', bm_set_block M t i v = Ok t' /\ R t' (set_block_of (bv_nb B) i v l)).
  { intros t l i v H Hi. destruct (HL t l H) as [E F]. apply def_set_block with (R := R); auto.
    intros t' l' j b H' El Hj. apply S0; [exact H'|lia]. }
  split; constructor; cbn [M bitvecmut_of_bit bm_bv bm_set_bit bm_set_bits].
  - exact S0.
  - exact S0o.
  - intros t l s n v H H1 H2 H3 H4. apply (block_set_bits c (bv_nb B) R); auto. intros t' l' j x H' Hj _. exact (S1 t' l' j x H' Hj).
  - intros t l s n v H H1 H2 _. apply def_set_bits_oob with (l := l); auto. apply (HL t l H).
  - intros t l i v H Hi _. now apply S1.
  - intros t l i v H Hi Hp H64. apply def_set_block_oob with (l := l); auto; [apply (HL t l H)|]. intros j b. now apply S0o.
Qed.
(** ** Pushing: [align_block] and [push_block] from [push_bit] *)
Theorem C91_push_bit : forall T c (M : bitvecmut T) (R : T -> list bool -> Prop) room push_bit pop_bit t l b x fuel,
  wf_cfg c -> wf_nb (bv_nb (bm_bv M)) -> right_bit_len c (bv_nb (bm_bv M)) R (bv_bit_len (bm_bv M)) ->
  right_push_bit R room push_bit -> (forall m n, m <= n -> room n -> room m) -> (forall n, room n \/ ~ room n) ->
  R t l -> room (lengthN l) -> (64 <= fuel)%nat ->
  let nb := bv_nb (bm_bv M) in let P := bitvecpush_of_bit c M push_bit pop_bit in
  let aligned := lengthN l + padding nb (lengthN l) in
  (room aligned -> exists t', bp_align_block P fuel t b = Ok t' /\ R t' (l ++ repeatN b (padding nb (lengthN l)))) /\
  (~ room aligned -> panics (bp_align_block P fuel t b)) /\
  (room (aligned + nb) -> exists t', bp_push_block P fuel t x = Ok t' /\ R t' (l ++ repeatN false (padding nb (lengthN l)) ++ bits_of nb x)) /\
  (~ room (aligned + nb) -> panics (bp_push_block P fuel t x)).
Proof.
  intros T c M R room push_bit pop_bit t l b x fuel Hc Hnb HL HP Hmono Hdec H H0 Hf nb P aligned. fold nb in Hnb, HL. pose proof (wf_nb_range _ Hnb) as Hr.
  assert (Hfuel : (N.to_nat (padding nb (lengthN l)) < fuel)%nat).
  { assert (padding nb (lengthN l) < nb) by (unfold padding; apply N.mod_lt; lia). lia. }
  assert (L : forall t l, R t l -> bv_bit_len (bm_bv M) t = Ok (lengthN l)) by (intros t' l' H'; apply (HL t' l' H')).
  assert (P1 : forall t l b, R t l -> room (lengthN l + 1) -> exists t', push_bit t b = Ok t' /\ R t' (l ++ [b])) by (intros t' l' b' H'; apply (HP t' l' b' H')).
  assert (P2 : forall t l b, R t l -> ~ room (lengthN l + 1) -> panics (push_bit t b)) by (intros t' l' b' H'; apply (HP t' l' b' H')).
  unfold P, aligned. cbn [bitvecpush_of_bit bp_align_block bp_push_block]. fold nb. split; [|split; [|split]]; intros Hroom.
  - apply (def_align_block c nb Hc Hnb _ push_bit R room); auto.
  - apply (def_align_block_full c nb Hc Hnb _ push_bit R room L P1 Hmono P2 Hdec fuel t l b); auto.
  - apply (def_push_block c nb Hc Hnb _ push_bit R room); auto.
  - apply (def_push_block_full c nb Hc Hnb _ push_bit R room L P1 Hmono P2 Hdec fuel t l x); auto.
Qed.

(** ** Implementing neither of the two: the calls never end, whatever depth they are given; a request past the end still panics. *)
Theorem C91_neither : forall T c nb (R : T -> list bool -> Prop) bit_len t l i fuel,
  wf_cfg c -> wf_nb nb -> right_bit_len c nb R bit_len -> R t l ->
  (i < lengthN l -> fst (neither c nb bit_len fuel) t i = OutOfFuel) /\
  (i * nb < lengthN l -> snd (neither c nb bit_len fuel) t i = OutOfFuel) /\
  (lengthN l <= i -> panics (fst (neither c nb bit_len (S fuel)) t i)) /\
  (lengthN l <= i * nb -> panics (snd (neither c nb bit_len (S fuel)) t i)).
Proof.
  intros T c nb R bit_len t l i fuel Hc Hnb HL H. destruct (HL t l H) as [E F]. pose proof (wf_nb_range nb Hnb) as Hr.
  pose proof (fits_lt64 c nb (lengthN l) ltac:(lia) F) as H63. pose proof (def_block_len c nb bit_len t l E Hc Hnb F) as EB.
  assert (K : forall fuel, (forall i, i < lengthN l -> fst (neither c nb bit_len fuel) t i = OutOfFuel) /\
                           (forall i, i * nb < lengthN l -> snd (neither c nb bit_len fuel) t i = OutOfFuel)).
  { clear i fuel. induction fuel as [|fuel [IH1 IH2]]; [split; reflexivity|]. cbn [neither fst snd]. split; intros i Hi.
    - unfold default_get_bit. rewrite E. cbn [bind]. rewrite assert_true by lia. cbn [bind]. rewrite (address_in c nb (lengthN l)) by assumption. cbn [bind block_index].
      pose proof (N.div_mod i nb ltac:(lia)). rewrite IH2 by lia. reflexivity.
    - unfold default_get_block. rewrite EB. cbn [bind]. pose proof Hi as Hi'. apply (blocks_for_lt nb) in Hi'; [|lia]. rewrite assert_true by lia. cbn [bind].
      rewrite wmul_ok by lia. cbn [bind]. unfold for_range. replace (N.to_nat (nb - 0)) with (S (N.to_nat (nb - 1))) by lia. cbn [for_loop].
      rewrite wadd_ok by lia. cbn [bind]. rewrite E. cbn [bind]. replace (i * nb + 0 <? lengthN l) with true by lia. rewrite IH1 by lia. reflexivity. }
  split; [apply K|]. split; [apply K|]. cbn [neither fst snd]. split; intros Hi.
  - now apply def_get_bit_oob with (l := l).
  - apply def_get_block_oob with (l := l); auto. lia.
Qed.
Theorem C91_neither_set : forall T c (B : bitvec T) (R : T -> list bool -> Prop) t l i b v fuel,
  wf_cfg c -> wf_nb (bv_nb B) -> right_bit_len c (bv_nb B) R (bv_bit_len B) -> right_get_block c (bv_nb B) R (bv_get_block B) ->
  (forall t l, R t l -> bv_block_len B t = Ok (blocks_for (bv_nb B) (lengthN l))) -> R t l ->
  (i < lengthN l -> fst (neither_set c B fuel) t i b = OutOfFuel) /\
  (i * bv_nb B < lengthN l -> snd (neither_set c B fuel) t i v = OutOfFuel).
Proof.
  intros T c B R t l i b v fuel Hc Hnb HL HK HKL H. destruct (HL t l H) as [E F]. set (nb := bv_nb B) in *. pose proof (wf_nb_range nb Hnb) as Hr.
  pose proof (fits_lt64 c nb (lengthN l) ltac:(lia) F) as H63. pose proof (HKL t l H) as EB. pose proof (fits_ptr c nb (lengthN l) Hc Hnb F) as Hp.
  assert (K : forall fuel, (forall i b, i < lengthN l -> fst (neither_set c B fuel) t i b = OutOfFuel) /\
                           (forall i v, i * nb < lengthN l -> snd (neither_set c B fuel) t i v = OutOfFuel)).
  { clear i b v fuel. induction fuel as [|fuel [IH1 IH2]]; [split; reflexivity|]. cbn [neither_set fst snd]. fold nb. split.
    - intros i b Hi. unfold default_set_bit. rewrite E. cbn [bind]. rewrite assert_true by lia. cbn [bind]. rewrite (address_in c nb (lengthN l)) by assumption. cbn [bind block_index bit_offset].
      pose proof (N.div_mod i nb ltac:(lia)). pose proof (N.mod_lt i nb ltac:(lia)).
      assert (Hq : i / nb * nb < lengthN l) by lia. pose proof Hq as Hq'. apply (blocks_for_lt nb) in Hq'; [|lia].
      pose proof (HK t l (i / nb) H ltac:(lia)) as G. replace (i / nb * nb <? lengthN l) with true in G by lia. destruct G as (x & Ex & Hx & _). rewrite Ex. cbn [bind].
      rewrite blk_with_bit_ok by auto. cbn [bind]. now apply IH2.
    - intros i v Hi. pose proof Hi as Hi'. apply (blocks_for_lt nb) in Hi'; [|lia].
      unfold default_set_block. rewrite wadd_ok by lia. cbn [bind]. rewrite EB. cbn [bind]. rewrite E. cbn [bind].
      rewrite last_block_bits_ok by assumption. assert (exists lim, (if i + 1 =? blocks_for nb (lengthN l) then Ok (if lengthN l mod nb =? 0 then nb else lengthN l mod nb) else Ok nb) = Ok lim /\ 0 < lim) as (lim & El & Hlim).
      { destruct (_ =? blocks_for _ _); eexists; (split; [reflexivity|]); [|lia]. destruct (lengthN l mod nb =? 0) eqn:E2; lia. }
      rewrite El. cbn [bind]. rewrite mul_nbits_ok by (auto; lia). cbn [bind]. unfold for_range. replace (N.to_nat (lim - 0)) with (S (N.to_nat (lim - 1))) by lia. cbn [for_loop].
      rewrite wadd_ok by lia. cbn [bind]. rewrite IH1 by lia. reflexivity. }
  split; apply K.
Qed.

(** ** A store of the user's own: a byte of which [n] bits count; the others are shown by [get_block]. *)
Definition partial_byte : Type := N * N.
Definition R_byte (t : partial_byte) (l : list bool) : Prop := fst t <= 8 /\ snd t < 2 ^ 8 /\ l = bits_of (fst t) (snd t).
Definition byte_len (t : partial_byte) : res N := Ok (fst t).
Definition byte_get_block (t : partial_byte) (i : N) : res N := assert_ (i * 8 <? fst t) ;;; Ok (snd t).
Definition byte_set_block (t : partial_byte) (i v : N) : res partial_byte :=
  assert_ (i * 8 <? fst t) ;;; Ok (fst t, v mod 2 ^ fst t + snd t / 2 ^ fst t * 2 ^ fst t).
Lemma byte_right c : wf_cfg c -> right_bit_len c 8 R_byte byte_len /\ right_get_block c 8 R_byte byte_get_block /\ right_set_block c 8 R_byte byte_set_block.
Proof.
  intros Hc. split; [|split].
  - intros t l (H1 & H2 & ->). rewrite lengthN_bits_of. split; [reflexivity|]. unfold fits. pose proof (blocks_for_spec 8 (fst t) ltac:(lia)).
    assert (blocks_for 8 (fst t) <= 1) by nia. assert (8 <= max_bits c) by (destruct Hc as [E|E]; unfold max_bits; rewrite E; vm_compute; discriminate). nia.
  - intros t l i (H1 & H2 & ->) Hi. rewrite lengthN_bits_of. unfold byte_get_block. destruct (i * 8 <? fst t) eqn:E; cbn [assert_ bind]; [|eexists; reflexivity].
    exists (snd t). split; [reflexivity|]. split; [exact H2|]. intros j x Hj Hx. assert (i = 0) as -> by lia. rewrite nthN_bits_of in Hx.
    destruct (0 * 8 + j <? fst t) eqn:E2; [|discriminate]. injection Hx as <-. f_equal.
  - intros t l i v (H1 & H2 & ->) Hi. rewrite lengthN_bits_of. unfold byte_set_block. destruct (i * 8 <? fst t) eqn:E; cbn [assert_ bind]; [|eexists; reflexivity].
    intros Hv. eexists. split; [reflexivity|]. unfold R_byte. cbn [fst snd]. assert (i = 0) as -> by lia. split; [exact H1|].
    assert (HT : forall j, N.testbit (v mod 2 ^ fst t + snd t / 2 ^ fst t * 2 ^ fst t) j = if j <? fst t then N.testbit v j else N.testbit (snd t) j).
    { intros j. assert (Hp : 2 ^ fst t <> 0) by (apply N.pow_nonzero; lia).
      rewrite <- (N.shiftl_mul_pow2 (snd t / 2 ^ fst t)), <- N.shiftr_div_pow2.
      rewrite (N.add_comm (v mod _)). rewrite N.add_nocarry_lxor, N.lxor_spec.
      - destruct (j <? fst t) eqn:Ej.
        + rewrite N.shiftl_spec_low by lia. rewrite N.mod_pow2_bits_low by lia. apply xorb_false_l.
        + rewrite N.shiftl_spec_high' by lia. rewrite N.shiftr_spec', N.mod_pow2_bits_high by lia. rewrite xorb_false_r. f_equal. lia.
      - apply N.bits_inj. intros k. rewrite N.land_spec, N.bits_0. destruct (N.lt_ge_cases k (fst t)).
        + rewrite N.shiftl_spec_low by lia. reflexivity.
        + rewrite N.mod_pow2_bits_high by lia. apply andb_false_r. }
    split.
    + apply N.nle_gt. intros Hge. set (y := v mod 2 ^ fst t + snd t / 2 ^ fst t * 2 ^ fst t) in *. clearbody y.
      assert (y <> 0) by (intros ->; lia). pose proof (N.bit_log2 y ltac:(lia)) as Hb. rewrite HT in Hb.
      assert (8 <= N.log2 y) by (apply (N.log2_le_pow2 y 8); lia). replace (N.log2 y <? fst t) with false in Hb by lia.
      rewrite <- (N.mod_small (snd t) (2 ^ 8)) in Hb by lia. rewrite N.mod_pow2_bits_high in Hb by lia. discriminate.
    + apply list_bit_ext; [rewrite lengthN_set_block_of, !lengthN_bits_of by lia; reflexivity|].
      intros j Hj. rewrite lengthN_set_block_of, lengthN_bits_of in Hj by lia. rewrite bit_at_set_block_of by lia. rewrite !bit_at_bits_of, lengthN_bits_of, HT.
      replace (j <? fst t) with true by lia. destruct (_ && _) eqn:E3; [|lia]. cbn [andb]. f_equal. lia.
Qed.
Example C91_ex : let B := bitvec_of_block dbg64 8 byte_len byte_get_block in let M := bitvecmut_of_block dbg64 B byte_set_block in
  lawful_mut dbg64 M R_byte /\ R_byte (5, 0xf6) [false; true; true; false; true] /\
  bv_get_block B (5, 0xf6) 0 = Ok 0xf6 /\ bv_get_bits B (5, 0xf6) 1 4 = Ok 0xb /\ panics (bv_get_bit B (5, 0xf6) 5) /\
  bm_set_bits M (5, 0xf6) 2 3 0xd = Ok (5, 0xf6) /\ bm_set_bits M (5, 0xf6) 2 3 0x2 = Ok (5, 0xea) /\
  fst (neither dbg64 8 byte_len 20) (5, 0xf6) 4 = OutOfFuel.
Proof.
  cbv zeta. destruct (byte_right dbg64 ltac:(auto with wf)) as (L & K & S).
  split; [apply (C91_set_block _ dbg64 (bitvec_of_block dbg64 8 byte_len byte_get_block)); auto with wf|]. 
  split; [split; [cbn; lia|]; split; [cbn; lia|]; vm_compute; reflexivity|].
  split; [vm_compute; reflexivity|]. split; [vm_compute; reflexivity|]. split; [eexists; vm_compute; reflexivity|].
  split; [vm_compute; reflexivity|]. split; vm_compute; reflexivity.
Qed.
(** Another one: a plain list of bits, read, written and extended bit by bit, with room for 20. *)
Definition R_list (t l : list bool) : Prop := t = l /\ lengthN l <= 20.
Definition list_len (t : list bool) : res N := Ok (lengthN t).
Definition list_get (t : list bool) (i : N) : res bool := match nthN t i with Some b => Ok b | None => Panic PIndex end.
Definition list_set (t : list bool) (i : N) (b : bool) : res (list bool) := assert_ (i <? lengthN t) ;;; Ok (updN t i b).
Definition list_push (t : list bool) (b : bool) : res (list bool) := assert_ (lengthN t + 1 <=? 20) ;;; Ok (t ++ [b]).
Lemma list_right c : wf_cfg c -> right_bit_len c 8 R_list list_len /\ right_get_bit R_list list_get /\ right_set_bit R_list list_set /\
  right_push_bit R_list (fun n => n <= 20) list_push.
Proof.
  intros Hc. split; [|split; [|split]].
  - intros t l (-> & H1). split; [reflexivity|]. unfold fits. pose proof (blocks_for_spec 8 (lengthN l) ltac:(lia)).
    assert (blocks_for 8 (lengthN l) <= 3) by lia. assert (24 <= max_bits c) by (destruct Hc as [E|E]; unfold max_bits; rewrite E; vm_compute; discriminate). lia.
  - intros t l i (-> & H1). unfold list_get. destruct (nthN l i); [reflexivity|]. intros _. eexists. reflexivity.
  - intros t l i b (-> & H1) Hi. unfold list_set. destruct (i <? lengthN l); cbn [assert_ bind]; [|eexists; reflexivity]. eexists. split; [reflexivity|]. split; [reflexivity|]. rewrite lengthN_updN. exact H1.
  - intros t l b (-> & H1). unfold list_push. split; intros Hr; [rewrite assert_true by lia|rewrite assert_false by lia]; cbn [bind]; eexists; [|reflexivity]. split; [reflexivity|].
    split; [reflexivity|]. rewrite lengthN_app. exact Hr.
Qed.
Example C91_ex2 : let B := bitvec_of_bit rel32 8 list_len list_get in let M := bitvecmut_of_bit rel32 B list_set in
  let P := bitvecpush_of_bit rel32 M list_push (fun t => Ok (None, t)) in
  lawful_bits rel32 B R_list /\ lawful_mut rel32 M R_list /\ R_list [true; false; true] [true; false; true] /\
  bv_get_block B [true; false; true] 0 = Ok 5 /\ bm_set_block M [true; false; true] 0 0xfe = Ok [false; true; true] /\
  bp_push_block P 64 [true] 0x81 = Ok ([true; false; false; false; false; false; false; false] ++ [true; false; false; false; false; false; false; true]) /\
  panics (bp_push_block P 64 (repeatN true 13) 0x81).
Proof.
  cbv zeta. destruct (list_right rel32 ltac:(auto with wf)) as (L & K & S & _).
  destruct (C91_get_bit _ rel32 8 R_list list_len list_get ltac:(auto with wf) ltac:(auto with wf) L K) as [LB LK]. destruct (lawful_right _ _ _ LB LK) as [_ RK].
  split; [exact LB|]. split; [apply (C91_set_bit _ rel32 (bitvec_of_bit rel32 8 list_len list_get) R_list list_set); auto with wf; apply LK|].
  split; [split; [reflexivity|vm_compute; discriminate]|].
  split; [vm_compute; reflexivity|]. split; [vm_compute; reflexivity|]. split; [vm_compute; reflexivity|]. eexists. vm_compute. reflexivity.
Qed.
Print Assumptions C91_get_bit.
Print Assumptions C91_get_block.
Print Assumptions C91_set_block.
Print Assumptions C91_set_bit.
Print Assumptions C91_push_bit.
Print Assumptions C91_neither.
Print Assumptions C91_neither_set.
