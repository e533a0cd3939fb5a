(** * [VectorBase] as a sequence of [k]-bit integers, and its iterator. *)
From Verif Require Export PVectorBase3 PDefaults.

Lemma sub_bits_of_blocks k xs i x : nthN xs i = Some x -> sub (i * k) k (bits_of_blocks k xs) = bits_of k x.
Proof.
  intros Hx. pose proof (nthN_lt _ _ _ Hx) as Hi. destruct (N.eq_dec k 0) as [->|Hk].
  { apply nthN_ext. intros j. rewrite nthN_sub. change (bits_of 0 x) with (@nil bool). rewrite nthN_nil.
    destruct (j <? 0) eqn:E; [lia|reflexivity]. }
  apply list_bit_ext.
  - rewrite lengthN_sub, lengthN_bits_of_blocks, lengthN_bits_of.
    assert ((i + 1) * k <= lengthN xs * k) by nia. lia.
  - intros j Hj. rewrite bit_at_sub, bit_at_bits_of.
    destruct (j <? k) eqn:E; cbn [andb]; [|reflexivity].
    apply bit_at_bits_of_blocks; auto; lia.
Qed.
Lemma int_of_bits_small k x : x < 2 ^ k -> int_of (bits_of k x) = x.
Proof. intros H. rewrite int_of_bits_of. now apply N.mod_small. Qed.
Lemma bits_of_blocks_inj k xs ys : 1 <= k -> Forall (fun x => x < 2 ^ k) xs -> Forall (fun x => x < 2 ^ k) ys ->
  bits_of_blocks k xs = bits_of_blocks k ys -> xs = ys.
Proof.
  intros Hk Hx Hy E. apply nthN_ext. intros i.
  assert (El : lengthN xs = lengthN ys).
  { apply (f_equal lengthN) in E. rewrite !lengthN_bits_of_blocks in E. nia. }
  destruct (N.lt_ge_cases i (lengthN xs)) as [Hi|Hi].
  - destruct (nthN_Some xs i Hi) as [x Ex]. destruct (nthN_Some ys i) as [y Ey]; [lia|].
    rewrite Ex, Ey. f_equal.
    rewrite <- (int_of_bits_small k x), <- (int_of_bits_small k y).
    + f_equal. rewrite <- (sub_bits_of_blocks k xs i x Ex), <- (sub_bits_of_blocks k ys i y Ey). now rewrite E.
    + exact (proj1 (Forall_nthN _ _) Hy i y Ey).
    + exact (proj1 (Forall_nthN _ _) Hx i x Ex).
  - rewrite (proj2 (nthN_None xs i)), (proj2 (nthN_None ys i)) by lia. reflexivity.
Qed.
Lemma put_bits_of_blocks k xs i x : i < lengthN xs ->
  put (i * k) (bits_of k x) (bits_of_blocks k xs) = bits_of_blocks k (updN xs i x).
Proof.
  intros Hi. destruct (N.eq_dec k 0) as [->|Hk].
  { assert (forall ys : list N, bits_of_blocks 0 ys = []) as H0.
    { intros ys. apply lengthN_0. rewrite lengthN_bits_of_blocks. lia. }
    rewrite !H0, N.mul_0_r. reflexivity. }
  assert ((i + 1) * k <= lengthN xs * k) by nia.
  assert (Hp : i * k + lengthN (bits_of k x) <= lengthN (bits_of_blocks k xs)).
  { rewrite lengthN_bits_of, lengthN_bits_of_blocks. lia. }
  apply list_bit_ext.
  - rewrite lengthN_put by assumption. rewrite !lengthN_bits_of_blocks, lengthN_updN. reflexivity.
  - intros j Hj. rewrite lengthN_put, lengthN_bits_of_blocks in Hj by assumption.
    rewrite bit_at_put, lengthN_bits_of by assumption.
    pose proof (N.div_mod j k Hk) as E. pose proof (N.mod_lt j k Hk) as Hr.
    set (q := j / k) in *. set (r := j mod k) in *. clearbody q r. subst j. rewrite (N.mul_comm k) in *.
    assert (Hq : q < lengthN xs) by nia.
    destruct (nthN_Some xs q Hq) as [y Ey].
    destruct (N.eq_dec q i) as [->|Hne].
    + rewrite (bit_at_bits_of_blocks k (updN xs i x) i r x); [|lia|lia|].
      2:{ rewrite nthN_updN, N.eqb_refl. destruct (i <? lengthN xs) eqn:E2; [reflexivity|lia]. }
      destruct ((i * k <=? i * k + r) && (i * k + r <? i * k + k)) eqn:E3; [|lia].
      rewrite bit_at_bits_of. replace (i * k + r - i * k) with r by lia.
      destruct (r <? k) eqn:E4; [reflexivity|lia].
    + rewrite (bit_at_bits_of_blocks k (updN xs i x) q r y); [|lia|lia|].
      2:{ rewrite nthN_updN. destruct (q =? i) eqn:E2; [lia|exact Ey]. }
      rewrite (bit_at_bits_of_blocks k xs q r y); [|lia|lia|exact Ey].
      destruct ((i * k <=? q * k + r) && (q * k + r <? i * k + k)) eqn:E3; [nia|reflexivity].
Qed.

Section Iter.
  Variables (c : cfg) (nb k : N).
  Hypothesis Hc : wf_cfg c.
  Hypothesis Hnb : wf_nb nb.
  Hypothesis Hk : 1 <= k <= nb.
  Let nb_range := wf_nb_range nb Hnb.
  Let ptr_range := wf_ptr c Hc.
  Let nb_pos := wf_nb_pos nb Hnb.

  (** [v] holds the integers [xs]. *)
  Definition Irep (v : vbase) (xs : list N) : Prop :=
    Vrep c nb k v (bits_of_blocks k xs) /\ Forall (fun x => x < 2 ^ k) xs.

  Lemma Irep_len v xs : Irep v xs -> vb_len v = lengthN xs.
  Proof. intros [[_ [H _]] _]. rewrite lengthN_bits_of_blocks in H. nia. Qed.
  Lemma Irep_fits v xs : Irep v xs -> fits c nb (lengthN xs * k).
  Proof. intros [[_ [_ H]] _]. now rewrite lengthN_bits_of_blocks in H. Qed.
  Lemma Irep_63 v xs : Irep v xs -> lengthN xs * k <= 2 ^ 63.
  Proof. intros H. apply (fits_lt64 c nb); [lia|]. now apply (Irep_fits v). Qed.
  Lemma Irep_get v xs i x : Irep v xs -> nthN xs i = Some x -> vb_get_bits c nb k v (i * k) k = Ok x.
  Proof.
    intros HI Hx. pose proof HI as [HV Hall]. pose proof (nthN_lt _ _ _ Hx) as Hi.
    assert ((i + 1) * k <= lengthN xs * k) by nia.
    rewrite (vb_get_bits_ok c nb k Hc Hnb Hk v _ (i * k) k HV) by (rewrite ?lengthN_bits_of_blocks; lia).
    rewrite (sub_bits_of_blocks k xs i x Hx). f_equal. apply int_of_bits_small.
    exact (proj1 (Forall_nthN _ _) Hall i x Hx).
  Qed.

  (** *** The iterator: [xs] are the items still to come. *)
  Definition It_exact (it : vbiter) (xs : list N) : Prop :=
    exists all, it_bits it = k /\ Irep (it_data it) all /\ it_limit it <= lengthN all /\
      it_start it <= it_limit it /\ xs = sub (it_start it) (it_limit it - it_start it) all.
  Definition It_rep (it : vbiter) (xs : list N) : Prop :=
    It_exact it xs \/
    (xs = [] /\ it_bits it = k /\ it_limit it <= it_start it /\ it_start it < 2 ^ 64).

  Lemma it_new_ok v xs : Irep v xs -> It_exact (it_new k v) xs.
  Proof.
    intros HI. exists xs. cbn. rewrite (Irep_len v xs HI).
    repeat split; auto; try lia; try apply HI. rewrite N.sub_0_r. apply nthN_ext. intros i.
    rewrite nthN_sub. destruct (i <? lengthN xs) eqn:E; [reflexivity|]. apply nthN_None. lia.
  Qed.
  Lemma sub_cons {A} (l : list A) s n x : nthN l s = Some x -> 1 <= n -> sub s n l = x :: sub (s + 1) (n - 1) l.
  Proof.
    intros H Hn. apply nthN_ext. intros i. rewrite nthN_cons, !nthN_sub.
    destruct (i =? 0) eqn:E.
    - replace i with 0 by lia. rewrite N.add_0_r. destruct (0 <? n) eqn:E2; [exact H|lia].
    - replace (s + 1 + (i - 1)) with (s + i) by lia.
      destruct (i <? n) eqn:E1, (i - 1 <? n - 1) eqn:E2; try reflexivity; lia.
  Qed.
  Lemma sub_snoc {A} (l : list A) s n x : nthN l (s + (n - 1)) = Some x -> 1 <= n -> sub s n l = sub s (n - 1) l ++ [x].
  Proof.
    intros H Hn. pose proof (nthN_lt _ _ _ H) as Hl. apply nthN_ext. intros i. rewrite nthN_snoc, !nthN_sub, lengthN_sub.
    rewrite N.min_l by lia.
    destruct (i <? n - 1) eqn:E1; [destruct (i <? n) eqn:E2; [reflexivity|lia]|].
    destruct (i =? n - 1) eqn:E2.
    - replace i with (n - 1) by lia. destruct (n - 1 <? n) eqn:E3; [exact H|lia].
    - destruct (i <? n) eqn:E3; [lia|reflexivity].
  Qed.
  Lemma sub_0 {A} (l : list A) s : sub s 0 l = [].
  Proof. unfold sub. apply firstnN_0. Qed.

  Lemma it_next_ok it xs : It_rep it xs ->
    exists it', it_next c nb it = Ok (match xs with [] => None | x :: _ => Some x end, it') /\
      It_rep it' (tl xs) /\ (It_exact it xs -> It_exact it' (tl xs)).
  Proof.
    intros HI. unfold it_next.
    destruct (N.lt_ge_cases (it_start it) (it_limit it)) as [H|H].
    - destruct HI as [[all [Eb [HI [Hl [Hs Ex]]]]]|[_ [_ [H1 _]]]]; [|lia].
      destruct (it_start it <? it_limit it) eqn:E; [|lia].
      destruct (nthN_Some all (it_start it)) as [x Hx]; [lia|].
      pose proof (Irep_63 _ _ HI). assert ((it_start it + 1) * k <= lengthN all * k) by nia.
      rewrite Eb, wmul_ok by lia. cbn [bind]. rewrite (N.mul_comm k), (Irep_get _ _ _ _ HI Hx). cbn [bind].
      rewrite wadd_ok by nia. cbn [bind]. rewrite Ex, (sub_cons _ _ _ _ Hx) by lia. cbn [tl].
      assert (Hex : It_exact {| it_start := it_start it + 1; it_limit := it_limit it; it_bits := k; it_data := it_data it |}
        (sub (it_start it + 1) (it_limit it - it_start it - 1) all)).
      { exists all. cbn. repeat split; auto; try apply HI; try lia. f_equal. lia. }
      eexists; split; [reflexivity|]. split; [left|intros _]; exact Hex.
    - destruct (it_start it <? it_limit it) eqn:E; [lia|].
      assert (xs = []) as ->.
      { destruct HI as [[all [Eb [HI [Hl [Hs Ex]]]]]|[Ex _]]; [|exact Ex].
        rewrite Ex. replace (it_limit it - it_start it) with 0 by lia. apply sub_0. }
      exists it. split; [reflexivity|]. cbn [tl]. auto.
  Qed.
  Lemma it_next_back_ok it xs : It_rep it xs ->
    exists it', it_next_back c nb it = Ok (fst (vec_pop xs), it') /\
      It_rep it' (snd (vec_pop xs)) /\ (It_exact it xs -> It_exact it' (snd (vec_pop xs))).
  Proof.
    intros HI. unfold it_next_back.
    destruct (N.lt_ge_cases (it_start it) (it_limit it)) as [H|H].
    - destruct HI as [[all [Eb [HI [Hl [Hs Ex]]]]]|[_ [_ [H1 _]]]]; [|lia].
      destruct (it_start it <? it_limit it) eqn:E; [|lia].
      rewrite wsub_ok by lia. cbn [bind].
      destruct (nthN_Some all (it_limit it - 1)) as [x Hx]; [lia|].
      pose proof (Irep_63 _ _ HI). assert ((it_limit it - 1 + 1) * k <= lengthN all * k) by nia.
      rewrite Eb, wmul_ok by lia. cbn [bind]. rewrite (N.mul_comm k), (Irep_get _ _ _ _ HI Hx). cbn [bind].
      rewrite Ex, (sub_snoc _ _ _ x); [|replace (it_start it + (it_limit it - it_start it - 1)) with (it_limit it - 1) by lia; exact Hx|lia].
      rewrite vec_pop_snoc. cbn [fst snd].
      assert (Hex : It_exact {| it_start := it_start it; it_limit := it_limit it - 1; it_bits := k; it_data := it_data it |}
        (sub (it_start it) (it_limit it - it_start it - 1) all)).
      { exists all. cbn. repeat split; auto; try apply HI; try lia. f_equal. lia. }
      eexists; split; [reflexivity|]. split; [left|intros _]; exact Hex.
    - destruct (it_start it <? it_limit it) eqn:E; [lia|].
      assert (xs = []) as ->.
      { destruct HI as [[all [Eb [HI [Hl [Hs Ex]]]]]|[Ex _]]; [|exact Ex].
        rewrite Ex. replace (it_limit it - it_start it) with 0 by lia. apply sub_0. }
      exists it. split; [reflexivity|]. cbn. auto.
  Qed.
  Lemma skipnN_sub {A} (l : list A) s n m : n <= m -> skipnN n (sub s m l) = sub (s + n) (m - n) l.
  Proof.
    intros H. apply nthN_ext. intros i. rewrite nthN_skipnN, !nthN_sub.
    replace (s + n + i) with (s + (n + i)) by lia.
    destruct (n + i <? m) eqn:E1, (i <? m - n) eqn:E2; try reflexivity; lia.
  Qed.
  Lemma it_nth_ok it xs n : It_rep it xs -> n < 2 ^ 64 ->
    exists it', it_nth c nb it n = Ok (match skipnN n xs with [] => None | x :: _ => Some x end, it') /\
      It_rep it' (tl (skipnN n xs)) /\ (It_exact it xs -> n <= lengthN xs -> It_exact it' (tl (skipnN n xs))).
  Proof.
    intros HI Hn. unfold it_nth. set (s := match checked_add 64 (it_start it) n with Some s => s | None => it_limit it end).
    set (it0 := {| it_start := s; it_limit := it_limit it; it_bits := it_bits it; it_data := it_data it |}).
    assert (H0 : It_rep it0 (skipnN n xs) /\ (It_exact it xs -> n <= lengthN xs -> It_exact it0 (skipnN n xs))).
    { destruct HI as [HE|[Ex [Eb [H1 H2]]]].
      - pose proof HE as [all [Eb [HI [Hl [Hs Ex]]]]]. pose proof (Irep_63 _ _ HI) as H63.
        assert (Hlen : lengthN xs = it_limit it - it_start it) by (rewrite Ex, lengthN_sub; lia).
        destruct (N.le_gt_cases n (lengthN xs)) as [Hle|Hgt].
        + assert (Es : s = it_start it + n).
          { unfold s, checked_add. destruct (it_start it + n <? 2 ^ 64) eqn:E; [reflexivity|nia]. }
          assert (Hex : It_exact it0 (skipnN n xs)).
          { exists all. cbn [it0 it_bits it_data it_limit it_start]. rewrite Es. repeat split; auto; try apply HI; try lia.
            rewrite Ex, skipnN_sub by lia. f_equal. lia. }
          split; [left|intros _ _]; exact Hex.
        + split; [right|intros _; lia]. cbn [it0 it_bits it_data it_limit it_start].
          rewrite skipnN_all by lia. repeat split; auto.
          * unfold s, checked_add. dif E; lia.
          * unfold s, checked_add. dif E; [lia|nia].
      - subst xs. assert (Hs : skipnN n (@nil N) = []) by (apply skipnN_all; rewrite lengthN_nil; lia).
        rewrite Hs. split.
        + right. cbn [it0 it_bits it_data it_limit it_start]. repeat split; auto.
          * unfold s, checked_add. dif E; lia.
          * unfold s, checked_add. dif E; lia.
        + intros HE Hn0. rewrite lengthN_nil in Hn0. assert (n = 0) as -> by lia.
          destruct HE as [all HE]. exists all. cbn [it0 it_bits it_data it_limit it_start].
          assert (s = it_start it) as ->; [|exact HE].
          unfold s, checked_add. rewrite N.add_0_r. destruct (_ <? _) eqn:E; [reflexivity|lia]. }
    destruct H0 as [H0 H1]. destruct (it_next_ok it0 _ H0) as [it' [H2 [H3 H4]]].
    exists it'. split; [exact H2|]. split; [exact H3|]. intros HE Hle. apply H4. now apply H1.
  Qed.
  Lemma it_len_ok it xs : It_exact it xs -> it_len c it = Ok (as_usize c (lengthN xs)).
  Proof.
    intros [all [Eb [HI [Hl [Hs Ex]]]]]. unfold it_len. rewrite wsub_ok by lia. cbn [bind].
    rewrite Ex, lengthN_sub, N.min_l by lia. reflexivity.
  Qed.
  Lemma it_size_hint_ok it xs : It_exact it xs ->
    it_size_hint c it = Ok (match to_usize c (lengthN xs) with Some n => (n, Some n) | None => (0, None) end).
  Proof.
    intros HE. pose proof HE as [all [Eb [HI [Hl [Hs Ex]]]]]. unfold it_size_hint.
    assert (Hlen : lengthN xs = it_limit it - it_start it) by (rewrite Ex, lengthN_sub; lia).
    destruct (ptr c =? 32) eqn:E.
    - rewrite wsub_ok by lia. cbn [bind]. now rewrite Hlen.
    - rewrite (it_len_ok it xs HE). cbn [bind].
      assert (ptr c = 64) as E64 by (destruct Hc; lia). pose proof (Irep_63 _ _ HI).
      assert (lengthN xs < 2 ^ ptr c) by (rewrite E64; nia).
      rewrite as_usize_small, to_usize_small by assumption. reflexivity.
  Qed.
  Lemma it_last_ok it xs : It_rep it xs -> it_last c nb it = Ok (fst (vec_pop xs)).
  Proof.
    intros HI. unfold it_last. destruct (it_next_back_ok it xs HI) as [it' [H _]]. now rewrite H.
  Qed.
End Iter.
