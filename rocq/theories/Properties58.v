(** * Property C111: set operations on bit vectors, a block at a time ([MBlockwise.v]). *)
From Verif Require Import Machine MStorage MTraits MVectorBase MBitVector MBlockwise PRun Properties3 Properties32 Properties50
  SpecBits SpecCfg SpecLaws SpecOps PBase PStorage PBits PBlocks PDefaults PVectorBase PVectorBase2 PVectorBase3 PBitVector PRank.

Definition bit_op (o : set_op) (a b : bool) : bool :=
  match o with Union => a || b | Intersection => a && b | Difference => a && negb b | SymmetricDifference => xorb a b end.
(** Bit by bit. *)
Definition zip_bits (f : bool -> bool -> bool) (l m : list bool) : list bool := map (fun p => f (fst p) (snd p)) (combine l m).

Lemma nthN_combine {A B} (l : list A) (m : list B) i :
  nthN (combine l m) i = match nthN l i, nthN m i with Some x, Some y => Some (x, y) | _, _ => None end.
Proof.
  revert m i. induction l as [|x l IH]; intros m i; [reflexivity|]. destruct m as [|y m]; [cbn [combine]; rewrite !nthN_nil; destruct (nthN (x :: l) i); reflexivity|].
  cbn [combine]. rewrite !nthN_cons. destruct (i =? 0); [reflexivity|apply IH].
Qed.
Lemma lengthN_zip f l m : lengthN l = lengthN m -> lengthN (zip_bits f l m) = lengthN l.
Proof. intros H. unfold zip_bits. rewrite lengthN_map. unfold lengthN in *. rewrite combine_length. lia. Qed.
Lemma bit_at_zip f l m i : lengthN l = lengthN m -> i < lengthN l -> bit_at (zip_bits f l m) i = f (bit_at l i) (bit_at m i).
Proof.
  intros H Hi. unfold bit_at, zip_bits. rewrite nthN_map, nthN_combine. destruct (nthN_Some l i) as [x Hx]; [lia|]. destruct (nthN_Some m i) as [y Hy]; [lia|].
  rewrite Hx, Hy. reflexivity.
Qed.
Lemma testbit_block_op nb o x y j : j < nb -> N.testbit (block_op nb o x y) j = bit_op o (N.testbit x j) (N.testbit y j).
Proof.
  intros H. destruct o; cbn [block_op bit_op]; rewrite ?N.lor_spec, ?N.land_spec, ?N.lxor_spec; try reflexivity.
  unfold wnot. rewrite testbit_lnot. destruct (j <? nb) eqn:E; [reflexivity|lia].
Qed.
Lemma block_op_lt nb o x y : x < 2 ^ nb -> y < 2 ^ nb -> block_op nb o x y < 2 ^ nb.
Proof.
  intros Hx Hy. apply bits_lt. intros i Hi. pose proof (testbit_small x nb i Hx Hi) as Ex. pose proof (testbit_small y nb i Hy Hi) as Ey.
  destruct o; cbn [block_op]; rewrite ?N.lor_spec, ?N.land_spec, ?N.lxor_spec, Ex, ?Ey; reflexivity.
Qed.
Lemma wnot_lt nb x : x < 2 ^ nb -> wnot nb x < 2 ^ nb.
Proof.
  intros Hx. apply bits_lt. intros i Hi. unfold wnot. rewrite testbit_lnot. destruct (i <? nb) eqn:E; [lia|]. exact (testbit_small x nb i Hx Hi).
Qed.

(** The first [i] blocks of [m], then the rest of [l]. *)
Definition partly (nb i : N) (l m : list bool) (u : list bool) : Prop :=
  lengthN u = lengthN l /\ forall j, j < lengthN l -> bit_at u j = if j <? i * nb then bit_at m j else bit_at l j.

Section Loop.
  Context {T : Type} (c : cfg) (M : bitvecmut T) (R : T -> list bool -> Prop).
  Hypothesis Hnb : wf_nb (bv_nb (bm_bv M)).
  Hypothesis LK : lawful_blocks c (bm_bv M) R.
  Hypothesis LM : lawful_mutblocks c M R.
  Let nb := bv_nb (bm_bv M).

  (** any loop that rewrites the blocks in order *)
  Lemma rewrite_blocks (body : N -> T -> res T) (f : N -> N -> res N) l m t :
    (forall i a, body i a = (x <- bv_get_block (bm_bv M) a i ;; y <- f i x ;; bm_set_block M a i y)) ->
    R t l -> lengthN m = lengthN l ->
    (forall i, i * nb < lengthN l -> exists y, f i (block_of nb i l) = Ok y /\ y < 2 ^ nb /\
       forall j, j < nb -> i * nb + j < lengthN l -> N.testbit y j = bit_at m (i * nb + j)) ->
    exists t', (n <- bv_block_len (bm_bv M) t ;; for_range 0 n body t) = Ok t' /\ R t' m.
  Proof.
    intros HB HR HL HF. pose proof (wf_nb_range _ Hnb) as Hr. fold nb in Hr. rewrite (lk_block_len _ _ _ LK t l HR). cbn [bind]. fold nb.
    pose proof (blocks_for_spec nb (lengthN l) ltac:(lia)) as Hb.
    destruct (for_range_ind (fun i a => exists u, R a u /\ partly nb i l m u) body 0 (blocks_for nb (lengthN l)) t) as (t' & Et & u & Hu & Pu & Pj).
    - lia.
    - exists l. split; [exact HR|]. split; [reflexivity|]. intros j Hj. destruct (j <? 0 * nb) eqn:E; [lia|reflexivity].
    - intros i a _ Hi (u & Hu & Lu & Pu). apply blocks_for_lt in Hi; [|lia]. rewrite HB.
      assert (Hi' : i * nb < lengthN u) by lia. rewrite (lk_get_block _ _ _ LK a u i Hu Hi'). cbn [bind]. fold nb.
      assert (Eb : block_of nb i u = block_of nb i l).
      { unfold block_of. f_equal. apply list_bit_ext; [rewrite !lengthN_sub; lia|]. intros j Hj. rewrite lengthN_sub in Hj. rewrite !bit_at_sub.
        destruct (j <? nb) eqn:E; [|reflexivity]. cbn [andb]. rewrite Pu by lia. destruct (i * nb + j <? i * nb) eqn:E2; [lia|reflexivity]. }
      rewrite Eb. destruct (HF i Hi) as (y & Ey & Hy & Py). rewrite Ey. cbn [bind].
      destruct (lmk_set_block _ _ _ LM a u i y Hu Hi' Hy) as (a' & Ea & Ha). exists a'. split; [exact Ea|]. fold nb in Ha. eexists. split; [exact Ha|].
      split; [rewrite lengthN_set_block_of by lia; exact Lu|]. intros j Hj. rewrite bit_at_set_block_of by lia.
      destruct ((i * nb <=? j) && (j <? i * nb + nb)) eqn:E.
      + destruct (j <? lengthN u) eqn:E2; [|lia]. cbn [andb]. rewrite (Py (j - i * nb)) by lia. replace (i * nb + (j - i * nb)) with j by lia.
        destruct (j <? (i + 1) * nb) eqn:E3; [reflexivity|lia].
      + rewrite Pu by lia. destruct (j <? i * nb) eqn:E2, (j <? (i + 1) * nb) eqn:E3; try lia; reflexivity.
    - exists t'. split; [exact Et|]. replace m with u; [exact Hu|]. apply list_bit_ext; [lia|]. intros j Hj. rewrite Pj by lia.
      destruct (j <? blocks_for nb (lengthN l) * nb) eqn:E; [reflexivity|lia].
  Qed.
End Loop.

(** The second operand needs as many blocks as the first; what it has beyond the first one's length does not count, and what it
    lacks in the last block counts as zeros. *)
Theorem C111_combine : forall T U c (M : bitvecmut T) (B : bitvec U) R S o t l b m,
  wf_nb (bv_nb (bm_bv M)) -> bv_nb B = bv_nb (bm_bv M) ->
  lawful_blocks c (bm_bv M) R -> lawful_mutblocks c M R -> lawful_blocks c B S ->
  R t l -> S b m -> blocks_for (bv_nb B) (lengthN l) <= blocks_for (bv_nb B) (lengthN m) ->
  exists t', combine_blocks M B o t b = Ok t' /\ R t' (zip_bits (bit_op o) l (fit (lengthN l) false m)).
Proof.
  intros T U c M B R S o t l b m Hnb En LK LM LS HR HS HL. pose proof (wf_nb_range _ Hnb) as Hr. rewrite En in HL. set (nb := bv_nb (bm_bv M)) in *.
  unfold combine_blocks.
  apply (rewrite_blocks c M R Hnb LK LM _ (fun i x => y <- bv_get_block B b i ;; Ok (block_op (bv_nb B) o x y)) l _ t); [|exact HR| |].
  - intros i a. destruct (bv_get_block (bm_bv M) a i); cbn [bind]; [|reflexivity|reflexivity]. destruct (bv_get_block B b i); reflexivity.
  - apply lengthN_zip. symmetry. apply lengthN_fit.
  - intros i Hi. fold nb in Hi |- *. rewrite (lk_get_block _ _ _ LS b m i HS) by (rewrite En; apply blocks_for_lt; [lia|]; apply N.lt_le_trans with (2 := HL); apply blocks_for_lt; lia).
    cbn [bind]. rewrite En. eexists. split; [reflexivity|].
    split; [apply block_op_lt; apply block_of_lt|]. intros j Hj Hj2. rewrite testbit_block_op, !testbit_block_of by assumption.
    destruct (j <? nb) eqn:E; [|lia]. cbn [andb]. rewrite bit_at_zip by (rewrite ?lengthN_fit; lia). rewrite bit_at_fit. destruct (i * nb + j <? lengthN l) eqn:E1; [|lia]. cbn [andb].
    destruct (i * nb + j <? lengthN m) eqn:E2; [reflexivity|]. now rewrite (bit_at_oob m) by lia.
Qed.

Lemma for_loop_split {S} (body : N -> S -> res S) a b i s : for_loop (a + b) i body s = (s' <- for_loop a i body s ;; for_loop b (i + N.of_nat a) body s').
Proof.
  revert i s. induction a as [|a IH]; intros i s; [cbn [for_loop bind plus]; f_equal; lia|]. cbn [for_loop plus].
  destruct (body i s) as [s1| |]; cbn [bind]; [|reflexivity|reflexivity]. rewrite IH. destruct (for_loop a (i + 1) body s1); cbn [bind]; [|reflexivity|reflexivity]. f_equal. lia.
Qed.
(** With fewer blocks in the second operand, the loop panics. *)
Theorem C111_short : forall T U c (M : bitvecmut T) (B : bitvec U) R S o t l b m,
  wf_nb (bv_nb (bm_bv M)) -> bv_nb B = bv_nb (bm_bv M) ->
  lawful_blocks c (bm_bv M) R -> lawful_mutblocks c M R -> lawful_blocks c B S ->
  R t l -> S b m -> blocks_for (bv_nb B) (lengthN m) < blocks_for (bv_nb B) (lengthN l) -> blocks_for (bv_nb B) (lengthN m) < 2 ^ ptr c ->
  panics (combine_blocks M B o t b).
Proof.
  intros T U c M B R S o t l b m Hnb En LK LM LS HR HS HL Hp. pose proof (wf_nb_range _ Hnb) as Hr. rewrite En in HL, Hp. set (nb := bv_nb (bm_bv M)) in *.
  pose proof (blocks_for_spec nb (lengthN m) ltac:(lia)) as Hm. set (k := blocks_for nb (lengthN m)) in *.
  unfold combine_blocks. rewrite (lk_block_len _ _ _ LK t l HR). cbn [bind]. fold nb. set (n := blocks_for nb (lengthN l)) in *.
  unfold for_range. replace (N.to_nat (n - 0)) with (N.to_nat k + Datatypes.S (N.to_nat (n - k - 1)))%nat by lia. rewrite for_loop_split.
  match goal with |- panics (bind (for_loop _ _ ?f _) _) => set (body := f) end.
  destruct (for_loop_ind (fun i a => exists u, R a u /\ lengthN u = lengthN l) body (N.to_nat k) 0 t) as (t' & Et & u & Hu & Lu).
  - exists l. auto.
  - intros i a _ Hi (u & Hu & Lu). unfold body. assert (Hi2 : i < k) by lia. apply blocks_for_lt in Hi2; [|lia].
    assert (Hi3 : i < n) by lia. apply blocks_for_lt in Hi3; [|lia].
    rewrite (lk_get_block _ _ _ LK a u i Hu) by (fold nb; lia). cbn [bind]. rewrite (lk_get_block _ _ _ LS b m i HS) by (rewrite En; lia). cbn [bind]. rewrite En. fold nb.
    destruct (lmk_set_block _ _ _ LM a u i (block_op nb o (block_of nb i u) (block_of nb i m)) Hu) as (a' & Ea & Ha); [fold nb; lia|apply block_op_lt; apply block_of_lt|].
    exists a'. split; [exact Ea|]. eexists. split; [exact Ha|]. rewrite lengthN_set_block_of; [exact Lu|fold nb; lia].
  - rewrite Et. cbn [bind for_loop]. replace (0 + N.of_nat (N.to_nat k)) with k by lia. unfold body at 1.
    assert (Hi3 : k < n) by lia. apply blocks_for_lt in Hi3; [|lia].
    rewrite (lk_get_block _ _ _ LK t' u k Hu) by (fold nb; lia). cbn [bind].
    destruct (lk_get_block_oob _ _ _ LS b m k HS) as [q Eq]; [rewrite En; lia|exact Hp|]. rewrite Eq. exists q. reflexivity.
Qed.

Theorem C111_complement : forall T c (M : bitvecmut T) R t l,
  wf_nb (bv_nb (bm_bv M)) -> lawful_blocks c (bm_bv M) R -> lawful_mutblocks c M R -> R t l ->
  exists t', complement_blocks M t = Ok t' /\ R t' (map negb l).
Proof.
  intros T c M R t l Hnb LK LM HR. unfold complement_blocks.
  apply (rewrite_blocks c M R Hnb LK LM _ (fun i x => Ok (wnot (bv_nb (bm_bv M)) x)) l (map negb l) t); [|exact HR| |].
  - intros i a. destruct (bv_get_block (bm_bv M) a i); reflexivity.
  - apply lengthN_map.
  - intros i Hi. eexists. split; [reflexivity|]. split; [apply wnot_lt, block_of_lt|]. intros j Hj Hj2. unfold wnot. rewrite testbit_lnot, testbit_block_of.
    destruct (j <? bv_nb (bm_bv M)) eqn:E; [|lia]. cbn [andb]. unfold bit_at. rewrite nthN_map. destruct (nthN_Some l (i * bv_nb (bm_bv M) + j)) as [x Hx]; [lia|]. rewrite Hx. reflexivity.
Qed.

Section Counting.
  Context {T : Type} (c : cfg) (A : bitvec T) (R : T -> list bool -> Prop).
  Hypothesis Hnb : wf_nb (bv_nb A).
  Hypothesis LK : lawful_blocks c A R.
  Let nb := bv_nb A.

  (** any loop that adds up the ones of the blocks of [m] *)
  Lemma count_blocks (body : N -> N -> res N) l m t : R t l -> lengthN m = lengthN l -> lengthN l < 2 ^ 64 ->
    (forall i s, i * nb < lengthN l -> body i s = wadd c 64 s (count_ones (block_of nb i m))) ->
    (n <- bv_block_len A t ;; for_range 0 n body 0) = Ok (count true m).
  Proof.
    intros HR HL H64 HB. pose proof (wf_nb_range _ Hnb) as Hr. fold nb in Hr. rewrite (lk_block_len _ _ _ LK t l HR). cbn [bind]. fold nb.
    pose proof (blocks_for_spec nb (lengthN l) ltac:(lia)) as Hb.
    destruct (for_range_ind (fun i s => s = count true (firstnN (i * nb) m)) body 0 (blocks_for nb (lengthN l)) 0) as (s & Es & Ps).
    - lia.
    - reflexivity.
    - intros i s _ Hi E. apply blocks_for_lt in Hi; [|lia]. rewrite HB, count_ones_block by exact Hi. subst s. unfold wadd, wrap.
      pose proof (count_add true (i * nb) nb m) as E. rewrite <- E.
      pose proof (count_firstn_le true (i * nb + nb) m) as E2.
      exists (count true (firstnN (i * nb + nb) m)). split; [|f_equal; f_equal; lia].
      destruct (count true (firstnN (i * nb + nb) m) <? 2 ^ 64) eqn:E3; [reflexivity|lia].
    - rewrite Es, Ps. f_equal. f_equal. apply firstnN_all. lia.
  Qed.
End Counting.

(** The number of ones; a lawful store reads the unused part of its last block as zeros (src/bit_vec/traits.rs:52-69). *)
Theorem C111_size : forall T c (A : bitvec T) R t l,
  wf_nb (bv_nb A) -> lawful_blocks c A R -> R t l -> lengthN l < 2 ^ 64 -> size_blocks c A t = Ok (count true l).
Proof.
  intros T c A R t l Hnb LK HR H64. pose proof (wf_nb_range _ Hnb) as Hr. unfold size_blocks.
  apply (count_blocks c A R Hnb LK _ l l t HR eq_refl H64). intros i s Hi. rewrite (lk_get_block _ _ _ LK t l i HR Hi). reflexivity.
Qed.
(** The Hamming distance. *)
Theorem C111_distance : forall T U c (A : bitvec T) (B : bitvec U) R S t l b m,
  wf_nb (bv_nb A) -> bv_nb B = bv_nb A -> lawful_blocks c A R -> lawful_blocks c B S -> R t l -> S b m -> lengthN m = lengthN l -> lengthN l < 2 ^ 64 ->
  distance_blocks c A B t b = Ok (count true (zip_bits xorb l m)).
Proof.
  intros T U c A B R S t l b m Hnb En LK LS HR HS HL H64. pose proof (wf_nb_range _ Hnb) as Hr. unfold distance_blocks.
  apply (count_blocks c A R Hnb LK _ l _ t HR (lengthN_zip _ _ _ (eq_sym HL)) H64). intros i s Hi.
  rewrite (lk_get_block _ _ _ LK t l i HR Hi). cbn [bind]. rewrite (lk_get_block _ _ _ LS b m i HS) by (rewrite En; lia). cbn [bind]. rewrite En. f_equal. f_equal.
  apply N.bits_inj. intros j. rewrite N.lxor_spec, !testbit_block_of. destruct (j <? bv_nb A) eqn:E; [|reflexivity]. cbn [andb].
  destruct (N.lt_ge_cases (i * bv_nb A + j) (lengthN l)) as [H|H].
  - rewrite bit_at_zip by lia. reflexivity.
  - rewrite !bit_at_oob; [reflexivity|rewrite lengthN_zip; lia|lia|lia].
Qed.
(** Is every bit that is set in the first operand set in the second? *)
Theorem C111_subset : forall T U c (A : bitvec T) (B : bitvec U) R S t l b m,
  wf_nb (bv_nb A) -> bv_nb B = bv_nb A -> lawful_blocks c A R -> lawful_blocks c B S -> R t l -> S b m ->
  blocks_for (bv_nb B) (lengthN l) <= blocks_for (bv_nb B) (lengthN m) ->
  exists r, subset_blocks A B t b = Ok r /\ (r = true <-> forall i, bit_at l i = true -> bit_at m i = true).
Proof.
  intros T U c A B R S t l b m Hnb En LK LS HR HS HL. pose proof (wf_nb_range _ Hnb) as Hr. rewrite En in HL. set (nb := bv_nb A) in *.
  pose proof (blocks_for_spec nb (lengthN l) ltac:(lia)) as Hb. unfold subset_blocks. rewrite (lk_block_len _ _ _ LK t l HR). cbn [bind]. fold nb.
  assert (G : forall n i, i + N.of_nat n = blocks_for nb (lengthN l) -> exists r, subset_loop A B t b n i = Ok r /\ (r = true <-> forall j, i * nb <= j -> bit_at l j = true -> bit_at m j = true)).
  { induction n as [|n IH]; intros i Hi.
    - exists true. split; [reflexivity|]. split; [|reflexivity]. intros _ j Hj Hl. rewrite bit_at_oob in Hl; [discriminate|nia].
    - cbn [subset_loop]. assert (H1 : i < blocks_for nb (lengthN l)) by lia. pose proof (N.lt_le_trans _ _ _ H1 HL) as H2. apply blocks_for_lt in H1; [|lia]. apply blocks_for_lt in H2; [|lia].
      rewrite (lk_get_block _ _ _ LK t l i HR H1). cbn [bind]. rewrite (lk_get_block _ _ _ LS b m i HS) by (rewrite En; lia). cbn [bind]. rewrite En. fold nb.
      assert (Hx : forall j, N.testbit (N.land (block_of nb i l) (wnot nb (block_of nb i m))) j = (j <? nb) && (bit_at l (i * nb + j) && negb (bit_at m (i * nb + j)))).
      { intros j. unfold wnot. rewrite N.land_spec, testbit_lnot, !testbit_block_of. destruct (j <? nb); reflexivity. }
      destruct (N.land (block_of nb i l) (wnot nb (block_of nb i m)) =? 0) eqn:E; cbn [negb].
      + destruct (IH (i + 1)) as (r & Er & Pr); [lia|]. exists r. split; [exact Er|]. rewrite Pr. split; intros H j Hj Hl; [|apply H; [lia|exact Hl]].
        destruct (N.lt_ge_cases j (i * nb + nb)) as [H3|H3]; [|apply H; [lia|exact Hl]].
        specialize (Hx (j - i * nb)). apply N.eqb_eq in E. rewrite E, N.bits_0 in Hx. replace (i * nb + (j - i * nb)) with j in Hx by lia. rewrite Hl in Hx.
        destruct (j - i * nb <? nb) eqn:E4; [|lia]. destruct (bit_at m j); [reflexivity|discriminate].
      + exists false. split; [reflexivity|]. split; [discriminate|]. intros H. exfalso. apply N.eqb_neq in E. apply E. apply N.bits_inj. intros j. rewrite Hx, N.bits_0.
        destruct (j <? nb) eqn:E4; [|reflexivity]. cbn [andb]. specialize (H (i * nb + j) ltac:(lia)). destruct (bit_at l (i * nb + j)); [|reflexivity]. rewrite H; reflexivity. }
  destruct (G (N.to_nat (blocks_for nb (lengthN l))) 0) as (r & Er & Pr); [lia|]. exists r. split; [exact Er|]. rewrite Pr. split; intros H j; [apply H; lia|intros _; apply H].
Qed.

(** On two vectors made by any programs, of the same length: complementing twice gives an equal vector, and the complement of the
    union is equal to the intersection of the complements; [==] is the derived comparison of the block contents. *)
Theorem C111_bit_vector : forall c nb t1 ops1 t2 ops2 v1 v2 l1 l2, wf_cfg c -> wf_nb nb ->
  bvec_exact c nb t1 ops1 v1 l1 -> bvec_exact c nb t2 ops2 v2 l2 -> lengthN l1 = lengthN l2 ->
  exists n1 nn1 n2 u nu i,
    complement_blocks (bvec_bitvecmut c nb) v1 = Ok n1 /\ complement_blocks (bvec_bitvecmut c nb) n1 = Ok nn1 /\ bvec_eq nn1 v1 = true /\
    complement_blocks (bvec_bitvecmut c nb) v2 = Ok n2 /\
    combine_blocks (bvec_bitvecmut c nb) (bvec_bitvec c nb) Union v1 v2 = Ok u /\
    complement_blocks (bvec_bitvecmut c nb) u = Ok nu /\
    combine_blocks (bvec_bitvecmut c nb) (bvec_bitvec c nb) Intersection n1 n2 = Ok i /\
    bvec_eq nu i = true.
Proof.
  intros c nb t1 ops1 t2 ops2 v1 v2 l1 l2 Hc Hnb E1 E2 HL.
  pose proof (wf_nb_range _ Hnb) as Hr. pose proof (bvec_exact_R _ _ _ _ _ _ Hc Hnb E1) as R1. pose proof (bvec_exact_R _ _ _ _ _ _ Hc Hnb E2) as R2.
  pose proof (bvec_lawful_blocks c nb Hc Hnb) as LK. pose proof (bvec_lawful_mutblocks c nb Hc Hnb) as LM.
  pose proof (fun v l (H : R_bv c nb v l) => C111_complement _ c (bvec_bitvecmut c nb) (R_bv c nb) v l Hnb LK LM H) as NOT.
  pose proof (fun o v l w m (H : R_bv c nb v l) (H' : R_bv c nb w m) H2 => C111_combine _ _ c (bvec_bitvecmut c nb) (bvec_bitvec c nb) (R_bv c nb) (R_bv c nb) o v l w m Hnb eq_refl LK LM LK H H' H2) as OP.
  assert (EQ : forall v w l, R_bv c nb v l -> R_bv c nb w l -> bvec_eq v w = true).
  { intros v w l H1 H2. unfold bvec_eq. rewrite vb_eq_spec. eapply (Vrep_fun c nb 1); eauto. lia. }
  destruct (NOT _ _ R1) as (n1 & En1 & Rn1). destruct (NOT _ _ Rn1) as (nn1 & Enn1 & Rnn1). destruct (NOT _ _ R2) as (n2 & En2 & Rn2).
  destruct (OP Union _ _ _ _ R1 R2) as (u & Eu & Ru); [rewrite HL; lia|]. destruct (NOT _ _ Ru) as (nu & Enu & Rnu).
  destruct (OP Intersection _ _ _ _ Rn1 Rn2) as (i & Ei & Ri); [rewrite !lengthN_map, HL; lia|].
  exists n1, nn1, n2, u, nu, i. split; [exact En1|]. split; [exact Enn1|].
  split; [apply EQ with (2 := R1); replace l1 with (map negb (map negb l1)); [exact Rnn1|]; rewrite map_map, (map_ext _ (fun b => b)); [apply map_id|apply negb_involutive]|].
  split; [exact En2|]. split; [exact Eu|]. split; [exact Enu|]. split; [exact Ei|]. apply EQ with (2 := Ri).
  match goal with |- R_bv _ _ _ ?m => replace m with (map negb (zip_bits (bit_op Union) l1 (fit (lengthN l1) false l2))); [exact Rnu|] end.
  assert (F : forall m k, lengthN m = k -> fit k false m = m).
  { intros m k <-. unfold fit. rewrite firstnN_all by lia. replace (lengthN m - lengthN m) with 0 by lia. cbn. apply app_nil_r. }
  rewrite (F l2) by lia. rewrite F by (rewrite !lengthN_map; lia).
  apply list_bit_ext; rewrite lengthN_map, !lengthN_zip by (rewrite ?lengthN_map; lia); [now rewrite lengthN_map|]. intros j Hj.
  assert (N1 : forall m, j < lengthN m -> bit_at (map negb m) j = negb (bit_at m j)).
  { intros m Hm. unfold bit_at. rewrite nthN_map. destruct (nthN_Some m j Hm) as [x Hx]. now rewrite Hx. }
  rewrite N1 by (rewrite lengthN_zip; lia). rewrite !bit_at_zip by (rewrite ?lengthN_map; lia). rewrite !N1 by lia. cbn [bit_op]. apply negb_orb.
Qed.

(** Eleven bits in byte blocks, and a vector of bytes as second operand: the complement leaves the unused bits of the last byte zero. *)
Example C111_ex : exists v w,
  bvec_exact dbg64 8 BNew (map BPushBit [true; true; false; true; false; false; false; false; true; false; true]) v [true; true; false; true; false; false; false; false; true; false; true] /\
  valid_blocks dbg64 8 [9; 255] /\ R_blocks dbg64 8 [9; 255] (bits_of_blocks 8 [9; 255]) /\
  bvec_exact dbg64 8 BNew (map BPushBit [true; false; false; true; false; false; false; false; true; true; true]) w [true; false; false; true; false; false; false; false; true; true; true] /\
  complement_blocks (bvec_bitvecmut dbg64 8) v = Ok {| vb_vec := [244; 2]; vb_len := 11 |} /\
  combine_blocks (bvec_bitvecmut dbg64 8) (blocks_bitvec dbg64 8) Intersection v [9; 255] = Ok {| vb_vec := [9; 5]; vb_len := 11 |} /\
  combine_blocks (bvec_bitvecmut dbg64 8) (blocks_bitvec dbg64 8) Difference v [9; 255] = Ok {| vb_vec := [2; 0]; vb_len := 11 |} /\
  combine_blocks (bvec_bitvecmut dbg64 8) (blocks_bitvec dbg64 8) Union v [9; 255] = Ok {| vb_vec := [11; 7]; vb_len := 11 |} /\
  combine_blocks (bvec_bitvecmut dbg64 8) (bvec_bitvec dbg64 8) SymmetricDifference v w = Ok {| vb_vec := [2; 2]; vb_len := 11 |} /\
  combine_blocks (bvec_bitvecmut dbg64 8) (blocks_bitvec dbg64 8) Union v [9] = Panic PIndex /\
  size_blocks dbg64 (bvec_bitvec dbg64 8) v = Ok 5 /\
  distance_blocks dbg64 (bvec_bitvec dbg64 8) (bvec_bitvec dbg64 8) v w = Ok 2 /\
  subset_blocks (bvec_bitvec dbg64 8) (bvec_bitvec dbg64 8) v w = Ok false /\
  subset_blocks (bvec_bitvec dbg64 8) (blocks_bitvec dbg64 8) w [25; 7] = Ok true.
Proof.
  exists {| vb_len := 11; vb_vec := [11; 5] |}, {| vb_len := 11; vb_vec := [9; 7] |}. split; [split; [exact I|split; [repeat constructor|split; [exists 0%nat; intros; vm_compute; reflexivity|vm_compute; reflexivity]]]|].
  assert (V : valid_blocks dbg64 8 [9; 255]) by (split; [repeat constructor|vm_compute; congruence]).
  split; [exact V|]. split; [apply R_blocks_valid; [lia|exact V]|].
  split; [split; [exact I|split; [repeat constructor|split; [exists 0%nat; intros; vm_compute; reflexivity|vm_compute; reflexivity]]]|].
  repeat (split; [vm_compute; reflexivity|]). vm_compute. reflexivity.
Qed.

Print Assumptions C111_combine.
Print Assumptions C111_short.
Print Assumptions C111_complement.
Print Assumptions C111_size.
Print Assumptions C111_distance.
Print Assumptions C111_subset.
Print Assumptions C111_bit_vector.
