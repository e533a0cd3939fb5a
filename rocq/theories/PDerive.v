(** * Proofs about the derived orders and hashes and about formatting. *)
From Coq Require Import String DecimalString Decimal DecimalN DecimalFacts.
From Verif Require Import Machine MVectorBase MBitVector MIntVector MDerive SpecBits SpecDerive PBase PBits PVectorBase PIter PIntVector PRun PIntRun.
Local Open Scope list_scope.
Local Open Scope N_scope.

Lemma vec_cmp_eq a b : vec_cmp a b = Eq <-> a = b.
Proof.
  revert b. induction a as [|x a IH]; intros [|y b]; cbn [vec_cmp]; try (split; congruence).
  destruct (N.compare_spec x y) as [->|H|H].
  - rewrite IH. split; congruence.
  - split; [discriminate|]. intros E. injection E as -> _. lia.
  - split; [discriminate|]. intros E. injection E as -> _. lia.
Qed.
Lemma vec_cmp_antisym a b : vec_cmp b a = CompOpp (vec_cmp a b).
Proof.
  revert b. induction a as [|x a IH]; intros [|y b]; cbn [vec_cmp]; try reflexivity.
  rewrite (N.compare_antisym x y). destruct (x ?= y); cbn [CompOpp]; auto.
Qed.
Lemma vec_cmp_lt_trans a b d : vec_cmp a b = Lt -> vec_cmp b d = Lt -> vec_cmp a d = Lt.
Proof.
  revert b d. induction a as [|x a IH]; intros [|y b] [|z d]; cbn [vec_cmp]; try congruence.
  destruct (N.compare_spec x y) as [->|H|H]; [| |discriminate].
  - intros H1. destruct (N.compare_spec y z) as [->|H2|H2]; [|auto|discriminate]. intros H3. eauto.
  - intros _. destruct (N.compare_spec y z) as [->|H2|H2]; [|intros _|discriminate].
    + intros _. apply N.compare_lt_iff in H. now rewrite H.
    + assert (E : x < z) by lia. apply N.compare_lt_iff in E. now rewrite E.
Qed.
(** the first difference decides *)
Lemma vec_cmp_lt a b : lengthN a = lengthN b ->
  (vec_cmp a b = Lt <-> exists i x y, (forall j, j < i -> nthN a j = nthN b j) /\ nthN a i = Some x /\ nthN b i = Some y /\ x < y).
Proof.
  revert b. induction a as [|x a IH]; intros [|y b] Hl; rewrite ?lengthN_cons in Hl; try (change (lengthN (@nil N)) with 0 in Hl; lia).
  - cbn [vec_cmp]. split; [discriminate|]. intros (i & x & y & _ & H & _). discriminate.
  - cbn [vec_cmp]. destruct (N.compare_spec x y) as [->|H|H].
    + rewrite IH by lia. split.
      * intros (i & x & z & H1 & H2 & H3 & H4). exists (i + 1), x, z. repeat split; auto.
        -- intros j Hj. rewrite !nthN_cons. destruct (j =? 0) eqn:E; [reflexivity|]. apply H1. lia.
        -- rewrite nthN_cons. destruct (i + 1 =? 0) eqn:E; [lia|]. now rewrite N.add_sub.
        -- rewrite nthN_cons. destruct (i + 1 =? 0) eqn:E; [lia|]. now rewrite N.add_sub.
      * intros (i & x & z & H1 & H2 & H3 & H4). rewrite nthN_cons in H2, H3. destruct (i =? 0) eqn:E.
        -- injection H2 as <-. injection H3 as <-. lia.
        -- exists (i - 1), x, z. repeat split; auto. intros j Hj. specialize (H1 (j + 1) ltac:(lia)). rewrite !nthN_cons in H1.
           destruct (j + 1 =? 0) eqn:E1; [lia|]. now rewrite N.add_sub in H1.
    + split; [|reflexivity]. intros _. exists 0, x, y. repeat split; auto. intros j Hj. lia.
    + split; [discriminate|]. intros (i & x' & y' & H1 & H2 & H3 & H4). destruct (N.eq_dec i 0) as [->|Hi].
      * rewrite nthN_cons in H2, H3. cbn in H2, H3. injection H2 as <-. injection H3 as <-. lia.
      * specialize (H1 0 ltac:(lia)). rewrite !nthN_cons in H1. cbn in H1. injection H1 as <-. lia.
Qed.

Lemma vec_cmp_split a b : lengthN a = lengthN b ->
  (vec_cmp a b = Lt <-> exists p x y a' b', a = p ++ x :: a' /\ b = p ++ y :: b' /\ x < y).
Proof.
  revert b. induction a as [|x a IH]; intros [|y b] Hl; rewrite ?lengthN_cons in Hl; try (change (lengthN (@nil N)) with 0 in Hl; lia).
  - cbn [vec_cmp]. split; [discriminate|]. intros ([|z p] & x & y & a' & b' & H & _); discriminate.
  - cbn [vec_cmp]. destruct (N.compare_spec x y) as [->|H|H].
    + rewrite IH by lia. split.
      * intros (p & u & v & a' & b' & -> & -> & H). exists (y :: p), u, v, a', b'. auto.
      * intros ([|z p] & u & v & a' & b' & H1 & H2 & H).
        -- injection H1 as -> _. injection H2 as -> _. lia.
        -- injection H1 as -> ->. injection H2 as ->. exists p, u, v, a', b'. auto.
    + split; [|reflexivity]. intros _. exists [], x, y, a, b. auto.
    + split; [discriminate|]. intros ([|z p] & u & v & a' & b' & H1 & H2 & H3).
      * injection H1 as -> _. injection H2 as -> _. lia.
      * injection H1 as -> _. injection H2 as -> _. lia.
Qed.
Section Order.
  Variables (c : cfg) (nb k : N).
  Hypothesis Hc : wf_cfg c.
  Hypothesis Hwf : wf_nb nb.
  Hypothesis Hkn : 1 <= k <= nb.
  Let Hnb : 1 <= nb. Proof. lia. Qed.
  Let Hk : 1 <= k. Proof. lia. Qed.

  Lemma vb_cmp_lt v1 l1 v2 l2 : Vrep c nb k v1 l1 -> Vrep c nb k v2 l2 ->
    (vb_cmp v1 v2 = Lt <-> block_less nb l1 l2).
  Proof.
    intros [V1 [L1 _]] [V2 [L2 _]]. unfold vb_cmp, block_less. destruct (N.compare_spec (vb_len v1) (vb_len v2)) as [E|H|H].
    - assert (El : lengthN l1 = lengthN l2) by congruence. rewrite V1, V2, vec_cmp_lt by (rewrite !lengthN_pack; congruence). split.
      + intros (i & x & y & H1 & H2 & H3 & H4). right. split; [exact El|]. exists i.
        rewrite nthN_pack in H2, H3. rewrite El in H2. destruct (i <? blocks_for nb (lengthN l2)) eqn:Ei; [|discriminate].
        injection H2 as <-. injection H3 as <-. split; [|exact H4]. intros j Hj. specialize (H1 j Hj).
        rewrite !nthN_pack, El in H1. destruct (j <? blocks_for nb (lengthN l2)) eqn:Ej; [congruence|lia].
      + intros [H|(_ & i & H1 & H2)]; [lia|]. destruct (i <? blocks_for nb (lengthN l2)) eqn:Ei.
        * exists i, (block_of nb i l1), (block_of nb i l2). rewrite !nthN_pack, El, Ei. repeat split; auto.
          intros j Hj. rewrite !nthN_pack, El, H1 by exact Hj. reflexivity.
        * exfalso. assert (Hb : lengthN l2 <= i * nb).
          { apply N.ltb_ge in Ei. unfold blocks_for in Ei. pose proof (N.div_mod (lengthN l2 + (nb - 1)) nb ltac:(lia)) as Hd.
            pose proof (N.mod_lt (lengthN l2 + (nb - 1)) nb ltac:(lia)). nia. }
          unfold block_of, sub in H2. rewrite !skipnN_all in H2 by lia. unfold firstnN in H2. rewrite !firstn_nil in H2. lia.
    - split; [|reflexivity]. intros _. left. nia.
    - split; [discriminate|]. intros [H1|[H1 _]]; nia.
  Qed.
  Lemma vb_cmp_eq v1 l1 v2 l2 : Vrep c nb k v1 l1 -> Vrep c nb k v2 l2 -> (vb_cmp v1 v2 = Eq <-> l1 = l2).
  Proof.
    intros R1 R2. unfold vb_cmp. split.
    - destruct (N.compare_spec (vb_len v1) (vb_len v2)) as [E|H|H]; try discriminate. intros E2. apply vec_cmp_eq in E2.
      eapply (Vrep_inj c nb k); eauto. destruct v1, v2; cbn in *; subst. assumption.
    - intros ->. assert (v1 = v2) as -> by (eapply (Vrep_fun c nb k); eauto). rewrite N.compare_refl. now apply vec_cmp_eq.
  Qed.
End Order.
Lemma vb_cmp_antisym a b : vb_cmp b a = CompOpp (vb_cmp a b).
Proof.
  unfold vb_cmp. rewrite (N.compare_antisym (vb_len a) (vb_len b)), vec_cmp_antisym. destruct (vb_len a ?= vb_len b); reflexivity.
Qed.
Lemma vb_cmp_lt_trans a b d : vb_cmp a b = Lt -> vb_cmp b d = Lt -> vb_cmp a d = Lt.
Proof.
  unfold vb_cmp. destruct (N.compare_spec (vb_len a) (vb_len b)) as [E|H|H]; [rewrite E| |discriminate].
  - destruct (vb_len b ?= vb_len d); [apply vec_cmp_lt_trans|auto|discriminate].
  - intros _. destruct (N.compare_spec (vb_len b) (vb_len d)) as [E|H2|H2]; [rewrite <- E|intros _|discriminate].
    + intros _. apply N.compare_lt_iff in H. now rewrite H.
    + assert (E : vb_len a < vb_len d) by lia. apply N.compare_lt_iff in E. now rewrite E.
Qed.

(** ** Formatting *)
Section Fmt.
  Context {S : Type} (c : cfg) (nb : N) (w : formatter S).
  Lemma emit_cons t l s k : (forall s', k s' = emit w l s') -> fmt_then w t k s = emit w (t :: l) s.
  Proof. intros H. unfold fmt_then. cbn [emit]. destruct (w t s) as [[[|] s']| |]; cbn [bind]; auto. Qed.
  Lemma emit_app l l' s : emit w (l ++ l') s = match emit w l s with Ok (true, s') => emit w l' s' | r => r end.
  Proof.
    revert s. induction l as [|t l IH]; intros s; cbn [app emit]; [reflexivity|]. destruct (w t s) as [[[|] s']| |]; auto.
  Qed.
  Lemma emit_one t s : emit w [t] s = w t s.
  Proof. cbn [emit]. destruct (w t s) as [[[|] s']| |]; auto. Qed.
  Lemma fmt_bits_ok (R : vbiter -> list bool -> Prop) :
    (forall it l, R it l -> exists it', bit_next c nb it = Ok (hd_error l, it') /\ R it' (tl l)) ->
    forall l fuel it s, (length l < fuel)%nat -> R it l ->
    fmt_bits c nb w fuel it s = emit w (map (fun b : bool => if b then "1" else "0")%string l) s.
  Proof.
    intros Hn. induction l as [|b l IH]; intros fuel it s Hf Hr; (destruct fuel as [|fuel]; [cbn [length] in Hf; lia|]);
      cbn [fmt_bits]; destruct (Hn it _ Hr) as (it' & E & Hr'); rewrite E; cbn [bind hd_error tl map] in *; [reflexivity|].
    apply emit_cons. intros s'. apply IH; [cbn [length] in Hf; lia|exact Hr'].
  Qed.
  Lemma fmt_ints_ok (R : vbiter -> list N -> Prop) :
    (forall it l, R it l -> exists it', it_next c nb it = Ok (hd_error l, it') /\ R it' (tl l)) ->
    forall l fuel it s, (length l < fuel)%nat -> R it l ->
    fmt_ints c nb w fuel it s = emit w (flat_map (fun x => [decimal x; ", "%string]) l ++ ["} }"%string]) s.
  Proof.
    intros Hn. induction l as [|b l IH]; intros fuel it s Hf Hr; (destruct fuel as [|fuel]; [cbn [length] in Hf; lia|]);
      cbn [fmt_ints]; destruct (Hn it _ Hr) as (it' & E & Hr'); rewrite E; cbn [bind hd_error tl flat_map app] in *;
      [symmetry; apply emit_one|].
    apply emit_cons. intros s'. apply emit_cons. intros s''. apply IH; [cbn [length] in Hf; lia|exact Hr'].
  Qed.
End Fmt.

Lemma decimal_read x : NilZero.uint_of_string (decimal x) = Some (N.to_uint x) /\ N.of_uint (N.to_uint x) = x.
Proof.
  split; [|apply DecimalN.Unsigned.of_to]. unfold decimal.
  apply NilZero.usu. intros E. pose proof (DecimalN.Unsigned.of_to x) as H. rewrite E in H. cbn in H. subst x. discriminate.
Qed.
