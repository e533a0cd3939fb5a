(** * C94: an access to a bit or to a field of bits looks at one block, or two, and changes no others
    (src/bit_vec/traits.rs, src/bit_vec/bit_vector.rs, src/int_vec/int_vector.rs, src/internal/vector_base.rs). *)
From Verif Require Import Machine MStorage MTraits MMinimal MBitSlice MStream MVectorBase MBitVector MIntVector SpecCfg SpecSame PBase PStorage PVectorBase Properties40.

(** The blocks of a field of [n] bits at [s]: the block of its first bit, and the next one if the field goes beyond it.  (The number of the
    next block is computed in [usize].) *)
Definition spanned (c : cfg) (nb s n j : N) : Prop := j = s / nb \/ (nb < s mod nb + n /\ j = (s / nb + 1) mod 2 ^ ptr c).

Lemma wadd_inv c w a b x : wadd c w a b = Ok x -> x = (a + b) mod 2 ^ w.
Proof.
  unfold wadd, wrap. destruct (a + b <? 2 ^ w) eqn:E.
  - intros [= <-]. apply N.ltb_lt in E. now rewrite N.mod_small.
  - destruct (debug c); [discriminate|]. now intros [= <-].
Qed.
Lemma alike_bind_ok {A1 A2 B1 B2} (K : panic_kind -> panic_kind -> Prop) (P : A1 -> A2 -> Prop) (Q : B1 -> B2 -> Prop) m1 m2 f1 f2 :
  alike K P m1 m2 -> (forall a1 a2, m1 = Ok a1 -> m2 = Ok a2 -> P a1 a2 -> alike K Q (f1 a1) (f2 a2)) -> alike K Q (bind m1 f1) (bind m2 f2).
Proof. destruct m1, m2; cbn; auto; contradiction. Qed.
Ltac al1 HK := eapply alike_bind; [solve [apply (alike_refl _ HK) | eauto 3 with nocore]|intros ? ? ?; subst].
Ltac alb HK := eapply alike_bind_ok; [apply (alike_refl _ HK)|intros ? ? ? ? ?; subst].

Lemma address_inv c nb i a : wf_cfg c -> wf_nb nb -> address_new c nb i = Ok a -> block_index a = i / nb /\ bit_offset a = i mod nb.
Proof.
  intros Hc Hnb H. destruct (N.lt_ge_cases (i / nb) (2 ^ ptr c)) as [L|L].
  - rewrite address_new_ok in H by assumption. injection H as <-. now split.
  - rewrite address_new_panic in H by assumption. discriminate.
Qed.
Lemma margin_inv c nb i x : wf_nb nb -> wsub c (ptr c) nb (i mod nb) = Ok x -> x = nb - i mod nb.
Proof.
  intros Hnb H. pose proof (wf_nb_range nb Hnb). rewrite wsub_ok in H; [now injection H|]. apply N.lt_le_incl, N.mod_lt. lia.
Qed.


Section Local.
  Context {T1 T2 : Type} (c : cfg) (nb : N) (K : panic_kind -> panic_kind -> Prop).
  Hypotheses (HK : forall k, K k k) (Hc : wf_cfg c) (Hnb : wf_nb nb).
  Variables (len1 : T1 -> res N) (len2 : T2 -> res N) (gb1 : T1 -> N -> res N) (gb2 : T2 -> N -> res N).
  (** One bit: one block. *)
  Theorem C94_get_bit t1 t2 i : alike K eq (len1 t1) (len2 t2) -> alike K eq (gb1 t1 (i / nb)) (gb2 t2 (i / nb)) ->
    alike K eq (default_get_bit c nb len1 gb1 t1 i) (default_get_bit c nb len2 gb2 t2 i).
  Proof.
    intros L G. unfold default_get_bit. do 2 al1 HK. alb HK. destruct (address_inv _ _ _ _ Hc Hnb H) as [-> ->]. al HK.
  Qed.
  (** A field: the blocks it spans, of which there are at most two. *)
  Theorem C94_get_bits t1 t2 s n : alike K eq (len1 t1) (len2 t2) -> (forall j, spanned c nb s n j -> alike K eq (gb1 t1 j) (gb2 t2 j)) ->
    alike K eq (default_get_bits c nb len1 gb1 t1 s n) (default_get_bits c nb len2 gb2 t2 s n).
  Proof.
    intros L G. unfold default_get_bits. do 3 al1 HK. eapply alike_bind_ok; [apply (alike_refl _ HK)|]. intros a1 a' Ea _ ->.
    destruct (address_inv _ _ _ _ Hc Hnb Ea) as [E1 E2]. rewrite E1, E2. eapply alike_bind_ok; [apply (alike_refl _ HK)|]. intros m1 m Em _ ->.
    pose proof (wf_nb_range nb Hnb). pose proof (N.mod_lt s nb ltac:(lia)). apply (margin_inv _ _ _ _ Hnb) in Em. subst m.
    assert (G0 : alike K eq (gb1 t1 (s / nb)) (gb2 t2 (s / nb))) by (apply G; now left).
    destruct (N.leb_spec n (nb - s mod nb)); [al HK|].
    do 2 al1 HK. eapply alike_bind_ok; [apply (alike_refl _ HK)|]. intros i1 i2 Ei _ ->. apply wadd_inv in Ei.
    assert (G1 : alike K eq (gb1 t1 i2) (gb2 t2 i2)) by (apply G; right; split; [lia|exact Ei]). al HK.
  Qed.
End Local.

(** Writes: whatever kind of change the store's [set_block] makes at the blocks the field spans, [set_bit] and [set_bits] make no other. *)
Section LocalMut.
  Context {T : Type} (c : cfg) (nb : N).
  Hypotheses (Hc : wf_cfg c) (Hnb : wf_nb nb).
  Variables (len : T -> res N) (gb : T -> N -> res N) (sb : T -> N -> N -> res T) (F : T -> T -> Prop).
  Theorem C94_set_bit t i b t' : (forall x u, sb t (i / nb) x = Ok u -> F t u) -> default_set_bit c nb len gb sb t i b = Ok t' -> F t t'.
  Proof.
    intros W H. unfold default_set_bit in H. repeat (apply bind_inv in H; destruct H as [? [? H]]).
    match goal with A : address_new _ _ _ = Ok _ |- _ => apply (address_inv _ _ _ _ Hc Hnb) in A; destruct A as [A _]; rewrite A in H end. eauto.
  Qed.
  Theorem C94_set_bits t s n v t' : (forall t u w, F t u -> F u w -> F t w) ->
    (forall t j x u, spanned c nb s n j -> sb t j x = Ok u -> F t u) -> default_set_bits c nb len gb sb t s n v = Ok t' -> F t t'.
  Proof.
    intros Ft W H. unfold default_set_bits in H.
    apply bind_inv in H; destruct H as [lim [_ H]]. apply bind_inv in H; destruct H as [bl [_ H]]. apply bind_inv in H; destruct H as [[] [_ H]].
    apply bind_inv in H; destruct H as [a [Ea H]]. apply (address_inv _ _ _ _ Hc Hnb) in Ea. destruct Ea as [E1 E2]. rewrite E1, E2 in H.
    apply bind_inv in H; destruct H as [m [Em H]]. apply (margin_inv _ _ _ _ Hnb) in Em. subst m.
    pose proof (wf_nb_range nb Hnb). pose proof (N.mod_lt s nb ltac:(lia)).
    destruct (N.leb_spec n (nb - s mod nb)).
    - repeat (apply bind_inv in H; destruct H as [? [? H]]). eapply W; [now left|exact H].
    - apply bind_inv in H; destruct H as [ex [_ H]]. apply bind_inv in H; destruct H as [o1 [_ H]]. apply bind_inv in H; destruct H as [i2 [_ H]].
      apply bind_inv in H; destruct H as [o2 [_ H]]. apply bind_inv in H; destruct H as [hb [_ H]]. apply bind_inv in H; destruct H as [n1 [_ H]].
      apply bind_inv in H; destruct H as [n2 [_ H]]. apply bind_inv in H; destruct H as [t1 [W1 H]]. apply bind_inv in H; destruct H as [i3 [Ei H]].
      apply wadd_inv in Ei. apply (Ft _ t1).
      + eapply W; [now left|exact W1].
      + eapply W; [right; split; [lia|exact Ei]|exact H].
  Qed.
End LocalMut.

(** ** The vectors of the library *)
(** [v'] has the length and, at the places [P], the blocks of [v] *)
Definition keeps (P : N -> Prop) (l l' : list N) : Prop := lengthN l' = lengthN l /\ forall j, P j -> nthN l' j = nthN l j.
Definition looks_like (P : N -> Prop) (v v' : vbase) : Prop := vb_len v' = vb_len v /\ keeps P (vb_vec v) (vb_vec v').

Lemma alike_eq {A} (m1 m2 : res A) : alike eq eq m1 m2 -> m1 = m2.
Proof. destruct m1, m2; cbn; intros H; try contradiction; now subst. Qed.
Lemma eq_alike {A} (m1 m2 : res A) : m1 = m2 -> alike eq eq m1 m2.
Proof. intros ->. now apply alike_refl. Qed.
Lemma keeps_trans P a b d : keeps P a b -> keeps P b d -> keeps P a d.
Proof. intros [L H] [L' H']. split; [now rewrite L'|]. intros j Hj. now rewrite H', H. Qed.
Lemma looks_like_trans P a b d : looks_like P a b -> looks_like P b d -> looks_like P a d.
Proof. intros [L H] [L' H']. split; [now rewrite L'|]. eapply keeps_trans; eassumption. Qed.
Lemma keeps_upd (P : N -> Prop) l i x l' : ~ P i -> index_set l i x = Ok l' -> keeps P l l'.
Proof.
  intros Hi H. unfold index_set in H. destruct (i <? lengthN l); [|discriminate]. injection H as <-. split; [apply lengthN_updN|].
  intros j Hj. rewrite nthN_updN. destruct (N.eqb_spec j i) as [->|_]; [now destruct Hi|reflexivity].
Qed.
Lemma index_keeps {A} (l l' : list A) j : nthN l' j = nthN l j -> index l' j = index l j.
Proof. intros H. unfold index. now rewrite H. Qed.

Section Vectors.
  Variables (c : cfg) (nb : N).
  Hypotheses (Hc : wf_cfg c) (Hnb : wf_nb nb).

  (** Reading *)
  Lemma local_vb_get_bits k v v' i n : looks_like (spanned c nb i n) v v' -> vb_get_bits c nb k v' i n = vb_get_bits c nb k v i n.
  Proof.
    intros [L [L' H]]. unfold vb_get_bits. rewrite L. destruct (wadd c 64 i n); [|reflexivity|reflexivity]. cbn [bind].
    destruct (wmul c 64 (vb_len v) k); [|reflexivity|reflexivity]. cbn [bind]. destruct (assert_ _); [|reflexivity|reflexivity]. cbn [bind].
    unfold blocks_get_bits. apply alike_eq, (C94_get_bits c nb eq (fun _ => eq_refl) Hc Hnb).
    - apply eq_alike. unfold blocks_bit_len. now rewrite L'.
    - intros j Hj. apply eq_alike. unfold blocks_get_block. apply index_keeps. now apply H.
  Qed.
  Theorem C94_bit_vector_reads v v' i :
    (looks_like (fun j => j = i / nb) v v' -> bvec_get_bit c nb v' i = bvec_get_bit c nb v i) /\
    (forall n, looks_like (spanned c nb i n) v v' -> bvec_get_bits c nb v' i n = bvec_get_bits c nb v i n).
  Proof.
    split.
    - intros [L [L' H]]. unfold bvec_get_bit, vb_get_bit. rewrite L. destruct (assert_ _); [|reflexivity|reflexivity]. cbn [bind].
      unfold blocks_get_bit. apply alike_eq, (C94_get_bit c nb eq (fun _ => eq_refl) Hc Hnb).
      + apply eq_alike. unfold blocks_bit_len. now rewrite L'.
      + apply eq_alike. unfold blocks_get_block. apply index_keeps. now apply H.
    - intros n [L [L' H]]. unfold bvec_get_bits. apply alike_eq, (C94_get_bits c nb eq (fun _ => eq_refl) Hc Hnb).
      + apply eq_alike. unfold bvec_bit_len. now rewrite L.
      + intros j Hj. apply eq_alike. unfold bvec_get_block, vb_get_block. apply index_keeps. now apply H.
  Qed.
End Vectors.

(** The blocks of element [i] of an [IntVector] whose elements have [k] bits *)
Definition element_blocks (c : cfg) (nb k i j : N) : Prop := if k =? nb then j = i mod 2 ^ ptr c else spanned c nb (i * k) k j.

Section Ints.
  Variables (c : cfg) (nb : N).
  Hypotheses (Hc : wf_cfg c) (Hnb : wf_nb nb).
  Theorem C94_int_vector_reads v v' i : iv_bits v' = iv_bits v -> 
    (looks_like (element_blocks c nb (iv_bits v) i) (iv_base v) (iv_base v') -> iv_get c nb v' i = iv_get c nb v i) /\
    (forall o n, looks_like (spanned c nb (i * n + o) n) (iv_base v) (iv_base v') -> iv_get_random c nb v' o n i = iv_get_random c nb v o n i).
  Proof.
    intros E. split.
    - unfold element_blocks, iv_get, iv_is_block_sized, compute_address. rewrite E. destruct (iv_bits v =? nb).
      + intros [_ [_ H]]. unfold vb_get_block. apply index_keeps. now apply H.
      + unfold checked_mul. destruct (_ <? _); [|reflexivity]. cbn [expect bind]. intros H. now apply local_vb_get_bits.
    - intros o n. unfold iv_get_random, compute_address_random, checked_mul, checked_add. rewrite E. destruct (_ <? _); [|reflexivity].
      destruct (_ <? _); [|reflexivity]. cbn [expect bind]. intros H. now apply local_vb_get_bits.
  Qed.
End Ints.

(** Writing *)
Definition outside (P : N -> Prop) (j : N) : Prop := ~ P j.
Section VectorsMut.
  Variables (c : cfg) (nb : N).
  Hypotheses (Hc : wf_cfg c) (Hnb : wf_nb nb).
  Lemma local_blocks_set_bits l i n x l' : blocks_set_bits c nb l i n x = Ok l' -> keeps (outside (spanned c nb i n)) l l'.
  Proof.
    intros H. unfold blocks_set_bits in H. revert H. apply (C94_set_bits c nb Hc Hnb _ _ _ (keeps (outside (spanned c nb i n)))).
    - intros a b d. apply keeps_trans.
    - intros t j y u Hj. unfold blocks_set_block. apply keeps_upd. intros Ho. now apply Ho.
  Qed.
  Lemma local_vb_set_bits k v i n x v' : vb_set_bits c nb k v i n x = Ok v' -> looks_like (outside (spanned c nb i n)) v v'.
  Proof.
    intros H. unfold vb_set_bits in H. repeat (apply bind_inv in H; destruct H as [? [? H]]). injection H as <-. split; [reflexivity|].
    cbn [vb_vec]. eapply local_blocks_set_bits; eassumption.
  Qed.
  Lemma local_vb_set_bit v i b v' : vb_set_bit c nb v i b = Ok v' -> looks_like (outside (fun j => j = i / nb)) v v'.
  Proof.
    intros H. unfold vb_set_bit in H. repeat (apply bind_inv in H; destruct H as [? [? H]]). injection H as <-. split; [reflexivity|].
    cbn [vb_vec]. match goal with X : blocks_set_bit _ _ _ _ _ = Ok _ |- _ => revert X end. unfold blocks_set_bit.
    apply (C94_set_bit c nb Hc Hnb _ _ _ (keeps (outside (fun j => j = i / nb)))). intros y u. unfold blocks_set_block. apply keeps_upd.
    intros Ho. now apply Ho.
  Qed.
  Lemma keeps_map_last l f i : lengthN l = i + 1 -> keeps (outside (fun j => j = i)) l (MVectorBase.map_last l f).
  Proof.
    intros L. destruct (app_snoc_inv l) as [l' [x ->]]; [intros ->; rewrite lengthN_nil in L; lia|].
    rewrite PVectorBase.map_last_snoc. rewrite lengthN_snoc in L. split; [now rewrite !lengthN_snoc|].
    intros j Hj. rewrite !nthN_app. destruct (j <? lengthN l') eqn:E; [reflexivity|].
    assert (j <> i) by exact Hj. rewrite !nthN_cons. destruct (N.eqb_spec (j - lengthN l') 0); [lia|]. reflexivity.
  Qed.
  Lemma local_vb_set_block k v i x v' : vb_set_block c nb k v i x = Ok v' -> looks_like (outside (fun j => j = i)) v v'.
  Proof.
    intros H. unfold vb_set_block in H. apply bind_inv in H; destruct H as [vec [Ev H]]. apply bind_inv in H; destruct H as [i1 [Ei H]].
    assert (Hk : keeps (outside (fun j => j = i)) (vb_vec v) vec) by (eapply keeps_upd; [|exact Ev]; intros Ho; now apply Ho).
    destruct (N.eqb_spec i1 (lengthN vec)) as [E|_]; [|injection H as <-; split; [reflexivity|exact Hk]].
    unfold clear_extra_bits in H. apply bind_inv in H; destruct H as [bl [_ H]]. cbn [vb_vec vb_len] in H.
    destruct vec as [|y vec']; [injection H as <-; split; [reflexivity|exact Hk]|].
    repeat (apply bind_inv in H; destruct H as [? [? H]]). injection H as <-. split; [reflexivity|]. cbn [vb_vec]. eapply keeps_trans; [exact Hk|].
    apply keeps_map_last. rewrite <- E. apply wadd_inv in Ei. unfold index_set in Ev. destruct (N.ltb_spec i (lengthN (vb_vec v))) as [Hi|]; [|discriminate].
    destruct Hk as [Lk _]. rewrite Lk in E. subst i1. destruct (N.lt_ge_cases (i + 1) (2 ^ ptr c)) as [S|S]; [rewrite N.mod_small; [reflexivity|exact S]|].
    exfalso. assert (B : (i + 1) mod 2 ^ ptr c < 2 ^ ptr c) by (apply N.mod_lt, N.pow_nonzero; lia). lia.
  Qed.
  Theorem C94_bit_vector_writes v i v' :
    (forall b, bvec_set_bit c nb v i b = Ok v' -> looks_like (outside (fun j => j = i / nb)) v v') /\
    (forall x, bvec_set_block c nb v i x = Ok v' -> looks_like (outside (fun j => j = i)) v v') /\
    (forall n x, bvec_set_bits c nb v i n x = Ok v' -> looks_like (outside (spanned c nb i n)) v v').
  Proof.
    split; [|split].
    - intros b. apply local_vb_set_bit.
    - intros x. apply local_vb_set_block.
    - intros n x H. unfold bvec_set_bits in H. revert H.
      apply (C94_set_bits c nb Hc Hnb _ _ _ (looks_like (outside (spanned c nb i n)))); [intros a b d; apply looks_like_trans|].
      intros t j y u Hj H. apply local_vb_set_block in H. destruct H as [L [L' H]]. split; [exact L|]. split; [exact L'|].
      intros m Hm. apply H. intros ->. now apply Hm.
  Qed.
  Theorem C94_int_vector_writes v i v' :
    (forall x, iv_set c nb v i x = Ok v' -> iv_bits v' = iv_bits v /\ looks_like (outside (element_blocks c nb (iv_bits v) i)) (iv_base v) (iv_base v')) /\
    (forall o n x, iv_set_random c nb v o n i x = Ok v' -> iv_bits v' = iv_bits v /\ looks_like (outside (spanned c nb (i * n + o) n)) (iv_base v) (iv_base v')).
  Proof.
    split.
    - intros x H. unfold iv_set, iv_is_block_sized, element_blocks in *. destruct (iv_bits v =? nb).
      + apply bind_inv in H; destruct H as [b [Hb H]]. injection H as <-. split; [reflexivity|]. eapply local_vb_set_block; exact Hb.
      + apply bind_inv in H; destruct H as [u [_ H]]. unfold compute_address, checked_mul in H. destruct (_ <? _); [|discriminate]. cbn [expect bind] in H.
        apply bind_inv in H; destruct H as [b [Hb H]]. injection H as <-. split; [reflexivity|]. eapply local_vb_set_bits; exact Hb.
    - intros o n x H. unfold iv_set_random, compute_address_random, checked_mul, checked_add in H. apply bind_inv in H; destruct H as [u [_ H]].
      destruct (_ <? _); [|discriminate]. destruct (_ <? _); [|discriminate]. cbn [expect bind] in H.
      apply bind_inv in H; destruct H as [b [Hb H]]. injection H as <-. split; [reflexivity|]. eapply local_vb_set_bits; exact Hb.
  Qed.

  (** Growing and shrinking at the end: the blocks of the last element only; the number of blocks changes by at most one. *)
  Definition grows (P : N -> Prop) (l l' : list N) : Prop :=
    (lengthN l' = lengthN l \/ lengthN l' = lengthN l + 1) /\ forall j, j < lengthN l -> P j -> nthN l' j = nthN l j.
  Lemma grows_push P l x l' l'' : vec_push c nb l x = Ok l' \/ l' = l -> keeps P l' l'' -> grows P l l''.
  Proof.
    intros [H| ->] [L K].
    - unfold vec_push in H. apply bind_inv in H; destruct H as [u [_ H]]. injection H as <-. split; [right; now rewrite L, lengthN_snoc|].
      intros j Hj Pj. rewrite K by exact Pj. rewrite nthN_app. destruct (N.ltb_spec j (lengthN l)); [reflexivity|lia].
    - split; [now left|]. intros j _ Pj. now apply K.
  Qed.
  Lemma if_push (b : bool) (l : list N) x l' : (if b then vec_push c nb l x else Ok l) = Ok l' -> vec_push c nb l x = Ok l' \/ l' = l.
  Proof. destruct b; [now left|]. intros [= <-]. now right. Qed.
  Lemma wmul_inv w a b x : a * b < 2 ^ w -> wmul c w a b = Ok x -> x = a * b.
  Proof. intros L. unfold wmul, wrap. destruct (N.ltb_spec (a * b) (2 ^ w)); [|lia]. now intros [= <-]. Qed.
  Lemma keeps_shrinks P (b : bool) l l' : keeps P l l' -> grows P (if b then snd (vec_pop l') else l') l.
  Proof.
    intros [L K]. destruct b.
    - rewrite snd_vec_pop. split; [rewrite lengthN_firstnN, L; lia|]. intros j Hj Pj. rewrite lengthN_firstnN in Hj. rewrite nthN_firstnN.
      destruct (N.ltb_spec j (lengthN l' - 1)); [|lia]. now rewrite K.
    - split; [left; now rewrite L|]. intros j _ Pj. now rewrite K.
  Qed.
  Theorem C94_push_pop :
    (forall v b v', bvec_push_bit c nb v b = Ok v' -> grows (outside (fun j => j = vb_len v / nb)) (vb_vec v) (vb_vec v')) /\
    (forall v r v', bvec_pop_bit c nb v = Ok (Some r, v') -> grows (outside (fun j => j = vb_len v' / nb)) (vb_vec v') (vb_vec v)) /\
    (forall v x v', iv_len v * iv_bits v < 2 ^ 64 -> iv_push c nb v x = Ok v' ->
       grows (outside (spanned c nb (iv_len v * iv_bits v) (iv_bits v))) (vb_vec (iv_base v)) (vb_vec (iv_base v'))) /\
    (forall v r v', iv_len v * iv_bits v < 2 ^ 64 -> iv_pop c nb v = Ok (Some r, v') ->
       grows (outside (spanned c nb (iv_len v' * iv_bits v) (iv_bits v))) (vb_vec (iv_base v')) (vb_vec (iv_base v))).
  Proof.
    split; [|split; [|split]].
    - intros v b v' H. unfold bvec_push_bit, vb_push_bit in H. apply bind_inv in H; destruct H as [l1 [_ H]]. apply bind_inv in H; destruct H as [hv [_ H]].
      apply bind_inv in H; destruct H as [vec [Ev H]]. apply bind_inv in H; destruct H as [l2 [_ H]]. apply local_vb_set_bit in H. destruct H as [_ H].
      eapply grows_push; [eapply if_push; exact Ev|exact H].
    - intros v r v' H. unfold bvec_pop_bit, vb_pop_bit in H. destruct (vb_len v =? 0); [discriminate|].
      apply bind_inv in H; destruct H as [nl [_ H]]. apply bind_inv in H; destruct H as [b [_ H]]. apply bind_inv in H; destruct H as [v1 [E1 H]].
      apply bind_inv in H; destruct H as [bl [_ H]]. injection H as _ <-. cbn [vb_len vb_vec]. apply keeps_shrinks. apply local_vb_set_bit in E1. apply E1.
    - intros v x v' L H. unfold iv_push in H. apply bind_inv in H; destruct H as [u [_ H]]. apply bind_inv in H; destruct H as [b [Hb H]]. injection H as <-.
      cbn [iv_base]. unfold vb_push_bits in Hb. apply bind_inv in Hb; destruct Hb as [l1 [_ Hb]]. apply bind_inv in Hb; destruct Hb as [nd [_ Hb]].
      apply bind_inv in Hb; destruct Hb as [hv [_ Hb]]. apply bind_inv in Hb; destruct Hb as [vec [Ev Hb]]. apply bind_inv in Hb; destruct Hb as [l2 [_ Hb]].
      apply bind_inv in Hb; destruct Hb as [p [Ep Hb]]. apply wmul_inv in Ep; [|exact L]. subst p. apply local_vb_set_bits in Hb. destruct Hb as [_ Hb].
      eapply grows_push; [eapply if_push; exact Ev|exact Hb].
    - intros v r v' L H. unfold iv_pop in H. apply bind_inv in H; destruct H as [[o b] [Hb H]]. cbn [fst snd] in H. injection H as -> <-.
      cbn [iv_base iv_len]. unfold vb_pop_bits in Hb. unfold iv_len in *. destruct (N.eqb_spec (vb_len (iv_base v)) 0) as [|Hne]; [discriminate|].
      rewrite wsub_ok in Hb by lia. cbn [bind] in Hb. apply bind_inv in Hb; destruct Hb as [p [Ep Hb]].
      apply wmul_inv in Ep; [|rewrite N.mul_comm; eapply N.le_lt_trans; [|exact L]; apply N.mul_le_mono_r; lia].
      apply bind_inv in Hb; destruct Hb as [bl [_ Hb]]. apply bind_inv in Hb; destruct Hb as [x [_ Hb]]. apply bind_inv in Hb; destruct Hb as [v1 [E1 Hb]].
      apply local_vb_set_bits in E1. destruct E1 as [E0 E1]. rewrite E0 in Hb. rewrite wsub_ok in Hb by lia. cbn [bind] in Hb. injection Hb as _ <-.
      cbn [iv_base vb_len vb_vec]. rewrite N.mul_comm, <- Ep. now apply keeps_shrinks.
  Qed.
End VectorsMut.

(** A bit buffer reads one block for a bit. *)
Theorem C94_buffer {T1 T2} c (K : panic_kind -> panic_kind -> Prop) (B1 : bitvec T1) (B2 : bitvec T2) b1 b2 : (forall k, K k k) -> wf_cfg c -> wf_nb (bv_nb B2) -> bv_nb B1 = bv_nb B2 ->
  bb_pos b1 = bb_pos b2 -> alike K eq (bv_bit_len B1 (bb_data b1)) (bv_bit_len B2 (bb_data b2)) ->
  (let j := bb_pos b2 / bv_nb B2 in alike K eq (bv_get_block B1 (bb_data b1) j) (bv_get_block B2 (bb_data b2) j)) ->
  alike K (fun x y => fst x = fst y /\ bb_pos (snd x) = bb_pos (snd y)) (read_bit (bb_source c B1) b1) (read_bit (bb_source c B2) b2).
Proof.
  intros HK Hc Hnb E Hp L G. cbn [bb_source read_bit]. unfold bb_read_bit, bb_bit_len. al1 HK. rewrite Hp. destruct (bb_pos b2 <? a2); [|now split].
  eapply (alike_bind K eq).
  - unfold bb_get_bit. rewrite E. now apply (C94_get_bit c (bv_nb B2) K HK Hc Hnb).
  - intros x1 x2 ->. al1 HK. now split.
Qed.

(** 5-bit elements in bytes: element 1 lies in blocks 0 and 1, element 4 in blocks 2 and 3, element 5 in block 3 alone, element 6 in blocks 3 and 4 *)
Example C94_ex :
  let v := {| iv_bits := 5; iv_base := {| vb_len := 7; vb_vec := [0xa7; 0x3c; 0x51; 0xe9; 0x04] |} |} in
  let w := {| iv_bits := 5; iv_base := {| vb_len := 7; vb_vec := [0xa7; 0x3c; 0xff; 0x00; 0x07] |} |} in
  looks_like (element_blocks dbg64 8 5 1) (iv_base v) (iv_base w) /\ iv_get dbg64 8 w 1 = iv_get dbg64 8 v 1 /\ iv_get dbg64 8 v 1 = Ok 5 /\
  iv_get dbg64 8 w 4 <> iv_get dbg64 8 v 4 /\ ~ spanned dbg64 8 25 5 4 /\ spanned dbg64 8 30 5 4 /\
  exists v', iv_set dbg64 8 v 4 31 = Ok v' /\ vb_vec (iv_base v') = [0xa7; 0x3c; 0xf1; 0xe9; 0x04] /\
    looks_like (outside (element_blocks dbg64 8 5 4)) (iv_base v) (iv_base v').
Proof.
  intros v w.
  assert (L : looks_like (element_blocks dbg64 8 5 1) (iv_base v) (iv_base w)).
  { split; [reflexivity|]. split; [reflexivity|]. unfold element_blocks. cbn [N.eqb Pos.eqb]. intros j [-> |[_ ->]]; vm_compute; reflexivity. }
  split; [exact L|]. split; [exact (proj1 (C94_int_vector_reads dbg64 8 ltac:(auto with wf) ltac:(now left) v w 1 eq_refl) L)|].
  split; [vm_compute; reflexivity|]. split; [vm_compute; discriminate|].
  split; [intros [H|[H _]]; vm_compute in H; discriminate|]. split; [right; vm_compute; split; reflexivity|].
  eexists. split; [vm_compute; reflexivity|]. split; [vm_compute; reflexivity|].
  apply (C94_int_vector_writes dbg64 8 ltac:(auto with wf) ltac:(now left) v 4 _) with (x := 31). vm_compute. reflexivity.
Qed.
(** Pushing bit 8 of a bit vector starts a new block and leaves the old one; popping it again *)
Example C94_ex2 :
  let v := {| vb_len := 8; vb_vec := [0x5a] |} in let v' := {| vb_len := 9; vb_vec := [0x5a; 1] |} in
  bvec_push_bit rel32 8 v true = Ok v' /\ grows (outside (fun j => j = 1)) [0x5a] [0x5a; 1] /\ bvec_pop_bit rel32 8 v' = Ok (Some true, v).
Proof.
  intros v v'. assert (H : bvec_push_bit rel32 8 v true = Ok v') by (vm_compute; reflexivity).
  split; [exact H|]. split; [|vm_compute; reflexivity]. exact (proj1 (C94_push_pop rel32 8 ltac:(auto with wf) ltac:(now left)) v true v' H).
Qed.
(** A buffer at position 70 of a store of 64-bit blocks: blocks 0 and 2 do not matter *)
Example C94_ex3 : let b1 := {| bb_data := [1; 2^6; 7]; bb_pos := 70 |} in let b2 := {| bb_data := [0; 2^6; 0]; bb_pos := 70 |} in
  let B := blocks_bitvec dbg64 64 in
  alike eq eq (bv_get_block B (bb_data b1) (70 / 64)) (bv_get_block B (bb_data b2) (70 / 64)) /\
  (r <- read_bit (bb_source dbg64 B) b1 ;; Ok (fst r)) = Ok (IOk (Some true)) /\ (r <- read_bit (bb_source dbg64 B) b2 ;; Ok (fst r)) = Ok (IOk (Some true)).
Proof. intros b1 b2 B. split; [vm_compute; reflexivity|]. split; vm_compute; reflexivity. Qed.

Print Assumptions C94_get_bit.
Print Assumptions C94_get_bits.
Print Assumptions C94_set_bit.
Print Assumptions C94_set_bits.
Print Assumptions C94_bit_vector_reads.
Print Assumptions C94_int_vector_reads.
Print Assumptions C94_bit_vector_writes.
Print Assumptions C94_int_vector_writes.
Print Assumptions C94_push_pop.
Print Assumptions C94_buffer.
