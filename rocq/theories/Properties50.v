(** * Programs over bit vectors and integer vectors, exactly (C103): any sequence of calls with arguments that are merely values of their
    Rust types, in every kind of build.  C13 and C16 leave aside sizes within a block of 2^64, bit spans longer than a block or empty at
    the very end, element sizes of [get_random]/[set_random] other than 1 to a block, indices beyond [usize], and element widths that
    are not supported; here nothing is left aside: these calls do something definite, and programs go on after them. *)
From Verif Require Import Machine MStorage MTraits MVectorBase MBitVector MIntVector SpecBits SpecCfg SpecLaws SpecOps
  PBase PStorage PBits PVectorBase PBitVector PIntVector PBlocks PDefaults PRun PIntRun PLong Properties3 Properties4 Properties18 Properties32.

(** Without overflow checks a number of bits within a block of 2^64 is taken for no blocks at all. *)
Definition lost (c : cfg) (nb n : N) : bool := negb (debug c) && (2 ^ 64 <? n + nb).

(** ** Bit vectors *)
Definition bctor_typed (c : cfg) (nb : N) (t : bctor) : Prop :=
  match t with
  | BNew => True
  | BWithCapacity n | BWithFill n _ => n < 2 ^ 64
  | BBlockWithCapacity n => n < 2 ^ ptr c
  | BBlockWithFill n x => n < 2 ^ ptr c /\ x < 2 ^ nb
  end.
Definition bop_typed (c : cfg) (nb : N) (o : bop) : Prop :=
  match o with
  | BPushBlock x => x < 2 ^ nb
  | BSetBit i _ | BGetBit i => i < 2 ^ 64
  | BSetBlock i x | BBlockResize i x => i < 2 ^ ptr c /\ x < 2 ^ nb
  | BGetBlock i | BBlockTruncate i => i < 2 ^ ptr c
  | BSetBits s n x => s < 2 ^ 64 /\ n < 2 ^ ptr c /\ x < 2 ^ nb
  | BGetBits s n => s < 2 ^ 64 /\ n < 2 ^ ptr c
  | BResize n _ | BTruncate n => n < 2 ^ 64
  | BPushBit _ | BPopBit | BAlignBlock _ | BClear | BBitLen | BBlockLen | BIter => True
  end.
Definition exact_bmake (c : cfg) (nb : N) (t : bctor) : option (list bool) :=
  match t with
  | BWithCapacity n | BWithFill n _ => if lost c nb n then Some [] else spec_bmake c nb t
  | _ => spec_bmake c nb t
  end.
Definition exact_bstep (c : cfg) (nb : N) (l : list bool) (o : bop) : option (list bool * out) :=
  match o with
  | BGetBits s n => match span_read c nb l s n with Some x => Some (l, OInt x) | None => None end
  | BSetBits s n x => match span_write c nb l s n x with Some l' => Some (l', OUnit) | None => None end
  | BResize n _ => if lost c nb n then Some ([], OUnit) else spec_bstep c nb l o
  | _ => spec_bstep c nb l o
  end.
Definition exact_bprogram (c : cfg) (nb : N) (t : bctor) (ops : list bop) : list out * option (list bool) :=
  match exact_bmake c nb t with Some l => spec_run (exact_bstep c nb) l ops | None => ([], None) end.

Lemma along_all {S O X} (step : S -> O -> option (S * X)) (P : O -> Prop) ops : Forall P ops -> forall s, along step (fun _ => P) s ops.
Proof.
  induction 1 as [|o ops Ho Hops IH]; intros s; [exact I|]. cbn [along]. split; [exact Ho|]. destruct (step s o) as [[s' x]|]; auto.
Qed.

(** The default methods keep the representation. *)
Lemma default_spans {T} c (M : bitvecmut T) (R : T -> list bool -> Prop) t l : wf_cfg c ->
  lawful_bits c (bm_bv M) R -> lawful_blocks c (bm_bv M) R ->
  (forall t l i v, R t l -> i * bv_nb (bm_bv M) < lengthN l -> v < 2 ^ bv_nb (bm_bv M) ->
    exists t', bm_set_block M t i v = Ok t' /\ R t' (set_block_of (bv_nb (bm_bv M)) i v l)) ->
  bv_get_bits (bm_bv M) = default_get_bits c (bv_nb (bm_bv M)) (bv_bit_len (bm_bv M)) (bv_get_block (bm_bv M)) ->
  bm_set_bits M = default_set_bits c (bv_nb (bm_bv M)) (bv_bit_len (bm_bv M)) (bv_get_block (bm_bv M)) (bm_set_block M) ->
  R t l -> reads_spans c (bm_bv M) t l /\ writes_spans c M R t l.
Proof.
  intros Hc LB LK LS Eg Es HR. split; [now apply (spans_default c M R)|].
  intros s n x Hs Hn Hx. rewrite Es.
  pose proof (default_writes c (bv_nb (bm_bv M)) (bv_bit_len (bm_bv M)) (bv_get_block (bm_bv M)) (bm_set_block M) t l Hc (lb_nb _ _ _ LB) (lb_bit_len _ _ _ LB t l HR) (lb_fits _ _ _ LB t l HR)
    (fun i Hi => lk_get_block _ _ _ LK t l i HR Hi) (fun i Hi Hp => lk_get_block_oob _ _ _ LK t l i HR Hi Hp) R HR) as K.
  apply K; auto. intros t' l' i v HR' El Hi Hv. apply LS; auto. lia.
Qed.

Section Bits.
  Variables (c : cfg) (nb : N).
  Hypothesis Hc : wf_cfg c.
  Hypothesis Hnb : wf_nb nb.
  Let nb_range := wf_nb_range nb Hnb.
  Let ptr_range := wf_ptr c Hc.
  Let Hk : 1 <= 1 <= nb. Proof. lia. Qed.
  Let R := R_bv c nb.

  Lemma empty_holds k : 1 <= k <= nb -> Vrep c nb k {| vb_len := 0; vb_vec := [] |} [].
  Proof.
    intros Hk0. destruct (vb_block_with_capacity_ok c nb k Hnb 0) as [v [E H]]; [lia|].
    unfold vb_block_with_capacity, alloc in E. replace (0 * nb <=? max_bits c) with true in E by lia. cbn [bind] in E.
    injection E as <-. exact H.
  Qed.
  Lemma lost_cases n : n < 2 ^ 64 -> if lost c nb n then debug c = false /\ 2 ^ 64 < n + nb else size_ok c nb n.
  Proof.
    intros Hn. unfold lost, size_ok. destruct (debug c); cbn [negb andb]; [auto|]. destruct (2 ^ 64 <? n + nb) eqn:E; [split; [reflexivity|lia]|].
    split; [exact Hn|]. left. lia.
  Qed.
  Lemma lost_fill n b : n < 2 ^ 64 -> debug c = false -> 2 ^ 64 < n + nb -> bvec_with_fill c nb n b = Ok {| vb_len := 0; vb_vec := [] |}.
  Proof.
    intros Hn Hd Hw.
    assert (Et : vb_truncate c nb 1 {| vb_len := 0; vb_vec := [] |} n = Ok {| vb_len := 0; vb_vec := [] |}).
    { unfold vb_truncate. cbn [vb_len]. now replace (n <? 0) with false by lia. }
    unfold bvec_with_fill. rewrite checked_ceil_div_nbits_wrap, Hd by auto. cbn [bind expect].
    unfold bvec_block_with_fill, vb_block_with_fill, vec_fill, alloc. rewrite N.mul_0_l.
    replace (0 <=? max_bits c) with true by lia. cbn [bind]. unfold set_len_from_blocks. cbn [vb_vec].
    change (repeatN (if b then wnot nb 0 else 0) 0) with (@nil N). rewrite lengthN_nil, mul_nbits_ok by (auto; lia). cbn [bind].
    rewrite N.mul_0_l. exact Et.
  Qed.
  Lemma lost_resize v l n b : R v l -> n < 2 ^ 64 -> debug c = false -> 2 ^ 64 < n + nb ->
    bvec_resize c nb v n b = Ok {| vb_len := 0; vb_vec := [] |}.
  Proof.
    intros HR Hn Hd Hw.
    assert (Et : vb_truncate c nb 1 {| vb_len := 0; vb_vec := [] |} n = Ok {| vb_len := 0; vb_vec := [] |}).
    { unfold vb_truncate. cbn [vb_len]. now replace (n <? 0) with false by lia. }
    unfold bvec_resize, bvec_block_resize. rewrite checked_ceil_div_nbits_wrap, Hd by auto. cbn [bind expect].
    pose proof (R_bv_fits c nb v l HR) as Hf. pose proof (bvec_bit_len_ok c nb Hc Hnb v l HR) as Hl. injection Hl as Hl.
    rewrite Hl. pose proof (fits_lt64 c nb (lengthN l) ltac:(lia) Hf). assert (2 ^ 63 < 2 ^ 64 - 64) by reflexivity.
    replace (n <? lengthN l) with false by lia. destruct b; cbn [orb negb].
    - rewrite last_block_bits_ok by auto. cbn [bind].
      assert (Hlb : (if lengthN l mod nb =? 0 then nb else lengthN l mod nb) <= nb).
      { destruct (lengthN l mod nb =? 0); [lia|]. pose proof (N.mod_lt (lengthN l) nb). lia. }
      rewrite wsub_ok by exact Hlb. cbn [bind].
      destruct (push_loop c nb Hc Hnb v l (nb - (if lengthN l mod nb =? 0 then nb else lengthN l mod nb)) HR) as [v' [Hpl _]].
      + assert (nb - (if lengthN l mod nb =? 0 then nb else lengthN l mod nb) = padding nb (lengthN l)) as ->.
        { unfold padding. destruct (lengthN l mod nb =? 0) eqn:E2.
          - apply N.eqb_eq in E2. rewrite E2, N.sub_0_r, N.mod_same by lia. lia.
          - apply N.eqb_neq in E2. pose proof (N.mod_lt (lengthN l) nb). symmetry. apply N.mod_small. lia. }
        unfold fits in *. rewrite padding_spec, blocks_for_mul by lia. exact Hf.
      + rewrite Hpl. cbn [bind]. rewrite resize_to_nothing by auto. cbn [bind]. exact Et.
    - rewrite resize_to_nothing by auto. cbn [bind]. exact Et.
  Qed.
  Lemma lost_capacity k n : 1 <= k <= nb -> n * k < 2 ^ 64 -> debug c = false -> 2 ^ 64 < n * k + nb ->
    vb_with_capacity c nb k n = Ok {| vb_len := 0; vb_vec := [] |}.
  Proof.
    intros Hk0 Hn Hd Hw. unfold vb_with_capacity, len_to_block_len, checked_mul. rewrite (proj2 (N.ltb_lt _ _) Hn).
    rewrite checked_ceil_div_nbits_wrap, Hd by auto. pose proof (pow2_pos (ptr c)). cbn [bind]. unfold to_usize.
    replace (0 <? 2 ^ ptr c) with true by lia. cbn [bind expect]. unfold vb_block_with_capacity, alloc.
    now replace (0 * nb <=? max_bits c) with true by lia.
  Qed.

  Lemma bvec_spans v l : R v l -> reads_spans c (bvec_bitvec c nb) v l /\ writes_spans c (bvec_bitvecmut c nb) R v l.
  Proof.
    intros HR. apply (default_spans c (bvec_bitvecmut c nb) R); auto.
    - now apply bvec_lawful_bits. - now apply bvec_lawful_blocks.
    - intros. now apply (lmk_set_block _ _ _ (bvec_lawful_mutblocks c nb Hc Hnb)).
  Qed.

  Lemma exact_bstep_sim l o : bop_typed c nb o ->
    exists n0, forall fuel v, (n0 <= fuel)%nat -> R v l -> matches R (bvec_step c nb fuel v o) (exact_bstep c nb l o).
  Proof.
    intros Ho.
    destruct o; try (match goal with |- context [exact_bstep c nb l ?o] => change (exact_bstep c nb l o) with (spec_bstep c nb l o) end;
      apply bvec_step_sim; auto; exact Ho); cbn [bop_typed] in Ho.
    - exists 0%nat. intros fuel v _ HR. cbn [bvec_step exact_bstep]. destruct Ho as (Hs & Hn & Hx).
      pose proof (proj2 (bvec_spans v l HR) s n x Hs Hn Hx) as W. cbn [bm_bv bvec_bitvecmut bv_nb bvec_bitvec bm_set_bits] in W. destruct (span_write c nb l s n x) as [l'|].
      + apply unit_ok. exact W.
      + apply unit_panics. exact W.
    - pose proof (lost_cases n Ho) as L. cbn [exact_bstep]. destruct (lost c nb n).
      + exists 0%nat. intros fuel v _ HR. cbn [bvec_step]. apply unit_ok. exists {| vb_len := 0; vb_vec := [] |}. split; [|apply empty_holds; lia].
        destruct L. now apply (lost_resize v l).
      + now apply bvec_step_sim.
    - exists 0%nat. intros fuel v _ HR. cbn [bvec_step exact_bstep]. destruct Ho as (Hs & Hn).
      pose proof (proj1 (bvec_spans v l HR) s n Hs Hn) as W. cbn [bv_nb bvec_bitvec bv_get_bits] in W. destruct (span_read c nb l s n) as [x|].
      + eapply read_ok; [exact W|exact HR].
      + apply read_panics. exact W.
  Qed.
  Lemma exact_bmake_sim t : bctor_typed c nb t -> ends R (bvec_make c nb t) (exact_bmake c nb t).
  Proof.
    intros Ht. destruct t; try (match goal with |- context [exact_bmake c nb ?o] => change (exact_bmake c nb o) with (spec_bmake c nb o) end;
      apply bvec_make_sim; auto; exact Ht); cbn [bctor_typed] in Ht; pose proof (lost_cases n Ht) as L; cbn [exact_bmake]; destruct (lost c nb n);
      try (now apply bvec_make_sim); destruct L as [Hd Hw]; exists {| vb_len := 0; vb_vec := [] |}; (split; [|now apply empty_holds]).
    - apply lost_capacity; auto; lia.
    - now apply lost_fill.
  Qed.
  Lemma exact_bprogram_sim t ops : bctor_typed c nb t -> Forall (bop_typed c nb) ops ->
    exists n0, forall fuel, (n0 <= fuel)%nat ->
      fst (bvec_program c nb fuel t ops) = fst (exact_bprogram c nb t ops) /\
      ends R (snd (bvec_program c nb fuel t ops)) (snd (exact_bprogram c nb t ops)).
  Proof.
    intros Ht Hops. pose proof (exact_bmake_sim t Ht) as Hm. unfold bvec_program, exact_bprogram.
    destruct (exact_bmake c nb t) as [l|].
    - destruct Hm as [v [-> HV]].
      destruct (run_sim (bvec_step c nb) (exact_bstep c nb) R (fun _ => bop_typed c nb) ops exact_bstep_sim l
        (along_all _ (bop_typed c nb) ops Hops l)) as [n0 H].
      exists n0. intros fuel Hf. now apply H.
    - destruct Hm as [p ->]. exists 0%nat. intros. cbn. split; [reflexivity|]. now exists p.
  Qed.
End Bits.

(** The calls C13 admits do here what they do there. *)
Lemma span_ok_read c nb l s n : span_ok c nb l s n -> span_read c nb l s n = if s + n <=? lengthN l then Some (int_of (sub s n l)) else None.
Proof.
  intros (Hs & Hn & H). unfold span_read. destruct (s + n <=? lengthN l) eqn:E; [|now replace (lengthN l <? s + n) with true by lia].
  replace (lengthN l <? s + n) with false by lia. destruct (H ltac:(lia)) as [H1 H2]. replace (n <=? nb) with true by lia.
  destruct (n =? 0) eqn:E1, (s =? lengthN l) eqn:E2, (s mod nb =? 0) eqn:E3; cbn [andb]; try reflexivity.
  apply N.eqb_eq in E3. lia.
Qed.
Lemma exact_bstep_old c nb l o : bop_ok c nb l o -> exact_bstep c nb l o = spec_bstep c nb l o.
Proof.
  destruct o; cbn [bop_ok exact_bstep spec_bstep]; try reflexivity.
  - intros [H _]. unfold span_write. rewrite (span_ok_read c nb l s n H). destruct (s + n <=? lengthN l) eqn:E; [|reflexivity].
    destruct H as (_ & _ & H). destruct (H ltac:(lia)) as [H1 _]. now replace (nb <? n) with false by lia.
  - intros [H1 H2]. unfold lost. destruct (debug c); cbn [negb andb]; [reflexivity|]. destruct H2 as [H2|H2]; [|discriminate].
    now replace (2 ^ 64 <? n + nb) with false by lia.
  - intros H. rewrite (span_ok_read c nb l s n H). now destruct (s + n <=? lengthN l).
Qed.

Definition bvec_exact (c : cfg) (nb : N) (t : bctor) (ops : list bop) (v : vbase) (l : list bool) : Prop :=
  bctor_typed c nb t /\ Forall (bop_typed c nb) ops /\ bvec_ends c nb t ops v /\ snd (exact_bprogram c nb t ops) = Some l.
Lemma bvec_exact_R c nb t ops v l : wf_cfg c -> wf_nb nb -> bvec_exact c nb t ops v l -> R_bv c nb v l.
Proof.
  intros Hc Hnb (Ht & Ho & [n0 H] & S). destruct (exact_bprogram_sim c nb Hc Hnb t ops Ht Ho) as [n1 H1].
  destruct (H1 (Nat.max n0 n1)) as [_ H2]; [lia|]. rewrite (H (Nat.max n0 n1)), S in H2 by lia.
  destruct H2 as [v' [E HR]]. now injection E as <-.
Qed.

Theorem C103_bit_vector : forall c nb t ops, wf_cfg c -> wf_nb nb -> bctor_typed c nb t -> Forall (bop_typed c nb) ops ->
  exists n0, forall fuel, (n0 <= fuel)%nat ->
    fst (bvec_program c nb fuel t ops) = fst (exact_bprogram c nb t ops) /\
    match snd (exact_bprogram c nb t ops) with
    | Some l => exists v, snd (bvec_program c nb fuel t ops) = Ok v /\ bits_are (bvec_bitvec c nb) v l
    | None => panics (snd (bvec_program c nb fuel t ops))
    end.
Proof.
  intros c nb t ops Hc Hnb Ht Ho. destruct (exact_bprogram_sim c nb Hc Hnb t ops Ht Ho) as [n0 H]. exists n0. intros fuel Hf.
  destruct (H fuel Hf) as [H1 H2]. split; [exact H1|]. destruct (snd (exact_bprogram c nb t ops)) as [l|]; [|exact H2].
  destruct H2 as [v [E HR]]. exists v. split; [exact E|]. pose proof (bvec_lawful_bits c nb Hc Hnb) as LB.
  split; [now apply (lb_bit_len _ _ _ LB)|]. intros i b Hi. exact (lb_get_bit _ _ _ LB v l i b HR Hi).
Qed.
(** Equality is equality of the bits, and the unused bits of the last block are zero, after any such programs. *)
Theorem C103_bit_vector_eq : forall c nb t1 ops1 v1 l1 t2 ops2 v2 l2, wf_cfg c -> wf_nb nb ->
  bvec_exact c nb t1 ops1 v1 l1 -> bvec_exact c nb t2 ops2 v2 l2 -> (bvec_eq v1 v2 = true <-> l1 = l2).
Proof.
  intros c nb t1 ops1 v1 l1 t2 ops2 v2 l2 Hc Hnb E1 E2. pose proof (wf_nb_range nb Hnb).
  pose proof (bvec_exact_R _ _ _ _ _ _ Hc Hnb E1) as R1. pose proof (bvec_exact_R _ _ _ _ _ _ Hc Hnb E2) as R2.
  unfold bvec_eq. rewrite vb_eq_spec. split.
  - intros ->. eapply (Vrep_inj c nb 1); eauto; lia.
  - intros ->. eapply (Vrep_fun c nb 1); eauto; lia.
Qed.

(** ** Integer vectors *)
Definition ictor_typed (c : cfg) (nb : N) (t : ictor) : Prop :=
  match t with
  | INew => True
  | IWithCapacity n => n < 2 ^ 64
  | IWithFill n x => n < 2 ^ 64 /\ x < 2 ^ nb
  | IBlockWithCapacity n => n < 2 ^ ptr c
  | IBlockWithFill n x => n < 2 ^ ptr c /\ x < 2 ^ nb
  end.
Definition iop_typed (c : cfg) (nb : N) (o : iop) : Prop :=
  match o with
  | IPush x => x < 2 ^ nb
  | IGet i | ITruncate i | IGetBit i | ISetBit i _ => i < 2 ^ 64
  | ISet i x | IResize i x => i < 2 ^ 64 /\ x < 2 ^ nb
  | IBlockResize n x | ISetBlock n x => n < 2 ^ ptr c /\ x < 2 ^ nb
  | IBlockTruncate n | IGetBlock n => n < 2 ^ ptr c
  | IGetRandom off w i => off < 2 ^ 64 /\ w < 2 ^ ptr c /\ i < 2 ^ 64
  | ISetRandom off w i x => off < 2 ^ 64 /\ w < 2 ^ ptr c /\ i < 2 ^ 64 /\ x < 2 ^ nb
  | IGetBits s n => s < 2 ^ 64 /\ n < 2 ^ ptr c
  | ISetBits s n x => s < 2 ^ 64 /\ n < 2 ^ ptr c /\ x < 2 ^ nb
  | IPop | IClear | ILen | IIsEmpty | IIter | IBitLen | IBlockLen => True
  end.
Definition exact_imake (c : cfg) (nb k : N) (t : ictor) : option (list N) :=
  if (k =? 0) || (nb <? k) then None else
  match t with
  | IWithCapacity n => if (n * k <? 2 ^ 64) && lost c nb (n * k) then Some [] else spec_imake c nb k t
  | _ => spec_imake c nb k t
  end.
(** Elements as wide as a block are found by the index modulo the number of addresses. *)
Definition element_index (c : cfg) (nb k i : N) : N := if k =? nb then i mod 2 ^ ptr c else i.
Definition exact_istep (c : cfg) (nb k : N) (xs : list N) (o : iop) : option (list N * out) :=
  let l := bits_of_blocks k xs in
  let read (r : option N) := match r with Some x => Some (xs, OInt x) | None => None end in
  let write (r : option (list bool)) := match r with Some l' => Some (ints_of k l', OUnit) | None => None end in
  match o with
  | IGet i => spec_istep c nb k xs (IGet (element_index c nb k i))
  | ISet i x => spec_istep c nb k xs (ISet (element_index c nb k i) x)
  | IGetRandom off w i => read (if 2 ^ 64 <=? i * w + off then None else span_read c nb l (i * w + off) w)
  | ISetRandom off w i x =>
      write (if negb (random_fits c nb w x) || (2 ^ 64 <=? i * w + off) then None else span_write c nb l (i * w + off) w x)
  | IGetBits s n => read (span_read c nb l s n)
  | ISetBits s n x => write (span_write c nb l s n x)
  | _ => spec_istep c nb k xs o
  end.
Definition exact_iprogram (c : cfg) (nb k : N) (t : ictor) (ops : list iop) : list out * option (list N) :=
  match exact_imake c nb k t with Some xs => spec_run (exact_istep c nb k) xs ops | None => ([], None) end.

Section Ints.
  Variables (c : cfg) (nb k : N).
  Hypothesis Hc : wf_cfg c.
  Hypothesis Hnb : wf_nb nb.
  Hypothesis Hk : 1 <= k <= nb.
  Let nb_range := wf_nb_range nb Hnb.
  Let ptr_range := wf_ptr c Hc.
  Let R := R_iv c nb k.

  Lemma element_index_ok i : i < 2 ^ 64 -> index_ok c nb k (element_index c nb k i).
  Proof.
    intros Hi. unfold index_ok, element_index. pose proof (N.mod_lt i (2 ^ ptr c)) as Hm. destruct (k =? nb) eqn:E.
    - split; [lia|]. intros _. lia.
    - split; [exact Hi|]. intros E1. apply N.eqb_neq in E. contradiction.
  Qed.
  Lemma element_index_same v xs i x : R v xs ->
    iv_get c nb v i = iv_get c nb v (element_index c nb k i) /\ iv_set c nb v i x = iv_set c nb v (element_index c nb k i) x.
  Proof.
    intros [Ek _]. unfold element_index. destruct (k =? nb) eqn:E; [|auto].
    unfold iv_get, iv_set, iv_is_block_sized. rewrite Ek, E. unfold as_usize.
    rewrite N.mod_mod by (apply N.pow_nonzero; lia). auto.
  Qed.
  Lemma iv_spans v l : R_ivb c nb k v l -> reads_spans c (iv_bitvec c nb) v l /\ writes_spans c (iv_bitvecmut c nb) (R_ivb c nb k) v l.
  Proof.
    intros HR. apply (default_spans c (iv_bitvecmut c nb) (R_ivb c nb k)); auto.
    - now apply iv_lawful_bits. - now apply iv_lawful_blocks.
    - intros. now apply (lmk_set_block _ _ _ (iv_lawful_mutblocks c nb k Hc Hnb Hk)).
  Qed.
  Lemma value_random w x : x < 2 ^ nb -> w < 2 ^ ptr c ->
    if random_fits c nb w x then check_value_random c nb w x = Ok tt else panics (check_value_random c nb w x).
  Proof.
    intros Hx Hw. unfold random_fits, check_value_random. destruct (w <=? nb) eqn:E1.
    - rewrite low_mask_ok by (auto; lia). cbn [bind]. rewrite N.ones_equiv. pose proof (N.pow_nonzero 2 w ltac:(discriminate)).
      destruct (x <? 2 ^ w) eqn:E2; [rewrite assert_true by lia; reflexivity|rewrite assert_false by lia; auto].
    - destruct (debug c) eqn:Ed; cbn [negb andb].
      + unfold low_mask, debug_assert. rewrite Ed, E1. cbn [bind]. auto.
      + rewrite low_mask_release by auto. cbn [bind]. unfold wrapped_mask. destruct (N.odd (w / nb)); cbn [orb];
          rewrite N.ones_equiv; [pose proof (N.pow_nonzero 2 nb ltac:(discriminate)); rewrite assert_true by lia; reflexivity|].
        pose proof (N.pow_nonzero 2 (w mod nb) ltac:(discriminate)).
        destruct (x <? 2 ^ (w mod nb)) eqn:E2; [rewrite assert_true by lia; reflexivity|rewrite assert_false by lia; auto].
  Qed.

  Lemma exact_istep_sim xs o : iop_typed c nb o ->
    exists n0, forall fuel v, (n0 <= fuel)%nat -> R v xs -> matches R (iv_step c nb fuel v o) (exact_istep c nb k xs o).
  Proof.
    intros Ho.
    destruct o; try (match goal with |- context [exact_istep c nb k xs ?o] => change (exact_istep c nb k xs o) with (spec_istep c nb k xs o) end;
      apply iv_step_sim; auto; exact Ho); cbn [iop_typed] in Ho.
    - destruct (iv_step_sim c nb k Hc Hnb Hk xs (IGet (element_index c nb k i)) (element_index_ok i Ho)) as [n0 H].
      exists n0. intros fuel v Hf HR. specialize (H fuel v Hf HR). cbn [iv_step] in *.
      now rewrite (proj1 (element_index_same v xs i 0 HR)).
    - destruct Ho as [Hi Hx].
      destruct (iv_step_sim c nb k Hc Hnb Hk xs (ISet (element_index c nb k i) x) (conj (element_index_ok i Hi) Hx)) as [n0 H].
      exists n0. intros fuel v Hf HR. specialize (H fuel v Hf HR). cbn [iv_step] in *.
      now rewrite (proj2 (element_index_same v xs i x HR)).
    - exists 0%nat. intros fuel v _ HR. destruct Ho as (Hoff & Hw & Hi). cbn [iv_step exact_istep].
      pose proof (R_iv_bits c nb k v xs HR) as [Ek HV]. unfold iv_get_random, compute_address_random, checked_mul, checked_add.
      destruct (2 ^ 64 <=? i * w + off) eqn:E1.
      + apply read_panics. destruct (i * w <? 2 ^ 64); cbn [expect bind]; [|auto]. destruct (i * w + off <? 2 ^ 64) eqn:E2; [lia|]. cbn [expect bind]. auto.
      + destruct (i * w <? 2 ^ 64) eqn:E2; [|lia]. destruct (i * w + off <? 2 ^ 64) eqn:E3; [|lia]. cbn [expect bind]. rewrite Ek.
        pose proof (vb_reads c nb k Hc Hnb Hk _ _ (i * w + off) w HV ltac:(lia) Hw) as W.
        destruct (span_read c nb (bits_of_blocks k xs) (i * w + off) w) as [r|].
        * eapply read_ok; [exact W|exact HR].
        * apply read_panics. exact W.
    - exists 0%nat. intros fuel v _ HR. destruct Ho as (Hoff & Hw & Hi & Hx). cbn [iv_step exact_istep].
      pose proof (R_iv_bits c nb k v xs HR) as [Ek HV]. unfold iv_set_random.
      pose proof (value_random w x Hx Hw) as Cv.
      destruct (random_fits c nb w x); cbn [negb orb]; [|apply unit_panics; apply bind_panics; exact Cv]. rewrite Cv. cbn [bind].
      unfold compute_address_random, checked_mul, checked_add.
      destruct (2 ^ 64 <=? i * w + off) eqn:E1.
      + apply unit_panics. destruct (i * w <? 2 ^ 64); cbn [expect bind]; [|auto]. destruct (i * w + off <? 2 ^ 64) eqn:E2; [lia|]. cbn [expect bind]. auto.
      + destruct (i * w <? 2 ^ 64) eqn:E2; [|lia]. destruct (i * w + off <? 2 ^ 64) eqn:E3; [|lia]. cbn [expect bind]. rewrite Ek.
        pose proof (vb_writes c nb k Hc Hnb Hk (iv_base v) (bits_of_blocks k xs) (i * w + off) w x HV ltac:(lia) Hw Hx) as W.
        destruct (span_write c nb (bits_of_blocks k xs) (i * w + off) w x) as [l'|].
        * apply unit_ok. destruct W as (b & Eb & HVb & _). rewrite Eb. cbn [bind]. eexists. split; [reflexivity|].
          apply (R_iv_ints c nb k Hc Hnb Hk). split; [reflexivity|exact HVb].
        * apply unit_panics. apply bind_panics. exact W.
    - exists 0%nat. intros fuel v _ HR. destruct Ho as (Hs & Hn). cbn [iv_step exact_istep].
      pose proof (proj1 (iv_spans v _ (R_iv_bits c nb k v xs HR)) s n Hs Hn) as W. cbn [bv_nb iv_bitvec] in W.
      destruct (span_read c nb (bits_of_blocks k xs) s n) as [x|].
      + eapply read_ok; [exact W|exact HR].
      + apply read_panics. exact W.
    - exists 0%nat. intros fuel v _ HR. destruct Ho as (Hs & Hn & Hx). cbn [iv_step exact_istep].
      pose proof (proj2 (iv_spans v _ (R_iv_bits c nb k v xs HR)) s n x Hs Hn Hx) as W. cbn [bm_bv iv_bitvecmut bv_nb iv_bitvec] in W.
      destruct (span_write c nb (bits_of_blocks k xs) s n x) as [l'|].
      + apply unit_ok. destruct W as (v' & E & H). exists v'. split; [exact E|]. now apply (R_iv_ints c nb k Hc Hnb Hk).
      + apply unit_panics. exact W.
  Qed.
  Lemma exact_imake_sim t : ictor_typed c nb t -> ends R (iv_make c nb k t) (exact_imake c nb k t).
  Proof.
    intros Ht. unfold exact_imake. destruct ((k =? 0) || (nb <? k)) eqn:E0; [lia|].
    destruct t; try (apply iv_make_sim; auto; exact Ht). cbn [ictor_typed] in Ht.
    destruct ((n * k <? 2 ^ 64) && lost c nb (n * k)) eqn:E.
    - apply andb_true_iff in E. destruct E as [E1 E2]. pose proof (lost_cases c nb Hc Hnb (n * k) ltac:(lia)) as L. rewrite E2 in L. destruct L as [Hd Hw].
      cbn [iv_make ends]. apply (iv_create_ok c nb k Hc Hnb Hk); [|constructor]. exists {| vb_len := 0; vb_vec := [] |}. split; [|now apply empty_holds].
      apply lost_capacity; auto. lia.
    - apply iv_make_sim; auto. cbn [imake_ok]. split; [exact Ht|]. apply andb_false_iff in E. destruct E as [E|E]; [right; right; lia|].
      unfold lost in E. destruct (debug c); cbn [negb andb] in E; [auto|]. left. lia.
  Qed.
  Lemma exact_iprogram_sim t ops : ictor_typed c nb t -> Forall (iop_typed c nb) ops ->
    exists n0, forall fuel, (n0 <= fuel)%nat ->
      fst (iv_program c nb k fuel t ops) = fst (exact_iprogram c nb k t ops) /\
      ends R (snd (iv_program c nb k fuel t ops)) (snd (exact_iprogram c nb k t ops)).
  Proof.
    intros Ht Hops. pose proof (exact_imake_sim t Ht) as Hm. unfold iv_program, exact_iprogram.
    destruct (exact_imake c nb k t) as [l|].
    - destruct Hm as [v [-> HV]].
      destruct (run_sim (iv_step c nb) (exact_istep c nb k) R (fun _ => iop_typed c nb) ops exact_istep_sim l
        (along_all _ (iop_typed c nb) ops Hops l)) as [n0 H].
      exists n0. intros fuel Hf. now apply H.
    - destruct Hm as [p ->]. exists 0%nat. intros. cbn. split; [reflexivity|]. now exists p.
  Qed.
End Ints.

(** Every element width: those that are not supported are refused by every constructor. *)
Theorem C103_int_vector : forall c nb k t ops, wf_cfg c -> wf_nb nb -> ictor_typed c nb t -> Forall (iop_typed c nb) ops ->
  exists n0, forall fuel, (n0 <= fuel)%nat ->
    fst (iv_program c nb k fuel t ops) = fst (exact_iprogram c nb k t ops) /\
    match snd (exact_iprogram c nb k t ops) with
    | Some xs => exists v, snd (iv_program c nb k fuel t ops) = Ok v /\ iv_holds c nb v xs /\ bits_are (iv_bitvec c nb) v (bits_of_blocks k xs)
    | None => panics (snd (iv_program c nb k fuel t ops))
    end.
Proof.
  intros c nb k t ops Hc Hnb Ht Ho. destruct ((k =? 0) || (nb <? k)) eqn:Ek.
  - exists 0%nat. intros fuel _. unfold iv_program, exact_iprogram, exact_imake. rewrite Ek.
    destruct (iv_make_invalid c nb k t Hc Hnb) as [p E]; [lia|]. rewrite E. cbn [fst snd]. auto.
  - assert (Hk : 1 <= k <= nb) by lia. destruct (exact_iprogram_sim c nb k Hc Hnb Hk t ops Ht Ho) as [n0 H]. exists n0. intros fuel Hf.
    destruct (H fuel Hf) as [H1 H2]. split; [exact H1|]. destruct (snd (exact_iprogram c nb k t ops)) as [xs|]; [|exact H2].
    destruct H2 as [v [E HR]]. exists v. split; [exact E|]. split; [now apply (R_iv_holds c nb k)|].
    pose proof (R_iv_bits c nb k v xs HR) as HB. pose proof (iv_lawful_bits c nb k Hc Hnb Hk) as LB.
    split; [now apply (lb_bit_len _ _ _ LB)|]. intros i b Hi. exact (lb_get_bit _ _ _ LB v _ i b HB Hi).
Qed.
Definition iv_exact (c : cfg) (nb k : N) (t : ictor) (ops : list iop) (v : intvec) (xs : list N) : Prop :=
  ictor_typed c nb t /\ Forall (iop_typed c nb) ops /\ iv_ends c nb k t ops v /\ snd (exact_iprogram c nb k t ops) = Some xs.
Lemma iv_exact_R c nb k t ops v xs : wf_cfg c -> wf_nb nb -> iv_exact c nb k t ops v xs -> 1 <= k <= nb /\ R_iv c nb k v xs.
Proof.
  intros Hc Hnb (Ht & Ho & [n0 H] & S).
  assert (Hk : 1 <= k <= nb).
  { unfold exact_iprogram, exact_imake in S. destruct ((k =? 0) || (nb <? k)) eqn:E; [discriminate|]. lia. }
  split; [exact Hk|]. destruct (exact_iprogram_sim c nb k Hc Hnb Hk t ops Ht Ho) as [n1 H1].
  destruct (H1 (Nat.max n0 n1)) as [_ H2]; [lia|]. rewrite (H (Nat.max n0 n1)), S in H2 by lia.
  destruct H2 as [v' [E HR]]. now injection E as <-.
Qed.
Theorem C103_int_vector_eq : forall c nb k1 t1 ops1 v1 xs1 k2 t2 ops2 v2 xs2, wf_cfg c -> wf_nb nb ->
  iv_exact c nb k1 t1 ops1 v1 xs1 -> iv_exact c nb k2 t2 ops2 v2 xs2 -> (iv_eq v1 v2 = true <-> k1 = k2 /\ xs1 = xs2).
Proof.
  intros c nb k1 t1 ops1 v1 xs1 k2 t2 ops2 v2 xs2 Hc Hnb E1 E2. pose proof (wf_nb_range nb Hnb).
  destruct (iv_exact_R _ _ _ _ _ _ _ Hc Hnb E1) as [K1 [B1 [V1 A1]]]. destruct (iv_exact_R _ _ _ _ _ _ _ Hc Hnb E2) as [K2 [B2 [V2 A2]]].
  unfold iv_eq. rewrite B1, B2, andb_true_iff, N.eqb_eq, vb_eq_spec. split.
  - intros [-> E]. split; [reflexivity|]. rewrite E in V1. eapply bits_of_blocks_inj; eauto; [lia|]. eapply (Vrep_inj c nb k2); eauto; lia.
  - intros [-> ->]. split; [reflexivity|]. eapply (Vrep_fun c nb k2); eauto; lia.
Qed.

(** Programs that use what C13 and C16 leave aside, and go on. *)
Definition C103_bops : list bop :=
  [ BGetBits 0 12; BSetBits 8 14 181; BIter; BGetBits 3 12; BResize (2 ^ 64 - 5) true; BBitLen; BPushBit true; BGetBits 1 0; BResize 8 true; BGetBits 8 0 ].
Example C103_bit_vector_ex :
  bctor_typed rel64 8 (BBlockWithFill 3 201) /\ Forall (bop_typed rel64 8) C103_bops /\
  bvec_program rel64 8 100 (BBlockWithFill 3 201) C103_bops =
    (fst (exact_bprogram rel64 8 (BBlockWithFill 3 201) C103_bops), Panic PIndex) /\
  exact_bprogram rel64 8 (BBlockWithFill 3 201) C103_bops =
    ([OInt 201; OUnit; OBools (bits_of 8 201 ++ bits_of 8 181 ++ bits_of 6 181 ++ [true; true]); OInt 185; OUnit; OInt 0; OUnit; OInt 0; OUnit], None) /\
  (* with overflow checks the first call already panics *)
  exact_bprogram dbg64 8 (BBlockWithFill 3 201) C103_bops = ([], None).
Proof.
  split; [vm_compute; auto|]. split; [repeat constructor; vm_compute; auto|].
  split; [vm_compute; reflexivity|]. split; vm_compute; reflexivity.
Qed.
Definition C103_iops : list iop :=
  [ IPush 5; IPush 200; IGet (2 ^ 32); ISet (2 ^ 33 + 1) 7; IIter; IGetRandom 0 0 3; IGetRandom 0 12 0; ISetRandom 0 11 0 129; IIter; IGetBits 16 0 ].
Example C103_int_vector_ex :
  ictor_typed rel32 8 (IWithCapacity 2) /\ Forall (iop_typed rel32 8) C103_iops /\
  iv_program rel32 8 8 100 (IWithCapacity 2) C103_iops =
    (fst (exact_iprogram rel32 8 8 (IWithCapacity 2) C103_iops), Panic PIndex) /\
  exact_iprogram rel32 8 8 (IWithCapacity 2) C103_iops =
    ([OUnit; OUnit; OInt 5; OUnit; OInts [5; 7]; OInt 0; OInt 7; OUnit; OInts [129; 1]], None) /\
  exact_iprogram rel32 8 9 INew [] = ([], None) /\
  exact_iprogram rel32 8 7 (IWithCapacity ((2 ^ 64 - 1) / 7)) [IPush 5; ILen] = ([OUnit; OInt 1], Some [5]) /\
  fst (iv_program rel32 8 7 100 (IWithCapacity ((2 ^ 64 - 1) / 7)) [IPush 5; ILen]) = [OUnit; OInt 1].
Proof.
  split; [vm_compute; auto|]. split; [repeat constructor; vm_compute; auto|].
  repeat (split; [vm_compute; reflexivity|]). vm_compute. reflexivity.
Qed.
Example C103_eq_ex : exists v w, bvec_exact rel64 8 (BWithFill (2 ^ 64 - 1) true) [BPushBit true] v [true] /\
  bvec_exact rel64 8 BNew [BPushBit true] w [true] /\ bvec_eq v w = true.
Proof.
  exists {| vb_len := 1; vb_vec := [1] |}, {| vb_len := 1; vb_vec := [1] |}.
  split; [|split; [|vm_compute; reflexivity]]; (split; [vm_compute; auto|split; [repeat constructor|split; [exists 0%nat; intros; vm_compute; reflexivity|vm_compute; reflexivity]]]).
Qed.
Example C103_int_eq_ex : exists v w, iv_exact rel64 8 8 INew [IPush 5; IPush 6; ISetBits 0 12 3] v [3; 3] /\
  iv_exact rel64 8 8 (IWithFill 2 3) [] w [3; 3] /\ iv_eq v w = true.
Proof.
  exists {| iv_bits := 8; iv_base := {| vb_len := 2; vb_vec := [3; 3] |} |}, {| iv_bits := 8; iv_base := {| vb_len := 2; vb_vec := [3; 3] |} |}.
  split; [|split; [|vm_compute; reflexivity]]; (split; [vm_compute; auto|split; [repeat constructor; vm_compute; auto|split; [exists 0%nat; intros; vm_compute; reflexivity|vm_compute; reflexivity]]]).
Qed.

Print Assumptions C103_bit_vector.
Print Assumptions C103_bit_vector_eq.
Print Assumptions C103_int_vector.
Print Assumptions C103_int_vector_eq.
