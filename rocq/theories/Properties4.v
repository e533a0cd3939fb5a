(** * Properties C16-C22 and C65: [IntVector] and the iterators (src/int_vec/int_vector.rs,
    src/internal/vector_base.rs, src/bit_vec/bit_vector.rs). *)
From Verif Require Import SpecCfg SpecOps PIntRun.

(** The elements an observer sees through [len] and [get]. *)
Definition iv_holds (c : cfg) (nb : N) (v : intvec) (xs : list N) : Prop :=
  iv_len v = lengthN xs /\ forall i x, nthN xs i = Some x -> iv_get c nb v i = Ok x.
Lemma R_iv_holds c nb k v xs : wf_cfg c -> wf_nb nb -> 1 <= k <= nb -> R_iv c nb k v xs -> iv_holds c nb v xs.
Proof.
  intros Hc Hnb Hk HR. split; [now apply (R_iv_len c nb k Hc Hnb Hk)|]. intros i x Hx.
  apply (iv_get_ok c nb k Hc Hnb Hk v xs); auto. eapply iv_index_ok; eauto. eapply nthN_lt; eauto.
Qed.

(** ** C16: an [IntVector] program delivers what a program on a list of integers delivers. *)
Theorem C16_intvector_is_a_list : forall c nb k t ops,
  wf_cfg c -> wf_nb nb -> 1 <= k <= nb -> iprogram_ok c nb k t ops ->
  exists n0, forall fuel, (n0 <= fuel)%nat ->
    fst (iv_program c nb k fuel t ops) = fst (spec_iprogram c nb k t ops) /\
    match snd (spec_iprogram c nb k t ops) with
    | Some xs => exists v, snd (iv_program c nb k fuel t ops) = Ok v /\ iv_holds c nb v xs
    | None => panics (snd (iv_program c nb k fuel t ops))
    end.
Proof.
  intros c nb k t ops Hc Hnb Hk Hok. destruct (iv_program_sim c nb k Hc Hnb Hk t ops Hok) as [n0 H].
  exists n0. intros fuel Hf. destruct (H fuel Hf) as [H1 H2]. split; [exact H1|].
  destruct (snd (spec_iprogram c nb k t ops)); [|exact H2]. destruct H2 as [v [E HR]]. exists v. split; [exact E|].
  now apply (R_iv_holds c nb k).
Qed.

Definition C16_ops : list iop :=
  [ IPush 17; IPush 30; IPush 3; ISet 1 29; IGet 1; IResize 6 9; IPop; ILen; IIter; IGetRandom 3 4 2;
    ISetRandom 1 6 2 42; IIter; ISetBit 7 true; IGetBits 3 8; IBlockLen; ITruncate 4; IBlockResize 4 165; IIter;
    IPush 31; ISetBlock 0 255; IGet 0; IBlockTruncate 2; IIter; IPush 32 ].
Example C16_ex :
  iprogram_ok rel32 8 5 (IWithFill 2 8) C16_ops /\
  iv_program rel32 8 5 100 (IWithFill 2 8) C16_ops =
  ([OUnit; OUnit; OUnit; OUnit; OInt 29; OUnit; OOptInt (Some 9); OInt 5; OInts [8; 29; 17; 30; 3]; OInt 8; OUnit;
    OInts [8; 29; 17; 26; 3]; OUnit; OInt 245; OInt 4; OUnit; OUnit; OInts [8; 29; 17; 26; 16; 18];
    OUnit; OUnit; OInt 31; OUnit; OInts [31; 31; 17]], Panic PAssert) /\
  spec_iprogram rel32 8 5 (IWithFill 2 8) C16_ops = (fst (iv_program rel32 8 5 100 (IWithFill 2 8) C16_ops), None).
Proof. split; [|split; vm_compute; reflexivity]. split; vm_compute; intuition congruence. Qed.

(** ** C17: equality *)
Theorem C17_intvector_eq : forall c nb k t1 ops1 v1 xs1 t2 ops2 v2 xs2,
  wf_cfg c -> wf_nb nb -> 1 <= k <= nb ->
  iprogram_ok c nb k t1 ops1 -> iv_ends c nb k t1 ops1 v1 -> snd (spec_iprogram c nb k t1 ops1) = Some xs1 ->
  iprogram_ok c nb k t2 ops2 -> iv_ends c nb k t2 ops2 v2 -> snd (spec_iprogram c nb k t2 ops2) = Some xs2 ->
  (iv_eq v1 v2 = true <-> xs1 = xs2).
Proof.
  intros c nb k t1 ops1 v1 xs1 t2 ops2 v2 xs2 Hc Hnb Hk O1 E1 S1 O2 E2 S2.
  destruct (iv_ends_R c nb k Hc Hnb Hk t1 ops1 v1 O1 E1) as [l1 [S1' [B1 [V1 A1]]]]. rewrite S1 in S1'. injection S1' as <-.
  destruct (iv_ends_R c nb k Hc Hnb Hk t2 ops2 v2 O2 E2) as [l2 [S2' [B2 [V2 A2]]]]. rewrite S2 in S2'. injection S2' as <-.
  unfold iv_eq. rewrite B1, B2, N.eqb_refl. cbn [andb]. rewrite vb_eq_spec. split.
  - intros E. rewrite E in V1. eapply bits_of_blocks_inj; eauto; [lia|]. eapply (Vrep_inj c nb k); eauto; lia.
  - intros ->. eapply (Vrep_fun c nb k); eauto; lia.
Qed.
Theorem C17_different_widths : forall c nb k1 k2 t1 ops1 v1 t2 ops2 v2,
  wf_cfg c -> wf_nb nb -> 1 <= k1 <= nb -> 1 <= k2 <= nb -> k1 <> k2 ->
  iprogram_ok c nb k1 t1 ops1 -> iv_ends c nb k1 t1 ops1 v1 ->
  iprogram_ok c nb k2 t2 ops2 -> iv_ends c nb k2 t2 ops2 v2 ->
  iv_eq v1 v2 = false.
Proof.
  intros c nb k1 k2 t1 ops1 v1 t2 ops2 v2 Hc Hnb Hk1 Hk2 Hne O1 E1 O2 E2.
  destruct (iv_ends_R c nb k1 Hc Hnb Hk1 t1 ops1 v1 O1 E1) as [l1 [_ [B1 _]]].
  destruct (iv_ends_R c nb k2 Hc Hnb Hk2 t2 ops2 v2 O2 E2) as [l2 [_ [B2 _]]].
  unfold iv_eq. rewrite B1, B2. apply N.eqb_neq in Hne. now rewrite Hne.
Qed.
Example C17_ex : exists v1 v2 v3,
  snd (iv_program dbg64 8 3 100 INew [IPush 5; IPush 2; IPush 7; IPush 6; ITruncate 3]) = Ok v1 /\
  snd (iv_program dbg64 8 3 100 (IWithFill 9 7) [ISet 0 5; ISet 1 2; IResize 3 0]) = Ok v2 /\
  snd (iv_program dbg64 8 4 100 INew [IPush 5; IPush 2; IPush 7]) = Ok v3 /\
  iv_eq v1 v2 = true /\ iv_eq v1 v3 = false.
Proof. do 3 eexists. repeat (split; [vm_compute; reflexivity|]). vm_compute. reflexivity. Qed.

(** ** C18: widths and values *)
Theorem C18_invalid_width : forall c nb k t,
  wf_cfg c -> wf_nb nb -> k = 0 \/ nb < k -> panics (iv_make c nb k t).
Proof. exact iv_make_invalid. Qed.
Theorem C18_push_value : forall c nb k t ops v xs x,
  wf_cfg c -> wf_nb nb -> 1 <= k <= nb ->
  iprogram_ok c nb k t ops -> iv_ends c nb k t ops v -> snd (spec_iprogram c nb k t ops) = Some xs ->
  x < 2 ^ nb ->
  (2 ^ k <= x -> panics (iv_push c nb v x)) /\
  (x < 2 ^ k -> fits c nb ((lengthN xs + 1) * k) -> exists v', iv_push c nb v x = Ok v' /\ iv_holds c nb v' (xs ++ [x])).
Proof.
  intros c nb k t ops v xs x Hc Hnb Hk O E S Hx.
  destruct (iv_ends_R c nb k Hc Hnb Hk t ops v O E) as [l [S' HR]]. rewrite S in S'. injection S' as <-. split.
  - intros Hbig. eapply iv_push_bad; eauto.
  - intros Hs Hf. destruct (iv_push_ok c nb k Hc Hnb Hk v xs x HR Hs Hf) as [v' [E' R']]. exists v'. split; [exact E'|].
    now apply (R_iv_holds c nb k).
Qed.
Theorem C18_set_value : forall c nb k t ops v xs i x,
  wf_cfg c -> wf_nb nb -> 1 <= k <= nb ->
  iprogram_ok c nb k t ops -> iv_ends c nb k t ops v -> snd (spec_iprogram c nb k t ops) = Some xs ->
  x < 2 ^ nb -> i < lengthN xs ->
  (2 ^ k <= x -> panics (iv_set c nb v i x)) /\
  (x < 2 ^ k -> exists v', iv_set c nb v i x = Ok v' /\ iv_holds c nb v' (updN xs i x)).
Proof.
  intros c nb k t ops v xs i x Hc Hnb Hk O E S Hx Hi.
  destruct (iv_ends_R c nb k Hc Hnb Hk t ops v O E) as [l [S' HR]]. rewrite S in S'. injection S' as <-.
  pose proof (iv_index_ok c nb k v xs i Hc Hnb Hk HR Hi) as Hio. split.
  - intros Hbig. eapply iv_set_bad; eauto.
  - intros Hs. destruct (iv_set_ok c nb k Hc Hnb Hk v xs i x HR Hio Hs Hi) as [v' [E' R']]. exists v'. split; [exact E'|].
    now apply (R_iv_holds c nb k).
Qed.
Theorem C18_fill_value : forall c nb k n x,
  wf_cfg c -> wf_nb nb -> 1 <= k <= nb -> n < 2 ^ 64 -> x < 2 ^ nb -> fits c nb (n * k) ->
  (exists v, iv_with_fill c nb k n x = Ok v /\ iv_holds c nb v (repeatN (x mod 2 ^ k) n)) /\
  (forall t ops v xs, iprogram_ok c nb k t ops -> iv_ends c nb k t ops v -> snd (spec_iprogram c nb k t ops) = Some xs ->
    exists v', iv_resize c nb v n x = Ok v' /\
      iv_holds c nb v' (firstnN n xs ++ repeatN (x mod 2 ^ k) (n - lengthN xs))).
Proof.
  intros c nb k n x Hc Hnb Hk Hn Hx Hf. split.
  - pose proof (iv_make_sim c nb k Hc Hnb Hk (IWithFill n x) (conj Hn Hx)) as H. cbn [iv_make] in H. unfold spec_imake in H.
    replace ((k =? 0) || (nb <? k)) with false in H by lia. apply fitsb_spec in Hf. rewrite Hf in H.
    destruct H as [v [E HR]]. exists v. split; [exact E|]. now apply (R_iv_holds c nb k).
  - intros t ops v xs O E S.
    destruct (iv_ends_R c nb k Hc Hnb Hk t ops v O E) as [l [S' HR]]. rewrite S in S'. injection S' as <-.
    destruct (iv_resize_ok c nb k Hc Hnb Hk v xs n x HR Hx Hf) as [v' [E' R']]. exists v'. split; [exact E'|].
    now apply (R_iv_holds c nb k).
Qed.
Example C18_ex :
  iv_new dbg64 16 17 = Panic PAssert /\ iv_with_fill rel64 16 0 3 1 = Panic PIndex /\
  exists v, iv_with_fill rel32 16 7 3 200 = Ok v /\ iv_get rel32 16 v 2 = Ok 72 /\
    panics (iv_push rel32 16 v 128) /\ panics (iv_set rel32 16 v 1 128) /\
    exists v', iv_push rel32 16 v 127 = Ok v' /\ iv_get rel32 16 v' 3 = Ok 127.
Proof.
  split; [vm_compute; reflexivity|]. split; [vm_compute; reflexivity|].
  eexists. split; [vm_compute; reflexivity|]. split; [vm_compute; reflexivity|].
  split; [eexists; vm_compute; reflexivity|]. split; [eexists; vm_compute; reflexivity|].
  eexists. split; [vm_compute; reflexivity|]. vm_compute. reflexivity.
Qed.

(** ** C19: random-width access.  [bits_of_blocks k xs] is the concatenation of the elements. *)
Theorem C19_get_random : forall c nb k t ops v xs off w i,
  wf_cfg c -> wf_nb nb -> 1 <= k <= nb ->
  iprogram_ok c nb k t ops -> iv_ends c nb k t ops v -> snd (spec_iprogram c nb k t ops) = Some xs ->
  off < 2 ^ 64 -> i < 2 ^ 64 -> 1 <= w <= nb ->
  if i * w + off + w <=? lengthN xs * k
  then iv_get_random c nb v off w i = Ok (int_of (sub (i * w + off) w (bits_of_blocks k xs)))
  else panics (iv_get_random c nb v off w i).
Proof.
  intros c nb k t ops v xs off w i Hc Hnb Hk O E S Ho Hi Hw.
  destruct (iv_ends_R c nb k Hc Hnb Hk t ops v O E) as [l [S' HR]]. rewrite S in S'. injection S' as <-.
  destruct (iv_step_sim c nb k Hc Hnb Hk xs (IGetRandom off w i) (conj Ho (conj Hi Hw))) as [n0 H].
  specialize (H n0 v (Nat.le_refl _) HR). cbn [iv_step spec_istep] in H. rewrite lengthN_bits_of_blocks in H.
  destruct (_ <=? _) in H |- *.
  - destruct H as [v' [H _]]. destruct (iv_get_random c nb v off w i); cbn in H; congruence.
  - destruct H as [p H]. destruct (iv_get_random c nb v off w i); cbn in H; try congruence. eexists; reflexivity.
Qed.
Theorem C19_set_random : forall c nb k t ops v xs off w i x,
  wf_cfg c -> wf_nb nb -> 1 <= k <= nb ->
  iprogram_ok c nb k t ops -> iv_ends c nb k t ops v -> snd (spec_iprogram c nb k t ops) = Some xs ->
  off < 2 ^ 64 -> i < 2 ^ 64 -> 1 <= w <= nb -> x < 2 ^ nb ->
  if (x <? 2 ^ w) && (i * w + off + w <=? lengthN xs * k)
  then exists v' ys, iv_set_random c nb v off w i x = Ok v' /\ iv_holds c nb v' ys /\ Forall (fun y => y < 2 ^ k) ys /\
    bits_of_blocks k ys = put (i * w + off) (bits_of w x) (bits_of_blocks k xs)
  else panics (iv_set_random c nb v off w i x).
Proof.
  intros c nb k t ops v xs off w i x Hc Hnb Hk O E S Ho Hi Hw Hx.
  destruct (iv_ends_R c nb k Hc Hnb Hk t ops v O E) as [l [S' HR]]. rewrite S in S'. injection S' as <-.
  destruct (iv_step_sim c nb k Hc Hnb Hk xs (ISetRandom off w i x) (conj Ho (conj Hi (conj Hw Hx)))) as [n0 H].
  specialize (H n0 v (Nat.le_refl _) HR). cbn [iv_step spec_istep] in H. rewrite lengthN_bits_of_blocks in H.
  destruct (x <? 2 ^ w) eqn:Ex; cbn [andb] in H |- *;
    [destruct (i * w + off + w <=? lengthN xs * k) eqn:El|].
  - destruct H as [v' [H R']]. unfold unit_ in H.
    destruct (iv_set_random c nb v off w i x) as [v2| |]; cbn in H; try discriminate. injection H as ->.
    exists v', (ints_of k (put (i * w + off) (bits_of w x) (bits_of_blocks k xs))).
    split; [reflexivity|]. split; [now apply (R_iv_holds c nb k)|]. split; [apply R'|].
    rewrite bits_of_ints by lia.
    assert (El2 : lengthN (put (i * w + off) (bits_of w x) (bits_of_blocks k xs)) = lengthN xs * k).
    { rewrite lengthN_put, lengthN_bits_of_blocks; [reflexivity|]. rewrite lengthN_bits_of, lengthN_bits_of_blocks. lia. }
    rewrite El2, N.div_mul, <- El2 by lia. apply firstnN_all. lia.
  - destruct H as [p H]. unfold unit_ in H. destruct (iv_set_random c nb v off w i x); cbn in H; try congruence. eexists; reflexivity.
  - destruct H as [p H]. unfold unit_ in H. destruct (iv_set_random c nb v off w i x); cbn in H; try congruence. eexists; reflexivity.
Qed.
Example C19_ex : exists v v',
  snd (iv_program dbg64 8 5 100 INew [IPush 17; IPush 30; IPush 3]) = Ok v /\
  iv_get_random dbg64 8 v 3 4 2 = Ok 1 /\ panics (iv_get_random dbg64 8 v 4 4 2) /\
  iv_set_random dbg64 8 v 3 4 1 9 = Ok v' /\ iv_get dbg64 8 v' 1 = Ok 6 /\ iv_get dbg64 8 v' 2 = Ok 3 /\
  panics (iv_set_random dbg64 8 v 3 4 1 16).
Proof.
  do 2 eexists. repeat (split; [first [vm_compute; reflexivity|eexists; vm_compute; reflexivity]|]).
  eexists; vm_compute; reflexivity.
Qed.

(** ** C65: the documentation of the random-width accessors says that only the support array
    bounds the access; the code refuses to pass the last element. *)
Theorem C65_random_support_partial : forall c nb k t ops v xs off w i x,
  wf_cfg c -> wf_nb nb -> 1 <= k <= nb ->
  iprogram_ok c nb k t ops -> iv_ends c nb k t ops v -> snd (spec_iprogram c nb k t ops) = Some xs ->
  off < 2 ^ 64 -> i < 2 ^ 64 -> 1 <= w <= nb -> x < 2 ^ w ->
  i * w + off + w <= iv_len v * k ->
  (exists y, iv_get_random c nb v off w i = Ok y) /\ (exists v', iv_set_random c nb v off w i x = Ok v').
Proof.
  intros c nb k t ops v xs off w i x Hc Hnb Hk O E S Ho Hi Hw Hx Hl.
  assert (x < 2 ^ nb) by (eapply N.lt_le_trans; [exact Hx|apply N.pow_le_mono_r; lia]).
  destruct (iv_ends_R c nb k Hc Hnb Hk t ops v O E) as [xs0 [S' HR]]. rewrite S in S'. injection S' as <-.
  rewrite (R_iv_len c nb k Hc Hnb Hk v xs HR) in Hl.
  pose proof (C19_get_random c nb k t ops v xs off w i Hc Hnb Hk O E S Ho Hi Hw) as G.
  pose proof (C19_set_random c nb k t ops v xs off w i x Hc Hnb Hk O E S Ho Hi Hw) as T.
  destruct (i * w + off + w <=? lengthN xs * k) eqn:E1; [|lia]. destruct (x <? 2 ^ w) eqn:E2; [|lia]. cbn [andb] in T.
  split; [eauto|]. destruct T as [v' [ys [T _]]]; eauto.
Qed.
Example C65_random_support_ex : exists v v',
  iprogram_ok dbg64 64 5 (IWithFill 3 9) [] /\ iv_ends dbg64 64 5 (IWithFill 3 9) [] v /\
  snd (spec_iprogram dbg64 64 5 (IWithFill 3 9) []) = Some [9; 9; 9] /\ 2 * 4 + 3 + 4 <= iv_len v * 5 /\
  iv_get_random dbg64 64 v 3 4 2 = Ok 4 /\ iv_set_random dbg64 64 v 3 4 2 6 = Ok v' /\ iv_get dbg64 64 v' 2 = Ok 13.
Proof.
  exists {| iv_bits := 5; iv_base := {| vb_len := 3; vb_vec := [9513] |} |}. eexists.
  split; [repeat split; vm_compute; congruence|]. split; [exists 0%nat; intros; vm_compute; reflexivity|].
  split; [vm_compute; reflexivity|]. split; [vm_compute; congruence|].
  repeat (split; [vm_compute; reflexivity|]). vm_compute; reflexivity.
Qed.
Theorem C65_random_support_refuted : exists c nb k v off w i n,
  wf_cfg c /\ wf_nb nb /\ 1 <= k <= nb /\ 1 <= w <= nb /\ iv_ends c nb k (IWithFill 3 9) [] v /\
  iv_block_len v = Ok n /\ i * w + off + w <= n * nb /\
  panics (iv_get_random c nb v off w i) /\ panics (iv_set_random c nb v off w i 1).
Proof.
  exists dbg64, 64, 5, {| iv_bits := 5; iv_base := {| vb_len := 3; vb_vec := [9513] |} |}, 0, 4, 15, 1.
  repeat split; auto with wf; try (vm_compute; congruence).
  - exists 0%nat. intros. vm_compute. reflexivity.
  - eexists. vm_compute. reflexivity.
  - eexists. vm_compute. reflexivity.
Qed.

(** ** C20: out-of-range indices panic, except block-sized elements on 32-bit targets. *)
Theorem C20_out_of_range_partial : forall c nb k t ops v i x,
  wf_cfg c -> wf_nb nb -> 1 <= k <= nb ->
  iprogram_ok c nb k t ops -> iv_ends c nb k t ops v ->
  iv_len v <= i -> i < 2 ^ 64 -> x < 2 ^ nb ->
  k < nb \/ i < 2 ^ ptr c ->
  panics (iv_get c nb v i) /\ panics (iv_set c nb v i x).
Proof.
  intros c nb k t ops v i x Hc Hnb Hk O E Hl Hi Hx Hp.
  destruct (iv_ends_R c nb k Hc Hnb Hk t ops v O E) as [xs [_ HR]].
  rewrite (R_iv_len c nb k Hc Hnb Hk v xs HR) in Hl.
  assert (index_ok c nb k i) by (split; [assumption|lia]).
  split; [eapply iv_get_oob|eapply iv_set_bad]; eauto.
Qed.
Theorem C20_out_of_range_refuted : exists c nb k v v' i x,
  wf_cfg c /\ wf_nb nb /\ 1 <= k <= nb /\ iv_ends c nb k INew [IPush 5; IPush 6] v /\
  iv_len v <= i /\ i < 2 ^ 64 /\ iv_get c nb v i = Ok 6 /\
  iv_set c nb v i x = Ok v' /\ iv_get c nb v' 1 = Ok x /\ x <> 6.
Proof.
  exists dbg32, 8, 8, {| iv_bits := 8; iv_base := {| vb_len := 2; vb_vec := [5; 6] |} |},
    {| iv_bits := 8; iv_base := {| vb_len := 2; vb_vec := [5; 77] |} |}, (2 ^ 32 + 1), 77.
  repeat split; auto with wf; try (vm_compute; congruence).
  exists 0%nat. intros. vm_compute. reflexivity.
Qed.
Example C20_ex : exists v,
  snd (iv_program rel32 8 7 100 INew [IPush 5; IPush 6]) = Ok v /\ panics (iv_get rel32 8 v (2 ^ 32 + 1)).
Proof. eexists. split; [vm_compute; reflexivity|]. eexists. vm_compute. reflexivity. Qed.

(** ** C21: iterators deliver the elements from both ends. *)
Theorem C21_int_iterator : forall c nb k t ops v xs calls,
  wf_cfg c -> wf_nb nb -> 1 <= k <= nb ->
  iprogram_ok c nb k t ops -> iv_ends c nb k t ops v -> snd (spec_iprogram c nb k t ops) = Some xs ->
  along spec_itstep (itop_ok c) xs calls ->
  exists it rest,
    run (it_step (it_next c nb) (it_next_back c nb) (it_nth c nb)) (iv_iter v) calls =
      (fst (spec_run spec_itstep xs calls), Ok it) /\
    snd (spec_run spec_itstep xs calls) = Some rest /\
    it_last c nb it = Ok (hd_error (rev rest)) /\
    (exists n0, forall fuel, (n0 <= fuel)%nat -> collect (it_next c nb) fuel it = Ok rest).
Proof.
  intros c nb k t ops v xs calls Hc Hnb Hk O E S Hal. pose proof (wf_ptr c Hc).
  destruct (iv_ends_R c nb k Hc Hnb Hk t ops v O E) as [l [S' HR]]. rewrite S in S'. injection S' as <-.
  destruct (it_run_sim c (it_next c nb) (it_next_back c nb) (it_nth c nb) (It_rep c nb k) (itop_ok c)) with
    (ops := calls) (xs := xs) (it := iv_iter v) as [H1 H2]; auto.
  - intros it ys Hy. destruct (iv_it_next c nb k it ys) as [it' [? [? _]]]; eauto.
  - intros it ys Hy. destruct (iv_it_next_back c nb k it ys) as [it' [? [? _]]]; eauto.
  - intros it ys n Hy Hn. cbn in Hn. destruct (iv_it_nth c nb k it ys n) as [it' [? [? _]]]; eauto. lia.
  - left. destruct HR as [Ek HI]. unfold iv_iter. rewrite Ek. now apply it_new_ok.
  - destruct (spec_total xs calls) as [rest Er]. rewrite Er in H2. destruct H2 as [it [E2 Hit]].
    exists it, rest. split; [|split; [exact Er|split]].
    + rewrite <- H1, <- E2. apply surjective_pairing.
    + rewrite (it_last_ok c nb k Hc Hnb Hk it rest Hit), vec_pop_removelast. reflexivity.
    + exists (Datatypes.S (length rest)). intros fuel Hf. apply (collect_ok _ (It_rep c nb k)); auto.
      intros it0 ys Hy. destruct (iv_it_next c nb k it0 ys) as [it' [? [? _]]]; eauto.
Qed.
Theorem C21_bit_iterator : forall c nb t ops v l calls,
  wf_cfg c -> wf_nb nb ->
  bprogram_ok c nb t ops -> bvec_ends c nb t ops v -> snd (spec_bprogram c nb t ops) = Some l ->
  along spec_itstep (itop_ok c) l calls ->
  exists it rest,
    run (it_step (bit_next c nb) (bit_next_back c nb) (bit_nth c nb)) (bvec_iter v) calls =
      (fst (spec_run spec_itstep l calls), Ok it) /\
    snd (spec_run spec_itstep l calls) = Some rest /\
    bit_last c nb it = Ok (hd_error (rev rest)) /\
    (exists n0, forall fuel, (n0 <= fuel)%nat -> collect (bit_next c nb) fuel it = Ok rest).
Proof.
  intros c nb t ops v l calls Hc Hnb O E S Hal. pose proof (wf_ptr c Hc).
  destruct (bvec_ends_R c nb t ops v Hc Hnb O E) as [l0 [S' HR]]. rewrite S in S'. injection S' as <-.
  destruct (it_run_sim c (bit_next c nb) (bit_next_back c nb) (bit_nth c nb) (Bit_it c nb) (itop_ok c)) with
    (ops := calls) (xs := l) (it := bvec_iter v) as [H1 H2]; auto.
  - intros it ys Hy. destruct (bit_next_ok c nb Hc Hnb it ys Hy) as [it' [? [? _]]]; eauto.
  - intros it ys Hy. destruct (bit_next_back_ok c nb Hc Hnb it ys Hy) as [it' [? [? _]]]; eauto.
  - intros it ys n Hy Hn. cbn in Hn. destruct (bit_nth_ok c nb Hc Hnb it ys n Hy) as [it' [? [? _]]]; eauto. lia.
  - left. now apply (bvec_iter_ok c nb Hc Hnb).
  - destruct (spec_total l calls) as [rest Er]. rewrite Er in H2. destruct H2 as [it [E2 Hit]].
    exists it, rest. split; [|split; [exact Er|split]].
    + rewrite <- H1, <- E2. apply surjective_pairing.
    + exact (bit_last_ok c nb Hc Hnb it rest Hit).
    + exists (Datatypes.S (length rest)). intros fuel Hf. apply (collect_ok _ (Bit_it c nb)); auto.
      intros it0 ys Hy. destruct (bit_next_ok c nb Hc Hnb it0 ys Hy) as [it' [? [? _]]]; eauto.
Qed.
Example C21_ex : exists v it,
  snd (iv_program rel64 8 5 100 INew [IPush 17; IPush 30; IPush 3; IPush 4; IPush 5]) = Ok v /\
  run (it_step (it_next rel64 8) (it_next_back rel64 8) (it_nth rel64 8)) (iv_iter v)
    [ItNext; ItNextBack; ItNth 1; ItNext; ItNextBack; ItNth 7; ItNext] =
  ([Some 17; Some 5; Some 3; Some 4; None; None; None], Ok it).
Proof. do 2 eexists. split; [vm_compute; reflexivity|]. vm_compute. reflexivity. Qed.

(** ** C22: the number of remaining items is exact as long as [nth] does not skip past the end
    (and the number fits in [usize]). *)
Definition itop_inside (c : cfg) {A} (xs : list A) (op : itop) : Prop :=
  match op with ItNth n => n <= lengthN xs /\ n < 2 ^ ptr c | _ => True end.
Theorem C22_int_len_partial : forall c nb k t ops v xs calls,
  wf_cfg c -> wf_nb nb -> 1 <= k <= nb ->
  iprogram_ok c nb k t ops -> iv_ends c nb k t ops v -> snd (spec_iprogram c nb k t ops) = Some xs ->
  along spec_itstep (itop_inside c) xs calls ->
  exists it rest,
    snd (run (it_step (it_next c nb) (it_next_back c nb) (it_nth c nb)) (iv_iter v) calls) = Ok it /\
    snd (spec_run spec_itstep xs calls) = Some rest /\
    (lengthN rest < 2 ^ ptr c ->
       it_len c it = Ok (lengthN rest) /\ it_count c it = Ok (lengthN rest) /\
       it_size_hint c it = Ok (lengthN rest, Some (lengthN rest))).
Proof.
  intros c nb k t ops v xs calls Hc Hnb Hk O E S Hal. pose proof (wf_ptr c Hc).
  destruct (iv_ends_R c nb k Hc Hnb Hk t ops v O E) as [l [S' HR]]. rewrite S in S'. injection S' as <-.
  destruct (it_run_sim c (it_next c nb) (it_next_back c nb) (it_nth c nb) (It_exact c nb k) (itop_inside c)) with
    (ops := calls) (xs := xs) (it := iv_iter v) as [H1 H2]; auto.
  - intros ys op. destruct op; cbn; tauto.
  - intros it ys Hy. destruct (iv_it_next c nb k it ys) as [it' [? [_ ?]]]; eauto. now left.
  - intros it ys Hy. destruct (iv_it_next_back c nb k it ys) as [it' [? [_ ?]]]; eauto. now left.
  - intros it ys n Hy [Hn Hn']. destruct (iv_it_nth c nb k it ys n) as [it' [? [_ ?]]]; eauto; [now left|lia].
  - destruct HR as [Ek HI]. unfold iv_iter. rewrite Ek. now apply it_new_ok.
  - destruct (spec_total xs calls) as [rest Er]. rewrite Er in H2. destruct H2 as [it [E2 Hit]].
    exists it, rest. split; [exact E2|]. split; [exact Er|]. intros Hr. unfold it_count.
    rewrite (it_len_ok c nb k Hc Hnb Hk it rest Hit), (it_size_hint_ok c nb k Hc Hnb Hk it rest Hit).
    rewrite as_usize_small, to_usize_small by assumption. auto.
Qed.
Theorem C22_bit_len_partial : forall c nb t ops v l calls,
  wf_cfg c -> wf_nb nb ->
  bprogram_ok c nb t ops -> bvec_ends c nb t ops v -> snd (spec_bprogram c nb t ops) = Some l ->
  along spec_itstep (itop_inside c) l calls ->
  exists it rest,
    snd (run (it_step (bit_next c nb) (bit_next_back c nb) (bit_nth c nb)) (bvec_iter v) calls) = Ok it /\
    snd (spec_run spec_itstep l calls) = Some rest /\
    (lengthN rest < 2 ^ ptr c ->
       it_len c it = Ok (lengthN rest) /\ it_count c it = Ok (lengthN rest) /\
       it_size_hint c it = Ok (lengthN rest, Some (lengthN rest))).
Proof.
  intros c nb t ops v l calls Hc Hnb O E S Hal. pose proof (wf_ptr c Hc). pose proof (wf_nb_range nb Hnb).
  assert (Hk : 1 <= 1 <= nb) by lia.
  destruct (bvec_ends_R c nb t ops v Hc Hnb O E) as [l0 [S' HR]]. rewrite S in S'. injection S' as <-.
  destruct (it_run_sim c (bit_next c nb) (bit_next_back c nb) (bit_nth c nb) (Bit_it_exact c nb) (itop_inside c)) with
    (ops := calls) (xs := l) (it := bvec_iter v) as [H1 H2]; auto.
  - intros ys op. destruct op; cbn; tauto.
  - intros it ys Hy. destruct (bit_next_ok c nb Hc Hnb it ys) as [it' [? [_ ?]]]; eauto. now left.
  - intros it ys Hy. destruct (bit_next_back_ok c nb Hc Hnb it ys) as [it' [? [_ ?]]]; eauto. now left.
  - intros it ys n Hy [Hn Hn']. destruct (bit_nth_ok c nb Hc Hnb it ys n) as [it' [? [_ ?]]]; eauto; [now left|lia].
  - now apply (bvec_iter_ok c nb Hc Hnb).
  - destruct (spec_total l calls) as [rest Er]. rewrite Er in H2. destruct H2 as [it [E2 Hit]].
    exists it, rest. split; [exact E2|]. split; [exact Er|]. intros Hr. unfold it_count.
    rewrite (it_len_ok c nb 1 Hc Hnb Hk it _ Hit), (it_size_hint_ok c nb 1 Hc Hnb Hk it _ Hit), lengthN_map.
    rewrite as_usize_small, to_usize_small by assumption. auto.
Qed.
(** [nth] past the end makes [len] panic, or deliver garbage without overflow checks. *)
Theorem C22_len_after_nth_refuted : exists nb k v it,
  wf_nb nb /\ 1 <= k <= nb /\ iv_ends rel64 nb k INew [IPush 5; IPush 6] v /\
  it_nth rel64 nb (iv_iter v) 3 = Ok (None, it) /\ it_next rel64 nb it = Ok (None, it) /\
  it_len rel64 it = Ok (2 ^ 64 - 1) /\
  it_nth dbg64 nb (iv_iter v) 3 = Ok (None, it) /\ panics (it_len dbg64 it) /\ panics (it_size_hint dbg64 it).
Proof.
  exists 8, 8, {| iv_bits := 8; iv_base := {| vb_len := 2; vb_vec := [5; 6] |} |},
    {| it_start := 3; it_limit := 2; it_bits := 8; it_data := {| vb_len := 2; vb_vec := [5; 6] |} |}.
  repeat split; auto with wf; try (vm_compute; congruence).
  - exists 0%nat. intros. vm_compute. reflexivity.
  - eexists. vm_compute. reflexivity.
  - eexists. vm_compute. reflexivity.
Qed.
(** On 32-bit targets [count] drops the high bits of the number of bits. *)
Theorem C22_count_refuted : exists c nb v l,
  wf_cfg c /\ wf_nb nb /\ bvec_ends c nb (BWithFill (2 ^ 32) false) [] v /\
  snd (spec_bprogram c nb (BWithFill (2 ^ 32) false) []) = Some l /\
  lengthN l = 2 ^ 32 /\ it_count c (bvec_iter v) = Ok 0.
Proof.
  assert (Hf : fits dbg32 64 (2 ^ 32)) by (unfold fits; vm_compute; congruence).
  destruct (bvec_with_fill_ok dbg32 64 wf_dbg32 wf64 (2 ^ 32) false Hf) as [v [E HR]].
  exists dbg32, 64, v, (repeatN false (2 ^ 32)).
  split; [apply wf_dbg32|]. split; [apply wf64|]. split; [|split; [|split]].
  - exists 0%nat. intros. unfold bvec_program, bvec_make. rewrite E. reflexivity.
  - unfold spec_bprogram, spec_bmake. apply fitsb_spec in Hf. rewrite Hf. reflexivity.
  - apply lengthN_repeatN.
  - unfold it_count. rewrite (it_len_ok dbg32 64 1 wf_dbg32 wf64 ltac:(lia) (bvec_iter v) _ (bvec_iter_ok dbg32 64 wf_dbg32 wf64 v _ HR)).
    rewrite lengthN_map, lengthN_repeatN. vm_compute. reflexivity.
Qed.
Example C22_ex : exists v it,
  snd (iv_program rel64 8 5 100 INew [IPush 17; IPush 30; IPush 3; IPush 4; IPush 5]) = Ok v /\
  run (it_step (it_next rel64 8) (it_next_back rel64 8) (it_nth rel64 8)) (iv_iter v) [ItNext; ItNextBack; ItNth 1] =
  ([Some 17; Some 5; Some 3], Ok it) /\ it_len rel64 it = Ok 1.
Proof. do 2 eexists. repeat (split; [vm_compute; reflexivity|]). vm_compute. reflexivity. Qed.

Print Assumptions C16_intvector_is_a_list.
Print Assumptions C17_intvector_eq.
Print Assumptions C17_different_widths.
Print Assumptions C18_invalid_width.
Print Assumptions C18_push_value.
Print Assumptions C18_set_value.
Print Assumptions C18_fill_value.
Print Assumptions C19_get_random.
Print Assumptions C19_set_random.
Print Assumptions C65_random_support_partial.
Print Assumptions C65_random_support_refuted.
Print Assumptions C20_out_of_range_partial.
Print Assumptions C20_out_of_range_refuted.
Print Assumptions C21_int_iterator.
Print Assumptions C21_bit_iterator.
Print Assumptions C22_int_len_partial.
Print Assumptions C22_bit_len_partial.
Print Assumptions C22_len_after_nth_refuted.
Print Assumptions C22_count_refuted.
