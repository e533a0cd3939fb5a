(** * Properties C29-C37 and C60: rank and select
    (src/rank/*.rs, src/select/*.rs, src/internal/search.rs).
    The rank structures are generic over their bit store.  The hypotheses [lawful_bits] and
    [lawful_blocks] say that the store is a bit sequence with blocks; they hold for slices and
    vectors of blocks, [Vec<bool>], the primitive integers, [BitVector] and [IntVector].
    [lawful_rank K Rel] says that the rank structure [K] answers exactly. *)
From Verif Require Import Machine MStorage MTraits MVectorBase MBitVector MIntVector MRank MSelect
  SpecBits SpecCfg SpecLaws SpecOps SpecRank PBase PBits PBlocks PDefaults PBitVector PRun PIntVector
  PRank PRank9 PSelect.

(** ** C29 *)
Theorem C29_prim_rank : forall c nb x p,
  wf_cfg c -> wf_nb nb -> x < 2 ^ nb -> p < nb ->
  br_rank1 (prim_bitrank c nb) x p = Ok (count true (firstnN (p + 1) (bits_of nb x))) /\
  br_rank0 (prim_bitrank c nb) x p = Ok (count false (firstnN (p + 1) (bits_of nb x))) /\
  (forall v, rs_rank (br_rs (prim_bitrank c nb)) x p v = Ok (count v (firstnN (p + 1) (bits_of nb x)))) /\
  rs_limit (br_rs (prim_bitrank c nb)) x = Ok nb.
Proof.
  intros c nb x p Hc Hn Hx Hp. pose proof (wf_nb_range nb Hn).
  assert (E : prim_rank1 c nb x p = Ok (rank_of true (bits_of nb x) p)).
  { rewrite <- (prim_rank1_int_of c nb) by auto. rewrite int_of_bits_of, N.mod_small by exact Hx. reflexivity. }
  assert (E0 : default_rank0 c (prim_rank1 c nb) x p = Ok (rank_of false (bits_of nb x) p)).
  { apply default_rank0_ok; rewrite ?lengthN_bits_of; auto. lia. }
  cbn. repeat split; auto. intros [|]; assumption.
Qed.
Example C29_ex : wf_cfg rel32 /\ wf_nb 16 /\ 0xb5f1 < 2 ^ 16 /\ 9 < 16 /\
  br_rank1 (prim_bitrank rel32 16) 0xb5f1 9 = Ok 6 /\ br_rank0 (prim_bitrank rel32 16) 0xb5f1 9 = Ok 4 /\
  br_rank1 (prim_bitrank dbg64 64) (2 ^ 64 - 1) 63 = Ok 64.
Proof. split; [auto with wf|]. split; [auto with wf|]. vm_compute. intuition congruence. Qed.

(** ** C30 *)
Theorem C30_jacobson_rank : forall T c (B : bitvec T) (R : T -> list bool -> Prop) t l,
  wf_cfg c -> lawful_bits c B R -> lawful_blocks c B R ->
  R t l -> 2 <= lengthN l -> jac_room c (bv_nb B) (lengthN l) ->
  exists j, jacobson_new c B t = Ok j /\
    rs_limit (br_rs (jacobson_bitrank c B)) j = Ok (lengthN l) /\
    (forall p, p < lengthN l ->
       br_rank1 (jacobson_bitrank c B) j p = Ok (count true (firstnN (p + 1) l)) /\
       br_rank0 (jacobson_bitrank c B) j p = Ok (count false (firstnN (p + 1) l)) /\
       forall v, rs_rank (br_rs (jacobson_bitrank c B)) j p v = Ok (count v (firstnN (p + 1) l))) /\
    (forall p, lengthN l <= p ->
       panics (br_rank1 (jacobson_bitrank c B) j p) /\ panics (br_rank0 (jacobson_bitrank c B) j p) /\
       forall v, panics (rs_rank (br_rs (jacobson_bitrank c B)) j p v)).
Proof.
  intros T c B R t l Hc LB LK HR H2 Hm.
  destruct (jac_new c B R Hc LB (block_reads c B R LK) t l HR H2 Hm) as (j & Ej & Es & HJ). exists j. split; [exact Ej|].
  pose proof (jac_lawful c B R Hc LB (block_reads c B R LK)) as LR. split; [exact (lr_limit _ _ LR j l HJ)|]. split.
  - intros p Hp. split; [exact (lr_rank1 _ _ LR j l p HJ Hp)|]. split; [exact (lr_rank0 _ _ LR j l p HJ Hp)|].
    intros v. exact (lr_rank _ _ LR j l p v HJ Hp).
  - intros p Hp. pose proof (jac_rank1_oob c B R LB j l p HJ Hp) as H1.
    pose proof (jac_rank0_oob c B R LB j l p HJ Hp) as H0. split; [exact H1|]. split; [exact H0|].
    intros [|]; assumption.
Qed.
Definition sample : list N := [0xb5; 0x01; 0xff; 0x80; 0x00; 0x3c; 0x7e].
Example C30_ex :
  wf_cfg dbg64 /\ lawful_bits dbg64 (blocks_bitvec dbg64 8) (R_blocks dbg64 8) /\
  lawful_blocks dbg64 (blocks_bitvec dbg64 8) (R_blocks dbg64 8) /\
  R_blocks dbg64 8 sample (bits_of_blocks 8 sample) /\
  2 <= lengthN (bits_of_blocks 8 sample) /\ jac_room dbg64 8 (lengthN (bits_of_blocks 8 sample)) /\
  (j <- jacobson_new dbg64 (blocks_bitvec dbg64 8) sample ;;
   br_rank1 (jacobson_bitrank dbg64 (blocks_bitvec dbg64 8)) j 45) = Ok 19 /\
  (j <- jacobson_new dbg64 (blocks_bitvec dbg64 8) sample ;;
   br_rank0 (jacobson_bitrank dbg64 (blocks_bitvec dbg64 8)) j 45) = Ok 27 /\
  (j <- jacobson_new dbg64 (blocks_bitvec dbg64 8) sample ;;
   br_rank1 (jacobson_bitrank dbg64 (blocks_bitvec dbg64 8)) j 56) = Panic PAssert.
Proof.
  split; [auto with wf|]. split; [apply blocks_lawful_bits; auto with wf|].
  split; [apply blocks_lawful_blocks; auto with wf|].
  split; [split; [reflexivity|]; split; [repeat constructor|vm_compute; congruence]|].
  split; [vm_compute; congruence|]. split; [vm_compute; congruence|].
  split; [vm_compute; reflexivity|]. split; vm_compute; reflexivity.
Qed.

(** ** C31.  Full statement: [jacobson_new c B t] does not panic, for every store (within memory
    limits).  It is false for the empty store and for a store of one bit: the square of the
    logarithm of the length is the size of a large block, and the length is divided by it.  For all
    others it succeeds if and only if the directory of relative ranks can be allocated. *)
Theorem C31_jacobson_new_partial : forall T c (B : bitvec T) (R : T -> list bool -> Prop) t l,
  wf_cfg c -> lawful_bits c B R -> lawful_blocks c B R -> R t l ->
  (2 <= lengthN l /\ jac_room c (bv_nb B) (lengthN l) -> exists j, jacobson_new c B t = Ok j) /\
  (~ (2 <= lengthN l /\ jac_room c (bv_nb B) (lengthN l)) -> panics (jacobson_new c B t)).
Proof.
  intros T c B R t l Hc LB LK HR. split.
  - intros [H2 Hm]. destruct (jac_new c B R Hc LB (block_reads c B R LK) t l HR H2 Hm) as (j & Ej & _). now exists j.
  - intros Hn. destruct (N.le_gt_cases (lengthN l) 1) as [H1|H1]; [now apply (jac_new_small c B R t l Hc LB HR)|].
    destruct (jac_new_exact c B R Hc LB (block_reads c B R LK) t l HR ltac:(lia)) as [(j & _ & _ & _ & _ & Hm)|[H _]]; [|exact H]. exfalso. apply Hn. split; [lia|exact Hm].
Qed.
(** There is room in particular whenever the blocks have 16 bits or more, and for all stores up to a quarter of the memory limit; not
    for the longest stores of bytes. *)
Theorem C31_room : forall c nb n, wf_nb nb -> fits c nb n -> 16 <= nb \/ 4 * n <= max_bits c -> jac_room c nb n.
Proof. intros c nb n Hnb Hf [H|H]; [now apply jac_room_wide|now apply jac_room_quarter]. Qed.
Example C31_room_ex : fits dbg64 8 (2 ^ 63) /\ ~ jac_room dbg64 8 (2 ^ 63) /\ fits rel32 16 (2 ^ 34 - 16) /\ jac_room rel32 16 (2 ^ 34 - 16).
Proof.
  split; [vm_compute; congruence|]. split; [intros H; vm_compute in H; congruence|]. split; vm_compute; congruence.
Qed.
Theorem C31_jacobson_new_small : forall T c (B : bitvec T) (R : T -> list bool -> Prop) t l,
  wf_cfg c -> lawful_bits c B R -> R t l -> lengthN l <= 1 -> panics (jacobson_new c B t).
Proof. intros. eapply jac_new_small; eauto. Qed.
Theorem C31_jacobson_new_refuted : exists c t,
  wf_cfg c /\ R_blocks c 64 t [] /\ jacobson_new c (blocks_bitvec c 64) t = Panic PDiv.
Proof.
  exists rel64, []. split; [auto with wf|]. split; [|vm_compute; reflexivity].
  split; [reflexivity|]. split; [constructor|vm_compute; congruence].
Qed.
Definition one_bit : vbase := {| vb_len := 1; vb_vec := [1] |}.
Example C31_ex : (exists j, jacobson_new dbg64 (blocks_bitvec dbg64 8) [0x80] = Ok j) /\
  R_blocks dbg64 8 [0x80] (bits_of_blocks 8 [0x80]) /\ lengthN (bits_of_blocks 8 [0x80]) = 8 /\
  (v <- bvec_new dbg32 16 ;; bvec_push_bit dbg32 16 v true) = Ok one_bit /\
  R_bv dbg32 16 one_bit [true] /\ lawful_bits dbg32 (bvec_bitvec dbg32 16) (R_bv dbg32 16) /\
  panics (jacobson_new dbg32 (bvec_bitvec dbg32 16) one_bit).
Proof.
  split; [eexists; vm_compute; reflexivity|].
  split; [split; [reflexivity|]; split; [repeat constructor|vm_compute; congruence]|].
  split; [reflexivity|]. split; [reflexivity|].
  assert (H : R_bv dbg32 16 one_bit [true]) by (split; [reflexivity|]; split; [reflexivity|vm_compute; congruence]).
  assert (L : lawful_bits dbg32 (bvec_bitvec dbg32 16) (R_bv dbg32 16)) by (apply bvec_lawful_bits; auto with wf).
  split; [exact H|]. split; [exact L|].
  apply (C31_jacobson_new_small _ dbg32 _ (R_bv dbg32 16) one_bit [true]); auto with wf. vm_compute. congruence.
Qed.

(** ** C32 *)
Theorem C32_rank9 : forall T c (B : bitvec T) (R : T -> list bool -> Prop) t l,
  wf_cfg c -> bv_nb B = 64 -> lawful_bits c B R -> lawful_blocks c B R -> R t l ->
  exists r, rank9_new c B t = Ok r /\
    rs_limit (br_rs (rank9_bitrank c B)) r = Ok (lengthN l) /\
    forall p, p < lengthN l ->
      br_rank1 (rank9_bitrank c B) r p = Ok (count true (firstnN (p + 1) l)) /\
      br_rank0 (rank9_bitrank c B) r p = Ok (count false (firstnN (p + 1) l)) /\
      forall v, rs_rank (br_rs (rank9_bitrank c B)) r p v = Ok (count v (firstnN (p + 1) l)).
Proof.
  intros T c B R t l Hc H64 LB LK HR. destruct (rank9_new_ok c B R Hc LB (block_reads c B R LK) H64 t l HR) as (r & Er & Es & HJ).
  exists r. split; [exact Er|]. pose proof (rank9_lawful c B R Hc LB (block_reads c B R LK) H64) as LR.
  split; [exact (lr_limit _ _ LR r l HJ)|].
  intros p Hp. split; [exact (lr_rank1 _ _ LR r l p HJ Hp)|]. split; [exact (lr_rank0 _ _ LR r l p HJ Hp)|].
  intros v. exact (lr_rank _ _ LR r l p v HJ Hp).
Qed.

Definition sample64 : list N := [0xb5; 2 ^ 64 - 1; 0; 0x8000000000000000; 7; 1; 0xffff; 2 ^ 40; 3; 0xf0].
Example C32_ex :
  wf_cfg dbg32 /\ bv_nb (blocks_bitvec dbg32 64) = 64 /\
  lawful_bits dbg32 (blocks_bitvec dbg32 64) (R_blocks dbg32 64) /\
  lawful_blocks dbg32 (blocks_bitvec dbg32 64) (R_blocks dbg32 64) /\
  R_blocks dbg32 64 sample64 (bits_of_blocks 64 sample64) /\
  (r <- rank9_new dbg32 (blocks_bitvec dbg32 64) sample64 ;;
   br_rank1 (rank9_bitrank dbg32 (blocks_bitvec dbg32 64)) r 581) = Ok 95 /\
  (r <- rank9_new dbg32 (blocks_bitvec dbg32 64) sample64 ;;
   br_rank0 (rank9_bitrank dbg32 (blocks_bitvec dbg32 64)) r 300) = Ok 228 /\
  (exists r, rank9_new dbg32 (blocks_bitvec dbg32 64) [] = Ok r).
Proof.
  split; [auto with wf|]. split; [reflexivity|]. split; [apply blocks_lawful_bits; auto with wf|].
  split; [apply blocks_lawful_blocks; auto with wf|].
  split; [split; [reflexivity|]; split; [repeat constructor|vm_compute; congruence]|].
  split; [vm_compute; reflexivity|]. split; [vm_compute; reflexivity|]. eexists. vm_compute. reflexivity.
Qed.

(** ** C33.  Full statement: for every rank structure, [rank], [rank1] and [rank0] panic at every
    position [p >= limit].  It holds of JacobsonRank.  Rank9 panics only from the end of the last
    word on, and the primitive integers only with debug assertions. *)
Theorem C33_jacobson : forall T c (B : bitvec T) (R : T -> list bool -> Prop) t l j p v,
  wf_cfg c -> lawful_bits c B R -> lawful_blocks c B R ->
  R t l -> jacobson_new c B t = Ok j -> lengthN l <= p ->
  panics (br_rank1 (jacobson_bitrank c B) j p) /\ panics (br_rank0 (jacobson_bitrank c B) j p) /\
  panics (rs_rank (br_rs (jacobson_bitrank c B)) j p v).
Proof.
  intros T c B R t l j p v Hc LB LK HR Ej Hp. destruct (N.le_gt_cases (lengthN l) 1) as [H1|H1].
  - destruct (jac_new_small c B R t l Hc LB HR H1) as [k E]. congruence.
  - destruct (jac_new_exact c B R Hc LB (block_reads c B R LK) t l HR ltac:(lia)) as [(_ & _ & _ & _ & _ & Hm)|[[k E] _]]; [|congruence].
    destruct (C30_jacobson_rank T c B R t l Hc LB LK HR ltac:(lia) Hm) as (j' & Ej' & _ & _ & H).
    rewrite Ej in Ej'. injection Ej' as <-. destruct (H p Hp) as (A & A' & A''). auto.
Qed.
Lemma default_rank0_panics {T} c (rank1 : T -> N -> res N) t p : panics (rank1 t p) -> panics (default_rank0 c rank1 t p).
Proof.
  intros [k E]. unfold default_rank0, wadd, wrap. destruct (p + 1 <? 2 ^ 64); cbn [bind]; [rewrite E; apply panics_Panic|].
  destruct (debug c); cbn [bind]; [apply panics_Panic|rewrite E; apply panics_Panic].
Qed.
Theorem C33_rank9_partial : forall T c (B : bitvec T) (R : T -> list bool -> Prop) t l r p v,
  wf_cfg c -> bv_nb B = 64 -> lawful_bits c B R -> lawful_blocks c B R ->
  R t l -> rank9_new c B t = Ok r -> blocks_for 64 (lengthN l) * 64 <= p ->
  panics (br_rank1 (rank9_bitrank c B) r p) /\ panics (br_rank0 (rank9_bitrank c B) r p) /\
  panics (rs_rank (br_rs (rank9_bitrank c B)) r p v).
Proof.
  intros T c B R t l r p v Hc H64 LB LK HR Er Hp.
  destruct (rank9_new_ok c B R Hc LB (block_reads c B R LK) H64 t l HR) as (r' & Er' & _ & HJ). rewrite Er in Er'. injection Er' as <-.
  pose proof (rank9_rank1_oob c B R Hc LB H64 r l p LK HJ Hp) as H1. split; [exact H1|].
  pose proof (default_rank0_panics c _ _ _ H1) as H0. split; [exact H0|]. destruct v; assumption.
Qed.
(** What it answers between the end and the end of the last word: all the ones; the missing bits count as zeros. *)
Theorem C33_rank9_padding : forall T c (B : bitvec T) (R : T -> list bool -> Prop) t l r p,
  wf_cfg c -> bv_nb B = 64 -> lawful_bits c B R -> lawful_blocks c B R ->
  R t l -> rank9_new c B t = Ok r -> lengthN l <= p -> p < blocks_for 64 (lengthN l) * 64 ->
  br_rank1 (rank9_bitrank c B) r p = Ok (count true l) /\
  br_rank0 (rank9_bitrank c B) r p = Ok (p + 1 - count true l).
Proof.
  intros T c B R t l r p Hc H64 LB LK HR Er Hp Hq.
  destruct (rank9_new_ok c B R Hc LB (block_reads c B R LK) H64 t l HR) as (r' & Er' & _ & HJ). rewrite Er in Er'. injection Er' as <-.
  pose proof (rank9_rank1_words c B R Hc LB (block_reads c B R LK) H64 r l p HJ Hq) as H1. unfold rank_of in H1. rewrite firstnN_all in H1 by lia.
  split; [exact H1|]. cbn. unfold default_rank0. pose proof (lb_fits c B R LB _ _ HR) as Hf. rewrite H64 in Hf.
  pose proof (fits_lt64 c 64 _ ltac:(lia) Hf). pose proof (blocks_for_spec 64 (lengthN l) ltac:(lia)).
  rewrite wadd_ok by lia. cbn [bind]. rewrite H1. cbn [bind]. pose proof (count_le true l). apply wsub_ok. lia.
Qed.
Theorem C33_prim_partial : forall c nb x p v, debug c = true -> nb <= p ->
  panics (br_rank1 (prim_bitrank c nb) x p) /\ panics (br_rank0 (prim_bitrank c nb) x p) /\
  panics (rs_rank (br_rs (prim_bitrank c nb)) x p v).
Proof.
  intros c nb x p v Hd Hp. assert (H1 : panics (prim_rank1 c nb x p)).
  { unfold prim_rank1, debug_assert. rewrite Hd. destruct (p <? nb) eqn:E; [lia|]. apply panics_Panic. }
  pose proof (default_rank0_panics c _ _ _ H1) as H0. split; [exact H1|]. split; [exact H0|]. destruct v; assumption.
Qed.
Theorem C33_rank9_refuted : exists c t l r p n,
  wf_cfg c /\ R_bv c 64 t l /\ rank9_new c (bvec_bitvec c 64) t = Ok r /\
  rs_limit (br_rs (rank9_bitrank c (bvec_bitvec c 64))) r = Ok (lengthN l) /\ lengthN l <= p /\
  br_rank1 (rank9_bitrank c (bvec_bitvec c 64)) r p = Ok n.
Proof.
  exists dbg64, {| vb_len := 3; vb_vec := [5] |}, [true; false; true],
    {| r9_store := {| vb_len := 3; vb_vec := [5] |}; r9_counts := [{| level1 := 0; level2 := 2 |}] |}, 3, 2.
  split; [auto with wf|]. split; [split; [reflexivity|]; split; [reflexivity|vm_compute; congruence]|].
  split; [vm_compute; reflexivity|]. split; [vm_compute; reflexivity|]. split; [vm_compute; congruence|].
  vm_compute. reflexivity.
Qed.
Theorem C33_prim_refuted : exists c nb x p n,
  wf_cfg c /\ wf_nb nb /\ x < 2 ^ nb /\ rs_limit (br_rs (prim_bitrank c nb)) x = Ok nb /\ nb <= p /\
  br_rank1 (prim_bitrank c nb) x p = Ok n.
Proof.
  exists rel64, 8, 0xb5, 20, 3. split; [auto with wf|]. split; [auto with wf|].
  repeat (split; [vm_compute; congruence|]). vm_compute. reflexivity.
Qed.
Example C33_ex :
  wf_cfg dbg64 /\ 
  (exists j, jacobson_new dbg64 (blocks_bitvec dbg64 8) sample = Ok j /\ lengthN (bits_of_blocks 8 sample) = 56 /\
     panics (br_rank0 (jacobson_bitrank dbg64 (blocks_bitvec dbg64 8)) j (2 ^ 64 - 1))) /\
  (exists r, rank9_new dbg64 (blocks_bitvec dbg64 64) [3] = Ok r /\
     panics (br_rank1 (rank9_bitrank dbg64 (blocks_bitvec dbg64 64)) r 64)) /\
  (exists r, rank9_new dbg64 (bvec_bitvec dbg64 64) {| vb_len := 3; vb_vec := [5] |} = Ok r /\
     br_rank1 (rank9_bitrank dbg64 (bvec_bitvec dbg64 64)) r 63 = Ok 2 /\
     br_rank0 (rank9_bitrank dbg64 (bvec_bitvec dbg64 64)) r 63 = Ok 62) /\
  panics (br_rank1 (prim_bitrank dbg64 8) 0xb5 8).
Proof.
  split; [auto with wf|]. split; [|split].
  - eexists. split; [vm_compute; reflexivity|]. split; [reflexivity|]. eexists. vm_compute. reflexivity.
  - eexists. split; [vm_compute; reflexivity|]. eexists. vm_compute. reflexivity.
  - split; [|eexists; vm_compute; reflexivity]. eexists. split; [vm_compute; reflexivity|]. vm_compute. repeat split.
Qed.

(** ** C34.  [f] is only constrained on the interval; [w + 1] rounds of the loop suffice. *)
Theorem C34_binary_search : forall c w start limit value (f : N -> res N) (g : N -> N) fuel,
  2 <= w -> start < 2 ^ w -> limit < 2 ^ w ->
  (forall p, start <= p -> p < limit -> f p = Ok (g p)) ->
  (forall p q, start <= p -> p <= q -> q < limit -> g p <= g q) ->
  (N.to_nat w < fuel)%nat ->
  exists o, binary_search_function c w fuel start limit value f = Ok o /\
    match o with
    | Some d => start <= d /\ d < limit /\ value <= g d /\ (forall p, start <= p -> p < d -> g p < value)
    | None => forall p, start <= p -> p < limit -> g p < value
    end.
Proof. intros. eapply search_ok; eauto. Qed.
Theorem C34_average : forall c w x y, 2 <= w -> x < 2 ^ w -> y < 2 ^ w -> average c w x y = Ok ((x + y) / 2).
Proof. apply average_ok. Qed.
Example C34_ex :
  (forall p, 10 <= p -> p < 200 -> (if p <? 10 then Panic PAssert else Ok (p * p)) = Ok (p * p)) /\
  (forall p q, 10 <= p -> p <= q -> q < 200 -> p * p <= q * q) /\
  binary_search_function dbg64 8 9 10 200 5000 (fun p => if p <? 10 then Panic PAssert else Ok (p * p)) = Ok (Some 71) /\
  binary_search_function dbg64 8 9 10 200 50000 (fun p => if p <? 10 then Panic PAssert else Ok (p * p)) = Ok None /\
  average dbg64 8 251 255 = Ok 253.
Proof.
  split. { intros p H1 H2. destruct (p <? 10) eqn:E; [lia|reflexivity]. }
  split. { intros p q H1 H2 H3. apply N.mul_le_mono; exact H2. }
  repeat split; vm_compute; reflexivity.
Qed.

(** ** C35 *)
Theorem C35_select : forall T c (K : bitrank T) (Rel : T -> list bool -> Prop) t l i v fuel,
  lawful_rank K Rel -> Rel t l -> i < 2 ^ 64 - 1 -> (64 < fuel)%nat ->
  let answer o := (forall p, o = Some p <-> nthN l p = Some v /\ count v (firstnN p l) = i) /\
                  (o = None <-> count v l <= i) in
  (exists o, (if v then bss_select1 c K fuel t i else bss_select0 c K fuel t i) = Ok o /\ answer o) /\
  (exists o, bss_select c (br_rs K) fuel t i v = Ok o /\ answer o).
Proof.
  intros T c K Rel t l i v fuel LR HR Hi Hf answer.
  assert (HA : forall o, match o with Some p => is_select v l i p | None => count v l <= i end -> answer o).
  { intros [q|] Ho; split.
    - intros p. split; [intros [= <-]; exact Ho|]. intros Hp. f_equal. exact (is_select_unique v l i q p Ho Hp).
    - split; [discriminate|]. intros Hc. pose proof (is_select_exists _ _ _ _ Ho). lia.
    - intros p. split; [discriminate|]. intros Hp. pose proof (is_select_exists v l i p Hp). lia.
    - split; auto. }
  split.
  - destruct v.
    + destruct (bss_select1_ok c K Rel LR t l i fuel HR Hi Hf) as (o & E & Ho). eauto.
    + destruct (bss_select0_ok c K Rel LR t l i fuel HR Hi Hf) as (o & E & Ho). eauto.
  - destruct (bss_select_ok c K Rel LR t l i v fuel HR Hi Hf) as (o & E & Ho). eauto.
Qed.
(** The three rank structures are correct, so [C35_select] applies to them. *)
Theorem C35_rank_structures : forall T c (B : bitvec T) (R : T -> list bool -> Prop),
  wf_cfg c -> lawful_bits c B R -> lawful_blocks c B R ->
  lawful_rank (jacobson_bitrank c B) (fun j l => exists t, R t l /\ jacobson_new c B t = Ok j) /\
  (bv_nb B = 64 -> lawful_rank (rank9_bitrank c B) (fun r l => exists t, R t l /\ rank9_new c B t = Ok r)) /\
  (forall nb, wf_nb nb -> lawful_rank (prim_bitrank c nb) (fun x l => x < 2 ^ nb /\ l = bits_of nb x)).
Proof.
  intros T c B R Hc LB LK. split; [|split].
  - assert (HJ : forall j l, (exists t, R t l /\ jacobson_new c B t = Ok j) -> J_rep c B R j l).
    { intros j l (t & HR & E). destruct (N.le_gt_cases (lengthN l) 1) as [H|H].
      - destruct (jac_new_small c B R t l Hc LB HR H) as [k Ek]. congruence.
      - destruct (jac_new_exact c B R Hc LB (block_reads c B R LK) t l HR ltac:(lia)) as [(j' & Ej & _ & Hj & _)|[[k Ek] _]]; [|congruence]. rewrite E in Ej. injection Ej as <-. exact Hj. }
    pose proof (jac_lawful c B R Hc LB (block_reads c B R LK)) as LR.
    split; intros j l; intros; [eapply (lr_len _ _ LR)|eapply (lr_limit _ _ LR)|eapply (lr_rank1 _ _ LR)|eapply (lr_rank0 _ _ LR)|eapply (lr_rank _ _ LR)]; eauto.
  - intros H64.
    assert (HJ : forall r l, (exists t, R t l /\ rank9_new c B t = Ok r) -> R9_rep R r l).
    { intros r l (t & HR & E). destruct (rank9_new_ok c B R Hc LB (block_reads c B R LK) H64 t l HR) as (r' & Er & _ & Hr).
      rewrite E in Er. injection Er as <-. exact Hr. }
    pose proof (rank9_lawful c B R Hc LB (block_reads c B R LK) H64) as LR.
    split; intros j l; intros; [eapply (lr_len _ _ LR)|eapply (lr_limit _ _ LR)|eapply (lr_rank1 _ _ LR)|eapply (lr_rank0 _ _ LR)|eapply (lr_rank _ _ LR)]; eauto.
  - intros nb Hn. pose proof (wf_nb_range nb Hn).
    split; intros x l; intros; match goal with H : _ /\ _ |- _ => destruct H as [Hx ->] end;
      rewrite ?lengthN_bits_of in *; [lia|reflexivity| | |];
      match goal with |- context [rank_of _ _ ?p] => destruct (C29_prim_rank c nb x p Hc Hn Hx ltac:(assumption)) as (A1 & A2 & A3 & _) end; first [exact A1|exact A2|apply A3].
Qed.
Example C35_ex :
  lawful_rank (prim_bitrank dbg64 8) (fun x l => x < 2 ^ 8 /\ l = bits_of 8 x) /\
  bss_select1 dbg64 (prim_bitrank dbg64 8) 65 0xb4 2 = Ok (Some 5) /\
  bss_select0 dbg64 (prim_bitrank dbg64 8) 65 0xb4 2 = Ok (Some 3) /\
  bss_select1 dbg64 (prim_bitrank dbg64 8) 65 0xb4 4 = Ok None /\
  (r <- rank9_new rel32 (blocks_bitvec rel32 64) sample64 ;;
   bss_select1 rel32 (rank9_bitrank rel32 (blocks_bitvec rel32 64)) 65 r 92) = Ok (Some 513).
Proof.
  split; [|repeat split; vm_compute; reflexivity].
  apply (C35_rank_structures _ dbg64 _ _ wf_dbg64 (blocks_lawful_bits dbg64 8 wf_dbg64 wf8) (blocks_lawful_blocks dbg64 8 wf8)).
  apply wf8.
Qed.

(** ** C36.  Full statement: [select1 (2^64-1)] (and [select0], [select]) returns [None].  It is
    false: [index + 1] overflows.  What happens instead: a panic with overflow checks; without
    them the answer is position 0 unless the sequence is empty. *)
Theorem C36_max_index_partial : forall T c (K : bitrank T) (Rel : T -> list bool -> Prop) t l (v : bool) fuel,
  lawful_rank K Rel -> Rel t l ->
  let r := if v then bss_select1 c K fuel t (2 ^ 64 - 1) else bss_select0 c K fuel t (2 ^ 64 - 1) in
  if debug c then panics r
  else r = Ok (match l with [] => None | _ => Some 0 end).
Proof.
  intros T c K Rel t l v fuel LR HR r.
  assert (E : forall h, (0 < lengthN l -> h 0 = Ok (rank_of v l 0)) ->
    let r' := i1 <- wadd c 64 (2 ^ 64 - 1) 1 ;; binary_search_function c 64 fuel 0 (lengthN l) i1 h in
    if debug c then panics r' else r' = Ok (match l with [] => None | _ => Some 0 end)).
  { intros h Hh r'. unfold r', wadd, wrap. change (2 ^ 64 - 1 + 1 <? 2 ^ 64) with false. cbv iota.
    destruct (debug c); cbn [bind]; [apply panics_Panic|].
    change ((2 ^ 64 - 1 + 1) mod 2 ^ 64) with 0. unfold binary_search_function.
    destruct l as [|b l]; [reflexivity|]. rewrite lengthN_cons in *. destruct (lengthN l + 1 <=? 0) eqn:E0; [lia|].
    rewrite Hh by lia. cbn [bind]. destruct (0 <=? rank_of v (b :: l) 0) eqn:E1; [reflexivity|lia]. }
  unfold r. destruct v.
  - unfold bss_select1. rewrite (lr_limit _ _ LR _ _ HR). cbn [bind]. apply E. intros H. now apply (lr_rank1 _ _ LR).
  - unfold bss_select0. rewrite (lr_limit _ _ LR _ _ HR). cbn [bind]. apply E. intros H. now apply (lr_rank0 _ _ LR).
Qed.
Theorem C36_max_index_refuted : exists c nb x,
  wf_cfg c /\ wf_nb nb /\ x < 2 ^ nb /\ bss_select1 c (prim_bitrank c nb) 65 x (2 ^ 64 - 1) = Ok (Some 0).
Proof.
  exists rel64, 8, 0. split; [auto with wf|]. split; [auto with wf|]. split; [vm_compute; reflexivity|].
  vm_compute. reflexivity.
Qed.
Example C36_ex :
  lawful_rank (prim_bitrank dbg64 8) (fun x l => x < 2 ^ 8 /\ l = bits_of 8 x) /\
  panics (bss_select1 dbg64 (prim_bitrank dbg64 8) 65 7 (2 ^ 64 - 1)) /\
  bss_select1 rel64 (prim_bitrank rel64 8) 65 7 (2 ^ 64 - 2) = Ok None /\
  bss_select0 rel64 (prim_bitrank rel64 8) 65 7 (2 ^ 64 - 1) = Ok (Some 0).
Proof.
  split; [apply C35_ex|]. split; [eexists; vm_compute; reflexivity|]. split; vm_compute; reflexivity.
Qed.

(** ** C37 *)
Definition rank_v {T} (K : bitrank T) (v : bool) (t : T) (p : N) : res N :=
  if v then br_rank1 K t p else br_rank0 K t p.
Definition select_v {T} (c : cfg) (K : bitrank T) (fuel : nat) (v : bool) (t : T) (i : N) : res (option N) :=
  if v then bss_select1 c K fuel t i else bss_select0 c K fuel t i.
(** [select] and [rank] of the structure [t] are mutually inverse, and fit the bits [get]. *)
Definition inverse {T} (c : cfg) (K : bitrank T) (get : N -> res bool) (len : N) (t : T) (fuel : nat) : Prop :=
  forall v,
    (forall i p, i < 2 ^ 64 - 1 -> select_v c K fuel v t i = Ok (Some p) ->
       rank_v K v t p = Ok (i + 1) /\ get p = Ok v) /\
    (forall p, p < len -> get p = Ok v ->
       exists k, rank_v K v t p = Ok (k + 1) /\ select_v c K fuel v t k = Ok (Some p)).
Lemma inverse_gen {T S} c (K : bitrank T) (Rel : T -> list bool -> Prop) (B : bitvec S) (R : S -> list bool -> Prop) t s l fuel :
  lawful_rank K Rel -> lawful_bits c B R -> Rel t l -> R s l -> (64 < fuel)%nat ->
  inverse c K (bv_get_bit B s) (lengthN l) t fuel.
Proof.
  intros LR LB HR HS Hf v. pose proof (lr_len _ _ LR _ _ HR) as Hlen.
  assert (Hrank : forall p, p < lengthN l -> rank_v K v t p = Ok (rank_of v l p)).
  { intros p Hp. unfold rank_v. destruct v; [now apply (lr_rank1 _ _ LR)|now apply (lr_rank0 _ _ LR)]. }
  assert (Hsel : forall i, i < 2 ^ 64 - 1 -> exists o, select_v c K fuel v t i = Ok o /\
      match o with Some p => is_select v l i p | None => count v l <= i end).
  { intros i Hi. unfold select_v. destruct v; [eapply bss_select1_ok; eauto|eapply bss_select0_ok; eauto]. }
  split.
  - intros i p Hi E. destruct (Hsel i Hi) as (o & Eo & Ho). rewrite E in Eo. injection Eo as <-.
    pose proof (nthN_lt _ _ _ (proj1 Ho)) as Hp. rewrite Hrank by exact Hp. rewrite (is_select_rank _ _ _ _ Ho).
    split; [reflexivity|]. apply (lb_get_bit _ _ _ LB s l p v HS). exact (proj1 Ho).
  - intros p Hp Eg. destruct (nthN_Some l p Hp) as [b Eb].
    rewrite (lb_get_bit _ _ _ LB s l p b HS Eb) in Eg. injection Eg as ->.
    assert (HI : is_select v l (count v (firstnN p l)) p) by (split; [exact Eb|reflexivity]).
    exists (count v (firstnN p l)). rewrite Hrank by exact Hp. rewrite (is_select_rank _ _ _ _ HI).
    split; [reflexivity|]. pose proof (is_select_exists _ _ _ _ HI) as H1. pose proof (count_le v l) as H2.
    destruct (Hsel (count v (firstnN p l)) ltac:(lia)) as (o & Eo & Ho). rewrite Eo. destruct o as [q|]; [|lia].
    do 2 f_equal. exact (is_select_unique _ _ _ _ _ Ho HI).
Qed.
Theorem C37_jacobson_inverse : forall T c (B : bitvec T) (R : T -> list bool -> Prop) t l fuel,
  wf_cfg c -> lawful_bits c B R -> lawful_blocks c B R ->
  R t l -> 2 <= lengthN l -> jac_room c (bv_nb B) (lengthN l) -> (64 < fuel)%nat ->
  exists j, jacobson_new c B t = Ok j /\ inverse c (jacobson_bitrank c B) (bv_get_bit B t) (lengthN l) j fuel.
Proof.
  intros T c B R t l fuel Hc LB LK HR H2 Hm Hf.
  destruct (jac_new c B R Hc LB (block_reads c B R LK) t l HR H2 Hm) as (j & Ej & Es & HJ). exists j. split; [exact Ej|].
  eapply inverse_gen; eauto. exact (jac_lawful c B R Hc LB (block_reads c B R LK)).
Qed.
Theorem C37_rank9_inverse : forall T c (B : bitvec T) (R : T -> list bool -> Prop) t l fuel,
  wf_cfg c -> bv_nb B = 64 -> lawful_bits c B R -> lawful_blocks c B R ->
  R t l -> (64 < fuel)%nat ->
  exists r, rank9_new c B t = Ok r /\ inverse c (rank9_bitrank c B) (bv_get_bit B t) (lengthN l) r fuel.
Proof.
  intros T c B R t l fuel Hc H64 LB LK HR Hf.
  destruct (rank9_new_ok c B R Hc LB (block_reads c B R LK) H64 t l HR) as (r & Er & Es & HJ). exists r. split; [exact Er|].
  eapply inverse_gen; eauto. exact (rank9_lawful c B R Hc LB (block_reads c B R LK) H64).
Qed.
(** The same for a BitVector obtained by any program. *)
Theorem C37_bitvector_inverse : forall c t ops v l fuel,
  wf_cfg c -> bprogram_ok c 64 t ops -> bvec_ends c 64 t ops v -> snd (spec_bprogram c 64 t ops) = Some l ->
  (64 < fuel)%nat ->
  exists r, rank9_new c (bvec_bitvec c 64) v = Ok r /\
    inverse c (rank9_bitrank c (bvec_bitvec c 64)) (bvec_get_bit c 64 v) (lengthN l) r fuel.
Proof.
  intros c t ops v l fuel Hc O E S Hf.
  destruct (bvec_ends_R c 64 t ops v Hc wf64 O E) as [l' [S' HR]]. rewrite S in S'. injection S' as <-.
  apply (C37_rank9_inverse _ c (bvec_bitvec c 64) (R_bv c 64)); auto.
  - apply bvec_lawful_bits; auto with wf.
  - apply bvec_lawful_blocks; auto with wf.
Qed.
Example C37_ex :
  bprogram_ok dbg64 64 BNew [BPushBlock 0xb5; BPushBit true; BResize 200 true] /\
  snd (spec_bprogram dbg64 64 BNew [BPushBlock 0xb5; BPushBit true; BResize 200 true]) =
    Some (bits_of 64 0xb5 ++ repeatN true 136) /\
  (exists v, bvec_ends dbg64 64 BNew [BPushBlock 0xb5; BPushBit true; BResize 200 true] v /\
    (r <- rank9_new dbg64 (bvec_bitvec dbg64 64) v ;;
     select_v dbg64 (rank9_bitrank dbg64 (bvec_bitvec dbg64 64)) 65 true r 140) = Ok (Some 199) /\
    (r <- rank9_new dbg64 (bvec_bitvec dbg64 64) v ;;
     rank_v (rank9_bitrank dbg64 (bvec_bitvec dbg64 64)) true r 199) = Ok 141).
Proof.
  split; [split; vm_compute; intuition congruence|]. split; [vm_compute; reflexivity|].
  exists {| vb_len := 200; vb_vec := [0xb5; 2 ^ 64 - 1; 2 ^ 64 - 1; 255] |}.
  split; [exists 0%nat; intros; vm_compute; reflexivity|]. split; vm_compute; reflexivity.
Qed.

(** ** C60 *)
Ltac unbind := repeat match goal with
  | H : bind _ _ = Ok _ |- _ => apply bind_inv in H; destruct H as [? [_ H]]
  | H : (let (_, _) := ?x in _) = Ok _ |- _ => destruct x
  end.
(** The bit-vector methods of [W] on [w] are those of [B] on [t]. *)
Definition same_bits {T W} (BW : bitvec W) (w : W) (B : bitvec T) (t : T) : Prop :=
  bv_nb BW = bv_nb B /\ bv_bit_len BW w = bv_bit_len B t /\ bv_block_len BW w = bv_block_len B t /\
  (forall i, bv_get_bit BW w i = bv_get_bit B t i) /\ (forall i, bv_get_block BW w i = bv_get_block B t i) /\
  (forall s n, bv_get_bits BW w s n = bv_get_bits B t s n).
Theorem C60_jacobson_store : forall T c (B : bitvec T) t j, jacobson_new c B t = Ok j ->
  jacobson_inner j = t /\ same_bits (jacobson_bitvec B) j B t /\ same_bits (bss_bitvec (jacobson_bitvec B)) j B t.
Proof.
  intros T c B t j H. assert (E : jr_store j = t).
  { unfold jacobson_new in H. unbind. now injection H as <-. }
  unfold jacobson_inner, same_bits. cbn. rewrite E. repeat split; reflexivity.
Qed.
Theorem C60_rank9_store : forall T c (B : bitvec T) t r, rank9_new c B t = Ok r ->
  rank9_inner r = t /\ same_bits (rank9_bitvec B) r B t /\ same_bits (bss_bitvec (rank9_bitvec B)) r B t.
Proof.
  intros T c B t r H. assert (E : r9_store r = t).
  { unfold rank9_new in H. unbind. now injection H as <-. }
  unfold rank9_inner, same_bits. cbn. rewrite E. repeat split; reflexivity.
Qed.
(** The select wrapper answers rank queries like the structure it wraps. *)
Theorem C60_select_rank : forall T (K : bitrank T) t p v,
  br_rank1 (bss_bitrank K) t p = br_rank1 K t p /\ br_rank0 (bss_bitrank K) t p = br_rank0 K t p /\
  rs_rank (br_rs (bss_bitrank K)) t p v = rs_rank (br_rs K) t p v /\
  rs_limit (br_rs (bss_bitrank K)) t = rs_limit (br_rs K) t.
Proof. intros. repeat split. Qed.
Example C60_ex :
  (exists j, jacobson_new dbg64 (blocks_bitvec dbg64 8) sample = Ok j /\ jacobson_inner j = sample /\
    bv_get_bits (bss_bitvec (jacobson_bitvec (blocks_bitvec dbg64 8))) j 4 8 = Ok 27) /\
  (exists r, rank9_new dbg64 (blocks_bitvec dbg64 64) sample64 = Ok r /\ rank9_inner r = sample64 /\
    bv_get_bit (rank9_bitvec (blocks_bitvec dbg64 64)) r 7 = Ok true).
Proof.
  split; eexists; (split; [vm_compute; reflexivity|]); split; vm_compute; reflexivity.
Qed.

Print Assumptions C29_prim_rank.
Print Assumptions C30_jacobson_rank.
Print Assumptions C31_jacobson_new_partial.
Print Assumptions C31_room.
Print Assumptions C31_jacobson_new_small.
Print Assumptions C31_jacobson_new_refuted.
Print Assumptions C32_rank9.
Print Assumptions C33_jacobson.
Print Assumptions C33_rank9_partial.
Print Assumptions C33_rank9_padding.
Print Assumptions C33_prim_partial.
Print Assumptions C33_rank9_refuted.
Print Assumptions C33_prim_refuted.
Print Assumptions C34_binary_search.
Print Assumptions C34_average.
Print Assumptions C35_select.
Print Assumptions C35_rank_structures.
Print Assumptions C36_max_index_partial.
Print Assumptions C36_max_index_refuted.
Print Assumptions C37_jacobson_inverse.
Print Assumptions C37_rank9_inverse.
Print Assumptions C37_bitvector_inverse.
Print Assumptions C60_jacobson_store.
Print Assumptions C60_rank9_store.
Print Assumptions C60_select_rank.
