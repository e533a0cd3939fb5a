(** * Property C96: structures nested to any depth, and types that use the exported macros (src/macros.rs). *)
From Verif Require Import Machine SpecBits SpecCfg SpecLaws SpecRank MTraits MBitSlice MStream MRank MBroadword MSelect MAdapter SpecTower.
From Verif Require Import PBase PBits PBlocks PSlice PRank PRank9 PRankSlice PBitVector Properties5 Properties6 Properties7 Properties17.

Definition reads_well {T} (c : cfg) (B : bitvec T) (R : T -> list bool -> Prop) : Prop := lawful_bits c B R /\ lawful_block_reads B R.

Lemma well_sub {T} c (B : bitvec T) (R R' : T -> list bool -> Prop) : reads_well c B R -> (forall t l, R' t l -> R t l) -> reads_well c B R'.
Proof.
  intros [[H1 H2 H3 H4 H5 H6 H7] [K1 K2]] Hi. split.
  - constructor; [exact H1|intros t l H|intros t l H|intros t l i b H|intros t l i H|intros t l s n H|intros t l s n H];
      [eapply H2|eapply H3|eapply H4|eapply H5|eapply H6|eapply H7]; apply Hi; exact H.
  - constructor; [intros t l H|intros t l i H]; [eapply K1|eapply K2]; apply Hi; exact H.
Qed.
Lemma well_field {T F} c (field : T -> F) B R : reads_well c B R -> reads_well c (adapt_bitvec field B) (fun t l => R (field t) l).
Proof.
  intros [[H1 H2 H3 H4 H5 H6 H7] [K1 K2]]. split; constructor; cbn [adapt_bitvec bv_nb bv_bit_len bv_block_len bv_get_bit bv_get_block bv_get_bits]; eauto.
Qed.
Lemma well_buffer {T} c (B : bitvec T) R : wf_cfg c -> reads_well c B R -> reads_well c (bb_bitvec c B) (fun b l => R (bb_data b) l).
Proof.
  intros Hc [LB [K1 K2]]. pose proof (lb_nb _ _ _ LB) as Hnb. pose proof LB as [H1 H2 H3 H4 H5 H6 H7].
  assert (BL : forall b l, R (bb_data b) l -> bb_bit_len B b = Ok (lengthN l)) by (intros b l HR; exact (H3 _ _ HR)).
  assert (GB : forall b l i, R (bb_data b) l -> i * bv_nb B < lengthN l -> bb_get_block B b i = Ok (block_of (bv_nb B) i l)) by (intros b l i HR; exact (K2 _ _ i HR)).
  split; constructor; cbn [bb_bitvec bv_nb bv_bit_len bv_block_len bv_get_bit bv_get_block bv_get_bits]; eauto.
  - intros t l i b HR Hi. apply def_get_bit with (l := l); eauto.
  - intros t l i HR Hi _. apply def_get_bit_oob with (l := l); eauto.
  - intros t l s n HR Hs Hn Hx. apply def_get_bits; eauto. tauto.
  - intros t l s n HR Hs H64 _. apply def_get_bits_oob with (l := l); eauto.
Qed.
Lemma jacobson_store {T} c (B : bitvec T) t j : jacobson_new c B t = Ok j -> jr_store j = t.
Proof. intros H. exact (proj1 (C60_jacobson_store T c B t j H)). Qed.
Lemma rank9_store {T} c (B : bitvec T) t r : rank9_new c B t = Ok r -> r9_store r = t.
Proof. intros H. exact (proj1 (C60_rank9_store T c B t r H)). Qed.
Lemma well_slice {T} c (B : bitvec T) R : wf_cfg c -> reads_well c B R ->
  reads_well c (slice_bitvec c B) (fun sl l => exists t L r s e,
    R t L /\ bounds r (lengthN L) = (s, e) /\ slice_new B t r = Ok sl /\ l = sub s (e - s) L /\ (e - s) mod bv_nb B = 0).
Proof.
  intros Hc [LB _]. apply (well_sub c _ (R_whole B R)).
  - split; [exact (whole_bits c B R Hc LB)|exact (whole_reads c B R Hc LB)].
  - intros sl l (t & L & r & s & e & HR & Hb & Hn & -> & Hm). destruct (slice_new_R c B R t L r s e sl Hc LB HR Hb Hn) as [HS HL].
    split; [exact HS|]. now rewrite HL.
Qed.

(** ** Every tower reads like its bits *)
Theorem C96_reads : forall c T (B : bitvec T) R, wf_cfg c -> tower c T B R -> lawful_bits c B R /\ lawful_block_reads B R.
Proof.
  intros c T B R Hc H. induction H as [T B R H1 H2|T B R _ IH H64|T B R _ IH|T B R _ IH|T B R _ IH|T B R _ IH|T F field B R _ IH].
  - split; assumption.
  - apply (well_sub c _ (fun r l => R (r9_store r) l)); [exact (well_field c (@r9_store T) B R IH)|].
    intros r l (t & HR & E). now rewrite (rank9_store c B t r E).
  - apply (well_sub c _ (fun r l => R (jr_store r) l)); [exact (well_field c (@jr_store T) B R IH)|].
    intros r l (t & HR & E). now rewrite (jacobson_store c B t r E).
  - exact (well_field c (fun t : T => t) B R IH).
  - exact (well_buffer c B R Hc IH).
  - exact (well_slice c B R Hc IH).
  - exact (well_field c field B R IH).
Qed.

(** ** Over every tower a rank structure can be built *)
Theorem C96_builds : forall c T (B : bitvec T) R t l, wf_cfg c -> tower c T B R -> R t l ->
  (bv_nb B = 64 -> exists r, rank9_new c B t = Ok r) /\
  (2 <= lengthN l -> jac_room c (bv_nb B) (lengthN l) -> exists j, jacobson_new c B t = Ok j) /\
  (lengthN l <= 1 \/ ~ jac_room c (bv_nb B) (lengthN l) -> panics (jacobson_new c B t)).
Proof.
  intros c T B R t l Hc HT HR. destruct (C96_reads c T B R Hc HT) as [LB LK]. split; [|split].
  - intros H64. destruct (rank9_new_ok c B R Hc LB LK H64 t l HR) as (r & E & _). now exists r.
  - intros H2 Hm. destruct (jac_new c B R Hc LB LK t l HR H2 Hm) as (j & E & _). now exists j.
  - intros Hn. destruct (N.le_gt_cases (lengthN l) 1) as [H1|H1]; [now apply (jac_new_small c B R t l Hc LB HR)|].
    destruct (jac_new_exact c B R Hc LB LK t l HR ltac:(lia)) as [(j & _ & _ & _ & _ & Hm)|[H _]]; [|exact H]. exfalso. destruct Hn as [Hn|Hn]; [lia|]. now apply Hn.
Qed.

Lemma rank_sub {T} (K : bitrank T) (R R' : T -> list bool -> Prop) : lawful_rank K R -> (forall t l, R' t l -> R t l) -> lawful_rank K R'.
Proof.
  intros [H1 H2 H3 H4 H5] Hi. constructor; [intros t l H|intros t l H|intros t l p H|intros t l p H|intros t l p v H];
    [eapply H1|eapply H2|eapply H3|eapply H4|eapply H5]; apply Hi; exact H.
Qed.
Lemma rank_field {T F} (field : T -> F) (K : bitrank F) R : lawful_rank K R -> lawful_rank (adapt_bitrank field K) (fun t l => R (field t) l).
Proof.
  intros [H1 H2 H3 H4 H5]. constructor; cbn [adapt_bitrank adapt_ranksup br_rs br_rank1 br_rank0 rs_rank rs_limit]; eauto.
Qed.
Lemma ranked_lawful c T (K : bitrank T) R : wf_cfg c -> ranked c T K R -> lawful_rank K R.
Proof.
  intros Hc H. induction H as [nb Hnb| |T B R HT H64|T B R HT|T K R _ IH|T F field K R _ IH].
  - exact (proj2 (proj2 (C35_rank_structures _ c (blocks_bitvec c nb) (R_blocks c nb) Hc (blocks_lawful_bits c nb Hc Hnb) (blocks_lawful_blocks c nb Hnb))) nb Hnb).
  - exact (broadword_lawful c Hc).
  - destruct (C96_reads c T B R Hc HT) as [LB LK]. apply (rank_sub _ (R9_rep R)); [exact (rank9_lawful c B R Hc LB LK H64)|].
    intros r l (t & HR & E). destruct (rank9_new_ok c B R Hc LB LK H64 t l HR) as (r' & Er & _ & Hr). rewrite E in Er. injection Er as <-. exact Hr.
  - destruct (C96_reads c T B R Hc HT) as [LB LK]. apply (rank_sub _ (J_rep c B R)); [exact (jac_lawful c B R Hc LB LK)|].
    intros j l (t & HR & E). destruct (N.le_gt_cases (lengthN l) 1) as [H|H].
    + destruct (jac_new_small c B R t l Hc LB HR H) as [k Ek]. congruence.
    + destruct (jac_new_exact c B R Hc LB LK t l HR ltac:(lia)) as [(j' & Ej & _ & Hj & _)|[[k Ek] _]]; [|congruence]. rewrite E in Ej. injection Ej as <-. exact Hj.
  - exact (rank_field (fun t : T => t) K R IH).
  - exact (rank_field field K R IH).
Qed.
(** ** Every rank structure counts *)
Theorem C96_ranks : forall c T (K : bitrank T) R t l, wf_cfg c -> ranked c T K R -> R t l ->
  rs_limit (br_rs K) t = Ok (lengthN l) /\
  forall p, p < lengthN l -> br_rank1 K t p = Ok (count true (firstnN (p + 1) l)) /\ br_rank0 K t p = Ok (count false (firstnN (p + 1) l)) /\
    forall v, rs_rank (br_rs K) t p v = Ok (count v (firstnN (p + 1) l)).
Proof.
  intros c T K R t l Hc HK HR. destruct (ranked_lawful c T K R Hc HK) as [H1 H2 H3 H4 H5]. split; [now apply H2|].
  intros p Hp. split; [now apply H3|]. split; [now apply H4|]. intros v. now apply H5.
Qed.
(** ** Every select structure finds *)
Theorem C96_selects : forall c fuel T (S1 : select1sup T) (S0 : select0sup T) (SS : selectsup bool T) (R : T -> list bool -> Prop) (t : T) (l : list bool) i (v : bool), wf_cfg c -> (64 < fuel)%nat -> selecting c fuel T S1 S0 SS R -> R t l -> i < 2 ^ 64 - 1 ->
  exists o, (if v then s1_select1 S1 t i else s0_select0 S0 t i) = Ok o /\ ss_select SS t i v = Ok o /\
    (forall p, o = Some p <-> nthN l p = Some v /\ count v (firstnN p l) = i) /\ (o = None <-> count v l <= i).
Proof.
  intros c fuel T S1 S0 SS R t l i v Hc Hf HS HR Hi. revert t HR. induction HS as [T K R HK|T F field S1 S0 SS R _ IH]; intros t HR.
  - destruct (C35_select T c K R t l i v fuel (ranked_lawful c T K R Hc HK) HR Hi Hf) as [(o1 & E1 & A1 & A2) (o2 & E2 & B1 & B2)].
    exists o1. split; [exact E1|]. split; [|split; assumption].
    cbn [bss_selectsup ss_select]. rewrite E2. f_equal. destruct o1 as [p|].
    + apply (B1 p), (A1 p). reflexivity.
    + apply B2, A2. reflexivity.
  - exact (IH (field t) HR).
Qed.
(** ** The crate's own uses of the macros *)
Theorem C96_macros : forall T (B : bitvec T) (K : bitrank T),
  rank9_bitvec B = adapt_bitvec (@r9_store T) B /\ jacobson_bitvec B = adapt_bitvec (@jr_store T) B /\
  bss_bitvec B = adapt_bitvec (fun t => t) B /\ bss_bitrank K = adapt_bitrank (fun t => t) K.
Proof. intros. repeat split; reflexivity. Qed.

(** A type of the user's own: a name and a [BinSearchSelect<Rank9<JacobsonRank<Vec<u64>>>>] *)
Record named (T : Type) := { nm_name : N; nm_index : T }.
Arguments nm_index {T} _.
Definition ex_blocks : list N := [0xff; 0; 2 ^ 63 + 1].
Definition ex_B := jacobson_bitvec (blocks_bitvec dbg64 64).
Definition ex_K := adapt_bitrank (@nm_index (rank9 (jacobson (list N)))) (bss_bitrank (rank9_bitrank dbg64 ex_B)).
Definition ex_R (t : named (rank9 (jacobson (list N)))) (l : list bool) : Prop :=
  exists j, (exists b, R_blocks dbg64 64 b l /\ jacobson_new dbg64 (blocks_bitvec dbg64 64) b = Ok j) /\ rank9_new dbg64 ex_B j = Ok (nm_index t).
Example C96_ex : ranked dbg64 _ ex_K ex_R /\ exists j r, jacobson_new dbg64 (blocks_bitvec dbg64 64) ex_blocks = Ok j /\ rank9_new dbg64 ex_B j = Ok r /\
  let t := {| nm_name := 5; nm_index := r |} in ex_R t (bits_of_blocks 64 ex_blocks) /\
  br_rank1 ex_K t 130 = Ok 9 /\ br_rank0 ex_K t 130 = Ok 122 /\ s1_select1 (adapt_select1 (@nm_index _) (bss_select1sup dbg64 (rank9_bitrank dbg64 ex_B) 65)) t 9 = Ok (Some 191).
Proof.
  assert (H0 : tower dbg64 _ (blocks_bitvec dbg64 64) (R_blocks dbg64 64)).
  { apply tw_store; [exact (blocks_lawful_bits dbg64 64 wf_dbg64 wf64)|exact (block_reads dbg64 _ _ (blocks_lawful_blocks dbg64 64 wf64))]. }
  split.
  - exact (rk_user dbg64 _ _ (@nm_index (rank9 (jacobson (list N)))) _ _ (rk_select dbg64 _ _ _ (rk_rank9 dbg64 _ _ _ (tw_jacobson dbg64 _ _ _ H0) eq_refl))).
  - destruct (jacobson_new dbg64 (blocks_bitvec dbg64 64) ex_blocks) as [j| |] eqn:Ej; [|vm_compute in Ej; discriminate..].
    destruct (rank9_new dbg64 ex_B j) as [r| |] eqn:Er; [|vm_compute in Ej; injection Ej as <-; vm_compute in Er; discriminate..].
    exists j, r. split; [reflexivity|]. split; [exact Er|]. intros t. split; [|vm_compute in Ej; injection Ej as <-; vm_compute in Er; injection Er as <-; repeat split; vm_compute; reflexivity].
    exists j. split; [|exact Er]. exists ex_blocks. split; [|exact Ej]. split; [reflexivity|]. split; [|vm_compute; congruence]. repeat constructor.
Qed.

Print Assumptions C96_reads.
Print Assumptions C96_builds.
Print Assumptions C96_ranks.
Print Assumptions C96_selects.
Print Assumptions C96_macros.
