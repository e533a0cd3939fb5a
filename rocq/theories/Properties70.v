(** * Property C121: the sieve of Eratosthenes ([MSieve.v]). *)
From Coq Require Import Sorted.
From Verif Require Import Machine MStorage MTraits MVectorBase MBitVector MRank MSelect MSieve
  SpecBits SpecCfg SpecLaws SpecRank PBase PStorage PBits PBlocks PVectorBase PBitVector PRank PRank9 PSelect Properties6.

(** A number from 2 on that only 1 and itself divide. *)
Definition prime (p : N) : Prop := 2 <= p /\ forall d, (d | p) -> d = 1 \/ d = p.

(** ** Arithmetic *)
(** Nothing from 2 to below [i] properly divides [j]. *)
Definition passed (i j : N) : Prop := 2 <= j /\ forall d, 2 <= d -> d < i -> d < j -> ~ (d | j).
Lemma divide_mul d j : 2 <= d -> (d | j) -> d < j -> exists k, j = k * d /\ 2 <= k /\ (k | j) /\ k < j.
Proof.
  intros Hd [k E] Hj. exists k. assert (2 <= k) by (destruct (N.lt_ge_cases k 2); [|assumption]; assert (k = 0 \/ k = 1) as [->| ->] by lia; lia).
  split; [exact E|]. split; [assumption|]. split; [exists d; lia|]. nia.
Qed.
Lemma passed_prime i j : j < i * i -> passed i j <-> prime j.
Proof.
  intros Hi. split.
  - intros [H2 H]. split; [exact H2|]. intros d Hd. destruct (N.eq_dec d j) as [|Hne]; [now right|]. left.
    assert (Hdj : d < j) by (pose proof (N.divide_pos_le d j ltac:(lia) Hd); lia).
    destruct (N.lt_ge_cases d 2) as [Hl|Hl].
    { assert (d = 0 \/ d = 1) as [->|] by lia; [|assumption]. apply N.divide_0_l in Hd. lia. }
    exfalso. destruct (divide_mul d j Hl Hd Hdj) as (k & E & Hk & Hkd & Hkj). destruct (N.lt_ge_cases d i) as [Hdi|Hdi]; [exact (H d Hl Hdi Hdj Hd)|].
    destruct (N.lt_ge_cases k i) as [Hki|Hki]; [exact (H k Hk Hki Hkj Hkd)|]. nia.
  - intros [H2 H]. split; [exact H2|]. intros d Hd _ Hdj HD. destruct (H d HD); lia.
Qed.
Lemma passed_2 j : passed 2 j <-> 2 <= j.
Proof. split; [now intros [H _]|]. intros H. split; [exact H|]. intros d H1 H2. lia. Qed.
Lemma passed_skip i j : 2 <= i -> ~ passed i i -> passed i j <-> passed (i + 1) j.
Proof.
  intros Hi Hn. split; intros [H2 H]; (split; [exact H2|]); intros d H3 H4 H5 HD; [|apply (H d); auto; lia].
  destruct (N.eq_dec d i) as [->|]; [|apply (H d); auto; lia]. apply Hn. split; [exact Hi|]. intros e He He1 He2 HE. apply (H e He He1); [lia|]. now apply N.divide_trans with i.
Qed.
Lemma passed_cross i j : 2 <= i -> passed i j /\ ~ (i * i <= j /\ (i | j)) <-> passed (i + 1) j.
Proof.
  intros Hi. split.
  - intros [[H2 H] Hn]. split; [exact H2|]. intros d H3 H4 H5 HD. destruct (N.eq_dec d i) as [->|]; [|apply (H d); auto; lia].
    destruct (divide_mul i j Hi HD H5) as (k & E & Hk & Hkd & Hkj). destruct (N.lt_ge_cases k i) as [Hki|Hki]; [exact (H k Hk Hki Hkj Hkd)|].
    apply Hn. split; [nia|exact HD].
  - intros [H2 H]. split; [split; [exact H2|]; intros d H3 H4 H5; apply H; auto; lia|]. intros [H3 HD]. apply (H i); auto; [lia|nia].
Qed.

(** ** The loops *)
Section Store.
  Context {T : Type} (c : cfg) (M : bitvecmut T) (R : T -> list bool -> Prop).
  Hypothesis Hc : wf_cfg c.
  Hypothesis LB : lawful_bits c (bm_bv M) R.
  Hypothesis LM : lawful_mut c M R.

  (** The bits of a list as a set. *)
  Definition marks (l : list bool) (n : N) (P : N -> Prop) : Prop := lengthN l = n /\ forall j, j < n -> exists b, nthN l j = Some b /\ (b = true <-> P j).
  Lemma store_small t l : R t l -> lengthN l <= 2 ^ 63.
  Proof.
    intros HR. pose proof (lb_fits _ _ _ LB t l HR) as HF. pose proof (max_bits_lt c) as Hm. unfold fits in HF. pose proof (lb_nb _ _ _ LB) as Hnb. pose proof (wf_nb_range _ Hnb) as Hr.
    pose proof (blocks_for_spec (bv_nb (bm_bv M)) (lengthN l) ltac:(lia)). lia.
  Qed.

  Lemma cross_ok n i : 2 <= i -> i <= n -> forall m fuel j t l (P : N -> Prop), R t l -> marks l n P -> (i | j) -> n - j < N.of_nat m -> (m <= fuel)%nat -> n <= 2 ^ 63 ->
    exists t' l', cross_out c M fuel n i j t = Ok t' /\ R t' l' /\ marks l' n (fun q => P q /\ ~ (j <= q /\ (i | q))).
  Proof.
    intros Hi Hin. induction m as [|m IH]; intros fuel j t l P HR HM HD Hm Hf Hn; [lia|]. destruct fuel as [|fuel]; [lia|]. unfold cross_out. cbn [loop_fuel]. destruct (j <? n) eqn:E.
    - destruct HM as [HL HB]. destruct (lm_set_bit _ _ _ LM t l j false HR ltac:(lia)) as (t1 & E1 & R1). rewrite E1. cbn [bind]. rewrite wadd_ok by lia. cbn [bind].
      destruct (IH fuel (j + i) t1 (updN l j false) (fun q => P q /\ q <> j) R1) as (t' & l' & E2 & R2 & L2 & M2); [| |lia|lia|lia|].
      + split; [now rewrite lengthN_updN|]. intros q Hq. rewrite nthN_updN. destruct (q =? j) eqn:Eq.
        * rewrite HL. destruct (j <? n) eqn:E3; [|lia]. exists false. split; [reflexivity|]. split; [discriminate|]. intros [_ H]. lia.
        * destruct (HB q Hq) as (b & Hb & Hb'). exists b. split; [exact Hb|]. rewrite Hb'. split; [intros; split; [assumption|lia]|tauto].
      + apply N.divide_add_r; [exact HD|apply N.divide_refl].
      + exists t', l'. split; [exact E2|]. split; [exact R2|]. split; [exact L2|]. intros q Hq. destruct (M2 q Hq) as (b & Hb & Hb'). exists b. split; [exact Hb|]. rewrite Hb'. split.
        * intros [[H1 H2] H3]. split; [exact H1|]. intros [H4 H5]. apply H3. split; [|exact H5].
          destruct (N.lt_ge_cases q (j + i)) as [Hlt|]; [|assumption]. exfalso. assert (Hd : (i | q - j)) by (apply N.divide_sub_r; assumption).
          pose proof (N.divide_pos_le i (q - j) ltac:(lia) Hd). lia.
        * intros [H1 H2]. split; [split; [exact H1|]|].
          -- intros ->. apply H2. split; [apply N.le_refl|exact HD].
          -- intros [H3 H4]. apply H2. split; [lia|exact H4].
    - exists t, l. split; [reflexivity|]. split; [exact HR|]. destruct HM as [HL HB]. split; [exact HL|]. intros q Hq. destruct (HB q Hq) as (b & Hb & Hb'). exists b. split; [exact Hb|].
      rewrite Hb'. split; [intros H; split; [exact H|]; intros [H1 _]; lia|tauto].
  Qed.
  Lemma outer_ok n : n <= 2 ^ 63 -> forall m fuel0 fuel i t l, 2 <= i -> (N.to_nat n < fuel0)%nat -> R t l -> marks l n (passed i) -> n + 2 - i < N.of_nat m -> (m <= fuel)%nat ->
    exists t' l', loop_fuel fuel (fun '(i, v) =>
      q <- wdiv n i ;;
      if i <=? q then
        b <- bv_get_bit (bm_bv M) v i ;;
        v <- (if b then j <- wmul c 64 i i ;; cross_out c M fuel0 n i j v else Ok v) ;;
        i <- wadd c 64 i 1 ;;
        Ok (Continue (i, v))
      else Ok (Return v)) (i, t) = Ok t' /\ R t' l' /\ marks l' n prime.
  Proof.
    intros Hn. induction m as [|m IH]; intros fuel0 fuel i t l Hi Hf0 HR HM Hm Hf; [lia|]. destruct fuel as [|fuel]; [lia|]. cbn [loop_fuel].
    unfold wdiv at 1. destruct (i =? 0) eqn:E0; [lia|]. cbn [bind]. destruct (i <=? n / i) eqn:E.
    - assert (Hii : i * i <= n) by (etransitivity; [apply N.mul_le_mono_l; apply N.leb_le; exact E|apply N.mul_div_le; lia]).
      assert (Hin : i < n) by nia. pose proof HM as [HL HB]. destruct (HB i Hin) as (b & Hb & Hb'). rewrite (lb_get_bit _ _ _ LB t l i b HR Hb). cbn [bind]. destruct b.
      + rewrite wmul_ok by lia. cbn [bind].
        destruct (cross_ok n i Hi ltac:(lia) (Datatypes.S (N.to_nat n)) fuel0 (i * i) t l (passed i) HR HM) as (t1 & l1 & E1 & R1 & M1); [now exists i|lia|lia|exact Hn|].
        rewrite E1. cbn [bind]. rewrite wadd_ok by lia. cbn [bind]. apply (IH fuel0 fuel (i + 1) t1 l1); auto; try lia.
        destruct M1 as [L1 B1]. split; [exact L1|]. intros j Hj. destruct (B1 j Hj) as (b & Hq & Hq'). exists b. split; [exact Hq|]. rewrite Hq'. now apply passed_cross.
      + cbn [bind]. rewrite wadd_ok by lia. cbn [bind]. apply (IH fuel0 fuel (i + 1) t l); auto; try lia.
        split; [exact HL|]. intros j Hj. destruct (HB j Hj) as (b & Hq & Hq'). exists b. split; [exact Hq|]. rewrite Hq'. apply passed_skip; [exact Hi|]. intros HP. apply Hb' in HP. discriminate.
    - cbn [bind]. exists t, l. split; [reflexivity|]. split; [exact HR|]. destruct HM as [HL HB]. split; [exact HL|]. intros j Hj. destruct (HB j Hj) as (b & Hq & Hq'). exists b. split; [exact Hq|].
      rewrite Hq'. apply passed_prime. assert (n < i * i); [|lia]. apply N.leb_gt in E. pose proof (N.mul_succ_div_gt n i ltac:(lia)). nia.
  Qed.
End Store.

(** ** The bits left are the primes, in any store *)
Theorem C121_sieve : forall T c (M : bitvecmut T) (R : T -> list bool -> Prop) t l fuel, wf_cfg c -> lawful_bits c (bm_bv M) R -> lawful_mut c M R ->
  R t l -> (N.to_nat (lengthN l) + 2 < fuel)%nat ->
  exists t' l', sieve c M fuel t = Ok t' /\ R t' l' /\ lengthN l' = lengthN l /\
    forall j, j < lengthN l -> exists b, nthN l' j = Some b /\ (b = true <-> prime j).
Proof.
  intros T c M R t l fuel Hc LB LM HR Hf. set (n := lengthN l) in *. pose proof (store_small c M R LB t l HR) as Hn. fold n in Hn.
  unfold sieve. rewrite (lb_bit_len _ _ _ LB t l HR). cbn [bind]. fold n.
  destruct (for_range_ind (fun i t => exists l, R t l /\ lengthN l = n /\ forall j, j < i -> nthN l j = Some (2 <=? j)) (fun i v => bm_set_bit M v i (2 <=? i)) 0 n t) as (t1 & E1 & l1 & R1 & L1 & B1).
  - lia.
  - exists l. split; [exact HR|]. split; [reflexivity|]. intros j Hj. lia.
  - intros j u H1 H2 (k & Rk & Lk & Bk). destruct (lm_set_bit _ _ _ LM u k j (2 <=? j) Rk ltac:(lia)) as (u' & Eu & Ru). exists u'. split; [exact Eu|]. exists (updN k j (2 <=? j)).
    split; [exact Ru|]. split; [now rewrite lengthN_updN|]. intros q Hq. rewrite nthN_updN, Lk. destruct (q =? j) eqn:E.
    + apply N.eqb_eq in E. subst q. destruct (j <? n) eqn:E2; [reflexivity|lia]. + apply Bk. lia.
  - rewrite E1. cbn [bind].
    destruct (outer_ok c M R LB LM n Hn (N.to_nat n + 2) fuel fuel 2 t1 l1 ltac:(lia) ltac:(lia) R1) as (t' & l' & E2 & R2 & L2 & B2); [|lia|lia|].
    + split; [exact L1|]. intros j Hj. exists (2 <=? j). split; [now apply B1|]. rewrite passed_2. apply N.leb_le.
    + exists t', l'. auto.
Qed.

(** ** With rank and select: primes counted and found *)
Fixpoint trues (p : N) (l : list bool) : list N := match l with [] => [] | b :: t => if b then p :: trues (p + 1) t else trues (p + 1) t end.
Lemma trues_In l : forall p q, In q (trues p l) <-> p <= q /\ nthN l (q - p) = Some true.
Proof.
  induction l as [|b t IH]; intros p q; cbn [trues]; [rewrite nthN_nil; cbn; split; [tauto|intros [_ H]; discriminate]|].
  rewrite nthN_cons. assert (Hs : p <= q -> q <> p -> q - p - 1 = q - (p + 1)) by lia. destruct b; cbn [In]; rewrite IH; destruct (q - p =? 0) eqn:E.
  - split; [intros [->|[H _]]; [split; [lia|reflexivity]|lia]|]. intros [H _]. left. lia.
  - split; [intros [->|[H H1]]; [lia|split; [lia|now rewrite Hs by lia]]|]. intros [H H1]. right. split; [lia|]. now rewrite <- Hs by lia.
  - split; [lia|]. intros [_ H]. discriminate.
  - split; intros [H H1]; (split; [lia|]); [now rewrite Hs by lia|now rewrite <- Hs by lia].
Qed.
Lemma trues_sorted l : forall p, StronglySorted N.lt (trues p l).
Proof.
  induction l as [|b t IH]; intros p; cbn [trues]; [constructor|]. destruct b; [|apply IH]. constructor; [apply IH|]. apply Forall_forall. intros q Hq. apply trues_In in Hq. lia.
Qed.
Lemma trues_length l : forall p, lengthN (trues p l) = count true l.
Proof. induction l as [|b t IH]; intros p; [reflexivity|]. cbn [trues count]. destruct b; [rewrite lengthN_cons|]; rewrite IH; cbn [Bool.eqb]; lia. Qed.
Lemma trues_rank l : forall p k, count true (firstnN k l) = lengthN (filter (fun q => q <? p + k) (trues p l)).
Proof.
  induction l as [|b t IH]; intros p k; [unfold firstnN; now rewrite firstn_nil|]. destruct (N.eq_dec k 0) as [->|Hk].
  - rewrite firstnN_0. cbn [count]. rewrite N.add_0_r. assert (E : filter (fun q => q <? p) (trues p (b :: t)) = []); [|now rewrite E].
    assert (H : forall q, In q (trues p (b :: t)) -> p <= q) by (intros q Hq; now apply trues_In in Hq). revert H. generalize (trues p (b :: t)). induction l as [|x l IHl]; intros H; [reflexivity|].
    cbn [filter]. destruct (x <? p) eqn:E; [pose proof (H x (or_introl eq_refl)); lia|]. apply IHl. intros q Hq. apply H. now right.
  - assert (E : firstnN k (b :: t) = b :: firstnN (k - 1) t) by (unfold firstnN; replace (N.to_nat k) with (Datatypes.S (N.to_nat (k - 1))) by lia; reflexivity).
    rewrite E. cbn [count trues]. rewrite (IH (p + 1) (k - 1)). replace (p + 1 + (k - 1)) with (p + k) by lia. destruct b; cbn [Bool.eqb]; [|lia].
    cbn [filter]. destruct (p <? p + k) eqn:B; [|lia]. rewrite lengthN_cons. lia.
Qed.
Lemma trues_select l : forall p i q, nthN (trues p l) i = Some q -> p <= q /\ is_select true l i (q - p).
Proof.
  induction l as [|b t IH]; intros p i q; cbn [trues]; [discriminate|].
  assert (K : forall x d, nthN t x = Some true -> count true (firstnN x t) = d -> is_select true (b :: t) ((if b then 1 else 0) + d) (x + 1)).
  { intros x d H1 H2. split; [rewrite nthN_cons; destruct (x + 1 =? 0) eqn:E; [lia|]; now replace (x + 1 - 1) with x by lia|].
    replace (firstnN (x + 1) (b :: t)) with (b :: firstnN x t) by (unfold firstnN; now replace (N.to_nat (x + 1)) with (Datatypes.S (N.to_nat x)) by lia).
    cbn [count]. rewrite H2. destruct b; reflexivity. }
  destruct b.
  - rewrite nthN_cons. destruct (i =? 0) eqn:E.
    + intros [= <-]. split; [lia|]. rewrite N.sub_diag. split; [reflexivity|]. apply N.eqb_eq in E. now rewrite E.
    + intros H. destruct (IH (p + 1) (i - 1) q H) as [H1 [H2 H3]]. split; [lia|]. specialize (K _ _ H2 H3). now replace (1 + (i - 1)) with i in K by lia; replace (q - (p + 1) + 1) with (q - p) in K by lia.
  - intros H. destruct (IH (p + 1) i q H) as [H1 [H2 H3]]. split; [lia|]. specialize (K _ _ H2 H3). now replace (0 + i) with i in K by lia; replace (q - (p + 1) + 1) with (q - p) in K by lia.
Qed.

Theorem C121_primes : forall c n fuel, wf_cfg c -> fits c 64 n -> (N.to_nat n + 2 < fuel)%nat ->
  exists t ps, primes c fuel n = Ok t /\
    (* the primes below n, in order *)
    StronglySorted N.lt ps /\ (forall q, In q ps <-> q < n /\ prime q) /\
    (forall p, p < n -> exists b, is_prime c t p = Ok b /\ (b = true <-> prime p)) /\
    (forall p, p < n -> count_up_to c t p = Ok (lengthN (filter (fun q => q <=? p) ps))) /\
    (forall fuel' i, (64 < fuel')%nat -> i < 2 ^ 64 - 1 -> nth_prime c fuel' t i = Ok (nthN ps i)).
Proof.
  intros c n fuel Hc HF Hf. assert (H64 : wf_nb 64) by (unfold wf_nb; auto).
  destruct (bvec_with_fill_ok c 64 Hc H64 n false HF) as (m0 & E0 & M0). pose proof (bvec_lawful_bits c 64 Hc H64) as LB. pose proof (bvec_lawful_blocks c 64 Hc H64) as LK.
  destruct (C121_sieve _ c (bvec_bitvecmut c 64) (R_bv c 64) m0 (repeatN false n) fuel Hc LB (bvec_lawful_mut c 64 Hc H64) M0) as (m & l & E1 & M & LL & HB); [now rewrite lengthN_repeatN|].
  rewrite lengthN_repeatN in LL, HB.
  destruct (rank9_new_ok c (bvec_bitvec c 64) (R_bv c 64) Hc LB (block_reads c _ _ LK) eq_refl m l M) as (d & Ed & Es & _).
  destruct (C35_rank_structures _ c (bvec_bitvec c 64) (R_bv c 64) Hc LB LK) as (_ & LR & _). specialize (LR eq_refl).
  assert (HD : exists m, R_bv c 64 m l /\ rank9_new c (bvec_bitvec c 64) m = Ok d) by (exists m; auto).
  assert (HI : forall q, In q (trues 0 l) <-> q < n /\ prime q).
  { intros q. rewrite trues_In, N.sub_0_r. split.
    - intros [_ H]. assert (Hq : q < n) by (destruct (N.lt_ge_cases q n) as [|Hge]; [assumption|]; rewrite <- LL in Hge; apply nthN_None in Hge; congruence). split; [exact Hq|]. destruct (HB q Hq) as (b & Hb & Hb'). apply Hb'. congruence.
    - intros [Hq HP]. split; [lia|]. destruct (HB q Hq) as (b & Hb & Hb'). apply Hb' in HP. congruence. }
  exists d, (trues 0 l). unfold primes. rewrite E0. cbn [bind]. rewrite E1. cbn [bind]. split; [exact Ed|]. split; [apply trues_sorted|]. split; [exact HI|]. split; [|split].
  - intros p Hp. destruct (HB p Hp) as (b & Hb & Hb'). exists b. split; [|exact Hb']. unfold is_prime, bss_bitvec, rank9_bitvec. cbn [bv_get_bit]. rewrite Es. exact (lb_get_bit _ _ _ LB m l p b M Hb).
  - intros p Hp. unfold count_up_to. rewrite (lr_rank1 _ _ LR d l p HD) by lia. unfold rank_of. rewrite (trues_rank l 0 (p + 1)). f_equal. f_equal. apply filter_ext. intros q. destruct (q <? 0 + (p + 1)) eqn:A, (q <=? p) eqn:B; lia || reflexivity.
  - intros fuel' i Hf' Hi. unfold nth_prime. destruct (C35_select _ c _ _ d l i true fuel' LR HD Hi Hf') as [(o & Eo & A1 & A2) _]. cbn iota in Eo. rewrite Eo. f_equal.
    destruct (nthN (trues 0 l) i) as [q|] eqn:E.
    + apply A1. apply trues_select in E. destruct E as [_ E]. rewrite N.sub_0_r in E. exact E.
    + apply A2. rewrite <- (trues_length l 0). now apply nthN_None.
Qed.

Example C121_ex :
  (exists t, primes dbg64 140 130 = Ok t /\ is_prime dbg64 t 127 = Ok true /\ is_prime dbg64 t 121 = Ok false /\ count_up_to dbg64 t 100 = Ok 25 /\
     nth_prime dbg64 70 t 24 = Ok (Some 97) /\ nth_prime dbg64 70 t 30 = Ok (Some 127) /\ nth_prime dbg64 70 t 31 = Ok None) /\
  sieve rel32 (bvec_bitvecmut rel32 8) 20 {| vb_len := 13; vb_vec := [0x55; 0x1f] |} = Ok {| vb_len := 13; vb_vec := [0xac; 0x08] |} /\
  primes rel64 4 1 = primes rel64 400 1.
Proof.
  split; [|split; vm_compute; reflexivity]. eexists. split; [vm_compute; reflexivity|]. do 5 (split; [vm_compute; reflexivity|]). vm_compute. reflexivity.
Qed.
(** The hypotheses are met. *)
Example C121_ex_ok : wf_cfg rel32 /\ fits rel32 64 100000 /\
  lawful_bits rel32 (bm_bv (bvec_bitvecmut rel32 8)) (R_bv rel32 8) /\ lawful_mut rel32 (bvec_bitvecmut rel32 8) (R_bv rel32 8) /\ prime 13 /\ ~ prime 12.
Proof.
  assert (Hc : wf_cfg rel32) by (unfold wf_cfg; auto). assert (H8 : wf_nb 8) by (unfold wf_nb; auto).
  split; [exact Hc|]. split; [vm_compute; congruence|]. split; [exact (bvec_lawful_bits rel32 8 Hc H8)|]. split; [exact (bvec_lawful_mut rel32 8 Hc H8)|]. split.
  - apply (passed_prime 4); [lia|]. split; [lia|]. intros d H1 H2 _. assert (d = 2 \/ d = 3) as [-> | ->] by lia; intros HD; apply N.mod_divide in HD; try lia; discriminate.
  - intros [_ H]. destruct (H 3); [now exists 4|lia|lia].
Qed.

Print Assumptions C121_sieve.
Print Assumptions C121_primes.
