(** * C90: the derived [Eq], [Ord], [Hash] and [Debug] of addresses, iterators, vectors, slices, buffers and rank structures. *)
From Coq Require Import Ascii String DecimalString Decimal DecimalN.
From Verif Require Import Machine MStorage MTraits MVectorBase MBitVector MIntVector MBitSlice MStream MRank MDerive MDerive2 SpecBits SpecCfg SpecDerive SpecOps
  PBase PStorage PBits PVectorBase PIter PIntVector PBitVector PRun PIntRun PDerive Properties1 Properties4 Properties14 Properties20.
Local Open Scope list_scope.
Local Open Scope N_scope.

(** ** Addresses are compared as the bit positions they stand for. *)
Theorem C90_address : forall c nb i j a b, wf_cfg c -> wf_nb nb -> i < 2 ^ 64 -> j < 2 ^ 64 ->
  address_new c nb i = Ok a -> address_new c nb j = Ok b ->
  addr_cmp a b = (i ?= j) /\ addr_eq a b = (i =? j) /\ (addr_hash a = addr_hash b <-> i = j).
Proof.
  intros c nb i j a b Hc Hnb Hi Hj Ea Eb. pose proof (wf_nb_range nb Hnb) as Hr.
  assert (Hf : forall i a, i < 2 ^ 64 -> address_new c nb i = Ok a -> block_index a = i / nb /\ bit_offset a = i mod nb).
  { clear i j a b Hi Hj Ea Eb. intros i a Hi E. destruct (N.lt_ge_cases (i / nb) (2 ^ ptr c)) as [H|H].
    - rewrite address_new_ok in E by assumption. injection E as <-. auto.
    - rewrite address_new_panic in E by assumption. discriminate. }
  destruct (Hf i a Hi Ea) as [A1 A2]. destruct (Hf j b Hj Eb) as [B1 B2]. unfold addr_cmp, addr_eq, addr_hash. rewrite A1, A2, B1, B2.
  pose proof (N.div_mod i nb ltac:(lia)) as Di. pose proof (N.div_mod j nb ltac:(lia)) as Dj.
  pose proof (N.mod_lt i nb ltac:(lia)) as Mi. pose proof (N.mod_lt j nb ltac:(lia)) as Mj.
  set (qi := i / nb) in *. set (qj := j / nb) in *. set (ri := i mod nb) in *. set (rj := j mod nb) in *. clearbody qi qj ri rj. clear Hf Ea Eb A1 A2 B1 B2.
  assert (L : forall q r q' r', q < q' -> r < nb -> nb * q + r < nb * q' + r') by (intros; nia).
  assert (EQ : i = j <-> qi = qj /\ ri = rj).
  { split; [|intros [-> ->]; lia]. intros E. destruct (N.lt_trichotomy qi qj) as [H|[H|H]]; [specialize (L qi ri qj rj H Mi); lia|subst; lia|specialize (L qj rj qi ri H Mj); lia]. }
  split; [|split].
  - destruct (N.compare_spec qi qj) as [->|H|H].
    + destruct (N.compare_spec ri rj) as [->|H|H]; symmetry; [apply N.compare_eq_iff|apply N.compare_lt_iff|apply N.compare_gt_iff]; lia.
    + symmetry. apply N.compare_lt_iff. specialize (L qi ri qj rj H Mi). lia.
    + symmetry. apply N.compare_gt_iff. specialize (L qj rj qi ri H Mj). lia.
  - apply eq_true_iff_eq. rewrite andb_true_iff, !N.eqb_eq. symmetry. exact EQ.
  - rewrite EQ. split; [intros E; injection E; auto|intros [-> ->]; reflexivity].
Qed.

(** ** Iterators.  The two ends of an iterator over a vector of [b] elements after some calls: skipping may carry the front end past the
    back end (see C22). *)
Fixpoint cursor (a b : N) (calls : list itop) : N * N :=
  let forth a := if a <? b then a + 1 else a in
  match calls with
  | [] => (a, b)
  | ItNext :: t => cursor (forth a) b t
  | ItNextBack :: t => cursor a (if a <? b then b - 1 else b) t
  | ItNth n :: t => cursor (forth (if a + n <? 2 ^ 64 then a + n else b)) b t
  end.
Lemma it_next_rest c nb it o it' : it_next c nb it = Ok (o, it') -> it_bits it' = it_bits it /\ it_data it' = it_data it.
Proof.
  unfold it_next. intros E. destruct (it_start it <? it_limit it) eqn:E1; [|injection E as _ <-; auto].
  destruct (wmul c 64 (it_bits it) (it_start it)); try discriminate. cbn [bind] in E.
  destruct (vb_get_bits c nb _ _ _ _); try discriminate. cbn [bind] in E. destruct (wadd c 64 (it_start it) 1); try discriminate. cbn [bind] in E. injection E as _ <-. auto.
Qed.
Lemma it_next_back_rest c nb it o it' : it_next_back c nb it = Ok (o, it') -> it_bits it' = it_bits it /\ it_data it' = it_data it.
Proof.
  unfold it_next_back. intros E. destruct (it_start it <? it_limit it) eqn:E1; [|injection E as _ <-; auto].
  rewrite wsub_ok in E by lia. cbn [bind] in E. destruct (wmul c 64 (it_bits it) _); try discriminate. cbn [bind] in E.
  destruct (vb_get_bits c nb _ _ _ _); try discriminate. cbn [bind] in E. injection E as _ <-. auto.
Qed.
Section Cursor.
  Context {A : Type} (c : cfg) (nb : N).
  Context (next next_back : vbiter -> res (option A * vbiter)) (nth : vbiter -> N -> res (option A * vbiter)).
  Context (R : vbiter -> list A -> Prop).
  Hypothesis H1 : forall it xs, R it xs -> exists it', next it = Ok (hd_error xs, it') /\ R it' (tl xs) /\ exists o, it_next c nb it = Ok (o, it').
  Hypothesis H2 : forall it xs, R it xs -> exists it', next_back it = Ok (hd_error (rev xs), it') /\ R it' (removelast xs) /\ exists o, it_next_back c nb it = Ok (o, it').
  Hypothesis H3 : forall it xs n, R it xs -> n < 2 ^ 64 -> exists it', nth it n = Ok (nthN xs n, it') /\ R it' (tl (skipnN n xs)) /\ exists o, it_nth c nb it n = Ok (o, it').
  Hypothesis Hc : wf_cfg c.
  Lemma cursor_run calls : forall it xs, R it xs -> it_limit it < 2 ^ 64 -> it_start it < 2 ^ 64 -> Forall (skip_ok c) calls ->
    exists it', snd (run (it_step next next_back nth) it calls) = Ok it' /\ (it_start it', it_limit it') = cursor (it_start it) (it_limit it) calls /\
      it_bits it' = it_bits it /\ it_data it' = it_data it.
  Proof.
    induction calls as [|op calls IH]; intros it xs HR Hlim Hst Hok.
    - cbn. exists it. auto.
    - inversion Hok as [|? ? Hop Hok']; subst.
      assert (Hstep : exists it' o ys, it_step next next_back nth it op = Ok (it', o) /\ R it' ys /\
        it_limit it' < 2 ^ 64 /\ it_start it' < 2 ^ 64 /\ it_bits it' = it_bits it /\ it_data it' = it_data it /\
        cursor (it_start it') (it_limit it') calls = cursor (it_start it) (it_limit it) (op :: calls)).
      { unfold it_step. destruct op as [| |n].
        - destruct (H1 it xs HR) as (it' & E & HR' & o & E'). exists it'. rewrite E. do 2 eexists. split; [reflexivity|]. split; [exact HR'|].
          cbn [cursor]. destruct (it_next_rest c nb it o it' E') as [-> ->]. destruct (it_next_pos c nb it o it' E' ltac:(lia)) as [-> ->].
          split; [lia|]. split; [|auto]. destruct (it_start it <? it_limit it) eqn:Es; lia.
        - destruct (H2 it xs HR) as (it' & E & HR' & o & E'). exists it'. rewrite E. do 2 eexists. split; [reflexivity|]. split; [exact HR'|].
          cbn [cursor]. destruct (it_next_back_rest c nb it o it' E') as [-> ->]. destruct (it_next_back_pos c nb it o it' E') as [-> ->].
          split; [|split; [lia|auto]]. destruct (it_start it <? it_limit it) eqn:Es; lia.
        - assert (Hn : n < 2 ^ 64) by (unfold skip_ok in Hop; destruct Hc as [Hp|Hp]; rewrite Hp in Hop; lia).
          destruct (H3 it xs n HR Hn) as (it' & E & HR' & o & E'). exists it'. rewrite E. do 2 eexists. split; [reflexivity|]. split; [exact HR'|].
          cbn [cursor]. unfold it_nth, checked_add in E'. destruct (it_start it + n <? 2 ^ 64) eqn:Ea;
            (destruct (it_next_pos c nb _ o it' E' ltac:(right; cbn; lia)) as [-> ->]; destruct (it_next_rest c nb _ o it' E') as [-> ->]; cbn [it_start it_limit it_bits it_data];
             split; [lia|]; split; [|auto]).
          + destruct (it_start it + n <? it_limit it) eqn:Es; lia.
          + destruct (it_limit it <? it_limit it) eqn:Es; lia. }
      destruct Hstep as (it' & o & ys & E & HR' & HL & HM & Hb & Hd & HE). cbn [run]. rewrite E.
      destruct (IH it' ys HR' HL HM Hok') as (it2 & E2 & HE2 & Hb2 & Hd2).
      exists it2. destruct (run _ it' calls) as [outs r]. cbn [snd] in *. split; [exact E2|]. split; [congruence|]. split; congruence.
  Qed.
End Cursor.
Lemma it_cmp_refl it : it_cmp it it = Eq.
Proof. unfold it_cmp, vb_cmp. rewrite !N.compare_refl. now apply vec_cmp_eq. Qed.
Lemma it_eta (a b : vbiter) : it_start a = it_start b -> it_limit a = it_limit b -> it_bits a = it_bits b -> it_data a = it_data b -> a = b.
Proof. destruct a, b. cbn. congruence. Qed.
Lemma vb_eta (a b : vbase) : vb_len a = vb_len b -> vb_vec a = vb_vec b -> a = b.
Proof. destruct a, b. cbn. congruence. Qed.
Lemma it_eq_iff a b : it_eq a b = true <-> a = b.
Proof.
  unfold it_eq, vb_eq. split.
  - rewrite !andb_true_iff, !N.eqb_eq. intros [[[E1 E2] E3] [E4 E5]]. apply it_eta; auto. apply vb_eta; [exact E4|]. destruct (list_eq_dec _ _ _); [assumption|discriminate].
  - intros ->. rewrite !N.eqb_refl. destruct (list_eq_dec _ _ _); [reflexivity|congruence].
Qed.
(** On all iterators: the order is total, and equality, the order and the hash agree on what is the same. *)
Theorem C90_iterators_total : forall a b d,
  (it_cmp a b = Eq <-> it_eq a b = true) /\ (it_hash a = it_hash b <-> it_eq a b = true) /\
  it_cmp b a = CompOpp (it_cmp a b) /\ (it_cmp a b = Lt -> it_cmp b d = Lt -> it_cmp a d = Lt).
Proof.
  intros a b d. rewrite it_eq_iff. split; [|split; [|split]].
  - split; [|intros ->; apply it_cmp_refl]. unfold it_cmp, vb_cmp.
    destruct (N.compare_spec (it_start a) (it_start b)); try discriminate. destruct (N.compare_spec (it_limit a) (it_limit b)); try discriminate.
    destruct (N.compare_spec (it_bits a) (it_bits b)); try discriminate. destruct (N.compare_spec (vb_len (it_data a)) (vb_len (it_data b))); try discriminate.
    rewrite vec_cmp_eq. intros. apply it_eta; auto. now apply vb_eta.
  - split; [|intros ->; reflexivity]. unfold it_hash, vb_hash, vec_hash. intros E. injection E as E1 E2 E3 E4 E5 E6. apply it_eta; auto. now apply vb_eta.
  - unfold it_cmp. rewrite (N.compare_antisym (it_start a)), (N.compare_antisym (it_limit a)), (N.compare_antisym (it_bits a)), (vb_cmp_antisym (it_data a)).
    destruct (it_start a ?= it_start b); cbn [CompOpp]; auto. destruct (it_limit a ?= it_limit b); cbn [CompOpp]; auto. destruct (it_bits a ?= it_bits b); cbn [CompOpp]; auto.
  - unfold it_cmp. intros Ha Hb.
    destruct (N.compare_spec (it_start a) (it_start b)) as [E1|E1|E1]; [|clear Ha|discriminate].
    2:{ destruct (N.compare_spec (it_start b) (it_start d)) as [E2|E2|E2]; [| |discriminate]; rewrite (proj2 (N.compare_lt_iff _ _)) by lia; reflexivity. }
    rewrite E1. destruct (it_start b ?= it_start d); auto.
    destruct (N.compare_spec (it_limit a) (it_limit b)) as [E2|E2|E2]; [|clear Ha|discriminate].
    2:{ destruct (N.compare_spec (it_limit b) (it_limit d)) as [E3|E3|E3]; [| |discriminate]; rewrite (proj2 (N.compare_lt_iff _ _)) by lia; reflexivity. }
    rewrite E2. destruct (it_limit b ?= it_limit d); auto.
    destruct (N.compare_spec (it_bits a) (it_bits b)) as [E3|E3|E3]; [|clear Ha|discriminate].
    2:{ destruct (N.compare_spec (it_bits b) (it_bits d)) as [E4|E4|E4]; [| |discriminate]; rewrite (proj2 (N.compare_lt_iff _ _)) by lia; reflexivity. }
    rewrite E3. destruct (it_bits b ?= it_bits d); auto. eauto using vb_cmp_lt_trans.
Qed.
Lemma cursor_unit calls : forall a b, (let p := cursor a b calls in fst p - snd p) = overshoot a b calls.
Proof. induction calls as [|[| |n] calls IH]; intros a b; cbn [cursor overshoot]; auto. Qed.

(** Iterators that programs of calls reach, over vectors that programs of operations produce: two of them are equal exactly when their
    ends are at the same positions and the vectors have the same elements (and width); the order looks at the front end, then the
    back end, then the width, then the vectors. *)
Theorem C90_bit_iterators : forall c nb t1 ops1 v1 l1 calls1 it1 t2 ops2 v2 l2 calls2 it2,
  wf_cfg c -> wf_nb nb ->
  bprogram_ok c nb t1 ops1 -> bvec_ends c nb t1 ops1 v1 -> snd (spec_bprogram c nb t1 ops1) = Some l1 -> Forall (skip_ok c) calls1 ->
  bprogram_ok c nb t2 ops2 -> bvec_ends c nb t2 ops2 v2 -> snd (spec_bprogram c nb t2 ops2) = Some l2 -> Forall (skip_ok c) calls2 ->
  snd (run (it_step (bit_next c nb) (bit_next_back c nb) (bit_nth c nb)) (bvec_iter v1) calls1) = Ok it1 ->
  snd (run (it_step (bit_next c nb) (bit_next_back c nb) (bit_nth c nb)) (bvec_iter v2) calls2) = Ok it2 ->
  let p := cursor 0 (lengthN l1) calls1 in let q := cursor 0 (lengthN l2) calls2 in
  (it_eq it1 it2 = true <-> p = q /\ l1 = l2) /\
  (it_cmp it1 it2 = Lt <-> fst p < fst q \/ fst p = fst q /\ (snd p < snd q \/ snd p = snd q /\ block_less nb l1 l2)).
Proof.
  intros c nb t1 ops1 v1 l1 calls1 it1 t2 ops2 v2 l2 calls2 it2 Hc Hnb O1 E1 S1 K1 O2 E2 S2 K2 I1 I2 p q.
  destruct (bvec_ends_R c nb t1 ops1 v1 Hc Hnb O1 E1) as [l0 [S' R1]]. rewrite S1 in S'. injection S' as <-.
  destruct (bvec_ends_R c nb t2 ops2 v2 Hc Hnb O2 E2) as [l0 [S' R2]]. rewrite S2 in S'. injection S' as <-.
  pose proof (wf_nb_range nb Hnb) as Hr.
  assert (Hof : forall m it' (o : option bool), (r <- m ;; Ok (to_bit r)) = Ok (o, it') -> exists o', m = Ok (o', it')).
  { intros [[o' it2']| |] it' o Eo; try discriminate. cbn in Eo. injection Eo as _ <-. eauto. }
  assert (HH : forall v l calls it, R_bv c nb v l -> Forall (skip_ok c) calls ->
    snd (run (it_step (bit_next c nb) (bit_next_back c nb) (bit_nth c nb)) (bvec_iter v) calls) = Ok it ->
    (it_start it, it_limit it) = cursor 0 (lengthN l) calls /\ it_bits it = 1 /\ it_data it = v).
  { intros v l calls it HR Hok HI.
    assert (Hlen : vb_len v = lengthN l) by (pose proof (bvec_bit_len_ok c nb Hc Hnb v l HR) as Hb; injection Hb; auto).
    destruct (cursor_run c nb (bit_next c nb) (bit_next_back c nb) (bit_nth c nb) (Bit_it c nb)) with (calls := calls) (it := bvec_iter v) (xs := l)
      as (it' & E & HE & Hb & Hd).
    - intros it0 ys Hy. destruct (bit_next_ok c nb Hc Hnb it0 ys Hy) as [it' [Ea [Hb _]]]. exists it'. split; [exact Ea|]. split; [exact Hb|]. exact (Hof _ _ _ Ea).
    - intros it0 ys Hy. destruct (bit_next_back_ok c nb Hc Hnb it0 ys Hy) as [it' [Ea [Hb _]]]. exists it'. split; [exact Ea|]. split; [exact Hb|]. exact (Hof _ _ _ Ea).
    - intros it0 ys n Hy Hn. destruct (bit_nth_ok c nb Hc Hnb it0 ys n Hy Hn) as [it' [Ea [Hb _]]]. exists it'. split; [exact Ea|]. split; [exact Hb|]. exact (Hof _ _ _ Ea).
    - exact Hc.
    - left. now apply (bvec_iter_ok c nb Hc Hnb).
    - pose proof (fits_lt64 c nb (lengthN l) (wf_nb_pos nb Hnb) (R_bv_fits c nb v l HR)) as Hf. unfold bvec_iter, it_new. cbn [it_limit]. lia.
    - unfold bvec_iter, it_new. cbn [it_start]. lia.
    - exact Hok.
    - rewrite HI in E. injection E as <-. unfold bvec_iter, it_new in HE, Hb, Hd. cbn [it_start it_limit it_bits it_data] in HE, Hb, Hd. rewrite Hlen in HE. auto. }
  destruct (HH v1 l1 calls1 it1 R1 K1 I1) as (P1 & B1 & D1). destruct (HH v2 l2 calls2 it2 R2 K2 I2) as (P2 & B2 & D2). clear HH Hof.
  fold p in P1. fold q in P2. split.
  - rewrite it_eq_iff. split.
    + intros ->. split; [congruence|]. rewrite D1 in D2. subst v2. apply (vb_cmp_eq c nb 1 Hc Hnb ltac:(lia) v1 l1 v1 l2 R1 R2).
      unfold vb_cmp. rewrite N.compare_refl. now apply vec_cmp_eq.
    + intros [Epq ->]. rewrite <- P1, <- P2 in Epq. injection Epq as Ea Eb. apply it_eta; try congruence. rewrite D1, D2. eapply (Vrep_fun c nb 1); eauto; lia.
  - rewrite <- P1, <- P2. cbn [fst snd]. unfold it_cmp. rewrite B1, B2, N.compare_refl, D1, D2.
    destruct (N.compare_spec (it_start it1) (it_start it2)); [|split; [auto|reflexivity]|split; [discriminate|lia]].
    destruct (N.compare_spec (it_limit it1) (it_limit it2)); [|split; [auto|reflexivity]|split; [discriminate|lia]].
    rewrite (vb_cmp_lt c nb 1 ltac:(lia) v1 l1 v2 l2 R1 R2). split; [auto|]. intros [?|[_ [?|[_ ?]]]]; try lia; auto.
Qed.
Theorem C90_int_iterators : forall c nb k1 t1 ops1 v1 xs1 calls1 it1 k2 t2 ops2 v2 xs2 calls2 it2,
  wf_cfg c -> wf_nb nb -> 1 <= k1 <= nb -> 1 <= k2 <= nb ->
  iprogram_ok c nb k1 t1 ops1 -> iv_ends c nb k1 t1 ops1 v1 -> snd (spec_iprogram c nb k1 t1 ops1) = Some xs1 -> Forall (skip_ok c) calls1 ->
  iprogram_ok c nb k2 t2 ops2 -> iv_ends c nb k2 t2 ops2 v2 -> snd (spec_iprogram c nb k2 t2 ops2) = Some xs2 -> Forall (skip_ok c) calls2 ->
  snd (run (it_step (it_next c nb) (it_next_back c nb) (it_nth c nb)) (iv_iter v1) calls1) = Ok it1 ->
  snd (run (it_step (it_next c nb) (it_next_back c nb) (it_nth c nb)) (iv_iter v2) calls2) = Ok it2 ->
  let p := cursor 0 (lengthN xs1) calls1 in let q := cursor 0 (lengthN xs2) calls2 in
  (it_eq it1 it2 = true <-> p = q /\ k1 = k2 /\ xs1 = xs2) /\
  (it_cmp it1 it2 = Lt <-> fst p < fst q \/ fst p = fst q /\ (snd p < snd q \/ snd p = snd q /\
    (k1 < k2 \/ k1 = k2 /\ block_less nb (bits_of_blocks k1 xs1) (bits_of_blocks k2 xs2)))).
Proof.
  intros c nb k1 t1 ops1 v1 xs1 calls1 it1 k2 t2 ops2 v2 xs2 calls2 it2 Hc Hnb Hk1 Hk2 O1 E1 S1 K1 O2 E2 S2 K2 I1 I2 p q.
  destruct (iv_ends_R c nb k1 Hc Hnb Hk1 t1 ops1 v1 O1 E1) as [l0 [S' [W1 R1]]]. rewrite S1 in S'. injection S' as <-.
  destruct (iv_ends_R c nb k2 Hc Hnb Hk2 t2 ops2 v2 O2 E2) as [l0 [S' [W2 R2]]]. rewrite S2 in S'. injection S' as <-.
  assert (HH : forall k v xs calls it, 1 <= k <= nb -> iv_bits v = k -> Irep c nb k (iv_base v) xs -> Forall (skip_ok c) calls ->
    snd (run (it_step (it_next c nb) (it_next_back c nb) (it_nth c nb)) (iv_iter v) calls) = Ok it ->
    (it_start it, it_limit it) = cursor 0 (lengthN xs) calls /\ it_bits it = k /\ it_data it = iv_base v).
  { intros k v xs calls it Hk Ek HI Hok HE0. pose proof (Irep_len c nb k Hc Hnb Hk (iv_base v) xs HI) as Hlen.
    pose proof (Irep_63 c nb k Hc Hnb Hk (iv_base v) xs HI) as Hlt.
    destruct (cursor_run c nb (it_next c nb) (it_next_back c nb) (it_nth c nb) (It_rep c nb k)) with (calls := calls) (it := iv_iter v) (xs := xs)
      as (it' & E & HE & Hb & Hd).
    - intros it0 ys Hy. destruct (iv_it_next c nb k it0 ys) as [it' [? [? _]]]; eauto 7.
    - intros it0 ys Hy. destruct (iv_it_next_back c nb k it0 ys) as [it' [? [? _]]]; eauto 7.
    - intros it0 ys n Hy Hn. destruct (iv_it_nth c nb k it0 ys n) as [it' [? [? _]]]; eauto 7.
    - exact Hc.
    - left. unfold iv_iter. rewrite Ek. now apply it_new_ok.
    - unfold iv_iter, it_new. cbn [it_limit]. nia.
    - unfold iv_iter, it_new. cbn [it_start]. lia.
    - exact Hok.
    - rewrite HE0 in E. injection E as <-. unfold iv_iter, it_new in HE, Hb, Hd. cbn [it_start it_limit it_bits it_data] in HE, Hb, Hd. rewrite Hlen in HE. rewrite Ek in Hb. auto. }
  destruct (HH k1 v1 xs1 calls1 it1 Hk1 W1 R1 K1 I1) as (P1 & B1 & D1). destruct (HH k2 v2 xs2 calls2 it2 Hk2 W2 R2 K2 I2) as (P2 & B2 & D2). clear HH.
  fold p in P1. fold q in P2. split.
  - rewrite it_eq_iff. split.
    + intros ->. split; [congruence|]. assert (Ek : k2 = k1) by congruence. split; [auto|]. rewrite D1 in D2. rewrite <- D2, Ek in R2.
      destruct R1 as [V1 A1]. destruct R2 as [V2 A2].
      assert (Eb : bits_of_blocks k1 xs1 = bits_of_blocks k1 xs2).
      { apply (vb_cmp_eq c nb k1 Hc Hnb Hk1 _ _ _ _ V1 V2). unfold vb_cmp. rewrite N.compare_refl. now apply vec_cmp_eq. }
      eapply bits_of_blocks_inj; eauto. lia.
    + intros (Epq & -> & ->). rewrite <- P1, <- P2 in Epq. injection Epq as Ea Eb. apply it_eta; try congruence. rewrite D1, D2.
      eapply (Vrep_fun c nb k2); [..|exact (proj1 R1)|exact (proj1 R2)]; auto.
  - rewrite <- P1, <- P2. cbn [fst snd]. unfold it_cmp. rewrite B1, B2, D1, D2.
    destruct (N.compare_spec (it_start it1) (it_start it2)); [|split; [auto|reflexivity]|split; [discriminate|lia]].
    destruct (N.compare_spec (it_limit it1) (it_limit it2)); [|split; [auto|reflexivity]|split; [discriminate|lia]].
    destruct (N.compare_spec k1 k2) as [Ek|Ek|Ek]; [rewrite <- Ek in *|split; [auto 7|reflexivity]|split; [discriminate|lia]].
    rewrite (vb_cmp_lt c nb k1 Hk1 _ _ _ _ (proj1 R1) (proj1 R2)). split; [auto 7|]. intros [?|[_ [?|[_ [?|[_ ?]]]]]]; try lia; auto.
Qed.

(** ** [{:?}].  A text is self-delimiting if what it shows, and what follows it, can be told from it; numbers are if no digit follows. *)
Local Open Scope string_scope.
Definition digit (a : ascii) : bool := ((48 <=? N_of_ascii a) && (N_of_ascii a <=? 57))%N.
Definition no_digit (s : string) : Prop := match s with "" => True | String a _ => digit a = false end.
Definition cancels {A} (text : A -> string) : Prop := forall x y s t, text x ++ s = text y ++ t -> x = y /\ s = t.
Definition reads {A} (text : A -> string) : Prop := forall x y s t, no_digit s -> no_digit t -> text x ++ s = text y ++ t -> x = y /\ s = t.
Lemma cancels_reads {A} (text : A -> string) : cancels text -> reads text.
Proof. intros H x y s t _ _. apply H. Qed.
Lemma sapp_assoc (a b d : string) : (a ++ b) ++ d = a ++ (b ++ d).
Proof. induction a as [|x a IH]; cbn [append]; [reflexivity|now rewrite IH]. Qed.
Lemma app_cancel_l (p s t : string) : p ++ s = p ++ t -> s = t.
Proof. induction p as [|a p IH]; cbn [append]; intros E; [exact E|]. injection E as E. auto. Qed.
Fixpoint digits (s : string) : Prop := match s with "" => True | String a s' => digit a = true /\ digits s' end.
Lemma digits_cancel p : forall q s t, digits p -> digits q -> no_digit s -> no_digit t -> p ++ s = q ++ t -> p = q /\ s = t.
Proof.
  induction p as [|a p IH]; intros [|b q] s t Hp Hq Hs Ht E; cbn [append] in E.
  - auto.
  - subst s. cbn in Hs, Hq. destruct Hq. congruence.
  - subst t. cbn in Ht, Hp. destruct Hp. congruence.
  - injection E as -> E. cbn in Hp, Hq. destruct (IH q s t) as [-> ->]; tauto.
Qed.
Lemma digits_nilempty d : digits (NilEmpty.string_of_uint d).
Proof. induction d; cbn [NilEmpty.string_of_uint digits]; auto; split; auto. Qed.
Lemma digits_decimal x : digits (decimal x).
Proof. unfold decimal, NilZero.string_of_uint. pose proof (digits_nilempty (N.to_uint x)) as H. destruct (N.to_uint x); [cbn; auto|exact H..]. Qed.
Lemma decimal_inj x y : decimal x = decimal y -> x = y.
Proof. intros E. destruct (decimal_read x) as [A B]. destruct (decimal_read y) as [A' B']. rewrite E, A' in A. injection A as A. congruence. Qed.
Lemma decimal_reads : reads decimal.
Proof. intros x y s t Hs Ht E. destruct (digits_cancel _ _ _ _ (digits_decimal x) (digits_decimal y) Hs Ht E) as [E1 ->]. split; [now apply decimal_inj|reflexivity]. Qed.
Lemma decimal_first x s : exists a s', decimal x ++ s = String a s' /\ digit a = true.
Proof.
  pose proof (digits_decimal x) as H. destruct (decimal x) as [|a u] eqn:E.
  - destruct (decimal_read x) as [A _]. rewrite E in A. discriminate.
  - cbn in H. exists a, (u ++ s)%string. split; [reflexivity|tauto].
Qed.
Ltac peel H := rewrite ?sapp_assoc in H; repeat apply app_cancel_l in H.
Ltac number H := apply decimal_reads in H; [|exact eq_refl..]; let E := fresh "E" in destruct H as [E H]; peel H.
Lemma list_cancels {A} (text : A -> string) : reads text -> (forall x s, exists a s', text x ++ s = String a s' /\ a <> "]"%char) -> cancels (debug_list text).
Proof.
  intros HR HF xs ys s t E. unfold debug_list in E. peel E.
  assert (HC : forall x zs u, exists u', commas (map text (x :: zs)) ++ "]" ++ u = text x ++ u' /\ no_digit u').
  { intros x [|z zs] u; cbn [map commas]; [exists ("]" ++ u)|rewrite !sapp_assoc; eexists]; (split; [reflexivity|exact eq_refl]). }
  revert ys E. induction xs as [|x xs IH]; intros [|y ys] E.
  - cbn [map commas append] in E. injection E as E. auto.
  - exfalso. destruct (HC y ys t) as (u' & E' & _). rewrite E' in E. destruct (HF y u') as (a & s' & E'' & Ha). rewrite E'' in E. cbn in E. congruence.
  - exfalso. destruct (HC x xs s) as (u' & E' & _). rewrite E' in E. destruct (HF x u') as (a & s' & E'' & Ha). rewrite E'' in E. cbn in E. congruence.
  - destruct xs as [|x' xs], ys as [|y' ys].
    + cbn [map commas] in E. apply HR in E; [|exact eq_refl..]. destruct E as [-> E']. peel E'. auto.
    + exfalso. cbn [map commas] in E. rewrite !sapp_assoc in E. apply HR in E; [|exact eq_refl..]. destruct E as [_ E']. discriminate.
    + exfalso. cbn [map commas] in E. rewrite !sapp_assoc in E. apply HR in E; [|exact eq_refl..]. destruct E as [_ E']. discriminate.
    + change (commas (map text (x :: x' :: xs))) with (text x ++ ", " ++ commas (map text (x' :: xs))) in E.
      change (commas (map text (y :: y' :: ys))) with (text y ++ ", " ++ commas (map text (y' :: ys))) in E.
      rewrite !sapp_assoc in E. apply HR in E; [|exact eq_refl..]. destruct E as [-> E']. apply app_cancel_l in E'. destruct (IH _ E') as [-> ->]. auto.
Qed.
Lemma numbers_cancels : cancels (debug_list decimal).
Proof.
  apply list_cancels; [exact decimal_reads|]. intros x s. destruct (decimal_first x s) as (a & s' & -> & H). exists a, s'. split; [reflexivity|]. intros ->. discriminate.
Qed.
Ltac struct_ E := unfold debug_struct, debug_tuple in E; cbn [map fst snd commas] in E; peel E.
Lemma vb_debug_cancels : cancels vb_debug.
Proof.
  intros x y s t E. unfold vb_debug in E. struct_ E. number E. apply numbers_cancels in E. destruct E as [E' E]. peel E. split; [now apply vb_eta|exact E].
Qed.
Lemma bvec_debug_cancels : cancels bvec_debug.
Proof. intros x y s t E. unfold bvec_debug in E. struct_ E. apply vb_debug_cancels in E. destruct E as [-> E]. peel E. auto. Qed.
Lemma addr_debug_cancels : cancels addr_debug.
Proof. intros [x1 x2] [y1 y2] s t E. unfold addr_debug in E. struct_ E. cbn [block_index bit_offset] in E. number E. number E. subst. auto. Qed.
Lemma iter_debug_cancels : cancels iter_debug.
Proof.
  intros x y s t E. unfold iter_debug, it_debug in E. struct_ E. number E. number E. number E. apply vb_debug_cancels in E. destruct E as [E' E]. peel E.
  split; [now apply it_eta|exact E].
Qed.
Lemma elements_cancels xs : forall ys s t,
  fold_right (fun x s => decimal x ++ ", " ++ s) "} }" xs ++ s = fold_right (fun x s => decimal x ++ ", " ++ s) "} }" ys ++ t -> xs = ys /\ s = t.
Proof.
  induction xs as [|x xs IH]; intros [|y ys] s t E; cbn [fold_right] in E.
  - peel E. auto.
  - exfalso. rewrite !sapp_assoc in E. destruct (decimal_first y (", " ++ fold_right (fun x s => decimal x ++ ", " ++ s) "} }" ys ++ t)) as (a & s' & E' & H). rewrite E' in E. cbn in E. injection E as <- _. discriminate.
  - exfalso. rewrite !sapp_assoc in E. destruct (decimal_first x (", " ++ fold_right (fun x s => decimal x ++ ", " ++ s) "} }" xs ++ s)) as (a & s' & E' & H). rewrite E' in E. cbn in E. injection E as -> _. discriminate.
  - peel E. number E. destruct (IH ys s t E) as [-> ->]. subst. auto.
Qed.
Lemma iv_debug_cancels : cancels (fun p => iv_debug (fst p) (snd p)).
Proof. intros [k xs] [k' xs'] s t E. cbn [fst snd] in E. unfold iv_debug in E. peel E. number E. apply elements_cancels in E. destruct E as [-> ->]. subst. auto. Qed.

(** Nothing is lost in a [{:?}]: of types made of numbers it determines the value, and of types over a store it does if the text of
    the store determines the store. *)
Theorem C90_debug_determines : cancels addr_debug /\ cancels vb_debug /\ cancels bvec_debug /\ cancels iter_debug /\
  cancels (fun p : N * list N => iv_debug (fst p) (snd p)) /\
  (forall T (inner : T -> string), cancels inner -> cancels (bb_debug inner)) /\
  (forall T (inner : T -> string) name, cancels inner -> cancels (slice_debug name inner)) /\
  (forall T (inner : T -> string), cancels inner -> cancels (rank9_debug inner)) /\
  (forall T (inner : T -> string) ints, cancels inner -> cancels ints -> cancels (jacobson_debug inner ints)).
Proof.
  split; [exact addr_debug_cancels|]. split; [exact vb_debug_cancels|]. split; [exact bvec_debug_cancels|]. split; [exact iter_debug_cancels|].
  split; [exact iv_debug_cancels|]. split; [|split; [|split]].
  - intros T inner H [x1 x2] [y1 y2] s t E. unfold bb_debug in E. struct_ E. cbn [bb_data bb_pos] in E. apply H in E. destruct E as [-> E]. peel E. number E. subst. auto.
  - intros T inner name H [x1 x2 x3] [y1 y2 y3] s t E. unfold slice_debug in E. struct_ E. cbn [sl_data sl_start sl_len] in E. apply H in E. destruct E as [-> E]. peel E. number E. number E. subst. auto.
  - intros T inner H [x1 x2] [y1 y2] s t E. unfold rank9_debug in E. struct_ E. cbn [r9_store r9_counts] in E. apply H in E. destruct E as [-> E]. peel E.
    apply list_cancels in E.
    + destruct E as [-> E]. peel E. auto.
    + apply cancels_reads. intros [a b] [a' b'] u w E0. unfold cell_debug in E0. struct_ E0. cbn [level1 level2] in E0. number E0. number E0. subst. auto.
    + intros [a b] u. do 2 eexists. split; [reflexivity|discriminate].
  - intros T inner ints H H' [x1 x2 x3 x4] [y1 y2 y3 y4] s t E. unfold jacobson_debug in E. struct_ E. cbn [jr_store jr_large_block_size jr_large jr_small] in E.
    apply H in E. destruct E as [-> E]. peel E. number E. apply H' in E. destruct E as [-> E]. peel E. apply H' in E. destruct E as [-> E]. peel E. subst. auto.
Qed.
(** Of vectors that programs produce: the text shows the number of bits and the blocks, so it is the same exactly when the bits are;
    of integer vectors it is the same exactly when width and elements are, whatever the block type. *)
Theorem C90_debug_bit_vector : forall c nb t1 ops1 v1 l1 t2 ops2 v2 l2,
  wf_cfg c -> wf_nb nb ->
  bprogram_ok c nb t1 ops1 -> bvec_ends c nb t1 ops1 v1 -> snd (spec_bprogram c nb t1 ops1) = Some l1 ->
  bprogram_ok c nb t2 ops2 -> bvec_ends c nb t2 ops2 v2 -> snd (spec_bprogram c nb t2 ops2) = Some l2 ->
  bvec_debug v1 = "BitVector(VectorBase { len: " ++ decimal (lengthN l1) ++ ", vec: [" ++ commas (map decimal (pack nb l1)) ++ "] })" /\
  (bvec_debug v1 = bvec_debug v2 <-> l1 = l2).
Proof.
  intros c nb t1 ops1 v1 l1 t2 ops2 v2 l2 Hc Hnb O1 E1 S1 O2 E2 S2. pose proof (wf_nb_range nb Hnb).
  destruct (bvec_ends_R c nb t1 ops1 v1 Hc Hnb O1 E1) as [l1' [S1' R1]]. rewrite S1 in S1'. injection S1' as <-.
  destruct (bvec_ends_R c nb t2 ops2 v2 Hc Hnb O2 E2) as [l2' [S2' R2]]. rewrite S2 in S2'. injection S2' as <-. split.
  - destruct R1 as (V & L & _). unfold bvec_debug, vb_debug, debug_tuple, debug_struct, debug_list. cbn [map fst snd commas].
    rewrite V. replace (vb_len v1) with (lengthN l1) by lia. rewrite !sapp_assoc. reflexivity.
  - rewrite <- (vb_cmp_eq c nb 1 Hc Hnb ltac:(lia) v1 l1 v2 l2 R1 R2). split.
    + intros E. destruct (bvec_debug_cancels v1 v2 "" "") as [-> _]; [now rewrite E|]. unfold vb_cmp. rewrite N.compare_refl. now apply vec_cmp_eq.
    + intros E. apply (vb_cmp_eq c nb 1 Hc Hnb ltac:(lia) v1 l1 v2 l2 R1 R2) in E. subst l2. replace v2 with v1; [reflexivity|]. eapply (Vrep_fun c nb 1); eauto; lia.
Qed.
Lemma emit_strings l : forall s, emit string_formatter l s = Ok (true, s ++ fold_right append "" l).
Proof.
  induction l as [|t l IH]; intros s; cbn [emit fold_right].
  - f_equal. f_equal. induction s as [|a s IHs]; cbn [append]; [reflexivity|now rewrite <- IHs].
  - unfold string_formatter at 1. rewrite IH, sapp_assoc. reflexivity.
Qed.
Theorem C90_debug_int_vector : forall c nb k t ops v xs, wf_cfg c -> wf_nb nb -> 1 <= k <= nb ->
  iprogram_ok c nb k t ops -> iv_ends c nb k t ops v -> snd (spec_iprogram c nb k t ops) = Some xs ->
  (exists n0, forall fuel s, (n0 <= fuel)%nat -> iv_fmt_debug c nb string_formatter fuel v s = Ok (true, s ++ iv_debug k xs)) /\
  (forall k' xs', iv_debug k xs = iv_debug k' xs' <-> k = k' /\ xs = xs').
Proof.
  intros c nb k t ops v xs Hc Hnb Hk O E S. split.
  - destruct (C71_debug string c nb k t ops v xs string_formatter Hc Hnb Hk O E S) as [n0 H]. exists n0. intros fuel s Hf. rewrite (H fuel s Hf), emit_strings.
    do 3 f_equal. unfold iv_debug. cbn [app fold_right]. do 3 f_equal.
    clear. induction xs as [|x xs IH]; cbn [flat_map app fold_right]; [reflexivity|now rewrite IH].
  - intros k' xs'. split; [|intros [-> ->]; reflexivity]. intros E'. destruct (iv_debug_cancels (k, xs) (k', xs') "" "") as [E2 _]; [cbn [fst snd]; now rewrite E'|].
    injection E2 as -> ->. auto.
Qed.

(** Two iterators that have nothing more to give need not be equal. *)
Theorem C90_exhausted_differ : exists it it',
  snd (run (it_step (it_next rel64 8) (it_next_back rel64 8) (it_nth rel64 8)) (iv_iter {| iv_bits := 4; iv_base := {| vb_len := 2; vb_vec := [0x21] |} |}) [ItNext; ItNext]) = Ok it /\
  snd (run (it_step (it_next rel64 8) (it_next_back rel64 8) (it_nth rel64 8)) (iv_iter {| iv_bits := 4; iv_base := {| vb_len := 2; vb_vec := [0x21] |} |}) [ItNext; ItNextBack]) = Ok it' /\
  it_next rel64 8 it = Ok (None, it) /\ it_next rel64 8 it' = Ok (None, it') /\ it_eq it it' = false /\ it_cmp it it' = Gt.
Proof. do 2 eexists. repeat (split; [vm_compute; reflexivity|]). vm_compute. reflexivity. Qed.
Example C90_address_ex : exists a b, address_new dbg32 16 77 = Ok a /\ address_new dbg32 16 81 = Ok b /\
  addr_cmp a b = Lt /\ addr_eq a b = false /\ addr_debug a = "Address { block_index: 4, bit_offset: 13 }".
Proof. do 2 eexists. repeat (split; [vm_compute; reflexivity|]). vm_compute. reflexivity. Qed.
Example C90_iterators_ex : exists v it,
  snd (iv_program rel64 8 5 100 INew [IPush 17; IPush 30; IPush 3]) = Ok v /\
  snd (run (it_step (it_next rel64 8) (it_next_back rel64 8) (it_nth rel64 8)) (iv_iter v) [ItNth 1; ItNextBack]) = Ok it /\
  cursor 0 3 [ItNth 1; ItNextBack] = (2, 2) /\ it_cmp (iv_iter v) it = Lt /\ it_eq it it = true /\
  iter_debug it = "Iter(Iter { start: 2, limit: 2, element_bits: 5, data: VectorBase { len: 3, vec: [209, 15] } })".
Proof. do 2 eexists. repeat (split; [vm_compute; reflexivity|]). vm_compute. reflexivity. Qed.
Example C90_debug_ex : exists v,
  snd (bvec_program dbg32 8 100 BNew [BPushBit true; BPushBlock 0xa5; BPushBit false; BTruncate 13]) = Ok v /\
  bvec_debug v = "BitVector(VectorBase { len: 13, vec: [1, 5] })" /\
  bb_debug bvec_debug {| bb_data := v; bb_pos := 3 |} = "BitBuffer { data: BitVector(VectorBase { len: 13, vec: [1, 5] }), pos: 3 }" /\
  slice_debug "BitSlice" bvec_debug {| sl_data := v; sl_start := 2; sl_len := 9 |} =
    "BitSlice { data: BitVector(VectorBase { len: 13, vec: [1, 5] }), start: 2, len: 9 }" /\
  rank9_debug (debug_list decimal) {| r9_store := [5]; r9_counts := [{| level1 := 0; level2 := 2 |}; {| level1 := 2; level2 := 0 |}] |} =
    "Rank9 { bit_store: [5], counts: [Rank9Cell { level1: 0, level2: Level2(2) }, Rank9Cell { level1: 2, level2: Level2(0) }] }".
Proof. eexists. repeat (split; [vm_compute; reflexivity|]). vm_compute. reflexivity. Qed.
Print Assumptions C90_address.
Print Assumptions C90_iterators_total.
Print Assumptions C90_bit_iterators.
Print Assumptions C90_int_iterators.
Print Assumptions C90_debug_determines.
Print Assumptions C90_debug_bit_vector.
Print Assumptions C90_debug_int_vector.
Print Assumptions C90_exhausted_differ.
