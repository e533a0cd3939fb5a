(** * Property C102: an array of code words of different lengths with a directory of marks ([MArchive.v]). *)
From Verif Require Import Machine MStorage MTraits MVectorBase MBitVector MRank MSelect MStream MCoding MArchive
  SpecBits SpecCfg SpecLaws SpecOps SpecRank SpecStream PBase PBits PVectorBase PVectorBase2 PVectorBase3 PBitVector PRun PBuffer PRank PRank9 PSelect
  PStream PCoding3 Properties6 Properties9.

(** A mark at the start of each word. *)
Definition marks (ws : list (list bool)) : list bool :=
  concat (map (fun w => true :: repeatN false (lengthN w - 1)) ws).

Lemma lengthN_marks ws : Forall (fun w => w <> []) ws -> lengthN (marks ws) = lengthN (concat ws).
Proof.
  unfold marks. induction 1 as [|w ws H _ IH]; [reflexivity|]. cbn [map concat]. rewrite !lengthN_app, lengthN_cons, lengthN_repeatN, IH.
  destruct w; [congruence|]. rewrite lengthN_cons. lia.
Qed.
Lemma count_true_false n : count true (repeatN false n) = 0.
Proof. unfold repeatN. induction (N.to_nat n) as [|m IH]; [reflexivity|]. cbn. exact IH. Qed.
Lemma count_marks ws : count true (marks ws) = lengthN ws.
Proof.
  unfold marks. induction ws as [|w ws IH]; [reflexivity|]. cbn [map concat]. rewrite count_app. cbn [count]. rewrite count_true_false, IH, lengthN_cons. cbn. lia.
Qed.
Lemma marks_app a b : marks (a ++ b) = marks a ++ marks b.
Proof. unfold marks. now rewrite map_app, concat_app. Qed.
Lemma Forall2_lengthN {A B} (P : A -> B -> Prop) l m : Forall2 P l m -> lengthN l = lengthN m.
Proof. induction 1; [reflexivity|]. rewrite !lengthN_cons. lia. Qed.
Lemma nthN_split {A} (l : list A) i x : nthN l i = Some x -> exists a b, l = a ++ x :: b /\ lengthN a = i.
Proof.
  revert i. induction l as [|y l IH]; intros i H; [apply nthN_lt in H; rewrite lengthN_nil in H; lia|].
  rewrite nthN_cons in H. destruct (i =? 0) eqn:E.
  - injection H as <-. exists [], l. split; [reflexivity|]. rewrite lengthN_nil. lia.
  - destruct (IH _ H) as (a & b & -> & L). exists (y :: a), b. split; [reflexivity|]. rewrite lengthN_cons. lia.
Qed.
Lemma sub_middle {A} (a w b : list A) : sub (lengthN a) (lengthN w) (a ++ w ++ b) = w.
Proof.
  apply nthN_ext. intros i. rewrite nthN_sub. destruct (i <? lengthN w) eqn:E.
  - rewrite nthN_app_r by lia. replace (lengthN a + i - lengthN a) with i by lia. apply nthN_app_l. lia.
  - symmetry. apply nthN_None. lia.
Qed.
Lemma select_marks a w b : Forall (fun w => w <> []) a ->
  is_select true (marks (a ++ w :: b)) (lengthN a) (lengthN (concat a)).
Proof.
  intros H. rewrite marks_app. split.
  - rewrite nthN_app_r by (rewrite lengthN_marks by assumption; lia). rewrite lengthN_marks, N.sub_diag by assumption. unfold marks. reflexivity.
  - rewrite <- (lengthN_marks a) by assumption. rewrite firstnN_app_exact. apply count_marks.
Qed.

Section Run.
  Variables (c : cfg) (nb : N) (C : code).
  Hypothesis Hc : wf_cfg c.
  Hypothesis Hnb : wf_nb nb.
  Let H64 : wf_nb 64 := ltac:(unfold wf_nb; auto).

  Lemma pad_marks_ok k : forall fuel m l, R_bv c 64 m l -> fits c 64 (lengthN l + N.of_nat k) -> (k < fuel)%nat ->
    exists m', pad_marks c fuel m (lengthN l + N.of_nat k) = Ok m' /\ R_bv c 64 m' (l ++ repeatN false (N.of_nat k)).
  Proof.
    induction k as [|k IH]; intros fuel m l HR Hfit Hf; (destruct fuel as [|fuel]; [lia|]); unfold pad_marks; cbn [loop_fuel].
    - rewrite (lb_bit_len _ _ _ (bvec_lawful_bits c 64 Hc H64) m l HR). cbn [bind]. change (N.of_nat 0) with 0 in *. rewrite N.add_0_r, N.ltb_irrefl. cbn [bind].
      exists m. split; [reflexivity|]. rewrite repeatN_0, app_nil_r. exact HR.
    - rewrite (lb_bit_len _ _ _ (bvec_lawful_bits c 64 Hc H64) m l HR). cbn [bind]. destruct (lengthN l <? lengthN l + N.of_nat (S k)) eqn:E; [|lia].
      destruct (lp_push_bit _ _ _ _ (bvec_lawful_push c 64 Hc H64) m l false HR) as (m1 & E1 & H1); [apply (fits_mono c 64 _ (lengthN l + N.of_nat (S k))); [lia|lia|exact Hfit]|].
      rewrite E1. cbn [bind]. destruct (IH fuel m1 (l ++ [false]) H1) as (m2 & E2 & H2); [rewrite lengthN_app, lengthN_cons, lengthN_nil; replace (lengthN l + (0 + 1) + N.of_nat k) with (lengthN l + N.of_nat (S k)) by lia; exact Hfit|lia|].
      exists m2. split.
      + rewrite lengthN_app, lengthN_cons, lengthN_nil in E2. replace (lengthN l + (0 + 1) + N.of_nat k) with (lengthN l + N.of_nat (S k)) in E2 by lia. exact E2.
      + rewrite <- app_assoc in H2. replace (repeatN false (N.of_nat (S k))) with ([false] ++ repeatN false (N.of_nat k)); [exact H2|].
        unfold repeatN. rewrite !Nat2N.id. reflexivity.
  Qed.

  Lemma pack_codes_ok vs ws : Forall2 (codeword C) vs ws -> exists n0, forall fuel, (n0 <= fuel)%nat -> forall bits m l lm,
    R_buf (R_bv c nb) bits (l, lengthN l) -> R_bv c 64 m lm -> lengthN lm = lengthN l ->
    fits c nb (lengthN l + lengthN (concat ws)) -> fits c 64 (lengthN l + lengthN (concat ws)) ->
    exists bits' m', pack_codes c nb C fuel vs bits m = Ok (IOk tt, bits', m') /\
      R_buf (R_bv c nb) bits' (l ++ concat ws, lengthN (l ++ concat ws)) /\ R_bv c 64 m' (lm ++ marks ws).
  Proof.
    assert (LP : lawful_push c (bvec_bitvecpush c nb) (R_bv c nb) (fun n => fitsb c nb n = true)).
    { destruct (bvec_lawful_push c nb Hc Hnb) as [A1 A2 A3 A4]. split; auto.
      - intros t0 l0 b H0 H1. apply A1; auto. now apply fitsb_spec.
      - intros t0 l0 b H0 H1. apply A2 with (l := l0); auto. intros H2. apply H1. now apply fitsb_spec. }
    pose proof (wf_nb_range nb Hnb) as Hr.
    induction 1 as [|v w vs ws W F IH].
    - exists 0%nat. intros fuel _ bits m l lm HB HM _ _ _. exists bits, m. cbn [concat pack_codes]. unfold marks. cbn [map concat]. rewrite !app_nil_r. auto.
    - destruct IH as [n1 IH]. destruct W as [Wne [n2 We] _]. exists (n1 + n2 + length w + 2)%nat. intros fuel Hf bits m l lm HB HM HL F1 F2.
      cbn [concat] in F1, F2. rewrite lengthN_app in F1, F2. cbn [pack_codes concat].
      assert (Lw : 1 <= lengthN w) by (destruct w; [congruence|]; rewrite lengthN_cons; lia).
      destruct (lp_push_bit _ _ _ _ (bvec_lawful_push c 64 Hc H64) m lm true HM) as (m1 & E1 & H1).
      { apply (fits_mono c 64 _ (lengthN l + (lengthN w + lengthN (concat ws)))); [lia|lia|exact F2]. }
      rewrite E1. cbn [bind]. rewrite We by lia.
      destruct (bb_write_all c (bvec_bitvecpush c nb) (R_bv c nb) (fitsb c nb) Hc (bvec_lawful_bits c nb Hc Hnb) (bvec_lawful_blocks c nb Hc Hnb)
        (mutblocks_setblock _ _ _ (bvec_lawful_mutblocks c nb Hc Hnb)) LP fuel w ltac:(lia) bits l HB) as (b1 & E2 & H2).
      { intros n Hn. apply fitsb_spec. apply (fits_mono c nb n (lengthN l + (lengthN w + lengthN (concat ws)))); [lia|lia|exact F1]. }
      rewrite E2. cbn [bind]. destruct H2 as (H2a & H2b & H2c). unfold bb_position. rewrite H2b. cbn [fst snd] in *.
      assert (L1 : lengthN (lm ++ [true]) = lengthN l + 1) by (rewrite lengthN_app, lengthN_cons, lengthN_nil; lia).
      destruct (pad_marks_ok (length w - 1) fuel m1 (lm ++ [true]) H1) as (m2 & E3 & H3).
      { rewrite L1. apply (fits_mono c 64 _ (lengthN l + (lengthN w + lengthN (concat ws)))); [lia| |exact F2]. unfold lengthN in *. lia. }
      { lia. }
      replace (lengthN (lm ++ [true]) + N.of_nat (length w - 1)) with (lengthN (l ++ w)) in E3 by (rewrite L1, lengthN_app; unfold lengthN in *; lia).
      rewrite E3. cbn [bind].
      destruct (IH fuel ltac:(lia) b1 m2 (l ++ w) ((lm ++ [true]) ++ repeatN false (N.of_nat (length w - 1)))) as (b2 & m3 & E4 & H4 & H5).
      { split; [exact H2a|split; [exact H2b|apply N.le_refl]]. } { exact H3. }
      { rewrite lengthN_app, L1, lengthN_repeatN, lengthN_app. unfold lengthN in *. lia. }
      { rewrite lengthN_app, <- N.add_assoc. exact F1. } { rewrite lengthN_app, <- N.add_assoc. exact F2. }
      exists b2, m3. split; [exact E4|]. split; [rewrite app_assoc; exact H4|].
      unfold marks. cbn [map concat]. fold (marks ws). replace (lengthN w - 1) with (N.of_nat (length w - 1)) by (unfold lengthN; lia).
      rewrite <- !app_assoc in H5. cbn [app] in *. exact H5.
  Qed.
End Run.

(** The sink of the encoder, a queue, shows how many bits the words take. *)
Theorem C102_archive : forall c nb strict C D vs, wf_cfg c -> wf_nb nb -> provided c strict C D -> Forall D vs ->
  exists w n0, forall fuel, (n0 <= fuel)%nat -> encode_list C deque_sink fuel vs [] = Ok (IOk tt, w) /\
    (fits c nb (lengthN w) -> fits c 64 (lengthN w) ->
     exists a, archive_new c nb C fuel vs = Ok (IOk a) /\
       bv_bit_len (bvec_bitvec c nb) (bb_inner (ar_bits a)) = Ok (lengthN w) /\
       forall is, Forall (fun i => i < 2 ^ 64 - 1) is ->
         exists a', archive_gets c nb C fuel is a = Ok (IOk (map (nthN vs) is), a')).
Proof.
  intros c nb strict C D vs Hc Hnb HP HD. pose proof (wf_nb_range nb Hnb) as Hr. destruct (provided_words c strict C D vs Hc HP HD) as (ws & F). exists (concat ws).
  destruct (encode_list_ok C vs ws F) as [n1 K1]. destruct (pack_codes_ok c nb C Hc Hnb vs ws F) as [n2 K2].
  assert (K3 : exists n0, forall fuel, (n0 <= fuel)%nat -> forall vs1 v vs2 ws1 w ws2, vs = vs1 ++ v :: vs2 -> ws = ws1 ++ w :: ws2 -> lengthN vs1 = lengthN ws1 ->
            forall S (src : source S) s s', reads src s w s' -> decode C src fuel s = Ok (IOk (Some v), s')).
  { clear - F. induction F as [|v w vs ws [_ _ [n1 W]] F [n2 IH]].
    - exists 0%nat. intros fuel _ [|] v vs2 ws1 w ws2 E; discriminate E.
    - exists (n1 + n2)%nat. intros fuel Hf [|x vs1] v' vs2 [|y ws1] w' ws2 E1 E2 L S src s s' R; cbn [app] in E1, E2; try (rewrite ?lengthN_cons, ?lengthN_nil in L; lia).
      + injection E1 as <- _. injection E2 as <- _. apply W; [lia|exact R].
      + injection E1 as -> E1. injection E2 as -> E2. rewrite !lengthN_cons in L. apply (IH fuel ltac:(lia) vs1 v' vs2 ws1 w' ws2); auto. lia. }
  destruct K3 as [n3 K3]. exists (n1 + n2 + n3 + 65)%nat. intros fuel Hf. split; [rewrite K1 by lia; now rewrite write_all_deque|]. intros F1 F2.
  assert (NE : Forall (fun w => w <> []) ws) by (clear - F; induction F as [|v w vs ws [W _ _] F IH]; constructor; auto).
  assert (LL : lengthN vs = lengthN ws) by exact (Forall2_lengthN _ _ _ F).
  destruct (vb_with_capacity_ok c nb 1 Hc Hnb ltac:(lia) 0) as (v0 & E0 & R0); [apply fits_0; lia|].
  assert (H64 : wf_nb 64) by (unfold wf_nb; auto).
  assert (Em : bvec_new c 64 = Ok {| vb_len := 0; vb_vec := [] |}) by (unfold bvec_new, vb_new, vb_block_with_capacity, alloc; cbn [N.mul]; destruct (max_bits c); reflexivity).
  assert (Rm : R_bv c 64 {| vb_len := 0; vb_vec := [] |} []) by (split; [reflexivity|]; split; [reflexivity|apply fits_0; lia]).
  destruct (K2 fuel ltac:(lia) {| bb_data := v0; bb_pos := 0 |} {| vb_len := 0; vb_vec := [] |} [] []) as (b1 & m1 & E1 & (B1 & B2 & _) & M1); auto.
  { split; [exact R0|split; [reflexivity|cbn; lia]]. }
  cbn [app fst snd] in B1, B2, M1. pose proof (bvec_lawful_bits c 64 Hc H64) as LB. pose proof (bvec_lawful_blocks c 64 Hc H64) as LK.
  destruct (C32_rank9 _ c (bvec_bitvec c 64) (R_bv c 64) m1 (marks ws) Hc eq_refl LB LK M1) as (d & Ed & _).
  exists {| ar_bits := b1; ar_starts := d |}.
  split; [unfold archive_new; unfold bb_new, bb_with_capacity, bvec_with_capacity; rewrite E0; cbn [bind]; rewrite Em; cbn [bind]; rewrite E1; cbn [bind]; rewrite Ed; reflexivity|].
  split; [unfold bb_inner; cbn [ar_bits]; apply (lb_bit_len _ _ _ (bvec_lawful_bits c nb Hc Hnb)); exact B1|].
  (* any sequence of accesses; the position of the buffer does not matter *)
  assert (G : forall is, Forall (fun i => i < 2 ^ 64 - 1) is -> forall bb, bb_data bb = bb_data b1 ->
             exists a', archive_gets c nb C fuel is {| ar_bits := bb; ar_starts := d |} = Ok (IOk (map (nthN vs) is), a')).
  { induction 1 as [|i is Hi _ IH]; intros bb Eb; [eexists; reflexivity|]. cbn [archive_gets map].
    assert (G1 : exists bb', bb_data bb' = bb_data b1 /\ archive_get c nb C fuel i {| ar_bits := bb; ar_starts := d |} = Ok (IOk (nthN vs i), {| ar_bits := bb'; ar_starts := d |})).
    { destruct (C35_rank_structures _ c (bvec_bitvec c 64) (R_bv c 64) Hc LB LK) as (_ & LR & _). specialize (LR eq_refl).
      destruct (C35_select _ c _ _ d (marks ws) i true fuel LR (ex_intro _ m1 (conj M1 Ed)) Hi ltac:(lia)) as [(o & Eo & Ho1 & Ho2) _].
      unfold archive_get. cbn [ar_starts ar_bits]. cbv iota in Eo. rewrite Eo. cbn [bind]. destruct (nthN vs i) as [v|] eqn:Ev.
      - destruct (nthN_split vs i v Ev) as (vs1 & vs2 & Evs & Li). pose proof F as F'. rewrite Evs in F'.
        apply Forall2_app_inv_l in F'. destruct F' as (ws1 & ws' & Fa & Fb & Ews). inversion Fb as [|? w ? ws2 W Fc]; subst ws'. 
        assert (L1 : lengthN ws1 = i) by (rewrite <- Li; symmetry; exact (Forall2_lengthN _ _ _ Fa)).
        assert (NE1 : Forall (fun w => w <> []) ws1) by (rewrite Ews in NE; now apply Forall_app in NE).
        pose proof (select_marks ws1 w ws2 NE1) as [Sa Sb]. rewrite <- Ews, L1 in Sb. rewrite <- Ews in Sa.
        rewrite (proj2 (Ho1 (lengthN (concat ws1))) (conj Sa Sb)).
        assert (Lc : lengthN (concat ws) = lengthN (concat ws1) + (lengthN w + lengthN (concat ws2))) by (rewrite Ews, concat_app; cbn [concat]; rewrite !lengthN_app; lia).
        unfold try_, bb_seek. rewrite Eb. rewrite (lb_bit_len _ _ _ (bvec_lawful_bits c nb Hc Hnb) _ _ B1). cbn [bind].
        destruct (lengthN (concat ws1) <=? lengthN (concat ws)) eqn:E; [|lia]. cbn [bind].
        pose proof (bb_reads c (bvec_bitvec c nb) (R_bv c nb) Hc (bvec_lawful_bits c nb Hc Hnb) (bvec_lawful_blocks c nb Hc Hnb) (bb_data b1) (concat ws) B1 w (lengthN (concat ws1)) ltac:(lia)) as Rd.
        specialize (Rd ltac:(rewrite Ews, concat_app; cbn [concat]; apply sub_middle)).
        rewrite (K3 fuel ltac:(lia) vs1 v vs2 ws1 w ws2 Evs Ews ltac:(lia) _ _ _ _ Rd). cbn [bind fst snd]. eexists. split; [|reflexivity]. reflexivity.
      - apply nthN_None in Ev. rewrite (proj2 Ho2) by (rewrite count_marks; lia). exists bb. auto. }
    destruct G1 as (bb' & Eb' & E'). destruct (IH bb' Eb') as (a' & Ea). exists a'. rewrite (try_ok _ _ _ _ _ E'), (try_ok _ _ _ _ _ Ea). reflexivity. }
  intros is His. exact (G is His b1 eq_refl).
Qed.

Definition C102_values : list N := [7; 1; 2 ^ 64 - 1; 100; 3].
Example C102_ex : provided dbg64 true (delta dbg64) (fun v => 1 <= v < 2 ^ 64) /\ Forall (fun v => 1 <= v < 2 ^ 64) C102_values /\
  fits dbg64 8 200 /\ fits dbg64 64 200 /\
  (exists l, encode_list (delta dbg64) deque_sink 100 C102_values [] = Ok (IOk tt, l) /\ lengthN l < 200) /\
  exists a a', archive_new dbg64 8 (delta dbg64) 100 C102_values = Ok (IOk a) /\
    archive_gets dbg64 8 (delta dbg64) 100 [4; 0; 2; 2; 5; 3; 1] a = Ok (IOk [Some 3; Some 7; Some (2 ^ 64 - 1); Some (2 ^ 64 - 1); None; Some 100; Some 1], a').
Proof.
  split; [constructor|]. split; [repeat constructor; lia|]. split; [vm_compute; congruence|]. split; [vm_compute; congruence|].
  split; [eexists; split; [vm_compute; reflexivity|vm_compute; reflexivity]|]. eexists. eexists. split; [vm_compute; reflexivity|]. vm_compute. reflexivity.
Qed.

Print Assumptions C102_archive.
