(** * Simulation of whole programs, and [BitVector] programs. *)
From Verif Require Export SpecOps PBitVector PIter.

(** An outcome is the one the specification asks for. *)
Definition matches {S X L} (R : S -> L -> Prop) (r : res (S * X)) (o : option (L * X)) : Prop :=
  match o with
  | Some (l, x) => exists s, r = Ok (s, x) /\ R s l
  | None => panics r
  end.
Definition ends {S L} (R : S -> L -> Prop) (r : res S) (o : option L) : Prop :=
  match o with Some l => exists s, r = Ok s /\ R s l | None => panics r end.

Lemma run_sim {S O X L} (step : nat -> S -> O -> res (S * X)) (spec : L -> O -> option (L * X))
    (R : S -> L -> Prop) (P : L -> O -> Prop) ops :
  (forall l o, P l o -> exists n0, forall fuel s, (n0 <= fuel)%nat -> R s l -> matches R (step fuel s o) (spec l o)) ->
  forall l, along spec P l ops ->
  exists n0, forall fuel s, (n0 <= fuel)%nat -> R s l ->
    fst (run (step fuel) s ops) = fst (spec_run spec l ops) /\
    ends R (snd (run (step fuel) s ops)) (snd (spec_run spec l ops)).
Proof.
  intros Hstep. induction ops as [|o t IH]; intros l Hal.
  - exists 0%nat. intros fuel s _ HR. cbn. split; [reflexivity|]. exists s. auto.
  - cbn [along] in Hal. destruct Hal as [Ho Hal]. destruct (Hstep l o Ho) as [n1 H1].
    cbn [spec_run run]. destruct (spec l o) as [[l' x]|].
    + destruct (IH l' Hal) as [n2 H2]. exists (Nat.max n1 n2). intros fuel s Hf HR.
      destruct (H1 fuel s) as [s' [E HR']]; [lia|assumption|]. rewrite E.
      destruct (H2 fuel s') as [Ea Eb]; [lia|assumption|].
      destruct (run (step fuel) s' t) as [xs r]. destruct (spec_run spec l' t) as [ys q]. cbn in *.
      split; [now f_equal|assumption].
    + exists n1. intros fuel s Hf HR. destruct (H1 fuel s Hf HR) as [p E]. rewrite E. cbn. split; [reflexivity|]. auto.
Qed.

(** An iterator whose [next] behaves like the one of a list collects that list. *)
Lemma collect_ok {I A} (next : I -> res (option A * I)) (R : I -> list A -> Prop) :
  (forall it xs, R it xs -> exists it', next it = Ok (hd_error xs, it') /\ R it' (tl xs)) ->
  forall xs fuel it, (length xs < fuel)%nat -> R it xs -> collect next fuel it = Ok xs.
Proof.
  intros Hn. unfold collect.
  assert (K : forall xs fuel it acc, (length xs < fuel)%nat -> R it xs ->
    loop_fuel fuel (fun st : list A * I =>
      let (acc, it) := st in
      r <- next it ;;
      match fst r with
      | None => Ok (Return (rev acc))
      | Some a => Ok (Continue (a :: acc, snd r))
      end) (acc, it) = Ok (rev acc ++ xs)).
  { induction xs as [|x xs IH]; intros fuel it acc Hf HR; (destruct fuel as [|f]; [cbn in Hf; lia|]); cbn [loop_fuel];
      destruct (Hn it _ HR) as [it' [E HR']]; rewrite E; cbn [bind fst snd hd_error].
    - now rewrite app_nil_r.
    - rewrite (IH f it' (x :: acc)); [|cbn in Hf; lia|exact HR']. cbn [rev]. now rewrite <- app_assoc. }
  intros xs fuel it Hf HR. now rewrite (K xs fuel it [] Hf HR).
Qed.

Lemma hd_error_match {A} (xs : list A) : hd_error xs = match xs with [] => None | x :: _ => Some x end.
Proof. now destruct xs. Qed.
Lemma removelast_snoc {A} (l : list A) x : removelast (l ++ [x]) = l.
Proof. rewrite removelast_app by discriminate. cbn. apply app_nil_r. Qed.
Lemma last_snoc {A} (l : list A) x d : last (l ++ [x]) d = x.
Proof. induction l as [|a l IH]; [reflexivity|]. cbn. destruct (l ++ [x]) eqn:E; [now destruct l|]. exact IH. Qed.

Lemma fitsb_spec c nb n : fitsb c nb n = true <-> fits c nb n.
Proof. unfold fitsb, fits. apply N.leb_le. Qed.
Lemma fitsb_false c nb n : fitsb c nb n = false -> ~ fits c nb n.
Proof. unfold fitsb, fits. intros H. apply N.leb_gt in H. lia. Qed.

Lemma resize_blocks_of_fit nb n x l : 0 < nb -> resize_blocks_of nb n x l = block_fit nb n x l.
Proof. intros H. unfold resize_blocks_of, block_fit. now rewrite <- full_app. Qed.

Lemma unit_ok {S L} (R : S -> L -> Prop) (r : res S) l :
  (exists s, r = Ok s /\ R s l) -> matches R (unit_ r) (Some (l, OUnit)).
Proof. intros [s [E H]]. exists s. unfold unit_. rewrite E. auto. Qed.
Lemma unit_panics {S L} (R : S -> L -> Prop) (r : res S) : panics r -> matches R (unit_ r) None.
Proof. intros [p E]. unfold unit_. rewrite E. exists p. reflexivity. Qed.
Lemma read_ok {S A L} (R : S -> L -> Prop) (r : res A) (f : A -> out) s l a :
  r = Ok a -> R s l -> matches R (x <- r ;; Ok (s, f x)) (Some (l, f a)).
Proof. intros -> H. exists s. auto. Qed.
Lemma read_panics {S A L} (R : S -> L -> Prop) (r : res A) (f : A -> out) (s : S) :
  panics r -> matches R (x <- r ;; Ok (s, f x)) None.
Proof. intros [p ->]. exists p. reflexivity. Qed.

Lemma vb_eq_spec a b : vb_eq a b = true <-> a = b.
Proof.
  unfold vb_eq. destruct a as [n l], b as [m k]. cbn [vb_len vb_vec]. rewrite andb_true_iff, N.eqb_eq.
  destruct (list_eq_dec N.eq_dec l k) as [E|E]; split; intros H.
  - destruct H. now subst.
  - injection H as -> _. split; reflexivity.
  - destruct H. discriminate.
  - injection H. intros. contradiction.
Qed.

(** ** [BitVector] *)
Section Bits.
  Variables (c : cfg) (nb : N).
  Hypothesis Hc : wf_cfg c.
  Hypothesis Hnb : wf_nb nb.
  Let nb_range := wf_nb_range nb Hnb.
  Let ptr_range := wf_ptr c Hc.
  Let nb_pos := wf_nb_pos nb Hnb.
  Let Hk : 1 <= 1 <= nb. Proof. lia. Qed.
  Let R := R_bv c nb.

  Lemma bits_of_bools l : bits_of_blocks 1 (map N.b2n l) = l.
  Proof.
    induction l as [|b l IH]; [reflexivity|].
    change (bits_of 1 (N.b2n b) ++ bits_of_blocks 1 (map N.b2n l) = b :: l). rewrite IH. now destruct b.
  Qed.
  Lemma R_bv_ints v l : R v l -> Irep c nb 1 v (map N.b2n l).
  Proof.
    intros H. split; [rewrite bits_of_bools; exact H|]. apply Forall_forall. intros x Hx.
    apply in_map_iff in Hx. destruct Hx as [b [<- _]]. destruct b; cbn; lia.
  Qed.
  (** The iterator of a bit vector: [l] are the bits still to come. *)
  Definition Bit_it (it : vbiter) (l : list bool) : Prop := It_rep c nb 1 it (map N.b2n l).
  Definition Bit_it_exact (it : vbiter) (l : list bool) : Prop := It_exact c nb 1 it (map N.b2n l).
  Definition bool_of (o : option N) : option bool := match o with Some x => Some (negb (x =? 0)) | None => None end.
  Lemma bool_of_b2n b : negb (N.b2n b =? 0) = b.
  Proof. now destruct b. Qed.
  Lemma map_tl {A B} (f : A -> B) l : tl (map f l) = map f (tl l).
  Proof. now destruct l. Qed.
  Lemma bit_next_ok it l : Bit_it it l ->
    exists it', bit_next c nb it = Ok (hd_error l, it') /\ Bit_it it' (tl l) /\
      (Bit_it_exact it l -> Bit_it_exact it' (tl l)).
  Proof.
    intros H. destruct (it_next_ok c nb 1 Hc Hnb Hk it _ H) as [it' [E [H1 H2]]].
    exists it'. unfold bit_next. rewrite E. cbn [bind to_bit fst snd]. rewrite map_tl in H1, H2.
    split; [|split; assumption]. f_equal. f_equal. destruct l as [|b l]; [reflexivity|]. now destruct b.
  Qed.
  Lemma vec_pop_map {A B} (f : A -> B) l :
    vec_pop (map f l) = (match fst (vec_pop l) with Some x => Some (f x) | None => None end, map f (snd (vec_pop l))).
  Proof.
    unfold vec_pop. rewrite <- map_rev. destruct (rev l) as [|x t]; [reflexivity|]. cbn. now rewrite map_rev.
  Qed.
  Lemma vec_pop_removelast {A} (l : list A) : vec_pop l = (hd_error (rev l), removelast l).
  Proof.
    destruct l as [|a l]; [reflexivity|]. destruct (app_snoc_inv (a :: l)) as [l' [x ->]]; [discriminate|].
    now rewrite vec_pop_snoc, removelast_snoc, rev_app_distr.
  Qed.
  Lemma bit_next_back_ok it l : Bit_it it l ->
    exists it', bit_next_back c nb it = Ok (hd_error (rev l), it') /\ Bit_it it' (removelast l) /\
      (Bit_it_exact it l -> Bit_it_exact it' (removelast l)).
  Proof.
    intros H. destruct (it_next_back_ok c nb 1 Hc Hnb Hk it _ H) as [it' [E [H1 H2]]].
    exists it'. unfold bit_next_back. rewrite E. rewrite vec_pop_map, vec_pop_removelast in *. cbn [bind to_bit fst snd] in *.
    split; [|split; assumption]. f_equal. f_equal. destruct (rev l) as [|b t]; [reflexivity|]. now destruct b.
  Qed.
  Lemma skipnN_map {A B} (f : A -> B) n l : skipnN n (map f l) = map f (skipnN n l).
  Proof. unfold skipnN. apply skipn_map. Qed.
  Lemma nthN_skipnN_hd {A} n (l : list A) : hd_error (skipnN n l) = nthN l n.
  Proof.
    pose proof (nthN_skipnN n l 0) as H. rewrite N.add_0_r in H. rewrite <- H. now destruct (skipnN n l).
  Qed.
  Lemma bit_nth_ok it l n : Bit_it it l -> n < 2 ^ 64 ->
    exists it', bit_nth c nb it n = Ok (nthN l n, it') /\ Bit_it it' (tl (skipnN n l)) /\
      (Bit_it_exact it l -> n <= lengthN l -> Bit_it_exact it' (tl (skipnN n l))).
  Proof.
    intros H Hn. destruct (it_nth_ok c nb 1 Hc Hnb Hk it _ n H Hn) as [it' [E [H1 H2]]].
    exists it'. unfold bit_nth. rewrite E. rewrite skipnN_map, map_tl in *. rewrite lengthN_map in H2.
    cbn [bind to_bit fst snd]. split; [|split; assumption]. f_equal. f_equal.
    rewrite <- nthN_skipnN_hd. destruct (skipnN n l) as [|b t]; [reflexivity|]. now destruct b.
  Qed.
  Lemma bit_last_ok it l : Bit_it it l -> bit_last c nb it = Ok (hd_error (rev l)).
  Proof.
    intros H. unfold bit_last. rewrite (it_last_ok c nb 1 Hc Hnb Hk it _ H), vec_pop_map, vec_pop_removelast.
    cbn [bind fst]. f_equal. destruct (rev l) as [|b t]; [reflexivity|]. now destruct b.
  Qed.
  Lemma bvec_iter_ok v l : R v l -> Bit_it_exact (bvec_iter v) l.
  Proof. intros H. apply it_new_ok; auto. now apply R_bv_ints. Qed.
  Lemma bvec_collect v l fuel : R v l -> (length l < fuel)%nat -> collect (bit_next c nb) fuel (bvec_iter v) = Ok l.
  Proof.
    intros H Hf. apply (collect_ok _ Bit_it); auto.
    - intros it xs Hx. destruct (bit_next_ok it xs Hx) as [it' [E [H1 _]]]. exists it'. auto.
    - left. now apply bvec_iter_ok.
  Qed.

  Lemma padding_lt n : padding nb n < nb.
  Proof. unfold padding. apply N.mod_lt. lia. Qed.

  Lemma bvec_step_sim l op : bop_ok c nb l op ->
    exists n0, forall fuel v, (n0 <= fuel)%nat -> R v l -> matches R (bvec_step c nb fuel v op) (spec_bstep c nb l op).
  Proof.
    intros Hop. exists (Nat.max 64 (S (length l))). intros fuel v Hf HV.
    pose proof (R_bv_fits c nb v l HV) as Hfits.
    destruct op; cbn [bvec_step spec_bstep bop_ok] in *.
    - destruct (fitsb c nb (lengthN l + 1)) eqn:E.
      + apply unit_ok. apply vb_push_bit_ok; auto. now apply fitsb_spec.
      + apply unit_panics. eapply vb_push_bit_full; eauto. now apply fitsb_false.
    - destruct l as [|a l0].
      + unfold bvec_pop_bit. rewrite (vb_pop_bit_empty c nb Hc Hnb v HV). exists v. auto.
      + destruct (app_snoc_inv (a :: l0)) as [l' [b E]]; [discriminate|]. rewrite E in *.
        destruct (vb_pop_bit_ok c nb Hc Hnb v l' b HV) as [v' [H1 H2]]. unfold bvec_pop_bit. rewrite H1. cbn [bind fst snd].
        rewrite removelast_snoc, last_snoc. destruct l'; exists v'; auto.
    - pose proof (padding_spec nb (lengthN l) nb_pos) as Hp.
      rewrite !lengthN_app, lengthN_repeatN, Hp.
      assert (Eb : blocks_for nb (blocks_for nb (lengthN l) * nb + nb) = blocks_for nb (lengthN l) + 1).
      { replace (blocks_for nb (lengthN l) * nb + nb) with ((blocks_for nb (lengthN l) + 1) * nb) by lia.
        now apply blocks_for_mul. }
      destruct (fitsb _ _ _) eqn:E; unfold fitsb in E; rewrite Eb in E.
      + apply unit_ok. rewrite <- app_assoc. apply bvec_push_block_ok; auto. lia.
      + apply unit_panics. eapply vb_push_block_full; eauto. lia.
    - apply unit_ok. apply bvec_align_block_ok; auto. pose proof (padding_lt (lengthN l)). lia.
    - destruct (i <? lengthN l) eqn:E.
      + apply unit_ok. destruct (vb_set_bit_ok c nb Hc Hnb v l i b HV) as [v' [H1 [H2 _]]]; [lia|]. exists v'. auto.
      + apply unit_panics. eapply vb_set_bit_oob; eauto. lia.
    - destruct (i * nb <? lengthN l) eqn:E.
      + apply unit_ok. apply (vb_set_block_ok c nb 1); auto; lia.
      + apply unit_panics. eapply (vb_set_block_oob c nb 1); eauto. lia.
    - destruct Hop as [[Hs [Hn Hsp]] Hx]. destruct (s + n <=? lengthN l) eqn:E.
      + apply unit_ok. destruct Hsp; [lia|]. apply bvec_set_bits_ok; auto. lia.
      + apply unit_panics. eapply bvec_set_bits_oob; eauto. lia.
    - destruct Hop as [Hn Hov]. destruct (fitsb c nb n) eqn:E.
      + apply unit_ok. apply bvec_resize_ok; auto. now apply fitsb_spec.
      + apply unit_panics. eapply bvec_resize_full; eauto. now apply fitsb_false.
    - destruct (n * nb <=? max_bits c) eqn:E.
      + apply unit_ok. rewrite resize_blocks_of_fit by lia. apply bvec_block_resize_ok; auto; lia.
      + apply unit_panics. eapply vb_block_resize_full; eauto. lia.
    - apply unit_ok. now apply bvec_truncate_ok.
    - apply unit_ok. now apply bvec_block_truncate_ok.
    - apply unit_ok. apply (vb_clear_ok c nb 1 Hnb v l HV).
    - eapply read_ok; [exact (bvec_bit_len_ok c nb Hc Hnb v l HV)|exact HV].
    - eapply read_ok; [now apply (bvec_block_len_ok c nb Hc Hnb v l HV)|exact HV].
    - destruct (nthN l i) as [b|] eqn:E.
      + eapply read_ok; [|exact HV]. eapply vb_get_bit_ok; eauto.
      + apply read_panics. apply nthN_None in E. eapply vb_get_bit_oob; eauto.
    - destruct (i * nb <? lengthN l) eqn:E.
      + eapply read_ok; [|exact HV]. eapply vb_get_block_ok; eauto. lia.
      + apply read_panics. eapply vb_get_block_oob; eauto. lia.
    - destruct Hop as [Hs [Hn Hsp]]. destruct (s + n <=? lengthN l) eqn:E.
      + eapply read_ok; [|exact HV]. destruct Hsp; [lia|]. apply bvec_get_bits_ok; auto. lia.
      + apply read_panics. eapply bvec_get_bits_oob; eauto. lia.
    - eapply read_ok; [|exact HV]. apply bvec_collect; auto. lia.
  Qed.

  Lemma bvec_make_sim t : bmake_ok c nb t -> ends R (bvec_make c nb t) (spec_bmake c nb t).
  Proof.
    intros Hk0. destruct t; cbn [bvec_make spec_bmake bmake_ok] in *.
    - apply (vb_block_with_capacity_ok c nb 1); auto. pose proof (max_bits_lt c). lia.
    - destruct Hk0 as [Hn Hov]. destruct (fitsb c nb n) eqn:E.
      + apply (vb_with_capacity_ok c nb 1); auto. rewrite N.mul_1_r. now apply fitsb_spec.
      + apply (vb_with_capacity_full c nb 1); auto; rewrite N.mul_1_r; [tauto|]. now apply fitsb_false.
    - destruct (n * nb <=? max_bits c) eqn:E.
      + apply (vb_block_with_capacity_ok c nb 1); auto. lia.
      + apply vb_block_with_capacity_full. lia.
    - destruct Hk0 as [Hn Hov]. destruct (fitsb c nb n) eqn:E.
      + apply bvec_with_fill_ok; auto. now apply fitsb_spec.
      + apply bvec_with_fill_full; auto. now apply fitsb_false.
    - destruct Hk0 as [Hn Hx]. destruct (n * nb <=? max_bits c) eqn:E.
      + apply bvec_block_with_fill_ok; auto. lia.
      + apply vb_block_with_fill_full. lia.
  Qed.

  Lemma bvec_program_sim t ops : bprogram_ok c nb t ops ->
    exists n0, forall fuel, (n0 <= fuel)%nat ->
      fst (bvec_program c nb fuel t ops) = fst (spec_bprogram c nb t ops) /\
      ends R (snd (bvec_program c nb fuel t ops)) (snd (spec_bprogram c nb t ops)).
  Proof.
    intros [Ht Hops]. pose proof (bvec_make_sim t Ht) as Hm. unfold bvec_program, spec_bprogram.
    destruct (spec_bmake c nb t) as [l|].
    - destruct Hm as [v [-> HV]].
      destruct (run_sim (bvec_step c nb) (spec_bstep c nb) R (bop_ok c nb) ops bvec_step_sim l Hops) as [n0 H].
      exists n0. intros fuel Hf. now apply H.
    - destruct Hm as [p ->]. exists 0%nat. intros. cbn. split; [reflexivity|]. now exists p.
  Qed.
End Bits.

(** A value a program ends with represents the list the specification ends with. *)
Lemma bvec_ends_R c nb t ops v : wf_cfg c -> wf_nb nb -> bprogram_ok c nb t ops -> bvec_ends c nb t ops v ->
  exists l, snd (spec_bprogram c nb t ops) = Some l /\ R_bv c nb v l.
Proof.
  intros Hc Hnb Hok [n0 H]. destruct (bvec_program_sim c nb Hc Hnb t ops Hok) as [n1 H1].
  destruct (H1 (Nat.max n0 n1)) as [_ H2]; [lia|]. rewrite (H (Nat.max n0 n1)) in H2 by lia.
  destruct (snd (spec_bprogram c nb t ops)) as [l|].
  - destruct H2 as [v' [E HR]]. injection E as <-. exists l. auto.
  - destruct H2 as [p E]. discriminate.
Qed.
