(** * Property C115: a tree in two bits per node ([MParens.v]). *)
From Verif Require Import Machine MStorage MTraits MVectorBase MBitVector MRank MSelect MParens
  SpecBits SpecCfg SpecLaws SpecOps SpecRank PBase PStorage PBits PVectorBase PVectorBase2 PVectorBase3 PBitVector PRank PRank9 PSelect
  Properties6 Properties49.

(** ** What a forest is, without parentheses *)
Fixpoint size (f : forest) : N :=
  match f with Nil => 0 | Cons children siblings => 1 + size children + size siblings end.
(** Where a node stands and what is around it; nodes are named by the positions where they are opened. *)
Record place := { opened : N; closed : N; level : N; above : option N; first_born : option N; younger : option N; family : list N }.
Definition head_at (p : N) (f : forest) : option N := match f with Nil => None | Cons _ _ => Some p end.
(** The nodes of the forest in preorder, if it starts at [p], its roots have the level [d] and the parent [up]. *)
Fixpoint places (p d : N) (up : option N) (f : forest) : list place :=
  match f with
  | Nil => []
  | Cons children siblings =>
      let q := p + 1 + 2 * size children in
      let inner := places (p + 1) (d + 1) (Some p) children in
      {| opened := p; closed := q; level := d; above := up; first_born := head_at (p + 1) children; younger := head_at (q + 1) siblings;
         family := map opened inner |} :: inner ++ places (q + 1) d up siblings
  end.

(** ** The text *)
Fixpoint parens (f : forest) : list bool :=
  match f with Nil => [] | Cons children siblings => true :: parens children ++ false :: parens siblings end.
Fixpoint join (f g : forest) : forest := match f with Nil => g | Cons a b => Cons a (join b g) end.
Lemma parens_join f g : parens (join f g) = parens f ++ parens g.
Proof. induction f as [|a _ b IH]; [reflexivity|]. cbn [join parens app]. f_equal. rewrite <- app_assoc. cbn [app]. now rewrite IH. Qed.
Lemma lengthN_parens f : lengthN (parens f) = 2 * size f.
Proof. induction f as [|a IHa b IHb]; [reflexivity|]. cbn [parens size]. rewrite lengthN_cons, lengthN_app, lengthN_cons, IHa, IHb. lia. Qed.
Lemma count_parens v f : count v (parens f) = size f.
Proof.
  induction f as [|a IHa b IHb]; [reflexivity|]. cbn [parens size]. change (true :: parens a ++ false :: parens b) with ([true] ++ parens a ++ [false] ++ parens b).
  rewrite !count_app, IHa, IHb.
  assert (count v [true] + count v [false] = 1) by (destruct v; reflexivity). lia.
Qed.
Lemma lengthN_places f : forall p d up, lengthN (places p d up f) = size f.
Proof. induction f as [|a IHa b IHb]; intros p d up; [reflexivity|]. cbn [places size]. rewrite lengthN_cons, lengthN_app, IHa, IHb. lia. Qed.

(** The text before a position, and the node that encloses it *)
Inductive outer : list bool -> option N -> Prop :=
| outer_top : forall f, outer (parens f) None
| outer_in : forall a up f, outer a up -> outer (a ++ true :: parens f) (Some (lengthN a)).
Lemma outer_more a up f : outer a up -> outer (a ++ true :: parens f ++ [false]) up.
Proof.
  intros H. assert (E : true :: parens f ++ [false] = parens (Cons f Nil)) by reflexivity. rewrite E.
  destruct H as [g|a up g H]; [rewrite <- parens_join; constructor|]. rewrite <- app_assoc. cbn [app]. rewrite <- parens_join. exact (outer_in a up _ H).
Qed.

(** The node [i] of the forest [f] between the texts [a] and [b] *)
Lemma place_in f : forall p d up i r a b, nthN (places p d up f) i = Some r -> lengthN a = p -> hd false b = false -> outer a up ->
  count true a + 1 = count false a + d ->
  exists a' ch sib b', a ++ parens f ++ b = a' ++ true :: parens ch ++ false :: parens sib ++ b' /\ hd false b' = false /\ outer a' (above r) /\
    lengthN a' = opened r /\ count true a' = count true a + i /\ count true a' + 1 = count false a' + level r /\
    closed r = opened r + 1 + 2 * size ch /\ first_born r = head_at (opened r + 1) ch /\ younger r = head_at (closed r + 1) sib /\
    lengthN (family r) = size ch.
Proof.
  induction f as [|ch IHc sib IHs]; intros p d up i r a b E Ha Hb Ho Hd; [cbn [places] in E; now rewrite nthN_nil in E|].
  cbn [places] in E. rewrite nthN_cons in E. destruct (i =? 0) eqn:Ei.
  - injection E as <-. exists a, ch, sib, b. cbn [opened closed level above first_born younger family].
    split; [cbn [parens app]; rewrite <- app_assoc; reflexivity|]. split; [exact Hb|]. split; [exact Ho|]. split; [exact Ha|]. split; [lia|]. split; [exact Hd|].
    split; [reflexivity|]. split; [reflexivity|]. split; [reflexivity|]. rewrite lengthN_map. apply lengthN_places.
  - rewrite nthN_app in E. rewrite lengthN_places in E. destruct (i - 1 <? size ch) eqn:Es.
    + destruct (IHc (p + 1) (d + 1) (Some p) (i - 1) r (a ++ [true]) (false :: parens sib ++ b) E) as (a' & ch' & sib' & b' & H1 & H2 & H3 & H4 & H5 & H6 & H7).
      * rewrite lengthN_app, lengthN_cons, lengthN_nil. lia.
      * reflexivity.
      * rewrite <- Ha. exact (outer_in a up Nil Ho).
      * rewrite !count_app. change (count true [true]) with 1. change (count false [true]) with 0. lia.
      * exists a', ch', sib', b'. split; [rewrite <- H1; cbn [parens app]; rewrite <- !app_assoc; reflexivity|]. split; [exact H2|]. split; [exact H3|]. split; [exact H4|].
        split; [|split; [exact H6|exact H7]]. rewrite H5, count_app. change (count true [true]) with 1. lia.
    + destruct (IHs (p + 1 + 2 * size ch + 1) d up (i - 1 - size ch) r (a ++ true :: parens ch ++ [false]) b E) as (a' & ch' & sib' & b' & H1 & H2 & H3 & H4 & H5 & H6 & H7).
      * rewrite lengthN_app, lengthN_cons, lengthN_app, lengthN_parens, lengthN_cons, lengthN_nil. lia.
      * exact Hb.
      * now apply outer_more.
      * change (true :: parens ch ++ [false]) with ([true] ++ parens ch ++ [false]). rewrite !count_app, !count_parens.
        change (count true [true]) with 1. change (count false [true]) with 0. change (count true [false]) with 0. change (count false [false]) with 1. lia.
      * exists a', ch', sib', b'. split; [rewrite <- H1; cbn [parens app]; rewrite <- !app_assoc; cbn [app]; rewrite <- !app_assoc; reflexivity|]. split; [exact H2|]. split; [exact H3|]. split; [exact H4|].
        split; [|split; [exact H6|exact H7]]. rewrite H5. change (true :: parens ch ++ [false]) with ([true] ++ parens ch ++ [false]). rewrite !count_app, count_parens.
        change (count true [true]) with 1. change (count true [false]) with 0. lia.
Qed.

(** Positions: a family lies between its parentheses, and nobody else does. *)
Lemma places_range f : forall p d up r, In r (places p d up f) -> p <= opened r /\ opened r < closed r /\ closed r < p + 2 * size f.
Proof.
  induction f as [|ch IHc sib IHs]; intros p d up r H; [destruct H|]. cbn [places size] in *. destruct H as [<-|H]; [cbn [opened closed]; lia|].
  apply in_app_or in H. destruct H as [H|H]; [specialize (IHc _ _ _ _ H); lia|specialize (IHs _ _ _ _ H); lia].
Qed.
Lemma family_range f : forall p d up r q, In r (places p d up f) -> In q (family r) -> opened r < q /\ q < closed r.
Proof.
  induction f as [|ch IHc sib IHs]; intros p d up r q H Hq; [destruct H|]. cbn [places] in H. destruct H as [<-|H].
  - cbn [opened closed family] in *. apply in_map_iff in Hq. destruct Hq as (x & <- & Hx). apply places_range in Hx. lia.
  - apply in_app_or in H. destruct H as [H|H]; [now apply (IHc _ _ _ _ _ H)|now apply (IHs _ _ _ _ _ H)].
Qed.
Lemma places_family f : forall p d up r r', In r (places p d up f) -> In r' (places p d up f) ->
  opened r < opened r' -> opened r' < closed r -> In (opened r') (family r).
Proof.
  induction f as [|ch IHc sib IHs]; intros p d up r r' H H' L1 L2; [destruct H|]. cbn [places] in H, H'.
  destruct H as [<-|H]; destruct H' as [<-|H'].
  - lia.
  - cbn [opened closed family] in *. apply in_app_or in H'. destruct H' as [H'|H']; [now apply in_map|apply places_range in H'; lia].
  - cbn [opened] in *. apply in_app_or in H. destruct H as [H|H]; apply places_range in H; lia.
  - apply in_app_or in H. apply in_app_or in H'. destruct H as [H|H]; destruct H' as [H'|H'].
    + exact (IHc _ _ _ _ _ H H' L1 L2).
    + apply places_range in H. apply places_range in H'. lia.
    + apply places_range in H. apply places_range in H'. lia.
    + exact (IHs _ _ _ _ _ H H' L1 L2).
Qed.

Lemma mid (l a : list bool) b r : l = a ++ b :: r -> nthN l (lengthN a) = Some b /\ lengthN a < lengthN l.
Proof.
  intros ->. split; [|rewrite lengthN_app, lengthN_cons; lia]. rewrite nthN_app. destruct (lengthN a <? lengthN a) eqn:E; [lia|].
  rewrite nthN_cons. destruct (lengthN a - lengthN a =? 0) eqn:E2; [reflexivity|lia].
Qed.
Lemma firstnN_front {A} (a r : list A) n : lengthN a = n -> firstnN n (a ++ r) = a.
Proof. intros H. unfold firstnN, lengthN in *. replace (N.to_nat n) with (length a + 0)%nat by lia. rewrite firstn_app_2. cbn [firstn]. apply app_nil_r. Qed.
Lemma nthN_in {A} (l : list A) i x : nthN l i = Some x -> In x l.
Proof. intros H. rewrite nthN_nth_error in H. eapply nth_error_In; exact H. Qed.

(** ** The program *)
Section Run.
  Variables (c : cfg) (l : list bool) (t : rank9 vbase).
  Let V := bss_bitvec (rank9_bitvec (bvec_bitvec c 64)).
  Hypothesis BL : bv_bit_len V t = Ok (lengthN l).
  Hypothesis GB : forall p b, nthN l p = Some b -> bv_get_bit V t p = Ok b.
  Hypothesis L64 : lengthN l < 2 ^ 64 - 1.

  Definition close_body : N * N -> res (flow (N * N) (option N)) := fun '(q, excess) =>
    n <- bv_bit_len V t ;;
    if q <? n then
      b <- bv_get_bit V t q ;;
      if b then
        excess <- wadd c 64 excess 1 ;; q <- wadd c 64 q 1 ;; Ok (Continue (q, excess))
      else
        excess <- wsub c 64 excess 1 ;;
        if excess =? 0 then Ok (Return (Some q)) else q <- wadd c 64 q 1 ;; Ok (Continue (q, excess))
    else Ok (Return None).
  Definition open_body : N * N -> res (flow (N * N) (option N)) := fun '(q, excess) =>
    if 0 <? q then
      q <- wsub c 64 q 1 ;;
      b <- bv_get_bit V t q ;;
      if negb b then excess <- wadd c 64 excess 1 ;; Ok (Continue (q, excess))
      else if excess =? 0 then Ok (Return (Some q))
      else excess <- wsub c 64 excess 1 ;; Ok (Continue (q, excess))
    else Ok (Return None).
  Lemma close_true a r e : l = a ++ true :: r -> e + 1 < 2 ^ 64 -> close_body (lengthN a, e) = Ok (Continue (lengthN a + 1, e + 1)).
  Proof.
    intros El He. destruct (mid _ _ _ _ El) as [E1 E2]. unfold close_body. rewrite BL. cbn [bind]. destruct (lengthN a <? lengthN l) eqn:E; [|lia].
    rewrite (GB _ _ E1). cbn [bind]. rewrite !wadd_ok by lia. reflexivity.
  Qed.
  Lemma close_false a r e : l = a ++ false :: r -> 1 <= e ->
    close_body (lengthN a, e) = Ok (if e =? 1 then Return (Some (lengthN a)) else Continue (lengthN a + 1, e - 1)).
  Proof.
    intros El He. destruct (mid _ _ _ _ El) as [E1 E2]. unfold close_body. rewrite BL. cbn [bind]. destruct (lengthN a <? lengthN l) eqn:E; [|lia].
    rewrite (GB _ _ E1). cbn [bind]. rewrite wsub_ok by lia. cbn [bind]. destruct (e =? 1) eqn:E3; destruct (e - 1 =? 0) eqn:E4; try lia; [reflexivity|].
    rewrite wadd_ok by lia. reflexivity.
  Qed.
  Lemma close_over f : forall a b e n, l = a ++ parens f ++ b -> 1 <= e -> e + size f < 2 ^ 64 ->
    loop_fuel (length (parens f) + n)%nat close_body (lengthN a, e) = loop_fuel n close_body (lengthN a + 2 * size f, e).
  Proof.
    induction f as [|ch IHc sib IHs]; intros a b e n El He Hs; [cbn [parens length Nat.add size]; now rewrite N.add_0_r|].
    cbn [parens size] in *. cbn [length Nat.add loop_fuel]. rewrite <- app_comm_cons in El. rewrite (close_true _ _ _ El) by lia. cbn [bind].
    rewrite app_length. cbn [length]. replace (length (parens ch) + S (length (parens sib)) + n)%nat with (length (parens ch) + S (length (parens sib) + n))%nat by lia.
    assert (E1 : l = (a ++ [true]) ++ parens ch ++ false :: parens sib ++ b) by (rewrite El, <- !app_assoc; reflexivity).
    pose proof (IHc _ _ (e + 1) (S (length (parens sib) + n)) E1 ltac:(lia) ltac:(lia)) as G. rewrite lengthN_app, lengthN_cons, lengthN_nil in G.
    replace (lengthN a + (0 + 1)) with (lengthN a + 1) in G by lia. rewrite G. cbn [loop_fuel].
    assert (E2 : l = (a ++ true :: parens ch) ++ false :: parens sib ++ b) by (rewrite El, <- !app_assoc; reflexivity).
    pose proof (close_false _ _ (e + 1) E2 ltac:(lia)) as G2. rewrite lengthN_app, lengthN_cons, lengthN_parens in G2. replace (lengthN a + (2 * size ch + 1)) with (lengthN a + 1 + 2 * size ch) in G2 by lia.
    rewrite G2. destruct (e + 1 =? 1) eqn:E3; [lia|]. cbn [bind]. replace (e + 1 - 1) with e by lia.
    assert (E4 : l = (a ++ true :: parens ch ++ [false]) ++ parens sib ++ b).
    { rewrite El, <- !app_assoc. cbn [app]. rewrite <- !app_assoc. reflexivity. }
    pose proof (IHs _ _ e n E4 He ltac:(lia)) as G3. rewrite lengthN_app, lengthN_cons, lengthN_app, lengthN_parens, lengthN_cons, lengthN_nil in G3.
    replace (lengthN a + (2 * size ch + (0 + 1) + 1)) with (lengthN a + 1 + 2 * size ch + 1) in G3 by lia. rewrite G3. f_equal. f_equal. lia.
  Qed.
  Lemma find_close_ok a ch r fuel : l = a ++ true :: parens ch ++ false :: r -> (length l < fuel)%nat ->
    parens_find_close c fuel t (lengthN a) = Ok (Some (lengthN a + 1 + 2 * size ch)).
  Proof.
    intros El Hf. change (loop_fuel fuel close_body (lengthN a, 0) = Ok (Some (lengthN a + 1 + 2 * size ch))).
    pose proof (f_equal (@length bool) El) as HL. rewrite app_length in HL. cbn [length] in HL. rewrite app_length in HL. cbn [length] in HL.
    pose proof (f_equal lengthN El) as HN. rewrite lengthN_app, lengthN_cons, lengthN_app, lengthN_parens, lengthN_cons in HN.
    replace fuel with (S (length (parens ch) + S (fuel - length (parens ch) - 2)))%nat by lia. cbn [loop_fuel]. rewrite (close_true _ _ _ El) by lia. cbn [bind].
    assert (E1 : l = (a ++ [true]) ++ parens ch ++ false :: r) by (rewrite El, <- !app_assoc; reflexivity).
    pose proof (close_over ch _ _ 1 (S (fuel - length (parens ch) - 2)) E1 ltac:(lia) ltac:(lia)) as G. rewrite lengthN_app, lengthN_cons, lengthN_nil in G.
    replace (lengthN a + (0 + 1)) with (lengthN a + 1) in G by lia. replace (0 + 1) with 1 by lia. rewrite G. cbn [loop_fuel].
    assert (E2 : l = (a ++ true :: parens ch) ++ false :: r) by (rewrite El, <- !app_assoc; reflexivity).
    pose proof (close_false _ _ 1 E2 ltac:(lia)) as G2. rewrite lengthN_app, lengthN_cons, lengthN_parens in G2. replace (lengthN a + (2 * size ch + 1)) with (lengthN a + 1 + 2 * size ch) in G2 by lia.
    rewrite G2. reflexivity.
  Qed.

  Lemma open_step a b r e : l = a ++ b :: r -> e + (if b then 0 else 1) < 2 ^ 64 ->
    open_body (lengthN a + 1, e) = Ok (if b then if e =? 0 then Return (Some (lengthN a)) else Continue (lengthN a, e - 1) else Continue (lengthN a, e + 1)).
  Proof.
    intros El He. destruct (mid _ _ _ _ El) as [E1 E2]. unfold open_body. destruct (0 <? lengthN a + 1) eqn:E; [|lia]. rewrite wsub_ok by lia. cbn [bind].
    replace (lengthN a + 1 - 1) with (lengthN a) by lia. rewrite (GB _ _ E1). cbn [bind]. destruct b; cbn [negb].
    - destruct (e =? 0) eqn:E3; [reflexivity|]. rewrite wsub_ok by lia. reflexivity.
    - rewrite wadd_ok by lia. reflexivity.
  Qed.
  Lemma open_over f : forall a b e n, l = a ++ parens f ++ b -> e + size f < 2 ^ 64 ->
    loop_fuel (length (parens f) + n)%nat open_body (lengthN a + 2 * size f, e) = loop_fuel n open_body (lengthN a, e).
  Proof.
    induction f as [|ch IHc sib IHs]; intros a b e n El Hs; [cbn [parens length Nat.add size]; now rewrite N.add_0_r|].
    cbn [parens size] in *. cbn [length]. rewrite app_length. cbn [length].
    replace (S (length (parens ch) + S (length (parens sib))) + n)%nat with (length (parens sib) + S (length (parens ch) + S n))%nat by lia.
    rewrite <- app_comm_cons, <- app_assoc in El. cbn [app] in El.
    assert (E4 : l = (a ++ true :: parens ch ++ [false]) ++ parens sib ++ b).
    { rewrite El, <- !app_assoc. cbn [app]. rewrite <- !app_assoc. reflexivity. }
    pose proof (IHs _ _ e (S (length (parens ch) + S n)) E4 ltac:(lia)) as G3. rewrite lengthN_app, lengthN_cons, lengthN_app, lengthN_parens, lengthN_cons, lengthN_nil in G3.
    replace (lengthN a + 2 * (1 + size ch + size sib)) with (lengthN a + (2 * size ch + (0 + 1) + 1) + 2 * size sib) by lia. rewrite G3. cbn [loop_fuel].
    assert (E2 : l = (a ++ true :: parens ch) ++ false :: parens sib ++ b) by (rewrite El, <- !app_assoc; reflexivity).
    pose proof (open_step _ _ _ e E2 ltac:(cbv iota; lia)) as G2. rewrite lengthN_app, lengthN_cons, lengthN_parens in G2.
    replace (lengthN a + (2 * size ch + (0 + 1) + 1)) with (lengthN a + (2 * size ch + 1) + 1) by lia. rewrite G2. cbn [bind].
    assert (E1 : l = (a ++ [true]) ++ parens ch ++ false :: parens sib ++ b) by (rewrite El, <- !app_assoc; reflexivity).
    pose proof (IHc _ _ (e + 1) (S n) E1 ltac:(lia)) as G. rewrite lengthN_app, lengthN_cons, lengthN_nil in G.
    replace (lengthN a + (2 * size ch + 1)) with (lengthN a + (0 + 1) + 2 * size ch) by lia. rewrite G. cbn [loop_fuel].
    replace (lengthN a + (0 + 1)) with (lengthN a + 1) by lia. rewrite (open_step _ _ _ (e + 1) El) by (cbv iota; lia). destruct (e + 1 =? 0) eqn:E0; [lia|]. cbn [bind].
    f_equal. f_equal. lia.
  Qed.
  Lemma enclosing_ok a up b fuel : l = a ++ b -> outer a up -> (length l < fuel)%nat -> parens_enclosing c fuel t (lengthN a) = Ok up.
  Proof.
    intros El Ho Hf. change (loop_fuel fuel open_body (lengthN a, 0) = Ok up).
    pose proof (f_equal (@length bool) El) as HL. rewrite app_length in HL. pose proof (f_equal lengthN El) as HN. rewrite lengthN_app in HN.
    destruct Ho as [f|a up f Ho].
    - replace fuel with (length (parens f) + S (fuel - length (parens f) - 1))%nat by lia. pose proof (lengthN_parens f) as HP.
      pose proof (open_over f [] b 0 (S (fuel - length (parens f) - 1)) El ltac:(lia)) as G. change (lengthN (@nil bool)) with 0 in G. rewrite HP. rewrite N.add_0_l in G. rewrite G. reflexivity.
    - rewrite app_length in HL. cbn [length] in HL. rewrite lengthN_app, lengthN_cons, lengthN_parens in HN |- *. rewrite <- app_assoc in El. cbn [app] in El.
      replace fuel with (length (parens f) + S (fuel - length (parens f) - 1))%nat by lia.
      assert (E1 : l = (a ++ [true]) ++ parens f ++ b) by (rewrite El, <- !app_assoc; reflexivity).
      pose proof (open_over f _ b 0 (S (fuel - length (parens f) - 1)) E1 ltac:(lia)) as G. rewrite lengthN_app, lengthN_cons, lengthN_nil in G.
      replace (lengthN a + (2 * size f + 1)) with (lengthN a + (0 + 1) + 2 * size f) by lia. rewrite G. cbn [loop_fuel].
      replace (lengthN a + (0 + 1)) with (lengthN a + 1) by lia. rewrite (open_step _ _ _ 0 El) by (cbv iota; lia). reflexivity.
  Qed.
  Lemma node_at_ok a f b : l = a ++ parens f ++ b -> hd false b = false -> parens_node_at c t (lengthN a) = Ok (head_at (lengthN a) f).
  Proof.
    intros El Hb. unfold parens_node_at. fold V. rewrite BL. cbn [bind]. destruct f as [|ch sib].
    - cbn [parens app head_at] in *. destruct b as [|x b].
      + rewrite app_nil_r in El. subst l. rewrite N.ltb_irrefl. reflexivity.
      + cbn [hd] in Hb. subst x. destruct (mid _ _ _ _ El) as [E1 E2]. destruct (lengthN a <? lengthN l) eqn:E; [|lia]. rewrite (GB _ _ E1). reflexivity.
    - cbn [parens] in El. rewrite <- app_comm_cons in El. destruct (mid _ _ _ _ El) as [E1 E2]. destruct (lengthN a <? lengthN l) eqn:E; [|lia]. rewrite (GB _ _ E1). reflexivity.
  Qed.
End Run.

Lemma parens_push_ok c f : wf_cfg c -> forall m l, R_bv c 64 m l -> fits c 64 (lengthN l + 2 * size f) ->
  exists m', parens_push c f m = Ok m' /\ R_bv c 64 m' (l ++ parens f).
Proof.
  intros Hc. assert (H64 : wf_nb 64) by (unfold wf_nb; auto). pose proof (bvec_lawful_push c 64 Hc H64) as LP.
  induction f as [|ch IHc sib IHs]; intros m l HM HF; [exists m; rewrite app_nil_r; auto|]. cbn [size] in HF.
  assert (HF' : forall n, n <= lengthN l + 2 * (1 + size ch + size sib) -> fits c 64 n) by (intros n Hn; apply (fits_mono c 64 _ _ ltac:(lia) Hn HF)).
  cbn [parens_push parens]. destruct (lp_push_bit _ _ _ _ LP m l true HM) as (m1 & E1 & M1); [apply HF'; lia|]. rewrite E1. cbn [bind].
  destruct (IHc m1 _ M1) as (m2 & E2 & M2); [apply HF'; rewrite lengthN_app, lengthN_cons, lengthN_nil; lia|]. rewrite E2. cbn [bind].
  destruct (lp_push_bit _ _ _ _ LP m2 _ false M2) as (m3 & E3 & M3); [apply HF'; rewrite !lengthN_app, lengthN_cons, lengthN_nil, lengthN_parens; lia|]. rewrite E3. cbn [bind].
  destruct (IHs m3 _ M3) as (m4 & E4 & M4); [apply HF'; rewrite !lengthN_app, !lengthN_cons, lengthN_nil, lengthN_parens; lia|]. exists m4. split; [exact E4|].
  rewrite <- !app_assoc in M4. cbn [app] in M4. exact M4.
Qed.

Theorem C115_tree : forall c f, wf_cfg c -> fits c 64 (2 * size f) ->
  let nodes := places 0 1 None f in
  exists t, parens_new c f = Ok t /\
    (* two bits for a node *)
    bv_bit_len (bss_bitvec (rank9_bitvec (bvec_bitvec c 64))) t = Ok (2 * size f) /\
    (forall fuel i, (64 < fuel)%nat -> i < 2 ^ 64 - 1 -> parens_node c fuel t i = Ok (option_map opened (nthN nodes i))) /\
    (forall fuel i x, (N.to_nat (2 * size f) < fuel)%nat -> nthN nodes i = Some x ->
      parens_index c t (opened x) = Ok i /\
      parens_depth c t (opened x) = Ok (level x) /\
      parens_find_close c fuel t (opened x) = Ok (Some (closed x)) /\
      parens_enclosing c fuel t (opened x) = Ok (above x) /\
      parens_enclosing c fuel t (closed x) = Ok (Some (opened x)) /\
      parens_first_child c t (opened x) = Ok (first_born x) /\
      parens_next_sibling c fuel t (opened x) = Ok (younger x) /\
      parens_subtree_size c fuel t (opened x) = Ok (1 + lengthN (family x)) /\
      (forall y, In y nodes -> exists b, parens_is_ancestor c fuel t (opened x) (opened y) = Ok b /\ (b = true <-> In (opened y) (family x)))).
Proof.
  intros c f Hc HF nodes. assert (H64 : wf_nb 64) by (unfold wf_nb; auto). set (l := parens f).
  assert (LL : lengthN l = 2 * size f) by apply lengthN_parens.
  assert (Em : bvec_new c 64 = Ok {| vb_len := 0; vb_vec := [] |}) by (unfold bvec_new, vb_new, vb_block_with_capacity, alloc; cbn [N.mul]; destruct (max_bits c); reflexivity).
  assert (Rm : R_bv c 64 {| vb_len := 0; vb_vec := [] |} []) by (split; [reflexivity|]; split; [reflexivity|apply fits_0; lia]).
  destruct (parens_push_ok c f Hc _ _ Rm HF) as (m & E1 & M). cbn [app] in M. fold l in M.
  pose proof (bvec_lawful_bits c 64 Hc H64) as LB. pose proof (bvec_lawful_blocks c 64 Hc H64) as LK.
  destruct (rank9_new_ok c (bvec_bitvec c 64) (R_bv c 64) Hc LB (block_reads c _ _ LK) eq_refl m l M) as (d & Ed & Es & _).
  destruct (C35_rank_structures _ c (bvec_bitvec c 64) (R_bv c 64) Hc LB LK) as (_ & LR & _). specialize (LR eq_refl).
  assert (HD : exists m, R_bv c 64 m l /\ rank9_new c (bvec_bitvec c 64) m = Ok d) by (exists m; auto).
  pose proof (fits_lt64 c 64 _ ltac:(lia) HF) as L64.
  assert (BL : bv_bit_len (bss_bitvec (rank9_bitvec (bvec_bitvec c 64))) d = Ok (lengthN l)).
  { unfold bss_bitvec, rank9_bitvec. cbn [bv_bit_len]. rewrite Es. exact (lb_bit_len _ _ _ LB m l M). }
  assert (GB : forall p b, nthN l p = Some b -> bv_get_bit (bss_bitvec (rank9_bitvec (bvec_bitvec c 64))) d p = Ok b).
  { intros p b H. unfold bss_bitvec, rank9_bitvec. cbn [bv_get_bit]. rewrite Es. exact (lb_get_bit _ _ _ LB m l p b M H). }
  assert (LN : lengthN l < 2 ^ 64 - 1) by lia.
  assert (PL : forall i x, nthN nodes i = Some x -> exists a ch sib b, l = a ++ true :: parens ch ++ false :: parens sib ++ b /\ hd false b = false /\ outer a (above x) /\
    lengthN a = opened x /\ count true a = i /\ count true a + 1 = count false a + level x /\
    closed x = opened x + 1 + 2 * size ch /\ first_born x = head_at (opened x + 1) ch /\ younger x = head_at (closed x + 1) sib /\ lengthN (family x) = size ch).
  { intros i x E. destruct (place_in f 0 1 None i x [] [] E eq_refl eq_refl (outer_top Nil) eq_refl) as (a & ch & sib & b & H1 & H2). rewrite app_nil_r in H1. cbn [app] in H1.
    exists a, ch, sib, b. split; [exact H1|]. exact H2. }
  exists d. split; [unfold parens_new; rewrite Em; cbn [bind]; rewrite E1; exact Ed|]. split; [rewrite BL, LL; reflexivity|]. split.
  - intros fuel i Hf Hi. unfold parens_node. destruct (C35_select _ c _ _ d l i true fuel LR HD Hi Hf) as [(o & Eo & Ho1 & Ho2) _]. cbv iota in Eo. rewrite Eo. f_equal.
    destruct (nthN nodes i) as [x|] eqn:Ex; cbn [option_map].
    + destruct (PL i x Ex) as (a & ch & sib & b & El & _ & _ & Ha & Hi2 & _). apply Ho1. rewrite <- Ha. split; [exact (proj1 (mid l a _ _ El))|].
      rewrite El. rewrite firstnN_front by reflexivity. exact Hi2.
    + apply Ho2. apply nthN_None in Ex. unfold nodes in Ex. rewrite lengthN_places in Ex. unfold l. rewrite count_parens. exact Ex.
  - intros fuel i x Hf Ex. destruct (PL i x Ex) as (a & ch & sib & b & El & Hb & Ho & Ha & Hi & Hd & Hc2 & Hfb & Hy & Hfam).
    assert (Hf2 : (length l < fuel)%nat) by (unfold lengthN in LL; lia).
    pose proof (mid l a _ _ El) as [Q1 Q2]. rewrite Ha in Q1, Q2.
    assert (RK : forall v, rank_of v l (opened x) = count v a + (if v then 1 else 0)).
    { intros v. unfold rank_of. replace (firstnN (opened x + 1) l) with (a ++ [true]); [rewrite count_app; destruct v; reflexivity|].
      rewrite El. replace (a ++ true :: parens ch ++ false :: parens sib ++ b) with ((a ++ [true]) ++ parens ch ++ false :: parens sib ++ b) by (rewrite <- app_assoc; reflexivity).
      assert (lengthN (a ++ [true]) = opened x + 1) by (rewrite lengthN_app, lengthN_cons, lengthN_nil; lia). rewrite firstnN_front by assumption. reflexivity. }
    assert (R1 : br_rank1 (bss_bitrank (rank9_bitrank c (bvec_bitvec c 64))) d (opened x) = Ok (i + 1)).
    { unfold bss_bitrank. cbn [br_rank1]. rewrite (lr_rank1 _ _ LR d l _ HD Q2), RK, Hi. reflexivity. }
    assert (R0 : br_rank0 (bss_bitrank (rank9_bitrank c (bvec_bitvec c 64))) d (opened x) = Ok (count false a)).
    { unfold bss_bitrank. cbn [br_rank0]. rewrite (lr_rank0 _ _ LR d l _ HD Q2), RK, N.add_0_r. reflexivity. }
    assert (FC : parens_find_close c fuel d (opened x) = Ok (Some (closed x))).
    { rewrite <- Ha, (find_close_ok c l d BL GB LN a ch _ fuel El Hf2), Hc2, Ha. reflexivity. }
    pose proof (places_range f 0 1 None x (nthN_in _ _ _ Ex)) as Rx.
    split; [unfold parens_index; rewrite R1; cbn [bind]; rewrite wsub_ok by lia; f_equal; lia|].
    split; [unfold parens_depth; rewrite R1; cbn [bind]; rewrite R0; cbn [bind]; rewrite wsub_ok by lia; f_equal; lia|].
    split; [exact FC|]. split; [rewrite <- Ha; exact (enclosing_ok c l d GB LN a _ _ fuel El Ho Hf2)|].
    split.
    { assert (E2 : l = (a ++ true :: parens ch) ++ false :: parens sib ++ b) by (rewrite El, <- !app_assoc; reflexivity).
      pose proof (enclosing_ok c l d GB LN _ _ _ fuel E2 (outer_in a _ ch Ho) Hf2) as G. rewrite lengthN_app, lengthN_cons, lengthN_parens in G.
      replace (lengthN a + (2 * size ch + 1)) with (closed x) in G by lia. rewrite Ha in G. exact G. }
    assert (E3 : l = (a ++ [true]) ++ parens ch ++ false :: parens sib ++ b) by (rewrite El, <- !app_assoc; reflexivity).
    assert (E4 : l = (a ++ true :: parens ch ++ [false]) ++ parens sib ++ b) by (rewrite El, <- !app_assoc; cbn [app]; rewrite <- !app_assoc; reflexivity).
    split.
    { unfold parens_first_child. rewrite wadd_ok by lia. cbn [bind]. pose proof (node_at_ok c l d BL GB LN _ _ _ E3 eq_refl) as G. rewrite lengthN_app, lengthN_cons, lengthN_nil in G.
      replace (lengthN a + (0 + 1)) with (opened x + 1) in G by lia. rewrite G, Hfb. reflexivity. }
    split.
    { unfold parens_next_sibling. rewrite FC. cbn [bind]. rewrite wadd_ok by lia. cbn [bind]. pose proof (node_at_ok c l d BL GB LN _ _ _ E4 Hb) as G.
      rewrite lengthN_app, lengthN_cons, lengthN_app, lengthN_parens, lengthN_cons, lengthN_nil in G.
      replace (lengthN a + (2 * size ch + (0 + 1) + 1)) with (closed x + 1) in G by lia. rewrite G, Hy. reflexivity. }
    split.
    { unfold parens_subtree_size. rewrite FC. cbn [bind]. rewrite wsub_ok by lia. cbn [bind]. rewrite wadd_ok by lia. cbn [bind]. f_equal. rewrite Hfam, Hc2.
      replace (opened x + 1 + 2 * size ch - opened x + 1) with ((1 + size ch) * 2) by lia. apply N.div_mul. lia. }
    intros y Hin. unfold parens_is_ancestor. rewrite FC. cbn [bind]. eexists. split; [reflexivity|]. split.
    + intros G. apply andb_prop in G. destruct G as [G1 G2]. apply (places_family f 0 1 None x y (nthN_in _ _ _ Ex) Hin); lia.
    + intros G. destruct (family_range f 0 1 None x _ (nthN_in _ _ _ Ex) G) as [G1 G2]. apply andb_true_intro. split; lia.
Qed.

(** The tree (()(()())) and a second root. *)
Example C115_ex : let leaf := Cons Nil in
  let f := Cons (leaf (Cons (leaf (leaf Nil)) Nil)) (leaf Nil) in
  parens f = [true; true; false; true; true; false; true; false; false; false; true; false] /\ fits dbg64 64 (2 * size f) /\
  map (fun x => (opened x, closed x, level x)) (places 0 1 None f) = [(0, 9, 1); (1, 2, 2); (3, 8, 2); (4, 5, 3); (6, 7, 3); (10, 11, 1)] /\
  map (fun x => (above x, first_born x, younger x)) (places 0 1 None f) =
    [(None, Some 1, Some 10); (Some 0, None, Some 3); (Some 0, Some 4, None); (Some 3, None, Some 6); (Some 3, None, None); (None, None, None)] /\
  map family (places 0 1 None f) = [[1; 3; 4; 6]; []; [4; 6]; []; []; []] /\
  (t <- parens_new dbg64 f ;; p <- parens_node dbg64 65 t 4 ;; match p with
     Some p => d <- parens_depth dbg64 t p ;; up <- parens_enclosing dbg64 65 t p ;; Ok (p, d, up) | None => Panic PExpect end) = Ok (6, 3, Some 3).
Proof. cbv zeta. split; [reflexivity|]. split; [vm_compute; discriminate|]. repeat (split; [vm_compute; reflexivity|]). vm_compute. reflexivity. Qed.
Print Assumptions C115_tree.
