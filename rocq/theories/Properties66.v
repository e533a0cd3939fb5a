(** * Property C118: a labelled tree in level order ([MLouds.v]). *)
From Verif Require Import Machine MStorage MTraits MVectorBase MBitVector MIntVector MRank MSelect MLouds
  SpecBits SpecCfg SpecLaws SpecOps SpecRank PBase PStorage PBits PVectorBase PVectorBase2 PVectorBase3 PBitVector PIntVector PIntRun PRank PRank9 PSelect
  Properties6 Properties49 Properties57.

(** ** Trees, without bits *)
(** A node is named by its path: the numbers of the children on the way from the root. *)
Fixpoint subtree (p : list N) (t : tree) : option tree :=
  match p with
  | [] => Some t
  | j :: r => match nthN (children_of t) j with Some x => subtree r x | None => None end
  end.
Fixpoint tree_size (t : tree) : N := let '(Node _ cs) := t in 1 + fold_right (fun x n => tree_size x + n) 0 cs.
Fixpoint height (t : tree) : nat := let '(Node _ cs) := t in S (fold_right (fun x n => Nat.max (height x) n) O cs).
Fixpoint labels_below (m : N) (t : tree) : Prop := let '(Node a cs) := t in a < m /\ fold_right (fun x Q => labels_below m x /\ Q) True cs.

Fixpoint brothers (p : list N) (j : N) (cs : list tree) : list (list N * tree) :=
  match cs with [] => [] | x :: r => (p ++ [j], x) :: brothers p (j + 1) r end.
Definition kids (x : list N * tree) : list (list N * tree) := brothers (fst x) 0 (children_of (snd x)).
(** The nodes [d] levels below the given ones, from left to right, and the nodes of a tree level by level *)
Fixpoint generation (d : nat) (xs : list (list N * tree)) : list (list N * tree) :=
  match d with O => xs | S d => generation d (flat_map kids xs) end.
Definition levels (h : nat) (xs : list (list N * tree)) : list (list N * tree) := flat_map (fun d => generation d xs) (seq 0 h).
Definition level_order (t : tree) : list (list N * tree) := levels (height t) [([], t)].

Lemma lengthN_brothers p j cs : lengthN (brothers p j cs) = lengthN cs.
Proof. revert j. induction cs as [|x r IH]; intros j; [reflexivity|]. cbn [brothers]. now rewrite !lengthN_cons, IH. Qed.
Lemma snd_brothers p j cs : map snd (brothers p j cs) = cs.
Proof. revert j. induction cs as [|x r IH]; intros j; [reflexivity|]. cbn [brothers map snd]. now rewrite IH. Qed.
Lemma nthN_brothers p cs : forall j i, nthN (brothers p j cs) i = option_map (pair (p ++ [j + i])) (nthN cs i).
Proof.
  induction cs as [|x r IH]; intros j i; cbn [brothers]; [now rewrite !nthN_nil|]. rewrite !nthN_cons. destruct (i =? 0) eqn:E.
  - cbn [option_map]. do 5 f_equal. lia.
  - rewrite IH. replace (j + 1 + (i - 1)) with (j + i) by lia. reflexivity.
Qed.
Lemma nthN_kids x j : nthN (kids x) j = option_map (pair (fst x ++ [j])) (nthN (children_of (snd x)) j).
Proof. unfold kids. now rewrite nthN_brothers. Qed.
Lemma lengthN_kids x : lengthN (kids x) = lengthN (children_of (snd x)).
Proof. apply lengthN_brothers. Qed.
Lemma in_nthN {A} (x : A) l : In x l <-> exists i, nthN l i = Some x.
Proof.
  split.
  - intros H. apply In_nth_error in H. destruct H as [n H]. exists (N.of_nat n). rewrite nthN_nth_error, Nat2N.id. exact H.
  - intros [i H]. rewrite nthN_nth_error in H. eapply nth_error_In; exact H.
Qed.

Lemma flat_map_flat_map {A B C} (f : A -> list B) (g : B -> list C) l : flat_map g (flat_map f l) = flat_map (fun x => flat_map g (f x)) l.
Proof. induction l as [|x l IH]; [reflexivity|]. cbn [flat_map]. now rewrite flat_map_app, IH. Qed.
Lemma generation_kids d xs : flat_map kids (generation d xs) = generation d (flat_map kids xs).
Proof. revert xs. induction d as [|d IH]; intros xs; [reflexivity|]. cbn [generation]. apply IH. Qed.
Lemma levels_S h xs : levels (S h) xs = xs ++ levels h (flat_map kids xs).
Proof.
  unfold levels. cbn [seq flat_map generation]. f_equal. rewrite <- seq_shift.
  induction (seq 0 h) as [|d ds IH]; [reflexivity|]. cbn [map flat_map generation]. now rewrite IH.
Qed.
Lemma levels_snoc h xs : levels (S h) xs = levels h xs ++ generation h xs.
Proof. unfold levels. rewrite seq_S, flat_map_app. cbn [flat_map Nat.add]. now rewrite app_nil_r. Qed.
Lemma levels_kids h xs : flat_map kids (levels h xs) = levels h (flat_map kids xs).
Proof.
  unfold levels. rewrite flat_map_flat_map. induction (seq 0 h) as [|d ds IH]; [reflexivity|]. cbn [flat_map]. now rewrite IH, generation_kids.
Qed.
Lemma height_child t x : In x (children_of t) -> (height x < height t)%nat.
Proof.
  destruct t as [a cs]. cbn [children_of height]. intros H. induction cs as [|y cs IH]; [destruct H|]. cbn [fold_right].
  destruct H as [->|H]; [lia|]. specialize (IH H). lia.
Qed.
Lemma in_kids p x q : In (p, x) (kids q) -> In x (children_of (snd q)).
Proof. intros H. apply (in_map snd) in H. unfold kids in H. now rewrite snd_brothers in H. Qed.
Lemma generation_end h xs : (forall x, In x xs -> (height (snd x) <= h)%nat) -> generation h xs = [].
Proof.
  revert xs. induction h as [|h IH]; intros xs H.
  - destruct xs as [|x xs]; [reflexivity|]. specialize (H x (or_introl eq_refl)). destruct (snd x). cbn [height] in H. lia.
  - cbn [generation]. apply IH. intros [p x] Hx. apply in_flat_map in Hx. destruct Hx as (q & Hq & Hx). apply in_kids in Hx.
    apply height_child in Hx. specialize (H q Hq). cbn [snd]. lia.
Qed.
Lemma level_order_end t : generation (height t) [([], t)] = [].
Proof. apply generation_end. intros x [<-|[]]. reflexivity. Qed.
(** The nodes are the root and all the children of the nodes, in this order. *)
Lemma level_order_eq t : level_order t = ([], t) :: flat_map kids (level_order t).
Proof.
  unfold level_order. rewrite levels_kids. change (([], t) :: levels (height t) (flat_map kids [([], t)])) with ([([], t)] ++ levels (height t) (flat_map kids [([], t)])).
  rewrite <- levels_S, levels_snoc, level_order_end. now rewrite app_nil_r.
Qed.

Definition weight (xs : list (list N * tree)) : N := fold_right (fun x n => tree_size (snd x) + n) 0 xs.
Lemma weight_app a b : weight (a ++ b) = weight a + weight b.
Proof. induction a as [|x a IH]; [reflexivity|]. cbn [app weight fold_right] in *. fold (weight (a ++ b)). fold (weight a). unfold weight in *. lia. Qed.
Lemma weight_kids x : tree_size (snd x) = 1 + weight (kids x).
Proof.
  destruct x as [p [a cs]]. unfold kids. cbn [fst snd children_of tree_size]. f_equal.
  assert (G : forall j, fold_right (fun x n => tree_size x + n) 0 cs = weight (brothers p j cs)); [|exact (G 0)].
  induction cs as [|y cs IH]; intros j; [reflexivity|]. cbn [brothers weight fold_right snd]. rewrite (IH (j + 1)). reflexivity.
Qed.
Lemma weight_down xs : weight xs = lengthN xs + weight (flat_map kids xs).
Proof.
  induction xs as [|x xs IH]; [reflexivity|]. cbn [flat_map]. rewrite weight_app, lengthN_cons.
  change (weight (x :: xs)) with (tree_size (snd x) + weight xs). rewrite IH, weight_kids. lia.
Qed.
Lemma lengthN_levels h : forall xs, generation h xs = [] -> lengthN (levels h xs) = weight xs.
Proof.
  induction h as [|h IH]; intros xs H; [cbn [generation] in H; subst xs; reflexivity|].
  rewrite levels_S, lengthN_app, IH by exact H. rewrite (weight_down xs). reflexivity.
Qed.
Lemma lengthN_level_order t : lengthN (level_order t) = tree_size t.
Proof. unfold level_order. rewrite lengthN_levels by apply level_order_end. unfold weight. cbn [fold_right snd]. lia. Qed.

Lemma in_generation d : forall xs p y, In (p, y) (generation d xs) <->
  exists x q, In x xs /\ p = fst x ++ q /\ length q = d /\ subtree q (snd x) = Some y.
Proof.
  induction d as [|d IH]; intros xs p y; cbn [generation].
  - split.
    + intros H. exists (p, y), []. cbn [fst snd]. rewrite app_nil_r. auto.
    + intros (x & q & H & -> & Hl & Hs). destruct q; [|discriminate]. cbn [subtree] in Hs. injection Hs as <-. rewrite app_nil_r. now destruct x.
  - rewrite IH. split.
    + intros (x & q & H & -> & Hl & Hs). apply in_flat_map in H. destruct H as (z & Hz & H). apply in_nthN in H. destruct H as [j H].
      rewrite nthN_kids in H. destruct (nthN (children_of (snd z)) j) as [w|] eqn:Ew; [|discriminate]. cbn [option_map] in H. injection H as <-.
      exists z, (j :: q). cbn [fst snd subtree length] in *. rewrite Ew. split; [exact Hz|]. split; [rewrite <- app_assoc; reflexivity|]. auto.
    + intros (x & q & H & -> & Hl & Hs). destruct q as [|j q]; [discriminate|]. cbn [subtree] in Hs.
      destruct (nthN (children_of (snd x)) j) as [w|] eqn:Ew; [|discriminate].
      exists (fst x ++ [j], w), q. cbn [fst snd length] in *. split; [|split; [rewrite <- app_assoc; reflexivity|split; [lia|exact Hs]]].
      apply in_flat_map. exists x. split; [exact H|]. apply in_nthN. exists j. rewrite nthN_kids, Ew. reflexivity.
Qed.
Lemma subtree_height p : forall t x, subtree p t = Some x -> (length p < height t)%nat.
Proof.
  induction p as [|j p IH]; intros t x H; [destruct t; cbn [height length]; lia|]. cbn [subtree] in H.
  destruct (nthN (children_of t) j) as [y|] eqn:E; [|discriminate]. specialize (IH y x H).
  assert (In y (children_of t)) by (apply in_nthN; now exists j). pose proof (height_child t y H0). cbn [length]. lia.
Qed.

Lemma NoDup_app' {A} (a b : list A) : NoDup a -> NoDup b -> (forall x, In x a -> In x b -> False) -> NoDup (a ++ b).
Proof.
  intros Ha Hb H. induction a as [|x a IH]; [exact Hb|]. inversion Ha; subst. cbn [app]. constructor.
  - intros G. apply in_app_or in G. destruct G as [G|G]; [contradiction|]. exact (H x (or_introl eq_refl) G).
  - apply IH; [assumption|]. intros y G1 G2. exact (H y (or_intror G1) G2).
Qed.
Lemma NoDup_brothers p cs : forall j, NoDup (map fst (brothers p j cs)) /\ (forall q, In q (map fst (brothers p j cs)) -> exists i, q = p ++ [i] /\ j <= i).
Proof.
  induction cs as [|x cs IH]; intros j; cbn [brothers map fst]; [split; [constructor|intros q []]|]. destruct (IH (j + 1)) as [I1 I2]. split.
  - constructor; [|exact I1]. intros G. destruct (I2 _ G) as (i & E & Hi). apply app_inj_tail in E. destruct E as [_ E]. lia.
  - intros q [<-|G]; [exists j; split; [reflexivity|lia]|]. destruct (I2 q G) as (i & -> & Hi). exists i. split; [reflexivity|lia].
Qed.
Lemma NoDup_kids xs : NoDup (map fst xs) -> NoDup (map fst (flat_map kids xs)).
Proof.
  induction xs as [|x xs IH]; intros H; [constructor|]. cbn [map flat_map] in *. inversion H as [|? ? Hx Hr]; subst. rewrite map_app.
  apply NoDup_app'; [apply NoDup_brothers|now apply IH|]. intros q G1 G2. destruct (proj2 (NoDup_brothers _ _ _) q G1) as (i & -> & _).
  apply in_map_iff in G2. destruct G2 as (y & Ey & G2). apply in_flat_map in G2. destruct G2 as (z & Hz & G2).
  assert (G3 : In (fst y) (map fst (kids z))) by (now apply in_map). destruct (proj2 (NoDup_brothers _ _ _) _ G3) as (i' & E & _).
  rewrite Ey in E. apply app_inj_tail in E. destruct E as [E _]. apply Hx. rewrite E. now apply in_map.
Qed.
Lemma NoDup_generation d xs : NoDup (map fst xs) -> NoDup (map fst (generation d xs)).
Proof. revert xs. induction d as [|d IH]; intros xs H; [exact H|]. cbn [generation]. apply IH. now apply NoDup_kids. Qed.
Lemma depth_levels h t p x : In (p, x) (levels h [([], t)]) <-> (length p < h)%nat /\ subtree p t = Some x.
Proof.
  unfold levels. rewrite in_flat_map. split.
  - intros (d & Hd & H). apply in_seq in Hd. apply in_generation in H. destruct H as (z & q & [<-|[]] & -> & Hl & Hs). cbn [fst snd app] in *. split; [lia|exact Hs].
  - intros [Hl Hs]. exists (length p). split; [apply in_seq; lia|]. apply in_generation. exists ([], t), p. cbn [fst snd app]. split; [now left|]. auto.
Qed.

(** The level order is a list of all the nodes, each once, the higher ones first. *)
Theorem C118_level_order : forall t,
  (forall p x, In (p, x) (level_order t) <-> subtree p t = Some x) /\
  NoDup (map fst (level_order t)) /\ lengthN (level_order t) = tree_size t /\
  (forall i j p x q y, nthN (level_order t) i = Some (p, x) -> nthN (level_order t) j = Some (q, y) -> i <= j -> lengthN p <= lengthN q).
Proof.
  intros t. split; [|split; [|split]].
  - intros p x. unfold level_order. rewrite depth_levels. split; [tauto|]. intros H. split; [exact (subtree_height _ _ _ H)|exact H].
  - unfold level_order. induction (height t) as [|h IH]; [constructor|]. rewrite levels_snoc, map_app. apply NoDup_app'; [exact IH| |].
    + apply NoDup_generation. constructor; [intros []|constructor].
    + intros q G1 G2. apply in_map_iff in G1. destruct G1 as ([p x] & <- & G1). apply depth_levels in G1.
      apply in_map_iff in G2. destruct G2 as ([p' x'] & E & G2). apply in_generation in G2. destruct G2 as (z & q & [<-|[]] & -> & Hl & _).
      cbn [fst snd app] in *. subst q. lia.
  - apply lengthN_level_order.
  - unfold level_order. induction (height t) as [|h IH]; intros i j p x q y Hi Hj Hij; [unfold levels in Hi; cbn [seq flat_map] in Hi; now rewrite nthN_nil in Hi|].
    rewrite levels_snoc in Hi, Hj. rewrite nthN_app in Hi, Hj.
    assert (GEN : forall k r z, nthN (generation h [([], t)]) k = Some (r, z) -> length r = h).
    { intros k r z G. assert (G2 : In (r, z) (generation h [([], t)])) by (apply in_nthN; now exists k).
      apply in_generation in G2. destruct G2 as (w & s & [<-|[]] & -> & Hl & _). exact Hl. }
    destruct (j <? lengthN (levels h [([], t)])) eqn:Ej.
    + destruct (i <? lengthN (levels h [([], t)])) eqn:Ei; [|lia]. exact (IH _ _ _ _ _ _ Hi Hj Hij).
    + pose proof (GEN _ _ _ Hj) as Gj. unfold lengthN. destruct (i <? lengthN (levels h [([], t)])) eqn:Ei.
      * assert (G2 : In (p, x) (levels h [([], t)])) by (apply in_nthN; now exists i). apply depth_levels in G2. lia.
      * pose proof (GEN _ _ _ Hi). lia.
Qed.

(** ** The text: for every node a one per child, and a zero *)
Definition entry (x : list N * tree) : list bool := repeatN true (lengthN (children_of (snd x))) ++ [false].
Definition text (xs : list (list N * tree)) : list bool := flat_map entry xs.
Lemma count_trues v n : count v (repeatN true n) = if v then n else 0.
Proof.
  unfold repeatN. rewrite <- (N2Nat.id n) at 2. induction (N.to_nat n) as [|m IH]; [now destruct v|].
  change (repeat true (S m)) with ([true] ++ repeat true m). rewrite count_app, IH. destruct v; [change (count true [true]) with 1; lia|reflexivity].
Qed.
Lemma lengthN_entry x : lengthN (entry x) = lengthN (children_of (snd x)) + 1.
Proof. unfold entry. rewrite lengthN_app, lengthN_repeatN. reflexivity. Qed.
Lemma text_app a b : text (a ++ b) = text a ++ text b.
Proof. apply flat_map_app. Qed.
Lemma count_text v xs : count v (text xs) = if v then lengthN (flat_map kids xs) else lengthN xs.
Proof.
  induction xs as [|x xs IH]; [now destruct v|]. cbn [text flat_map]. fold (text xs). unfold entry. rewrite !count_app, IH, count_trues.
  destruct v; [rewrite lengthN_app, lengthN_kids; change (count true [false]) with 0; lia|rewrite lengthN_cons; change (count false [false]) with 1; lia].
Qed.
Lemma lengthN_text xs : lengthN (text xs) = lengthN xs + lengthN (flat_map kids xs).
Proof.
  induction xs as [|x xs IH]; [reflexivity|]. cbn [text flat_map]. fold (text xs). rewrite !lengthN_app, lengthN_cons, lengthN_entry, lengthN_kids, IH. lia.
Qed.
Lemma nthN_cut {A} (l : list A) i x : nthN l i = Some x -> exists a b, l = a ++ x :: b /\ lengthN a = i.
Proof.
  rewrite nthN_nth_error. intros H. apply nth_error_split in H. destruct H as (a & b & E & H). exists a, b. split; [exact E|]. unfold lengthN. lia.
Qed.
Lemma nthN_mid {A} (a : list A) x b : nthN (a ++ x :: b) (lengthN a) = Some x.
Proof. rewrite nthN_app, N.ltb_irrefl, N.sub_diag, nthN_cons. reflexivity. Qed.
Lemma nthN_flat_map {A B} (f : A -> list B) a x b j y : nthN (f x) j = Some y ->
  nthN (flat_map f (a ++ x :: b)) (lengthN (flat_map f a) + j) = Some y.
Proof.
  intros H. rewrite flat_map_app. cbn [flat_map]. rewrite nthN_app. destruct (lengthN (flat_map f a) + j <? lengthN (flat_map f a)) eqn:E; [lia|].
  replace (lengthN (flat_map f a) + j - lengthN (flat_map f a)) with j by lia. rewrite nthN_app. pose proof (nthN_lt _ _ _ H).
  destruct (j <? lengthN (f x)) eqn:E2; [exact H|lia].
Qed.
Lemma flat_map_cut {A B} (f : A -> list B) l : forall m y, nthN (flat_map f l) m = Some y ->
  exists a x b j, l = a ++ x :: b /\ nthN (f x) j = Some y /\ m = lengthN (flat_map f a) + j.
Proof.
  induction l as [|z l IH]; intros m y H; cbn [flat_map] in H; [now rewrite nthN_nil in H|]. rewrite nthN_app in H. destruct (m <? lengthN (f z)) eqn:E.
  - exists [], z, l, m. auto.
  - destruct (IH _ _ H) as (a & x & b & j & -> & H1 & H2). exists (z :: a), x, b, j. split; [reflexivity|]. split; [exact H1|].
    cbn [flat_map]. rewrite lengthN_app. lia.
Qed.
Lemma firstnN_head {A} (a r : list A) n : lengthN a = n -> firstnN n (a ++ r) = a.
Proof. intros H. unfold firstnN, lengthN in *. replace (N.to_nat n) with (length a + 0)%nat by lia. rewrite firstn_app_2. cbn [firstn]. apply app_nil_r. Qed.

(** ** The constructor *)
Section Build.
  Variables (c : cfg) (k : N).
  Hypothesis Hc : wf_cfg c.
  Hypothesis Hk : 1 <= k <= 64.
  Let H64 : wf_nb 64. Proof. unfold wf_nb. auto. Qed.
  Let LP := bvec_lawful_push c 64 Hc H64.

  Lemma louds_children_ok cs : forall m l q, R_bv c 64 m l -> fits c 64 (lengthN l + lengthN cs) ->
    exists m', louds_children c cs m q = Ok (m', q ++ cs) /\ R_bv c 64 m' (l ++ repeatN true (lengthN cs)).
  Proof.
    induction cs as [|x cs IH]; intros m l q HM HF; [exists m; change (repeatN true (lengthN (@nil tree))) with (@nil bool); rewrite !app_nil_r; auto|].
    rewrite lengthN_cons in HF. cbn [louds_children]. destruct (lp_push_bit _ _ _ _ LP m l true HM) as (m1 & E1 & M1).
    { apply (fits_mono c 64 _ (lengthN l + (lengthN cs + 1))); [lia|lia|exact HF]. }
    rewrite E1. cbn [bind]. destruct (IH m1 _ (q ++ [x]) M1) as (m2 & E2 & M2).
    { rewrite lengthN_app. change (lengthN [true]) with 1. now replace (lengthN l + 1 + lengthN cs) with (lengthN l + (lengthN cs + 1)) by lia. }
    exists m2. rewrite <- !app_assoc in *. split; [exact E2|].
    replace (repeatN true (lengthN (x :: cs))) with ([true] ++ repeatN true (lengthN cs)); [exact M2|].
    rewrite lengthN_cons. unfold repeatN. replace (N.to_nat (lengthN cs + 1)) with (S (N.to_nat (lengthN cs))) by lia. reflexivity.
  Qed.
  Lemma louds_queue a : forall b m v l ls fuel, R_bv c 64 m l -> R_iv c 64 k v ls -> Forall (fun x => label_of (snd x) < 2 ^ k) a ->
    fits c 64 (lengthN l + lengthN (text a)) -> fits c 64 ((lengthN ls + lengthN a) * k) ->
    exists m' v', R_bv c 64 m' (l ++ text a) /\ R_iv c 64 k v' (ls ++ map (fun x => label_of (snd x)) a) /\
      loop_fuel (length a + fuel)%nat (louds_body c) (map snd (a ++ b), (m, v)) = loop_fuel fuel (louds_body c) (map snd (b ++ flat_map kids a), (m', v')).
  Proof.
    induction a as [|x a IH]; intros b m v l ls fuel HM HV HL HF HG.
    - exists m, v. cbn [text flat_map map length Nat.add app]. rewrite !app_nil_r. auto.
    - apply Forall_cons_iff in HL. destruct HL as [HL1 HL2]. cbn [text flat_map] in HF. fold (text a) in HF. rewrite lengthN_app, lengthN_entry in HF. rewrite lengthN_cons in HG.
      set (n := lengthN (children_of (snd x))) in *.
      cbn [length Nat.add loop_fuel app map louds_body].
      destruct (iv_push_ok c 64 k Hc H64 ltac:(lia) v ls (label_of (snd x)) HV HL1) as (v1 & E1 & V1).
      { apply (fits_mono c 64 _ ((lengthN ls + (lengthN a + 1)) * k)); [lia|apply N.mul_le_mono_r; lia|exact HG]. }
      rewrite E1. cbn [bind]. destruct (louds_children_ok (children_of (snd x)) m l (map snd (a ++ b)) HM) as (m1 & E2 & M1).
      { apply (fits_mono c 64 _ (lengthN l + (n + 1 + lengthN (text a)))); [lia|fold n; lia|exact HF]. }
      rewrite E2. cbn [bind]. fold n in M1. destruct (lp_push_bit _ _ _ _ LP m1 _ false M1) as (m2 & E3 & M2).
      { apply (fits_mono c 64 _ (lengthN l + (n + 1 + lengthN (text a)))); [lia|rewrite lengthN_app, lengthN_repeatN; lia|exact HF]. }
      rewrite E3. cbn [bind].
      destruct (IH (b ++ kids x) m2 v1 _ _ fuel M2 V1 HL2) as (m3 & v3 & M3 & V3 & E4).
      { rewrite !lengthN_app, lengthN_repeatN. change (lengthN [false]) with 1.
        now replace (lengthN l + n + 1 + lengthN (text a)) with (lengthN l + (n + 1 + lengthN (text a))) by lia. }
      { rewrite lengthN_app. change (lengthN [label_of (snd x)]) with 1. now replace (lengthN ls + 1 + lengthN a) with (lengthN ls + (lengthN a + 1)) by lia. }
      exists m3, v3. split; [|split].
      + cbn [text flat_map]. fold (text a). unfold entry. fold n. repeat rewrite <- app_assoc in M3. repeat rewrite <- app_assoc. exact M3.
      + cbn [map]. rewrite <- app_assoc in V3. exact V3.
      + cbn [flat_map]. rewrite app_assoc. rewrite <- E4. f_equal. f_equal. rewrite !map_app. unfold kids. rewrite snd_brothers, <- app_assoc. reflexivity.
  Qed.
  Lemma louds_all h : forall xs m v l ls fuel, generation h xs = [] -> R_bv c 64 m l -> R_iv c 64 k v ls ->
    Forall (fun x => label_of (snd x) < 2 ^ k) (levels h xs) ->
    fits c 64 (lengthN l + lengthN (text (levels h xs))) -> fits c 64 ((lengthN ls + lengthN (levels h xs)) * k) -> (length (levels h xs) < fuel)%nat ->
    exists m' v', loop_fuel fuel (louds_body c) (map snd xs, (m, v)) = Ok (m', v') /\
      R_bv c 64 m' (l ++ text (levels h xs)) /\ R_iv c 64 k v' (ls ++ map (fun x => label_of (snd x)) (levels h xs)).
  Proof.
    induction h as [|h IH]; intros xs m v l ls fuel HE HM HV HL HF HG Hf.
    - cbn [generation] in HE. subst xs. destruct fuel as [|fuel]; [cbn in Hf; lia|]. exists m, v. unfold levels. cbn [seq flat_map text map]. rewrite !app_nil_r. auto.
    - rewrite levels_S in *. rewrite text_app, lengthN_app in HF. rewrite lengthN_app in HG. rewrite app_length in Hf. apply Forall_app in HL. destruct HL as [HL1 HL2].
      set (r := levels h (flat_map kids xs)) in *.
      destruct (louds_queue xs [] m v l ls (fuel - length xs) HM HV HL1) as (m1 & v1 & M1 & V1 & E1).
      { apply (fits_mono c 64 _ (lengthN l + (lengthN (text xs) + lengthN (text r)))); [lia|lia|exact HF]. }
      { apply (fits_mono c 64 _ ((lengthN ls + (lengthN xs + lengthN r)) * k)); [lia|apply N.mul_le_mono_r; lia|exact HG]. }
      rewrite app_nil_r in E1. cbn [app] in E1. replace (length xs + (fuel - length xs))%nat with fuel in E1 by lia.
      destruct (IH (flat_map kids xs) m1 v1 _ _ (fuel - length xs)%nat HE M1 V1 HL2) as (m2 & v2 & E2 & M2 & V2).
      { fold r. rewrite lengthN_app. now replace (lengthN l + lengthN (text xs) + lengthN (text r)) with (lengthN l + (lengthN (text xs) + lengthN (text r))) by lia. }
      { fold r. rewrite lengthN_app, lengthN_map. now replace (lengthN ls + lengthN xs + lengthN r) with (lengthN ls + (lengthN xs + lengthN r)) by lia. }
      { fold r. lia. }
      exists m2, v2. rewrite E1. split; [exact E2|]. fold r in M2, V2. rewrite text_app, map_app. rewrite <- !app_assoc in *. auto.
  Qed.
End Build.

Lemma labels_subtree m p : forall t x, labels_below m t -> subtree p t = Some x -> label_of x < m.
Proof.
  induction p as [|j p IH]; intros t x HB H; cbn [subtree] in H.
  - injection H as <-. destruct t. exact (proj1 HB).
  - destruct (nthN (children_of t) j) as [y|] eqn:E; [|discriminate]. apply (IH y x); [|exact H].
    assert (Hy : In y (children_of t)) by (apply in_nthN; now exists j). destruct t as [a cs]. cbn [children_of labels_below] in *. destruct HB as [_ HB].
    clear - HB Hy. induction cs as [|z cs IH]; [destruct Hy|]. cbn [fold_right] in HB. destruct HB as [B1 B2]. destruct Hy as [->|Hy]; [exact B1|now apply IH].
Qed.

(** ** The queries *)
Section Queries.
  Variables (c : cfg) (t : tree) (s : louds) (fuel : nat).
  Let B := bvec_bitvec c 64.
  Let L := level_order t.
  Let l := text L.
  Variable Rel : rank9 vbase -> list bool -> Prop.
  Hypothesis LR : lawful_rank (rank9_bitrank c B) Rel.
  Hypothesis HD : Rel (lo_bits s) l.
  Hypothesis L64 : lengthN l < 2 ^ 64 - 1.
  Hypothesis Hf : (64 < fuel)%nat.

  Lemma L_eq : L = ([], t) :: flat_map kids L.
  Proof. apply level_order_eq. Qed.
  Lemma L_short : lengthN L <= lengthN l.
  Proof. unfold l. rewrite lengthN_text. lia. Qed.
  Lemma cut_text a x b : L = a ++ x :: b -> l = (text a ++ repeatN true (lengthN (children_of (snd x)))) ++ false :: text b.
  Proof. intros E. unfold l. rewrite E, text_app. cbn [text flat_map]. fold (text b). unfold entry. now rewrite <- !app_assoc. Qed.
  Lemma sel0_at a x b : L = a ++ x :: b ->
    bss_select0 c (rank9_bitrank c B) fuel (lo_bits s) (lengthN a) = Ok (Some (lengthN (text a) + lengthN (children_of (snd x)))) /\
    lengthN (text a) + lengthN (children_of (snd x)) < lengthN l.
  Proof.
    intros E. pose proof (cut_text a x b E) as El. set (u := text a ++ _) in El.
    assert (Hu : lengthN u = lengthN (text a) + lengthN (children_of (snd x))) by (unfold u; now rewrite lengthN_app, lengthN_repeatN).
    assert (Hul : lengthN u < lengthN l) by (rewrite El, lengthN_app, lengthN_cons; lia).
    assert (Ha : lengthN a < 2 ^ 64 - 1) by (pose proof L_short; rewrite E in H; rewrite lengthN_app, lengthN_cons in H; lia).
    destruct (C35_select _ c _ _ (lo_bits s) l (lengthN a) false fuel LR HD Ha Hf) as [(o & Eo & Ho1 & _) _]. cbv iota in Eo. rewrite Eo.
    rewrite <- Hu. split; [|exact Hul]. f_equal. apply Ho1. rewrite El. split; [apply nthN_mid|]. rewrite firstnN_head by reflexivity.
    unfold u. now rewrite count_app, count_text, count_trues, N.add_0_r.
  Qed.
  Lemma sel0_none i : lengthN L <= i -> i < 2 ^ 64 - 1 -> bss_select0 c (rank9_bitrank c B) fuel (lo_bits s) i = Ok None.
  Proof.
    intros H Hi. destruct (C35_select _ c _ _ (lo_bits s) l i false fuel LR HD Hi Hf) as [(o & Eo & _ & Ho2) _]. cbv iota in Eo. rewrite Eo. f_equal.
    apply Ho2. unfold l. now rewrite count_text.
  Qed.
  Lemma range_ok a x b : L = a ++ x :: b ->
    louds_range c fuel s (lengthN a) = Ok (Some (lengthN (text a), lengthN (text a) + lengthN (children_of (snd x)))).
  Proof.
    intros E. destruct (sel0_at a x b E) as [S1 S2]. unfold louds_range. destruct (lengthN a =? 0) eqn:E0.
    - cbn [bind]. fold B. rewrite S1. cbn [bind]. assert (a = []) by (destruct a; [reflexivity|rewrite lengthN_cons in E0; lia]). subst a. reflexivity.
    - assert (a <> []) by (intros ->; rewrite lengthN_nil in E0; lia). destruct (exists_last H) as (a' & y & ->).
      rewrite lengthN_app in *. change (lengthN [y]) with 1 in *.
      assert (La : lengthN a' + 1 < 2 ^ 64) by (pose proof L_short; rewrite E in H0; rewrite !lengthN_app, lengthN_cons in H0; lia).
      rewrite wsub_ok by lia. cbn [bind]. replace (lengthN a' + 1 - 1) with (lengthN a') by lia. fold B.
      rewrite <- app_assoc in E. cbn [app] in E. destruct (sel0_at a' y _ E) as [S3 S4]. rewrite S3. cbn [bind]. rewrite wadd_ok by lia. cbn [bind].
      rewrite S1. cbn [bind]. rewrite text_app. cbn [text flat_map]. rewrite app_nil_r, !lengthN_app, lengthN_entry. do 3 f_equal. lia.
  Qed.
  Lemma range_none i : lengthN L <= i -> i < 2 ^ 64 - 1 -> louds_range c fuel s i = Ok None.
  Proof.
    intros H Hi. unfold louds_range. fold B. assert (1 <= lengthN L) by (rewrite L_eq, lengthN_cons; lia). destruct (i =? 0) eqn:E0; [lia|].
    rewrite wsub_ok by lia. cbn [bind]. destruct (N.eq_dec i (lengthN L)) as [->|Hne].
    - assert (L <> []) by (intros G; rewrite G, lengthN_nil in H0; lia). destruct (exists_last H1) as (a & y & E).
      assert (El : lengthN L = lengthN a + 1) by (rewrite E, lengthN_app; reflexivity).
      replace (lengthN L - 1) with (lengthN a) by lia. destruct (sel0_at a y [] E) as [S3 S4]. rewrite S3. cbn [bind]. rewrite wadd_ok by lia. cbn [bind].
      now rewrite sel0_none by lia.
    - now rewrite sel0_none by lia.
  Qed.
  (** the one of the child [j] of [x] *)
  Lemma cut_child a x b j : L = a ++ x :: b -> j < lengthN (children_of (snd x)) ->
    exists r, l = (text a ++ repeatN true j) ++ true :: r.
  Proof.
    intros E Hj. rewrite (cut_text a x b E). set (n := lengthN (children_of (snd x))) in *.
    exists (repeatN true (n - j - 1) ++ false :: text b). rewrite <- !app_assoc. f_equal.
    assert (G : repeatN true n = repeatN true j ++ true :: repeatN true (n - j - 1)).
    { apply nthN_ext. intros i. rewrite nthN_app, lengthN_repeatN, nthN_cons, !nthN_repeatN.
      destruct (i <? n) eqn:E1, (i <? j) eqn:E2, (i - j =? 0) eqn:E3, (i - j - 1 <? n - j - 1) eqn:E4; try lia; reflexivity. }
    rewrite G, <- app_assoc. reflexivity.
  Qed.
  Lemma rank_child a x b j v : L = a ++ x :: b -> j < lengthN (children_of (snd x)) ->
    lengthN (text a) + j < lengthN l /\
    rank_of v l (lengthN (text a) + j) = if v then lengthN (flat_map kids a) + j + 1 else lengthN a.
  Proof.
    intros E Hj. destruct (cut_child a x b j E Hj) as [r El]. set (u := text a ++ repeatN true j) in El.
    assert (Hu : lengthN u = lengthN (text a) + j) by (unfold u; now rewrite lengthN_app, lengthN_repeatN).
    split; [rewrite El, lengthN_app, lengthN_cons; lia|]. unfold rank_of.
    assert (E2 : l = (u ++ [true]) ++ r) by (rewrite El, <- app_assoc; reflexivity). rewrite E2.
    rewrite firstnN_head by (rewrite lengthN_app; change (lengthN [true]) with 1; lia). unfold u. rewrite !count_app, count_text, count_trues.
    destruct v; [reflexivity|]. change (count false [true]) with 0. lia.
  Qed.
  Lemma sel1_at a x b j : L = a ++ x :: b -> j < lengthN (children_of (snd x)) ->
    bss_select1 c (rank9_bitrank c B) fuel (lo_bits s) (lengthN (flat_map kids a) + j) = Ok (Some (lengthN (text a) + j)).
  Proof.
    intros E Hj. destruct (cut_child a x b j E Hj) as [r El]. set (u := text a ++ repeatN true j) in El.
    assert (Hu : lengthN u = lengthN (text a) + j) by (unfold u; now rewrite lengthN_app, lengthN_repeatN).
    assert (Hl : lengthN u < lengthN l) by (rewrite El, lengthN_app, lengthN_cons; lia).
    assert (Hi : lengthN (flat_map kids a) + j < 2 ^ 64 - 1) by (rewrite lengthN_text in Hu; lia).
    destruct (C35_select _ c _ _ (lo_bits s) l _ true fuel LR HD Hi Hf) as [(o & Eo & Ho1 & _) _]. cbv iota in Eo. rewrite Eo.
    f_equal. apply Ho1. rewrite <- Hu, El. split; [apply nthN_mid|]. rewrite firstnN_head by reflexivity. unfold u. now rewrite count_app, count_text, count_trues.
  Qed.
  Lemma sel1_none i : lengthN L <= i + 1 -> i < 2 ^ 64 - 1 -> bss_select1 c (rank9_bitrank c B) fuel (lo_bits s) i = Ok None.
  Proof.
    intros H Hi. destruct (C35_select _ c _ _ (lo_bits s) l i true fuel LR HD Hi Hf) as [(o & Eo & _ & Ho2) _]. cbv iota in Eo. rewrite Eo. f_equal.
    apply Ho2. unfold l. rewrite count_text. rewrite L_eq, lengthN_cons in H. lia.
  Qed.

  Lemma degree_ok i p x : nthN L i = Some (p, x) -> louds_degree c fuel s i = Ok (Some (lengthN (children_of x))).
  Proof.
    intros H. destruct (nthN_cut _ _ _ H) as (a & b & E & <-). unfold louds_degree. rewrite (range_ok a _ b E). cbn [bind snd].
    rewrite wsub_ok by lia. cbn [bind]. do 2 f_equal. lia.
  Qed.
  Lemma child_ok i p x j y : nthN L i = Some (p, x) -> nthN (children_of x) j = Some y ->
    exists k, louds_child c fuel s i j = Ok (Some k) /\ nthN L k = Some (p ++ [j], y).
  Proof.
    intros H Hj. destruct (nthN_cut _ _ _ H) as (a & b & E & <-). exists (lengthN (flat_map kids a) + j + 1).
    pose proof (nthN_lt _ _ _ Hj) as Lj. destruct (rank_child a (p, x) b j true E Lj) as [R1 R2]. split.
    - unfold louds_child. rewrite (range_ok a _ b E). cbn [bind snd]. rewrite wsub_ok by lia. cbn [bind].
      destruct (j <? lengthN (text a) + lengthN (children_of x) - lengthN (text a)) eqn:Ej; [|lia]. rewrite wadd_ok by lia. cbn [bind].
      unfold bss_bitrank. cbn [br_rank1]. fold B. rewrite (lr_rank1 _ _ LR _ l _ HD R1), R2. reflexivity.
    - rewrite L_eq, nthN_cons. destruct (lengthN (flat_map kids a) + j + 1 =? 0) eqn:E0; [lia|].
      replace (lengthN (flat_map kids a) + j + 1 - 1) with (lengthN (flat_map kids a) + j) by lia. rewrite E. apply nthN_flat_map. rewrite nthN_kids. cbn [fst snd]. now rewrite Hj.
  Qed.
  Lemma child_none i p x j : nthN L i = Some (p, x) -> lengthN (children_of x) <= j -> louds_child c fuel s i j = Ok None.
  Proof.
    intros H Hj. destruct (nthN_cut _ _ _ H) as (a & b & E & <-). unfold louds_child. rewrite (range_ok a _ b E). cbn [bind snd]. rewrite wsub_ok by lia. cbn [bind].
    destruct (j <? lengthN (text a) + lengthN (children_of x) - lengthN (text a)) eqn:Ej; [lia|reflexivity].
  Qed.
  Lemma root_only i x : nthN L i = Some ([], x) -> i = 0.
  Proof.
    intros H. rewrite L_eq, nthN_cons in H. destruct (i =? 0) eqn:E; [lia|]. apply flat_map_cut in H. destruct H as (a & z & b & j & _ & H & _).
    rewrite nthN_kids in H. destruct (nthN (children_of (snd z)) j); [|discriminate]. cbn [option_map] in H. injection H as H _. now destruct (fst z).
  Qed.
  Lemma parent_ok i q j x : nthN L i = Some (q ++ [j], x) ->
    exists k y, louds_parent c fuel s i = Ok (Some k) /\ nthN L k = Some (q, y) /\ nthN (children_of y) j = Some x /\ louds_birth c fuel s i = Ok (Some j).
  Proof.
    intros H. rewrite L_eq, nthN_cons in H. destruct (i =? 0) eqn:E0; [injection H as H _; destruct q; discriminate|].
    destruct (flat_map_cut kids L _ _ H) as (a & [q' z] & b & j' & E & Hj & Hi). rewrite nthN_kids in Hj. cbn [fst snd] in Hj.
    destruct (nthN (children_of z) j') as [w|] eqn:Ew; [|discriminate]. cbn [option_map] in Hj. injection Hj as Hj ->. apply app_inj_tail in Hj. destruct Hj as [-> ->].
    pose proof (nthN_lt _ _ _ Ew) as Lj. destruct (rank_child a (q, z) b j false E Lj) as [R1 R2].
    assert (Hb : i < 2 ^ 64) by (rewrite lengthN_text in R1; lia).
    exists (lengthN a), z. unfold louds_parent, louds_birth. rewrite E0. rewrite wsub_ok by lia. cbn [bind]. rewrite Hi. fold B. rewrite (sel1_at a (q, z) b j E Lj). cbn [bind].
    unfold bss_bitrank. cbn [br_rank0]. rewrite (lr_rank0 _ _ LR _ l _ HD R1), R2. cbn [bind]. split; [reflexivity|]. split; [rewrite E; apply nthN_mid|]. split; [exact Ew|].
    rewrite (range_ok a _ b E). cbn [bind]. rewrite wsub_ok by lia. cbn [bind]. do 2 f_equal. lia.
  Qed.
  Lemma parent_root : louds_parent c fuel s 0 = Ok None /\ louds_birth c fuel s 0 = Ok None.
  Proof. split; reflexivity. Qed.
  Lemma beyond i : lengthN L <= i -> i < 2 ^ 64 - 1 ->
    louds_degree c fuel s i = Ok None /\ (forall j, louds_child c fuel s i j = Ok None) /\ louds_parent c fuel s i = Ok None /\ louds_birth c fuel s i = Ok None.
  Proof.
    intros H Hi. pose proof (range_none i H Hi) as Hr. unfold louds_degree, louds_child, louds_parent, louds_birth. rewrite Hr. cbn [bind].
    assert (1 <= lengthN L) by (rewrite L_eq, lengthN_cons; lia). destruct (i =? 0) eqn:E0; [lia|]. rewrite wsub_ok by lia. cbn [bind].
    fold B. rewrite sel1_none by lia. cbn [bind]. auto.
  Qed.
  Lemma walk_ok path : forall i p x, nthN L i = Some (p, x) ->
    match subtree path x with
    | Some y => exists k, louds_walk c fuel s i path = Ok (Some k) /\ nthN L k = Some (p ++ path, y)
    | None => louds_walk c fuel s i path = Ok None
    end.
  Proof.
    induction path as [|j path IH]; intros i p x H; cbn [subtree louds_walk]; [exists i; rewrite app_nil_r; auto|].
    destruct (nthN (children_of x) j) as [y|] eqn:Ey.
    - destruct (child_ok i p x j y H Ey) as (k & E & Hk). rewrite E. cbn [bind]. specialize (IH k _ _ Hk). destruct (subtree path y); [|exact IH].
      rewrite <- app_assoc in IH. exact IH.
    - apply nthN_None in Ey. rewrite (child_none i p x j H Ey). reflexivity.
  Qed.
End Queries.

Theorem C118_louds : forall c k t fuel fuel', wf_cfg c -> 1 <= k <= 64 -> labels_below (2 ^ k) t ->
  fits c 64 (2 * tree_size t) -> fits c 64 (tree_size t * k) -> (N.to_nat (tree_size t) < fuel)%nat -> (64 < fuel')%nat ->
  let nodes := level_order t in
  exists s, louds_new c fuel k t = Ok s /\
    bv_bit_len (bss_bitvec (rank9_bitvec (bvec_bitvec c 64))) (lo_bits s) = Ok (2 * tree_size t - 1) /\ iv_len (lo_labels s) = tree_size t /\
    (forall i p x, nthN nodes i = Some (p, x) ->
      louds_label c s i = Ok (label_of x) /\
      louds_degree c fuel' s i = Ok (Some (lengthN (children_of x))) /\
      (forall j y, nthN (children_of x) j = Some y -> exists i', louds_child c fuel' s i j = Ok (Some i') /\ nthN nodes i' = Some (p ++ [j], y)) /\
      (forall j, lengthN (children_of x) <= j -> louds_child c fuel' s i j = Ok None) /\
      (p = [] -> i = 0 /\ louds_parent c fuel' s i = Ok None /\ louds_birth c fuel' s i = Ok None) /\
      (forall q j, p = q ++ [j] -> exists i' y, louds_parent c fuel' s i = Ok (Some i') /\ nthN nodes i' = Some (q, y) /\
        nthN (children_of y) j = Some x /\ louds_birth c fuel' s i = Ok (Some j))) /\
    (forall i, tree_size t <= i -> i < 2 ^ 64 - 1 ->
      louds_degree c fuel' s i = Ok None /\ (forall j, louds_child c fuel' s i j = Ok None) /\
      louds_parent c fuel' s i = Ok None /\ louds_birth c fuel' s i = Ok None) /\
    (forall path, match subtree path t with
       | Some y => exists i, louds_find c fuel' s path = Ok (Some i) /\ nthN nodes i = Some (path, y)
       | None => louds_find c fuel' s path = Ok None
       end).
Proof.
  intros c k t fuel fuel' Hc Hk HB HF HG Hf Hf' nodes. assert (H64 : wf_nb 64) by (unfold wf_nb; auto). set (l := text nodes).
  assert (LN : lengthN nodes = tree_size t) by apply lengthN_level_order.
  assert (EQ : nodes = ([], t) :: flat_map kids nodes) by apply level_order_eq.
  assert (LL : lengthN l = 2 * tree_size t - 1 /\ 1 <= tree_size t).
  { unfold l. rewrite lengthN_text, LN. pose proof (f_equal lengthN EQ) as G. rewrite lengthN_cons, LN in G. lia. }
  destruct LL as [LL L1].
  assert (Em : bvec_new c 64 = Ok {| vb_len := 0; vb_vec := [] |}) by (unfold bvec_new, vb_new, vb_block_with_capacity, alloc; cbn [N.mul]; destruct (max_bits c); reflexivity).
  assert (Rm : R_bv c 64 {| vb_len := 0; vb_vec := [] |} []) by (split; [reflexivity|]; split; [reflexivity|apply fits_0; lia]).
  pose proof (iv_make_sim c 64 k Hc H64 ltac:(lia) INew I) as H0. unfold spec_imake in H0. destruct ((k =? 0) || (64 <? k)) eqn:Ek; [lia|].
  cbn [iv_make ends] in H0. destruct H0 as (v0 & Ev0 & V0).
  assert (F3 : fits c 64 (lengthN l)) by (apply (fits_mono c 64 _ (2 * tree_size t)); [lia|lia|exact HF]).
  assert (HL : Forall (fun x => label_of (snd x) < 2 ^ k) nodes).
  { apply Forall_forall. intros [p x] Hx. cbn [snd]. apply (proj1 (C118_level_order t)) in Hx. exact (labels_subtree _ _ _ _ HB Hx). }
  destruct (louds_all c k Hc Hk (height t) [([], t)] _ v0 [] [] fuel (level_order_end t) Rm V0 HL) as (m & v & E1 & M & V).
  { exact F3. }
  { fold (level_order t). fold nodes. rewrite lengthN_nil, LN. exact HG. }
  { fold (level_order t). fold nodes. unfold lengthN in LN. lia. }
  cbn [app map snd] in M, V, E1. fold (level_order t) in M, V. fold nodes in M, V. fold l in M.
  pose proof (bvec_lawful_bits c 64 Hc H64) as LB. pose proof (bvec_lawful_blocks c 64 Hc H64) as LK.
  destruct (rank9_new_ok c (bvec_bitvec c 64) (R_bv c 64) Hc LB (block_reads c _ _ LK) eq_refl m l M) as (d & Ed & Es & _).
  destruct (C35_rank_structures _ c (bvec_bitvec c 64) (R_bv c 64) Hc LB LK) as (_ & LR & _). specialize (LR eq_refl).
  set (Rel := fun r l => exists t, R_bv c 64 t l /\ rank9_new c (bvec_bitvec c 64) t = Ok r) in LR.
  set (s := {| lo_bits := d; lo_labels := v |}).
  assert (HD : Rel (lo_bits s) (text (level_order t))) by (exists m; auto).
  pose proof (fits_lt64 c 64 _ ltac:(lia) HF) as L64. assert (L64' : lengthN (text (level_order t)) < 2 ^ 64 - 1) by (fold nodes; fold l; lia).
  exists s. split; [unfold louds_new; rewrite Em; cbn [bind]; rewrite Ev0; cbn [bind]; rewrite E1; cbn [bind]; rewrite Ed; reflexivity|].
  split; [unfold bss_bitvec, rank9_bitvec, s; cbn [bv_bit_len lo_bits]; rewrite Es, <- LL; exact (lb_bit_len _ _ _ LB m l M)|].
  split; [unfold s; cbn [lo_labels]; rewrite (PIntVector.R_iv_len c 64 k Hc H64 ltac:(lia) v _ V), lengthN_map; exact LN|].
  split; [|split].
  - intros i p x H. split; [|split; [|split; [|split; [|split]]]].
    + unfold louds_label, s. cbn [lo_labels]. apply (iv_get_ok c 64 k Hc H64 ltac:(lia) v _ i _ V).
      * apply (iv_index_ok c 64 k v _ i Hc H64 ltac:(lia) V). rewrite lengthN_map. now apply nthN_lt in H.
      * rewrite nthN_map, H. reflexivity.
    + exact (degree_ok c t s fuel' Rel LR HD L64' Hf' i p x H).
    + intros j y. exact (child_ok c t s fuel' Rel LR HD L64' Hf' i p x j y H).
    + intros j. exact (child_none c t s fuel' Rel LR HD L64' Hf' i p x j H).
    + intros ->. assert (i = 0) by (eapply root_only; eassumption). subst i. split; [reflexivity|]. exact (parent_root c s fuel').
    + intros q j ->. exact (parent_ok c t s fuel' Rel LR HD L64' Hf' i q j x H).
  - intros i Hi. rewrite <- LN in Hi. exact (beyond c t s fuel' Rel LR HD L64' Hf' i Hi).
  - intros path. assert (H0 : nthN nodes 0 = Some ([], t)) by (rewrite EQ; reflexivity).
    pose proof (walk_ok c t s fuel' Rel LR HD L64' Hf' path 0 [] t H0) as G. exact G.
Qed.

(** A root with three children, of which the second has two; labels of 4 bits. *)
Example C118_ex : let t := Node 9 [Node 1 []; Node 2 [Node 5 []; Node 6 []]; Node 3 []] in
  labels_below (2 ^ 4) t /\ fits dbg32 64 (2 * tree_size t) /\ fits dbg32 64 (tree_size t * 4) /\
  map (fun x => (fst x, label_of (snd x))) (level_order t) = [([], 9); ([0], 1); ([1], 2); ([2], 3); ([1; 0], 5); ([1; 1], 6)] /\
  text (level_order t) = [true; true; true; false; false; true; true; false; false; false; false] /\
  (s <- louds_new dbg32 7 4 t ;;
   i <- louds_find dbg32 65 s [1; 1] ;; u <- louds_parent dbg32 65 s 5 ;; b <- louds_birth dbg32 65 s 5 ;; g <- louds_degree dbg32 65 s 2 ;;
   no <- louds_child dbg32 65 s 0 3 ;; a <- louds_label dbg32 s 5 ;; Ok (i, u, b, g, no, a)) = Ok (Some 5, Some 2, Some 1, Some 2, None, 6).
Proof.
  cbv zeta. split; [cbn; repeat split; reflexivity|]. split; [vm_compute; discriminate|]. split; [vm_compute; discriminate|].
  repeat (split; [vm_compute; reflexivity|]). vm_compute. reflexivity.
Qed.
Print Assumptions C118_level_order.
Print Assumptions C118_louds.
