(** * Property C122: full-text search ([MFmIndex.v]). *)
From Coq Require Import Sorted Permutation.
From Verif Require Import Machine MStorage MTraits MRank MWavelet MFmIndex
  SpecBits SpecCfg PBase PBits Properties57 Properties59.

(** ** Sorting *)
Lemma slice_le_total x : forall y, slice_le x y = true \/ slice_le y x = true.
Proof.
  induction x as [|a x IH]; intros [|b y]; cbn [slice_le]; auto. destruct (IH y) as [H|H]; destruct (a <? b) eqn:E1, (b <? a) eqn:E2, (a =? b) eqn:E3, (b =? a) eqn:E4; cbn [orb andb]; auto; lia.
Qed.
Lemma slice_le_trans x : forall y z, slice_le x y = true -> slice_le y z = true -> slice_le x z = true.
Proof.
  induction x as [|a x IH]; intros [|b y] [|d z]; cbn [slice_le]; auto; try discriminate.
  intros H1 H2. apply orb_true_iff in H1, H2. apply orb_true_iff. destruct H1 as [H1|H1], H2 as [H2|H2]; try (apply andb_true_iff in H1; destruct H1 as [H1 H1']); try (apply andb_true_iff in H2; destruct H2 as [H2 H2']); try (left; lia).
  right. apply andb_true_iff. split; [lia|]. now apply (IH y).
Qed.
Lemma insert_perm {A} (le : A -> A -> bool) a l : Permutation (insert_by le a l) (a :: l).
Proof. induction l as [|b r IH]; [reflexivity|]. cbn [insert_by]. destruct (le a b); [reflexivity|]. rewrite IH. apply perm_swap. Qed.
Lemma sort_perm {A} (le : A -> A -> bool) l : Permutation (sort_by le l) l.
Proof. induction l as [|a r IH]; [reflexivity|]. cbn [sort_by]. rewrite insert_perm. now apply perm_skip. Qed.
Lemma insert_sorted {A} (le : A -> A -> bool) a l : (forall x y, le x y = true \/ le y x = true) -> (forall x y z, le x y = true -> le y z = true -> le x z = true) ->
  StronglySorted (fun x y => le x y = true) l -> StronglySorted (fun x y => le x y = true) (insert_by le a l).
Proof.
  intros HT HR HS. induction HS as [|b r HS IH HF]; cbn [insert_by]; [repeat constructor|]. destruct (le a b) eqn:E.
  - constructor; [now constructor|]. constructor; [exact E|]. eapply Forall_impl; [|exact HF]. intros x Hx. cbn in Hx. now apply (HR a b).
  - constructor; [exact IH|]. apply Forall_forall. intros x Hx. apply (Permutation_in _ (insert_perm le a r)) in Hx. destruct Hx as [<-|Hx].
    + destruct (HT a b); congruence. + rewrite Forall_forall in HF. now apply HF.
Qed.
Lemma sort_sorted {A} (le : A -> A -> bool) l : (forall x y, le x y = true \/ le y x = true) -> (forall x y z, le x y = true -> le y z = true -> le x z = true) ->
  StronglySorted (fun x y => le x y = true) (sort_by le l).
Proof. intros HT HR. induction l as [|a r IH]; [constructor|]. cbn [sort_by]. now apply insert_sorted. Qed.

Lemma sorted_impl {A} (P Q : A -> A -> Prop) l : (forall a b, P a b -> Q a b) -> StronglySorted P l -> StronglySorted Q l.
Proof. intros H. induction 1 as [|a r HS IH HF]; constructor; [exact IH|]. eapply Forall_impl; [|exact HF]. intros x. apply H. Qed.

(** ** Counting *)
Lemma how_many_perm {A} (f : A -> bool) l l' : Permutation l l' -> how_many f l = how_many f l'.
Proof. induction 1 as [|x l l' _ IH|x y l|l l' l'' _ IH1 _ IH2]; rewrite ?how_many_cons; lia. Qed.
Lemma how_many_first {A} (f g : A -> bool) l : StronglySorted (fun a b => f b = true -> f a = true) l ->
  how_many (fun a => g a && f a) l = how_many g (firstnN (how_many f l) l).
Proof.
  induction 1 as [|a r HS IH HF]; [reflexivity|]. rewrite !how_many_cons. destruct (f a) eqn:E.
  - rewrite andb_true_r, IH. replace (firstnN (1 + how_many f r) (a :: r)) with (a :: firstnN (how_many f r) r) by (unfold firstnN; now replace (N.to_nat (1 + how_many f r)) with (Datatypes.S (N.to_nat (how_many f r))) by lia).
    now rewrite how_many_cons.
  - assert (Hn : Forall (fun x => f x = false) r) by (eapply Forall_impl; [|exact HF]; intros x Hx; cbn in Hx; apply Bool.not_true_is_false; intros Ex; specialize (Hx Ex); congruence).
    rewrite (how_many_none f r Hn), andb_false_r. rewrite how_many_none; [reflexivity|]. eapply Forall_impl; [|exact Hn]. intros x Hx. cbn in Hx |- *. rewrite Hx. apply andb_false_r.
Qed.

(** ** Suffixes below a pattern; with [b], also those that begin with it *)
Fixpoint low (b : bool) (P x : list N) : bool :=
  match P with
  | [] => b
  | a :: P' => match x with [] => true | d :: x' => (d <? a) || ((d =? a) && low b P' x') end
  end.
Lemma low_down b P : forall x y, slice_le x y = true -> low b P y = true -> low b P x = true.
Proof.
  induction P as [|a P IH]; intros x y; [auto|]. destruct x as [|d x]; [reflexivity|]. destruct y as [|e y]; [discriminate|]. cbn [slice_le low]. intros H1 H2.
  apply orb_true_iff in H1, H2. apply orb_true_iff. destruct H1 as [H1|H1], H2 as [H2|H2]; try (apply andb_true_iff in H1; destruct H1 as [H1 H1']); try (apply andb_true_iff in H2; destruct H2 as [H2 H2']); try (left; lia).
  right. apply andb_true_iff. split; [lia|]. now apply (IH x y).
Qed.
Lemma low_false_true P : forall x, low false P x = true -> low true P x = true.
Proof. induction P as [|a P IH]; intros x; [reflexivity|]. destruct x as [|d x]; [reflexivity|]. cbn [low]. destruct (d <? a); [reflexivity|]. destruct (d =? a); [|discriminate]. cbn. apply IH. Qed.
Lemma low_prefix P : forall x, low true P x && negb (low false P x) = true <-> forall k, k < lengthN P -> nthN x k = nthN P k.
Proof.
  induction P as [|a P IH]; intros x; [split; [intros _ k Hk; rewrite lengthN_nil in Hk; lia|reflexivity]|]. destruct x as [|d x]; cbn [low].
  - split; [discriminate|]. intros H. specialize (H 0). rewrite lengthN_cons in H. specialize (H ltac:(lia)). discriminate.
  - destruct (d <? a) eqn:E1; [|destruct (d =? a) eqn:E2]; cbn [orb andb].
    + split; [discriminate|]. intros H. specialize (H 0). rewrite lengthN_cons in H. specialize (H ltac:(lia)). cbn in H. injection H as ->. lia.
    + rewrite IH. split.
      * intros H k Hk. rewrite lengthN_cons in Hk. rewrite !nthN_cons. destruct (k =? 0) eqn:E; [f_equal; lia|]. apply H. lia.
      * intros H k Hk. specialize (H (k + 1)). rewrite lengthN_cons, !nthN_cons in H. destruct (k + 1 =? 0) eqn:E; [lia|]. replace (k + 1 - 1) with k in H by lia. apply H. lia.
    + split; [discriminate|]. intros H. specialize (H 0). rewrite lengthN_cons in H. specialize (H ltac:(lia)). cbn in H. injection H as ->. lia.
Qed.

(** ** All suffixes with the symbols before them *)
Fixpoint ptails (p : N) (t : list N) : list (N * list N) := match t with [] => [] | a :: r => (p, t) :: ptails a r end.
Definition iota (n : nat) : list N := map N.of_nat (seq 0 n).
Definition before_at (p : N) (t : list N) (i : N) : N := if i =? 0 then p else match nthN t (i - 1) with Some x => x | None => 0 end.
Lemma iota_S n : iota (Datatypes.S n) = 0 :: map (fun i => i + 1) (iota n).
Proof. unfold iota. cbn [seq map]. f_equal. rewrite <- seq_shift, !map_map. apply map_ext. intros. lia. Qed.
Lemma iota_In n i : In i (iota n) <-> i < N.of_nat n.
Proof. unfold iota. rewrite in_map_iff. split; [intros (k & <- & H); apply in_seq in H; lia|]. intros H. exists (N.to_nat i). split; [lia|]. apply in_seq. lia. Qed.
Lemma iota_NoDup n : NoDup (iota n).
Proof. unfold iota. apply FinFun.Injective_map_NoDup; [intros x y H; lia|apply seq_NoDup]. Qed.
Lemma ptails_iota t : forall p, ptails p t = map (fun i => (before_at p t i, skipnN i t)) (iota (length t)).
Proof.
  induction t as [|a r IH]; intros p; [reflexivity|]. cbn [ptails length]. rewrite iota_S. cbn [map]. f_equal. rewrite IH, map_map. apply map_ext_in. intros i Hi. f_equal.
  - unfold before_at. destruct (i + 1 =? 0) eqn:E; [lia|]. rewrite nthN_cons. replace (i + 1 - 1) with i by lia. destruct (i =? 0); reflexivity.
  - unfold skipnN. now replace (N.to_nat (i + 1)) with (Datatypes.S (N.to_nat i)) by lia.
Qed.
Lemma ptails_step b a P text : 1 <= a -> forall p,
  how_many (fun qx : N * list N => (a =? fst qx) && low b P (snd qx)) (ptails p (text ++ [0])) + how_many (fun y => y <? a) (text ++ [0]) =
  how_many (fun qx : N * list N => low b (a :: P) (snd qx)) (ptails p (text ++ [0])) + (if (a =? p) && low b P (text ++ [0]) then 1 else 0).
Proof.
  intros Ha. induction text as [|d r IH]; intros p; cbn [app ptails]; rewrite !how_many_cons; cbn [fst snd].
  - cbn [low ptails]. change (how_many (fun qx : N * list N => (a =? fst qx) && low b P (snd qx)) []) with 0. change (how_many (fun y => y <? a) []) with 0.
    match goal with |- context [how_many ?g (@nil (N * list N))] => change (how_many g []) with 0 end. destruct (0 <? a) eqn:E; [|lia]. cbn [orb]. destruct ((a =? p) && low b P [0]); lia.
  - specialize (IH d). change (low b (a :: P) (d :: r ++ [0])) with ((d <? a) || ((d =? a) && low b P (r ++ [0]))).
    replace (a =? d) with (d =? a) in IH by apply N.eqb_sym. destruct (d <? a) eqn:E1, (d =? a) eqn:E2, (low b P (r ++ [0])) eqn:E3; cbn [orb andb] in *; lia.
Qed.

Lemma preceding_ok c t l : wf_cfg c -> lengthN t * 64 <= max_bits c -> (forall i, In i l -> i < lengthN t) -> fm_preceding c t l = Ok (map (before_at 0 t) l).
Proof.
  intros Hc Hn. pose proof (max_bits_lt c) as Hm. assert (Hp : lengthN t < 2 ^ ptr c) by (apply (blocks_fit c 64); auto; unfold wf_nb; auto).
  induction l as [|i r IH]; intros H; [reflexivity|]. cbn [fm_preceding map]. pose proof (H i (or_introl eq_refl)) as Hi.
  assert (E : (if i =? 0 then Ok 0 else q <- wsub c (ptr c) i 1 ;; index t q) = Ok (before_at 0 t i)).
  { unfold before_at. destruct (i =? 0) eqn:E; [reflexivity|]. rewrite wsub_ok by lia. cbn [bind]. unfold index. destruct (nthN t (i - 1)) eqn:Ex; [reflexivity|]. apply nthN_None in Ex. lia. }
  rewrite E. cbn [bind]. rewrite IH by (intros; apply H; now right). reflexivity.
Qed.

(** The suffixes below one of them are those before it. *)
Lemma low_refl P : low false P P = false.
Proof. induction P as [|a P IH]; [reflexivity|]. cbn [low]. rewrite IH, andb_false_r, orb_false_r. apply N.ltb_irrefl. Qed.
Lemma slice_le_antisym x : forall y, slice_le x y = true -> low false y x = false -> x = y.
Proof.
  induction x as [|a x IH]; intros [|b y]; cbn [slice_le low]; auto; try discriminate. intros H1 H2. apply orb_false_iff in H2. destruct H2 as [H2 H3]. rewrite H2 in H1. cbn [orb] in H1.
  apply andb_true_iff in H1. destruct H1 as [H1 H4]. rewrite H1 in H3. cbn [andb] in H3. f_equal; [lia|]. now apply IH.
Qed.
Lemma nthN_row {A} (f : A -> bool) (i : A) l : StronglySorted (fun a b => f b = true -> f a = true) l -> In i l -> f i = false ->
  (forall l1 l2 j, l = l1 ++ j :: l2 -> In i l2 -> f j = false -> j = i) -> nthN l (how_many f l) = Some i.
Proof.
  induction 1 as [|a r HS IH HF]; intros HI Hi HU; [contradiction|]. rewrite how_many_cons, nthN_cons. destruct (f a) eqn:E.
  - destruct (1 + how_many f r =? 0) eqn:E0; [lia|]. replace (1 + how_many f r - 1) with (how_many f r) by lia. apply IH; [|exact Hi|].
    + destruct HI as [->|HI]; [congruence|exact HI].
    + intros l1 l2 j El. apply (HU (a :: l1) l2 j). now rewrite El.
  - assert (Hn : Forall (fun x => f x = false) r) by (eapply Forall_impl; [|exact HF]; intros x Hx; cbn in Hx; apply Bool.not_true_is_false; intros Ex; specialize (Hx Ex); congruence).
    rewrite (how_many_none f r Hn). change (0 + 0 =? 0) with true. cbn iota. f_equal. destruct HI as [->|HI]; [reflexivity|]. exact (HU [] r a eq_refl HI E).
Qed.
Lemma skipnN_inj {A} i j (t : list A) : i < lengthN t -> j < lengthN t -> skipnN i t = skipnN j t -> i = j.
Proof. intros Hi Hj H. apply (f_equal (@length A)) in H. unfold skipnN in H. rewrite !skipn_length in H. unfold lengthN in *. lia. Qed.

Section Index.
  Context {T : Type} (c : cfg) (R : ranksup N T) (sigma : N) (text : list N) (w : T).
  Hypothesis Hc : wf_cfg c.
  Let t := text ++ [0].
  Let sa := fm_suffixes t.
  Let bwt := map (before_at 0 t) sa.
  Hypothesis Hsigma : sigma * 64 <= max_bits c.
  Hypothesis Hn : lengthN t * 64 <= max_bits c.
  Hypothesis HR : forall p v, p < lengthN t -> v < sigma -> rs_rank R w p v = Ok (how_many (N.eqb v) (firstnN (p + 1) bwt)).
  Hypothesis HL : rs_limit R w = Ok (lengthN t).

  Lemma sa_perm : Permutation sa (iota (length t)).
  Proof. apply sort_perm. Qed.
  Lemma sa_sorted : StronglySorted (fun i j => slice_le (skipnN i t) (skipnN j t) = true) sa.
  Proof. apply (sort_sorted (fun i j => slice_le (skipnN i t) (skipnN j t))); intros; [apply slice_le_total|eapply slice_le_trans; eauto]. Qed.
  (** The number of suffixes below the pattern. *)
  Definition bound (b : bool) (P : list N) : N := how_many (fun i => low b P (skipnN i t)) sa.
  Lemma sa_length : lengthN sa = lengthN t.
  Proof. unfold lengthN. rewrite (Permutation_length sa_perm). unfold iota. now rewrite map_length, seq_length. Qed.
  Lemma bound_le b P : bound b P <= lengthN t.
  Proof. unfold bound, how_many. rewrite <- sa_length. unfold lengthN. clear. induction sa as [|x l IH]; [cbn; lia|]. cbn [filter]. destruct (low b P (skipnN x t)); cbn [length]; lia. Qed.
  Lemma bound_step b a P : 1 <= a -> bound b (a :: P) = how_many (fun y => y <? a) t + how_many (N.eqb a) (firstnN (bound b P) bwt).
  Proof.
    intros Ha. pose proof (ptails_step b a P text Ha 0) as H. fold t in H. rewrite !ptails_iota, !how_many_map in H. cbn [fst snd] in H.
    replace (a =? 0) with false in H by (symmetry; apply N.eqb_neq; lia). cbn [andb] in H.
    unfold bound at 1. rewrite (how_many_perm _ _ _ sa_perm), <- (N.add_0_r (how_many _ (iota _))), <- H, N.add_comm. f_equal.
    rewrite <- (how_many_perm _ _ _ sa_perm). rewrite (how_many_first (fun i => low b P (skipnN i t)) (fun i => a =? before_at 0 t i)).
    - fold (bound b P). unfold bwt. rewrite firstnN_map, how_many_map. reflexivity.
    - apply (sorted_impl _ _ sa (fun i j => low_down b P (skipnN i t) (skipnN j t)) sa_sorted).
  Qed.

  Let f := {| fm_first := fm_firsts sigma t; fm_last := w |}.
  Lemma step_ok b a P : 1 <= a < sigma -> fm_step c R f a (bound b P) = Ok (bound b (a :: P)).
  Proof.
    intros Ha. pose proof (bound_le b P) as HB. pose proof (bound_le b (a :: P)) as HB'. pose proof (max_bits_lt c) as Hm.
    assert (Hs : sigma < 2 ^ ptr c) by (apply (blocks_fit c 64); auto; unfold wf_nb; auto).
    unfold fm_step. cbn [fm_first fm_last f]. unfold as_usize. rewrite N.mod_small by lia.
    assert (E : nthN (fm_firsts sigma t) a = Some (how_many (fun y => y <? a) t)).
    { unfold fm_firsts. rewrite nthN_map. fold (iota (N.to_nat sigma)). assert (E : nthN (iota (N.to_nat sigma)) a = Some a); [|now rewrite E].
      unfold iota. rewrite nthN_map, nthN_nth_error. rewrite (nth_error_nth' _ 0%nat) by (rewrite seq_length; lia). rewrite seq_nth by lia. cbn [option_map]. f_equal. lia. }
    unfold index. rewrite E. cbn [bind]. rewrite bound_step in * by lia. destruct (bound b P =? 0) eqn:E0.
    - cbn [bind]. apply N.eqb_eq in E0. rewrite E0, firstnN_0 in *. change (how_many (N.eqb a) []) with 0 in *. apply wadd_ok. lia.
    - rewrite wsub_ok by lia. cbn [bind]. rewrite HR by lia. replace (bound b P - 1 + 1) with (bound b P) by lia. cbn [bind]. apply wadd_ok. lia.
  Qed.
  Lemma steps_ok xs : forall P, Forall (fun x => 1 <= x < sigma) xs -> fm_steps c R f xs (bound false P) (bound true P) = Ok (bound false (rev xs ++ P), bound true (rev xs ++ P)).
  Proof.
    induction xs as [|a r IH]; intros P HF; [reflexivity|]. inversion HF as [|? ? Ha HF']; subst. cbn [fm_steps]. rewrite !step_ok by exact Ha. cbn [bind]. rewrite (IH (a :: P) HF').
    cbn [rev]. now rewrite <- app_assoc.
  Qed.
  Lemma count_ok P : Forall (fun x => 1 <= x < sigma) P -> exists ps, fm_count c R f P = Ok (lengthN ps) /\ NoDup ps /\
    forall i, In i ps <-> i <= lengthN text /\ forall k, k < lengthN P -> nthN text (i + k) = nthN P k.
  Proof.
    intros HF. set (g := fun i => low true P (skipnN i t) && negb (low false P (skipnN i t))). exists (filter g (iota (length t))). split; [|split].
    - unfold fm_count. cbn [fm_last f]. rewrite HL. cbn [bind].
      assert (E : fm_steps c R f (rev P) 0 (lengthN t) = Ok (bound false P, bound true P)).
      { pose proof (steps_ok (rev P) [] (Forall_rev HF)) as H. rewrite rev_involutive, app_nil_r in H. rewrite <- H. f_equal; unfold bound; cbn [low]; unfold how_many; symmetry.
        - clear. induction sa as [|x l IH]; [reflexivity|exact IH].
        - rewrite <- sa_length. f_equal. clear. induction sa as [|x l IH]; [reflexivity|]. cbn [filter]. now rewrite IH. }
      rewrite E. cbn [bind]. assert (EQ : bound true P = bound false P + lengthN (filter g (iota (length t)))).
      { unfold bound. rewrite !(how_many_perm _ _ _ sa_perm). fold (how_many g (iota (length t))). clear. induction (iota (length t)) as [|x l IH]; [reflexivity|].
        rewrite !how_many_cons, IH. unfold g. pose proof (low_false_true P (skipnN x t)) as H. destruct (low true P (skipnN x t)), (low false P (skipnN x t)); cbn [andb negb]; lia. }
      rewrite wsub_ok by (rewrite EQ; lia). f_equal. lia.
    - apply NoDup_filter, iota_NoDup.
    - intros i. rewrite filter_In, iota_In. unfold g. rewrite low_prefix. assert (Hl : N.of_nat (length t) = lengthN text + 1) by (unfold t; rewrite app_length; unfold lengthN; cbn [length]; lia). rewrite Hl.
      assert (HS : forall k, nthN (skipnN i t) k = nthN t (i + k)) by (intros; rewrite nthN_skipnN; reflexivity).
      split; intros [H1 H2]; (split; [lia|]); intros k Hk; specialize (H2 k Hk).
      + rewrite HS in H2. unfold t in H2. rewrite nthN_app in H2. destruct (i + k <? lengthN text) eqn:E; [exact H2|]. exfalso. rewrite nthN_cons, nthN_nil in H2.
        destruct (nthN P k) as [x|] eqn:Ex; [|apply nthN_None in Ex; lia]. pose proof (proj1 (Forall_nthN _ _) HF k x Ex) as Hx. cbn in Hx. destruct (i + k - lengthN text =? 0); [injection H2 as <-; lia|discriminate].
      + rewrite HS. unfold t. rewrite nthN_app. destruct (i + k <? lengthN text) eqn:E; [exact H2|]. exfalso.
        destruct (nthN P k) as [x|] eqn:Ex; [|apply nthN_None in Ex; lia]. apply nthN_lt in H2. lia.
  Qed.
  (** The row of the suffix at [i]. *)
  Lemma row_ok i : i < lengthN t -> nthN sa (bound false (skipnN i t)) = Some i.
  Proof.
    intros Hi. unfold bound. apply (nthN_row (fun j => low false (skipnN i t) (skipnN j t)) i sa).
    - apply (sorted_impl _ _ sa (fun a b => low_down false (skipnN i t) (skipnN a t) (skipnN b t)) sa_sorted).
    - apply (Permutation_in _ (Permutation_sym sa_perm)), iota_In. exact Hi.
    - apply low_refl.
    - intros l1 l2 j El HIn Hj. assert (HJ : j < lengthN t) by (apply iota_In; apply (Permutation_in _ sa_perm); rewrite El; apply in_or_app; right; now left).
      pose proof sa_sorted as HS. rewrite El in HS. assert (HS2 : StronglySorted (fun a b => slice_le (skipnN a t) (skipnN b t) = true) (j :: l2)) by (clear -HS; induction l1 as [|x l1 IH]; [exact HS|]; inversion HS; auto).
      inversion HS2 as [|? ? _ HF]; subst. rewrite Forall_forall in HF. specialize (HF i HIn). apply (skipnN_inj j i t HJ Hi). now apply slice_le_antisym.
  Qed.
  Lemma row_zero : bound false [0] = 0.
  Proof.
    unfold bound. rewrite (how_many_perm _ _ _ sa_perm). apply how_many_none. apply Forall_forall. intros i Hi. apply iota_In in Hi. fold (lengthN t) in Hi.
    destruct (skipnN i t) as [|d x] eqn:E; [apply (f_equal (@length N)) in E; unfold skipnN in E; rewrite skipn_length in E; unfold lengthN in Hi; cbn in E; clear -E Hi; lia|].
    cbn [low]. rewrite andb_false_r, orb_false_r. apply N.ltb_ge, N.le_0_l.
  Qed.
End Index.

(** ** The number of places where the pattern occurs in the text *)
Theorem C122_count : forall c w sigma text, wf_cfg c -> (w <= 64)%nat -> sigma <= 2 ^ N.of_nat w -> Forall (fun x => 1 <= x < sigma) text ->
  (* the text and the table of symbols fit in memory *)
  (lengthN text + 1) * 64 <= max_bits c -> sigma * 64 <= max_bits c ->
  exists f, fm_new c w sigma text = Ok f /\ forall P, Forall (fun x => 1 <= x < sigma) P ->
    exists places, fm_count c (wavelet_ranksup c) f P = Ok (lengthN places) /\ NoDup places /\
      forall i, In i places <-> i <= lengthN text /\ forall k, k < lengthN P -> nthN text (i + k) = nthN P k.
Proof.
  intros c w sigma text Hc Hw Hs HT Hn Hsg. set (t := text ++ [0]). assert (Ht : lengthN t = lengthN text + 1) by (unfold t; rewrite lengthN_app, lengthN_cons, lengthN_nil; lia).
  rewrite <- Ht in Hn. set (bwt := map (before_at 0 t) (fm_suffixes t)).
  assert (HI : forall i, In i (fm_suffixes t) -> i < lengthN t) by (intros i Hi; apply (Permutation_in _ (sort_perm _ _)), iota_In in Hi; exact Hi).
  assert (HB : lengthN bwt = lengthN t) by (unfold bwt; rewrite lengthN_map; apply (sa_length text)).
  assert (Hw2 : 0 < 2 ^ N.of_nat w) by (pose proof (pow2_pos (N.of_nat w)); lia).
  destruct (C110_wavelet c w bwt Hc Hw) as (d & Ed & EL & ER & _).
  { apply Forall_forall. intros x Hx. apply in_map_iff in Hx. destruct Hx as (i & <- & Hi). unfold before_at. destruct (i =? 0); [exact Hw2|]. destruct (nthN t (i - 1)) as [y|] eqn:Ey; [|exact Hw2].
    assert (HTt : Forall (fun x => x < 2 ^ N.of_nat w) t) by (apply Forall_app; split; [eapply Forall_impl; [|exact HT]; intros z Hz; cbn in Hz; lia|repeat constructor; exact Hw2]).
    exact (proj1 (Forall_nthN _ _) HTt _ _ Ey). }
  { rewrite HB. unfold fits. pose proof (blocks_for_spec 64 (lengthN t) ltac:(lia)). lia. }
  exists {| fm_first := fm_firsts sigma t; fm_last := d |}. split.
  - unfold fm_new. fold t. rewrite (preceding_ok c t _ Hc Hn HI). cbn [bind]. fold bwt. rewrite Ed. reflexivity.
  - intros P HP. apply (count_ok c (wavelet_ranksup c) sigma text d Hc Hsg Hn).
    + intros p v Hp Hv. apply ER; [now rewrite HB|lia].
    + rewrite EL. now rewrite HB.
    + exact HP.
Qed.

(** ** The index holds the whole text *)
Theorem C122_extract : forall c w sigma text fuel, wf_cfg c -> (w <= 64)%nat -> sigma <= 2 ^ N.of_nat w -> Forall (fun x => 1 <= x < sigma) text ->
  (lengthN text + 1) * 64 <= max_bits c -> sigma * 64 <= max_bits c -> (length text < fuel)%nat ->
  exists f, fm_new c w sigma text = Ok f /\ fm_extract c fuel f = Ok text.
Proof.
  intros c w sigma text fuel Hc Hw Hs HT Hn Hsg Hf. set (t := text ++ [0]). assert (Ht : lengthN t = lengthN text + 1) by (unfold t; rewrite lengthN_app, lengthN_cons, lengthN_nil; lia).
  rewrite <- Ht in Hn. set (bwt := map (before_at 0 t) (fm_suffixes t)).
  assert (HI : forall i, In i (fm_suffixes t) -> i < lengthN t) by (intros i Hi; apply (Permutation_in _ (sort_perm _ _)), iota_In in Hi; exact Hi).
  assert (HB : lengthN bwt = lengthN t) by (unfold bwt; rewrite lengthN_map; apply (sa_length text)).
  assert (Hw2 : 0 < 2 ^ N.of_nat w) by (pose proof (pow2_pos (N.of_nat w)); lia).
  destruct (C110_wavelet c w bwt Hc Hw) as (d & Ed & EL & ER & _ & EG & _).
  { apply Forall_forall. intros x Hx. apply in_map_iff in Hx. destruct Hx as (i & <- & Hi). unfold before_at. destruct (i =? 0); [exact Hw2|]. destruct (nthN t (i - 1)) as [y|] eqn:Ey; [|exact Hw2].
    assert (HTt : Forall (fun x => x < 2 ^ N.of_nat w) t) by (apply Forall_app; split; [eapply Forall_impl; [|exact HT]; intros z Hz; cbn in Hz; lia|repeat constructor; exact Hw2]).
    exact (proj1 (Forall_nthN _ _) HTt _ _ Ey). }
  { rewrite HB. unfold fits. pose proof (blocks_for_spec 64 (lengthN t) ltac:(lia)). lia. }
  set (f := {| fm_first := fm_firsts sigma t; fm_last := d |}). exists f. split.
  - unfold fm_new. fold t. rewrite (preceding_ok c t _ Hc Hn HI). cbn [bind]. fold bwt. rewrite Ed. reflexivity.
  - assert (HRW : forall p v, p < lengthN t -> v < sigma -> rs_rank (wavelet_ranksup c) d p v = Ok (how_many (N.eqb v) (firstnN (p + 1) bwt))) by (intros p v Hp Hv; apply ER; [now rewrite HB|lia]).
    assert (HG : forall i, i < lengthN t -> wt_get c (wl_tree d) (bound text false (skipnN i t)) = Ok (before_at 0 t i)).
    { intros i Hi. apply EG. unfold bwt. rewrite nthN_map. unfold t. rewrite (row_ok text i Hi). reflexivity. }
    assert (K : forall u v fuel, text = u ++ v -> (length u < fuel)%nat ->
      loop_fuel fuel (fun '(result, p) => x <- wt_get c (wl_tree d) p ;; if x =? 0 then Ok (Return (rev result)) else p <- fm_step c (wavelet_ranksup c) f x p ;; Ok (Continue (result ++ [x], p)))
        (rev v, bound text false (v ++ [0])) = Ok text).
    { intros u. induction u as [|x u IH] using rev_ind; intros v fl Et Hfl; (destruct fl as [|fl]; [lia|]); cbn [loop_fuel].
      - cbn [app] in Et. subst v. change (text ++ [0]) with (skipnN 0 t). rewrite HG by lia. cbn [bind]. change (before_at 0 t 0) with 0. cbn [N.eqb bind]. now rewrite rev_involutive.
      - assert (Ei : v ++ [0] = skipnN (lengthN (u ++ [x])) t) by (unfold t; rewrite Et, <- app_assoc; unfold skipnN, lengthN; rewrite Nat2N.id; symmetry; rewrite skipn_app, skipn_all, Nat.sub_diag; reflexivity).
        assert (Hi : lengthN (u ++ [x]) < lengthN t) by (unfold t; rewrite Et, !lengthN_app, !lengthN_cons, !lengthN_nil; lia).
        assert (Eb : before_at 0 t (lengthN (u ++ [x])) = x).
        { unfold before_at. rewrite lengthN_app, lengthN_cons, lengthN_nil. destruct (lengthN u + (0 + 1) =? 0) eqn:E0; [lia|]. replace (lengthN u + (0 + 1) - 1) with (lengthN u) by lia.
          unfold t. rewrite Et, <- !app_assoc, nthN_app_r, N.sub_diag by lia. reflexivity. }
        rewrite Ei at 1. rewrite (HG _ Hi), Eb. cbn [bind].
        assert (Hx : 1 <= x < sigma) by (rewrite Et in HT; apply Forall_app in HT; destruct HT as [HT _]; apply Forall_app in HT; destruct HT as [_ HT]; now inversion HT).
        destruct (x =? 0) eqn:E0; [lia|]. pose proof (step_ok c (wavelet_ranksup c) sigma text d Hc Hsg Hn HRW false x (v ++ [0]) Hx) as HST. fold t in HST. fold f in HST. rewrite HST. cbn [bind].
        change (rev v ++ [x]) with (rev (x :: v)). change (x :: v ++ [0]) with ((x :: v) ++ [0]). apply IH; [now rewrite Et, <- app_assoc|]. rewrite app_length in Hfl. cbn in Hfl. lia. }
    pose proof (K text [] fuel (eq_sym (app_nil_r text)) Hf) as HK. cbn [rev app] in HK. rewrite (row_zero text) in HK. exact HK.
Qed.

(** "mississippi" with m = 2, i = 1, s = 4, p = 3. *)
Example C122_ex : let text := [2; 1; 4; 4; 1; 4; 4; 1; 3; 3; 1] in
  exists f, fm_new dbg32 3 5 text = Ok f /\ fm_suffixes (text ++ [0]) = [11; 10; 7; 4; 1; 0; 9; 8; 6; 3; 5; 2] /\
    fm_count dbg32 (wavelet_ranksup dbg32) f [1; 4; 4; 1] = Ok 2 /\ fm_count dbg32 (wavelet_ranksup dbg32) f [4; 1] = Ok 2 /\
    fm_count dbg32 (wavelet_ranksup dbg32) f [1] = Ok 4 /\ fm_count dbg32 (wavelet_ranksup dbg32) f [] = Ok 12 /\
    fm_count dbg32 (wavelet_ranksup dbg32) f [3; 1; 3] = Ok 0 /\ fm_count dbg32 (wavelet_ranksup dbg32) f text = Ok 1 /\ fm_extract dbg32 12 f = Ok text.
Proof. cbv zeta. eexists. split; [vm_compute; reflexivity|]. do 7 (split; [vm_compute; reflexivity|]). vm_compute. reflexivity. Qed.
(** The hypotheses are met. *)
Example C122_ex_ok : let text := [2; 1; 4; 4; 1; 4; 4; 1; 3; 3; 1] in
  wf_cfg dbg32 /\ (3 <= 64)%nat /\ 5 <= 2 ^ N.of_nat 3 /\ Forall (fun x => 1 <= x < 5) text /\ (lengthN text + 1) * 64 <= max_bits dbg32 /\ 5 * 64 <= max_bits dbg32 /\ Forall (fun x => 1 <= x < 5) [1; 4; 4; 1].
Proof. cbv zeta. split; [unfold wf_cfg; auto|]. split; [lia|]. split; [vm_compute; congruence|]. split; [repeat constructor; lia|]. split; [vm_compute; congruence|]. split; [vm_compute; congruence|]. repeat constructor; lia. Qed.

Print Assumptions C122_count.
Print Assumptions C122_extract.
