(** * Proofs about binary search and [BinSearchSelect]. *)
From Verif Require Import Machine MStorage MTraits MRank MSelect SpecBits SpecLaws SpecRank
  PBase PStorage PBits PRank.

(** ** The average of two numbers *)
Lemma half_bit x : x = 2 * (x / 2) + N.land x 1 /\ N.land x 1 < 2.
Proof.
  change 1 with (N.ones 1) at 1. rewrite N.land_ones. change (2 ^ 1) with 2.
  pose proof (N.div_mod x 2 ltac:(lia)). change (N.land x 1) with (N.land x (N.ones 1)). rewrite N.land_ones.
  change (2 ^ 1) with 2. pose proof (N.mod_lt x 2 ltac:(lia)). lia.
Qed.
Lemma average_ok c w x y : 2 <= w -> x < 2 ^ w -> y < 2 ^ w -> average c w x y = Ok ((x + y) / 2).
Proof.
  intros Hw Hx Hy. unfold average. rewrite !wshr_ok by lia. cbn [bind].
  rewrite !N.shiftr_div_pow2. change (2 ^ 1) with 2.
  assert (Hp : 2 ^ w = 2 * 2 ^ (w - 1)) by (rewrite <- N.pow_succ_r'; f_equal; lia).
  assert (Hp4 : 2 <= 2 ^ (w - 1)) by (change 2 with (2 ^ 1) at 1; apply N.pow_le_mono_r; lia).
  destruct (half_bit x) as [Ex Hbx]. destruct (half_bit y) as [Ey Hby].
  set (a := x / 2) in *. set (b := y / 2) in *. set (e := N.land x 1) in *. set (d := N.land y 1) in *.
  clearbody a b e d. set (P := 2 ^ (w - 1)) in *. clearbody P. subst x y.
  rewrite wadd_ok by lia. cbn [bind]. rewrite wadd_ok by lia. cbn [bind]. rewrite wshr_ok by lia. cbn [bind].
  rewrite N.shiftr_div_pow2. change (2 ^ 1) with 2.
  assert (E : (2 * a + e + (2 * b + d)) / 2 = a + b + (e + d) / 2).
  { replace (2 * a + e + (2 * b + d)) with (e + d + (a + b) * 2) by lia. rewrite N.div_add by lia. lia. }
  rewrite E. rewrite wadd_ok; [reflexivity|].
  assert (a < P /\ b < P) by lia. assert ((e + d) / 2 <= 1) by (apply N.div_le_upper_bound; lia). lia.
Qed.

(** ** The search *)
Section SearchProof.
  Variables (c : cfg) (w value limit : N) (f : N -> res N) (g : N -> N).
  Hypothesis Hw : 2 <= w.
  Hypothesis Hlim : limit < 2 ^ w.

  Lemma search_loop_ok s0 : (forall p, s0 <= p -> p < limit -> f p = Ok (g p)) ->
    (forall p q, s0 <= p -> p <= q -> q < limit -> g p <= g q) ->
    forall k fuel s lim, s0 < s -> s <= lim -> lim <= limit -> lim - s < 2 ^ N.of_nat k -> (k < fuel)%nat ->
    g (s - 1) < value -> (lim = limit \/ value <= g (lim - 1)) ->
    exists o, search_loop c w value f fuel s lim = Ok o /\
      match o with
      | Some d => s0 < d /\ d < limit /\ value <= g d /\ forall p, s0 <= p -> p < d -> g p < value
      | None => forall p, s0 <= p -> p < limit -> g p < value
      end.
  Proof.
    intros Hf Hmono. induction k as [|k IH]; intros fuel s lim Hs Hsl Hl Hk Hfuel Hlow Hhigh;
      (destruct fuel as [|fuel]; [lia|]); unfold search_loop; cbn [loop_fuel].
    - change (2 ^ N.of_nat 0) with 1 in Hk. destruct (s <? lim) eqn:E; [lia|]. cbn [bind].
      exists None. split; [reflexivity|]. assert (lim = s) by lia. subst lim.
      destruct Hhigh as [->|Hh]; [|lia]. intros p H1 H2. eapply N.le_lt_trans; [|exact Hlow]. apply Hmono; lia.
    - rewrite Nnat.Nat2N.inj_succ, N.pow_succ_r' in Hk. set (P := 2 ^ N.of_nat k) in *.
      destruct (s <? lim) eqn:E.
      + rewrite average_ok by lia. cbn [bind]. pose proof (N.div_mod (s + lim) 2 ltac:(lia)) as Hm.
        pose proof (N.mod_lt (s + lim) 2 ltac:(lia)) as Hm2.
        set (mid := (s + lim) / 2) in *. set (e := (s + lim) mod 2) in *. clearbody mid e.
        rewrite Hf by lia. cbn [bind]. destruct (value <=? g mid) eqn:E1.
        * rewrite wsub_ok by lia. cbn [bind]. rewrite Hf by lia. cbn [bind].
          destruct (g (mid - 1) <? value) eqn:E2; cbn [bind].
          -- exists (Some mid). split; [reflexivity|]. repeat split; try lia.
             intros p H1 H2. eapply N.le_lt_trans; [|apply N.ltb_lt; exact E2]. apply Hmono; lia.
          -- apply (IH fuel s mid); try lia.
        * rewrite wadd_ok by lia. cbn [bind]. apply (IH fuel (mid + 1) lim); try lia.
          replace (mid + 1 - 1) with mid by lia. lia.
      + cbn [bind]. exists None. split; [reflexivity|]. assert (lim = s) by lia. subst lim.
        destruct Hhigh as [->|Hh]; [|lia]. intros p H1 H2. eapply N.le_lt_trans; [|exact Hlow]. apply Hmono; lia.
  Qed.

  Lemma search_ok start : start < 2 ^ w ->
    (forall p, start <= p -> p < limit -> f p = Ok (g p)) ->
    (forall p q, start <= p -> p <= q -> q < limit -> g p <= g q) ->
    forall fuel, (N.to_nat w < fuel)%nat ->
    exists o, binary_search_function c w fuel start limit value f = Ok o /\
      match o with
      | Some d => start <= d /\ d < limit /\ value <= g d /\ forall p, start <= p -> p < d -> g p < value
      | None => forall p, start <= p -> p < limit -> g p < value
      end.
  Proof.
    intros Hs Hf Hmono fuel Hfuel. unfold binary_search_function. destruct (limit <=? start) eqn:E.
    { exists None. split; [reflexivity|]. intros; lia. }
    rewrite Hf by lia. cbn [bind]. destruct (value <=? g start) eqn:E1.
    { exists (Some start). split; [reflexivity|]. split; [lia|]. split; [lia|]. split; [lia|]. intros; lia. }
    rewrite wadd_ok by lia. cbn [bind].
    destruct (search_loop_ok start Hf Hmono (N.to_nat w) fuel (start + 1) limit) as [o [Eo Ho]]; try lia.
    { replace (start + 1 - 1) with start by lia. lia. }
    exists o. split; [exact Eo|]. destruct o; [|exact Ho]. destruct Ho as (A & B & C & D). repeat split; auto. lia.
  Qed.
End SearchProof.

(** ** Rank and select on sequences *)
Lemma rank_of_step v l p : rank_of v l p =
  count v (firstnN p l) + match nthN l p with Some b => if eqb b v then 1 else 0 | None => 0 end.
Proof.
  unfold rank_of. rewrite count_add. f_equal. destruct (nthN l p) as [b|] eqn:E.
  - replace (sub p 1 l) with [b]; [cbn; lia|]. apply nthN_ext. intros i. rewrite nthN_sub, nthN_cons, nthN_nil.
    destruct (i =? 0) eqn:E1, (i <? 1) eqn:E2; try lia; [|reflexivity].
    assert (i = 0) as -> by lia. rewrite N.add_0_r. auto.
  - replace (sub p 1 l) with (@nil bool); [reflexivity|]. apply nthN_ext. intros i. rewrite nthN_sub, nthN_nil.
    destruct (i <? 1) eqn:E1; [|reflexivity]. symmetry. apply nthN_None. apply nthN_None in E. lia.
Qed.
Lemma rank_of_mono v l p q : p <= q -> rank_of v l p <= rank_of v l q.
Proof. intros H. apply count_mono. lia. Qed.
Lemma rank_of_all v l p : lengthN l <= p + 1 -> rank_of v l p = count v l.
Proof. intros H. unfold rank_of. now rewrite firstnN_all. Qed.
Lemma rank_of_pred v l p : 1 <= p -> rank_of v l (p - 1) = count v (firstnN p l).
Proof. intros H. unfold rank_of. do 2 f_equal. lia. Qed.

Lemma is_select_rank v l i p : is_select v l i p -> rank_of v l p = i + 1.
Proof. intros [H1 H2]. rewrite rank_of_step, H1, H2, eqb_reflx. reflexivity. Qed.
Lemma is_select_unique v l i p q : is_select v l i p -> is_select v l i q -> p = q.
Proof.
  intros Hp Hq. pose proof (is_select_rank _ _ _ _ Hp) as Ep. pose proof (is_select_rank _ _ _ _ Hq) as Eq.
  destruct Hp as [_ Hp], Hq as [_ Hq].
  destruct (N.lt_trichotomy p q) as [H|[H|H]]; [|exact H|].
  - pose proof (count_mono v (p + 1) q l ltac:(lia)). unfold rank_of in *. lia.
  - pose proof (count_mono v (q + 1) p l ltac:(lia)). unfold rank_of in *. lia.
Qed.
Lemma least_is_select v l i p : p < lengthN l -> i + 1 <= rank_of v l p ->
  (forall q, q < p -> rank_of v l q < i + 1) -> is_select v l i p.
Proof.
  intros Hp H1 H2. rewrite rank_of_step in H1.
  assert (count v (firstnN p l) <= i).
  { destruct (N.eq_dec p 0) as [->|Hp0]; [rewrite firstnN_0; cbn; lia|].
    pose proof (H2 (p - 1) ltac:(lia)). rewrite rank_of_pred in * by lia. lia. }
  destruct (nthN l p) as [b|] eqn:E; [|lia]. destruct (eqb b v) eqn:Eb; [|lia].
  apply eqb_prop in Eb. subst b. split; [exact E|lia].
Qed.
Lemma select_none v l i : (forall p, p < lengthN l -> rank_of v l p < i + 1) -> count v l <= i.
Proof.
  intros H. destruct (N.eq_dec (lengthN l) 0) as [E|E].
  - rewrite (lengthN_0 l E). cbn. lia.
  - pose proof (H (lengthN l - 1) ltac:(lia)) as H1. rewrite rank_of_all in H1 by lia. lia.
Qed.
Lemma is_select_exists v l i p : is_select v l i p -> i < count v l.
Proof.
  intros H. pose proof (is_select_rank _ _ _ _ H) as E. unfold rank_of in E.
  rewrite <- (firstn_skipnN (p + 1) l), count_app. lia.
Qed.

Section SelectProof.
  Context {T : Type} (c : cfg) (K : bitrank T) (Rel : T -> list bool -> Prop).
  Hypothesis LR : lawful_rank K Rel.

  Lemma select_gen (h : N -> res N) t l v i fuel : Rel t l -> (64 < fuel)%nat ->
    (forall p, p < lengthN l -> h p = Ok (rank_of v l p)) ->
    exists o, binary_search_function c 64 fuel 0 (lengthN l) (i + 1) h = Ok o /\
      match o with Some p => is_select v l i p | None => count v l <= i end.
  Proof.
    intros HR Hfuel Hh. pose proof (lr_len _ _ LR _ _ HR) as Hlen.
    destruct (search_ok c 64 (i + 1) (lengthN l) h (rank_of v l) ltac:(lia) Hlen 0 ltac:(lia)) with (fuel := fuel) as [o [Eo Ho]].
    - intros p _ Hp. auto.
    - intros p q _ Hpq _. now apply rank_of_mono.
    - lia.
    - exists o. split; [exact Eo|]. destruct o as [p|].
      + destruct Ho as (_ & A & B & C). apply least_is_select; auto. intros q Hq. apply C; lia.
      + apply select_none. intros p Hp. apply Ho; lia.
  Qed.

  Lemma bss_select1_ok t l i fuel : Rel t l -> i < 2 ^ 64 - 1 -> (64 < fuel)%nat ->
    exists o, bss_select1 c K fuel t i = Ok o /\ match o with Some p => is_select true l i p | None => count true l <= i end.
  Proof.
    intros HR Hi Hf. unfold bss_select1. rewrite (lr_limit _ _ LR _ _ HR). cbn [bind]. rewrite wadd_ok by lia. cbn [bind].
    eapply select_gen; eauto. intros p Hp. now apply (lr_rank1 _ _ LR).
  Qed.
  Lemma bss_select0_ok t l i fuel : Rel t l -> i < 2 ^ 64 - 1 -> (64 < fuel)%nat ->
    exists o, bss_select0 c K fuel t i = Ok o /\ match o with Some p => is_select false l i p | None => count false l <= i end.
  Proof.
    intros HR Hi Hf. unfold bss_select0. rewrite (lr_limit _ _ LR _ _ HR). cbn [bind]. rewrite wadd_ok by lia. cbn [bind].
    eapply select_gen; eauto. intros p Hp. now apply (lr_rank0 _ _ LR).
  Qed.
  Lemma bss_select_ok t l i v fuel : Rel t l -> i < 2 ^ 64 - 1 -> (64 < fuel)%nat ->
    exists o, bss_select c (br_rs K) fuel t i v = Ok o /\ match o with Some p => is_select v l i p | None => count v l <= i end.
  Proof.
    intros HR Hi Hf. unfold bss_select. rewrite (lr_limit _ _ LR _ _ HR). cbn [bind]. rewrite wadd_ok by lia. cbn [bind].
    eapply select_gen; eauto. intros p Hp. now apply (lr_rank _ _ LR).
  Qed.
End SelectProof.
