(** * Binary search over any integer type, any ordered type and any function, the number of queries, and
    which blocks a rank query looks at (C81). *)
From Verif Require Import Machine MStorage MTraits MRank MSelect MSearchGen SpecBits SpecCfg SpecLaws SpecRank PBase PStorage PBits PDefaults PRank PSelect
  Properties6.

Definition wf_pint (D : pint) : Prop := exists w, 3 <= w /\ (D = unsigned w \/ D = signed w).
Definition in_type (D : pint) (z : Z) : Prop := (pi_min D <= z <= pi_max D)%Z.

(** The calls made to [f], with their answers, leading from one state to another *)
Inductive calls {S R} (f : Z -> S -> res (R * S)) : S -> list (Z * R) -> S -> Prop :=
| calls_nil : forall s, calls f s [] s
| calls_cons : forall s p y s1 tr s2, f p s = Ok (y, s1) -> calls f s1 tr s2 -> calls f s ((p, y) :: tr) s2.

Lemma wf_pint_bounds D : wf_pint D -> (exists h, pi_min D = -2 * h /\ 0 <= h)%Z /\ (3 <= pi_max D)%Z.
Proof.
  intros (w & Hw & [->| ->]); cbn [pi_min pi_max unsigned signed]; (split; [|]).
  - exists 0%Z. lia.
  - assert (H : (2 ^ 2 <= 2 ^ Z.of_N w)%Z) by (apply Z.pow_le_mono_r; lia). change (2 ^ 2)%Z with 4%Z in H. lia.
  - exists (2 ^ Z.of_N (w - 2))%Z. split; [|apply Z.pow_nonneg; lia].
    replace (Z.of_N (w - 1)) with (Z.succ (Z.of_N (w - 2))) by lia. rewrite Z.pow_succ_r by lia. lia.
  - assert (H : (2 ^ 2 <= 2 ^ Z.of_N (w - 1))%Z) by (apply Z.pow_le_mono_r; lia). change (2 ^ 2)%Z with 4%Z in H. lia.
Qed.
Lemma pi_wrap_ok c D z : in_type D z -> pi_wrap c D z = Ok z.
Proof. intros [H1 H2]. unfold pi_wrap. apply Z.leb_le in H1, H2. now rewrite H1, H2. Qed.
Lemma average_gen_ok c D x y : wf_pint D -> in_type D x -> in_type D y -> average_gen c D x y = Ok ((x + y) / 2)%Z.
Proof.
  intros HD [Hx1 Hx2] [Hy1 Hy2]. destruct (wf_pint_bounds D HD) as [(h & Eh & Hh) H3]. unfold average_gen.
  rewrite !Z.shiftr_div_pow2 by lia. change (2 ^ 1)%Z with 2%Z. change 1%Z with (Z.ones 1) at 1 2. rewrite !Z.land_ones by lia. change (2 ^ 1)%Z with 2%Z.
  pose proof (Z.div_mod x 2 ltac:(lia)) as Ex. pose proof (Z.mod_pos_bound x 2 ltac:(lia)) as Bx.
  pose proof (Z.div_mod y 2 ltac:(lia)) as Ey. pose proof (Z.mod_pos_bound y 2 ltac:(lia)) as By.
  set (a := (x / 2)%Z) in *. set (b := (y / 2)%Z) in *. set (d := (x mod 2)%Z) in *. set (e := (y mod 2)%Z) in *. clearbody a b d e. subst x y.
  rewrite pi_wrap_ok by (split; lia). cbn [bind]. rewrite pi_wrap_ok by (split; lia). cbn [bind].
  rewrite Z.shiftr_div_pow2 by lia. change (2 ^ 1)%Z with 2%Z.
  assert (E : ((2 * a + d + (2 * b + e)) / 2 = a + b + (d + e) / 2)%Z).
  { replace (2 * a + d + (2 * b + e))%Z with (d + e + (a + b) * 2)%Z by lia. rewrite Z.div_add by lia. lia. }
  rewrite E. apply pi_wrap_ok. pose proof (Z.div_mod (d + e) 2 ltac:(lia)). pose proof (Z.mod_pos_bound (d + e) 2 ltac:(lia)).
  set (q := ((d + e) / 2)%Z) in *. clearbody q. split; lia.
Qed.

Lemma calls_app {S R} (f : Z -> S -> res (R * S)) s t1 s1 t2 s2 : calls f s t1 s1 -> calls f s1 t2 s2 -> calls f s (t1 ++ t2) s2.
Proof. induction 1; [auto|]. intros H'. cbn. econstructor; eauto. Qed.
Lemma calls_1 {S R} (f : Z -> S -> res (R * S)) s p y s1 : f p s = Ok (y, s1) -> calls f s [(p, y)] s1.
Proof. intros H. econstructor; [exact H|constructor]. Qed.

Section Any.
  Context (c : cfg) (D : pint) {S R : Type} (ge lt : R -> R -> bool) (value : R) (f : Z -> S -> res (R * S)).
  Hypothesis HD : wf_pint D.

  Lemma loop_gen_any start limit : in_type D start -> in_type D limit ->
    (forall p s, (start <= p < limit)%Z -> exists y s', f p s = Ok (y, s')) ->
    forall k fuel st lim s, (start < st)%Z -> (lim <= limit)%Z -> (lim - st < 2 ^ Z.of_nat k)%Z -> (k < fuel)%nat ->
    exists o s' tr, search_loop_gen c D ge lt value f fuel st lim s = Ok (o, s') /\ calls f s tr s' /\
      Forall (fun q => (start < fst q + 1 /\ st - 1 <= fst q < lim)%Z) tr /\ (length tr <= 2 * k)%nat /\
      match o with
      | Some d => exists y y', In (d, y) tr /\ ge y value = true /\ In ((d - 1)%Z, y') tr /\ lt y' value = true /\ (st <= d < lim)%Z
      | None => True
      end.
  Proof.
    intros [Hs1 Hs2] [Hl1 Hl2] Hf. induction k as [|k IH]; intros fuel st lim s Hst Hlim Hk Hfuel; (destruct fuel as [|fuel]; [lia|]);
      unfold search_loop_gen; cbn [loop_fuel]; destruct (st <? lim)%Z eqn:E.
    - apply Z.ltb_lt in E. change (2 ^ Z.of_nat 0)%Z with 1%Z in Hk. lia.
    - cbn [bind]. exists None, s, []. repeat split; try constructor; cbn; lia.
    - apply Z.ltb_lt in E. rewrite Nat2Z.inj_succ, Z.pow_succ_r in Hk by lia. set (P := (2 ^ Z.of_nat k)%Z) in *. clearbody P.
      rewrite average_gen_ok by (try exact HD; split; lia). cbn [bind].
      pose proof (Z.div_mod (st + lim) 2 ltac:(lia)) as Hm. pose proof (Z.mod_pos_bound (st + lim) 2 ltac:(lia)) as Hm2.
      set (mid := ((st + lim) / 2)%Z) in *. set (e := ((st + lim) mod 2)%Z) in *. clearbody mid e.
      destruct (Hf mid s ltac:(lia)) as (y & s1 & E1). rewrite E1. cbn [bind]. destruct (ge y value) eqn:G.
      + rewrite pi_wrap_ok by (split; lia). cbn [bind]. destruct (Hf (mid - 1)%Z s1 ltac:(lia)) as (y' & s2 & E2). rewrite E2. cbn [bind].
        assert (C2 : calls f s [(mid, y); ((mid - 1)%Z, y')] s2) by (econstructor; [exact E1|]; now apply calls_1).
        destruct (lt y' value) eqn:L; cbn [bind].
        * exists (Some mid), s2, [(mid, y); ((mid - 1)%Z, y')]. split; [reflexivity|]. split; [exact C2|]. split; [repeat constructor; cbn; lia|].
          split; [cbn; lia|]. exists y, y'. cbn. intuition (lia || auto).
        * destruct (IH fuel st mid s2 ltac:(lia) ltac:(lia) ltac:(lia) ltac:(lia)) as (o & s' & tr & R1 & R2 & R3 & R4 & R5).
          exists o, s', ([(mid, y); ((mid - 1)%Z, y')] ++ tr). split; [exact R1|]. split; [eapply calls_app; eassumption|].
          split; [constructor; [cbn; lia|]; constructor; [cbn; lia|]; eapply Forall_impl; [|exact R3]; cbn; lia|].
          split; [cbn; lia|]. destruct o as [d|]; [|exact I]. destruct R5 as (z & z' & A1 & A2 & A3 & A4 & A5). exists z, z'. cbn. intuition lia.
      + rewrite pi_wrap_ok by (split; lia). cbn [bind].
        destruct (IH fuel (mid + 1)%Z lim s1 ltac:(lia) ltac:(lia) ltac:(lia) ltac:(lia)) as (o & s' & tr & R1 & R2 & R3 & R4 & R5).
        exists o, s', ((mid, y) :: tr). split; [exact R1|]. split; [econstructor; eassumption|].
        split; [constructor; [cbn; lia|]; eapply Forall_impl; [|exact R3]; cbn; lia|].
        split; [cbn; lia|]. destruct o as [d|]; [|exact I]. destruct R5 as (z & z' & A1 & A2 & A3 & A4 & A5). exists z, z'. cbn. intuition lia.
    - cbn [bind]. exists None, s, []. repeat split; try constructor; cbn; lia.
  Qed.
End Any.

(** ** The search ends for every function, even one that is not monotone or gives other answers each time: it makes at
    most 1 + 2 * (lg (limit - start - 1) + 1) calls, all within the interval, and answers only what the calls have shown. *)
Theorem C81_any_function : forall c D S R (ge lt : R -> R -> bool) start limit value (f : Z -> S -> res (R * S)) s fuel,
  wf_pint D -> in_type D start -> in_type D limit ->
  (forall p s, (start <= p < limit)%Z -> exists y s', f p s = Ok (y, s')) ->
  (forall w, D = unsigned w \/ D = signed w -> (N.to_nat w < fuel)%nat) ->
  exists o s' tr, binary_search_gen c D ge lt fuel start limit value f s = Ok (o, s') /\ calls f s tr s' /\
    Forall (fun q => (start <= fst q < limit)%Z) tr /\ lengthN tr <= 1 + 2 * N.size (Z.to_N (limit - start - 1)) /\
    match o with
    | Some d => exists y, In (d, y) tr /\ ge y value = true /\ (d = start \/ exists y', In ((d - 1)%Z, y') tr /\ lt y' value = true)
    | None => (limit <= start)%Z \/ exists y, In (start, y) tr /\ ge y value = false
    end.
Proof.
  intros c D S R ge lt start limit value f s fuel HD Hs Hl Hf Hfuel. unfold binary_search_gen. destruct (limit <=? start)%Z eqn:E.
  { apply Z.leb_le in E. exists None, s, []. repeat split; try constructor; auto. unfold lengthN; cbn. lia. }
  apply Z.leb_gt in E. destruct (Hf start s ltac:(lia)) as (y & s1 & E1). rewrite E1. cbn [bind]. destruct (ge y value) eqn:G.
  { exists (Some start), s1, [(start, y)]. split; [reflexivity|]. split; [now apply calls_1|]. split; [repeat constructor; cbn; lia|].
    split; [unfold lengthN; cbn [length]; lia|]. exists y. cbn. auto. }
  destruct Hs as [Hs1 Hs2]. destruct Hl as [Hl1 Hl2]. rewrite pi_wrap_ok by (split; lia). cbn [bind].
  set (m := Z.to_N (limit - start - 1)).
  assert (Hm : m < 2 ^ N.size m) by (apply N.size_gt).
  assert (HmZ : (limit - (start + 1) < 2 ^ Z.of_nat (N.to_nat (N.size m)))%Z).
  { apply N2Z.inj_lt in Hm. rewrite N2Z.inj_pow in Hm. rewrite N_nat_Z. subst m. rewrite Z2N.id in Hm by lia. change (Z.of_N 2) with 2%Z in Hm. lia. }
  assert (Hsz : (N.to_nat (N.size m) < fuel)%nat).
  { destruct HD as (w & Hw & HD). pose proof (Hfuel w HD). enough (N.size m <= w) by lia.
    destruct (N.eq_dec m 0) as [->|Hm0]; [cbn; lia|]. rewrite N.size_log2 by exact Hm0. enough (N.log2 m < w) by lia. apply N.log2_lt_pow2; [lia|].
    apply N2Z.inj_lt. rewrite N2Z.inj_pow. change (Z.of_N 2) with 2%Z. subst m. rewrite Z2N.id by lia.
    destruct HD as [-> | ->]; cbn [pi_min pi_max unsigned signed] in *; [lia|].
    replace (Z.of_N w) with (Z.succ (Z.of_N (w - 1))) by lia. rewrite Z.pow_succ_r by lia. lia. }
  destruct (loop_gen_any c D ge lt value f HD start limit (conj Hs1 Hs2) (conj Hl1 Hl2) Hf _ fuel (start + 1)%Z limit s1 ltac:(lia) ltac:(lia) HmZ Hsz)
    as (o & s' & tr & R1 & R2 & R3 & R4 & R5).
  exists o, s', ((start, y) :: tr). split; [exact R1|]. split; [econstructor; eassumption|].
  split; [constructor; [cbn; lia|]; eapply Forall_impl; [|exact R3]; cbn; lia|].
  split; [unfold lengthN in *; cbn [length]; lia|].
  destruct o as [d|]; [|right; exists y; cbn; auto]. destruct R5 as (z & z' & A1 & A2 & A3 & A4 & A5). exists z. cbn. split; [auto|]. split; [exact A2|]. right. exists z'. auto.
Qed.

(** ** A function with fixed answers: an answer [Some d] is a place where [f] crosses [value], and [None] is answered
    only when it has not reached [value] at the end. *)
Section Fixed.
  Context (c : cfg) (D : pint) {S R : Type} (ge lt : R -> R -> bool) (value : R) (f : Z -> S -> res (R * S)) (g : Z -> R) (start limit : Z).
  Hypothesis HD : wf_pint D.
  Hypothesis Hs : in_type D start.
  Hypothesis Hl : in_type D limit.
  Hypothesis Hf : forall p s, (start <= p < limit)%Z -> exists s', f p s = Ok (g p, s').
  Hypothesis Hlt : forall x y, lt x y = negb (ge x y).

  Lemma loop_gen_none : forall fuel st lim s s', (start < st <= lim)%Z -> (lim <= limit)%Z ->
    ge (g (st - 1)%Z) value = false -> (lim = limit \/ ge (g (lim - 1)%Z) value = true) ->
    search_loop_gen c D ge lt value f fuel st lim s = Ok (None, s') -> ge (g (limit - 1)%Z) value = false.
  Proof.
    destruct Hs as [Hs1 Hs2]. destruct Hl as [Hl1 Hl2].
    induction fuel as [|fuel IH]; intros st lim s s' Hst Hlim Hlow Hhigh; unfold search_loop_gen; cbn [loop_fuel]; [discriminate|].
    destruct (st <? lim)%Z eqn:E.
    - apply Z.ltb_lt in E. rewrite average_gen_ok by (try exact HD; split; lia). cbn [bind].
      pose proof (Z.div_mod (st + lim) 2 ltac:(lia)) as Hm. pose proof (Z.mod_pos_bound (st + lim) 2 ltac:(lia)) as Hm2.
      set (mid := ((st + lim) / 2)%Z) in *. set (e := ((st + lim) mod 2)%Z) in *. clearbody mid e.
      destruct (Hf mid s ltac:(lia)) as (s1 & E1). rewrite E1. cbn [bind]. destruct (ge (g mid) value) eqn:G.
      + rewrite pi_wrap_ok by (split; lia). cbn [bind]. destruct (Hf (mid - 1)%Z s1 ltac:(lia)) as (s2 & E2). rewrite E2. cbn [bind].
        rewrite Hlt. destruct (ge (g (mid - 1)%Z) value) eqn:G1; cbn [negb bind]; [|discriminate].
        apply (IH st mid s2 s'); try lia; auto.
      + rewrite pi_wrap_ok by (split; lia). cbn [bind]. apply (IH (mid + 1)%Z lim s1 s'); try lia; auto.
        replace (mid + 1 - 1)%Z with mid by lia. exact G.
    - apply Z.ltb_ge in E. cbn [bind]. intros _. assert (lim = st) by lia. subst lim. destruct Hhigh as [->|Hh]; [exact Hlow|congruence].
  Qed.
End Fixed.
Lemma calls_fixed {S R} (f : Z -> S -> res (R * S)) (g : Z -> R) start limit s tr s' :
  (forall p s, (start <= p < limit)%Z -> exists s', f p s = Ok (g p, s')) -> calls f s tr s' -> Forall (fun q => (start <= fst q < limit)%Z) tr ->
  forall p y, In (p, y) tr -> y = g p.
Proof.
  intros Hf HC. induction HC as [|s p y s1 tr s2 H HC IH]; intros HF q z; [intros []|]. inversion HF as [|? ? A B]; subst. intros [e|Hi]; [|now apply IH].
  injection e as -> ->. destruct (Hf q s A) as (t & E). congruence.
Qed.
Theorem C81_fixed_function : forall c D S R (ge lt : R -> R -> bool) start limit value (f : Z -> S -> res (R * S)) (g : Z -> R) s fuel,
  wf_pint D -> in_type D start -> in_type D limit ->
  (forall p s, (start <= p < limit)%Z -> exists s', f p s = Ok (g p, s')) ->
  (forall x y, lt x y = negb (ge x y)) ->
  (forall w, D = unsigned w \/ D = signed w -> (N.to_nat w < fuel)%nat) ->
  exists o s', binary_search_gen c D ge lt fuel start limit value f s = Ok (o, s') /\
    match o with
    | Some d => (start <= d < limit)%Z /\ ge (g d) value = true /\ (d = start \/ ge (g (d - 1)%Z) value = false)
    | None => (start < limit)%Z -> ge (g (limit - 1)%Z) value = false
    end.
Proof.
  intros c D S R ge lt start limit value f g s fuel HD Hs Hl Hf Hlt Hfuel.
  destruct (C81_any_function c D S R ge lt start limit value f s fuel HD Hs Hl ltac:(intros p t Hp; destruct (Hf p t Hp) as [t' E]; eauto) Hfuel)
    as (o & s' & tr & R1 & R2 & R3 & R4 & R5).
  exists o, s'. split; [exact R1|]. destruct o as [d|].
  - destruct R5 as (y & A1 & A2 & A3). assert (B : forall p y, In (p, y) tr -> (start <= p < limit)%Z /\ y = g p).
    { intros p z Hi. split; [|exact (calls_fixed f g start limit s tr s' Hf R2 R3 p z Hi)]. rewrite Forall_forall in R3. exact (R3 _ Hi). }
    destruct (B _ _ A1) as [B1 ->]. split; [exact B1|]. split; [exact A2|]. destruct A3 as [A3|(y' & A3 & A4)]; [auto|right].
    destruct (B _ _ A3) as [_ ->]. rewrite Hlt in A4. now destruct (ge (g (d - 1)%Z) value).
  - intros Hlt'. revert R1. unfold binary_search_gen. replace (limit <=? start)%Z with false by (symmetry; apply Z.leb_gt; lia).
    destruct (Hf start s ltac:(lia)) as (s1 & E1). rewrite E1. cbn [bind]. destruct (ge (g start) value) eqn:G; [discriminate|].
    destruct Hs as [Hs1 Hs2]. destruct Hl as [Hl1 Hl2].
    rewrite pi_wrap_ok by (split; lia). cbn [bind]. apply (loop_gen_none c D ge lt value f g start limit HD (conj Hs1 Hs2) (conj Hl1 Hl2) Hf Hlt); try lia; auto.
    replace (start + 1 - 1)%Z with start by lia. exact G.
Qed.

(** ** A monotone function into any totally preordered type: the search finds the smallest [d] with [f d >= value]. *)
Theorem C81_monotone : forall c D S R (ge lt : R -> R -> bool) start limit value (f : Z -> S -> res (R * S)) (g : Z -> R) s fuel,
  wf_pint D -> in_type D start -> in_type D limit ->
  (forall p s, (start <= p < limit)%Z -> exists s', f p s = Ok (g p, s')) ->
  (forall x y, lt x y = negb (ge x y)) -> (forall x y z, ge x y = true -> ge y z = true -> ge x z = true) ->
  (forall p q, (start <= p <= q)%Z -> (q < limit)%Z -> ge (g q) (g p) = true) ->
  (forall w, D = unsigned w \/ D = signed w -> (N.to_nat w < fuel)%nat) ->
  exists o s', binary_search_gen c D ge lt fuel start limit value f s = Ok (o, s') /\
    match o with
    | Some d => (start <= d < limit)%Z /\ ge (g d) value = true /\ forall p, (start <= p < d)%Z -> ge (g p) value = false
    | None => forall p, (start <= p < limit)%Z -> ge (g p) value = false
    end.
Proof.
  intros c D S R ge lt start limit value f g s fuel HD Hs Hl Hf Hlt Htr Hmono Hfuel.
  assert (Below : forall p q, (start <= p <= q)%Z -> (q < limit)%Z -> ge (g q) value = false -> ge (g p) value = false).
  { intros p q H1 H2 H3. destruct (ge (g p) value) eqn:G; [|reflexivity]. rewrite <- H3. symmetry. eapply Htr; [|exact G]. now apply Hmono. }
  destruct (C81_fixed_function c D S R ge lt start limit value f g s fuel HD Hs Hl Hf Hlt Hfuel) as (o & s' & R1 & R2).
  exists o, s'. split; [exact R1|]. destruct o as [d|].
  - destruct R2 as (A1 & A2 & A3). split; [exact A1|]. split; [exact A2|]. intros p Hp. destruct A3 as [->|A3]; [lia|]. apply (Below p (d - 1)%Z); auto; lia.
  - intros p Hp. apply (Below p (limit - 1)%Z); try lia. apply R2. lia.
Qed.

(** ** The search that the library uses is the instance at unsigned integers. *)
Lemma pi_wrap_N c w z : (0 <= z < 2 ^ Z.of_N w)%Z -> pi_wrap c (unsigned w) z = Ok z.
Proof. intros H. apply pi_wrap_ok. unfold in_type. cbn [pi_min pi_max unsigned]. lia. Qed.
Definition lift_f (f : N -> res N) (p : Z) (u : unit) : res (N * unit) := y <- f (Z.to_N p) ;; Ok (y, u).
Definition to_opt (r : res (option N)) : res (option Z * unit) := o <- r ;; Ok (option_map Z.of_N o, tt).
Theorem C81_instance : forall c w fuel start limit value (f : N -> res N), 3 <= w -> start < 2 ^ w -> limit < 2 ^ w ->
  binary_search_gen c (unsigned w) (fun x y => y <=? x) N.ltb fuel (Z.of_N start) (Z.of_N limit) value (lift_f f) tt
  = to_opt (binary_search_function c w fuel start limit value f).
Proof.
  intros c w fuel start limit value f Hw Hs Hl. assert (HD : wf_pint (unsigned w)) by (exists w; auto).
  assert (T : forall x, x < 2 ^ w -> (0 <= Z.of_N x < 2 ^ Z.of_N w)%Z).
  { intros x Hx. apply N2Z.inj_lt in Hx. rewrite N2Z.inj_pow in Hx. change (Z.of_N 2) with 2%Z in Hx. lia. }
  assert (TI : forall x, x < 2 ^ w -> in_type (unsigned w) (Z.of_N x)).
  { intros x Hx. apply T in Hx. unfold in_type. cbn [pi_min pi_max unsigned]. lia. }
  assert (L : forall k st lim, 1 <= st -> st <= 2 ^ w -> lim < 2 ^ w ->
    search_loop_gen c (unsigned w) (fun x y => y <=? x) N.ltb value (lift_f f) k (Z.of_N st) (Z.of_N lim) tt = to_opt (search_loop c w value f k st lim)).
  { induction k as [|k IH]; intros st lim H1 H2 H3; unfold search_loop_gen, search_loop; cbn [loop_fuel]; [reflexivity|].
    replace (Z.of_N st <? Z.of_N lim)%Z with (st <? lim) by (destruct (st <? lim) eqn:E; symmetry; [apply Z.ltb_lt|apply Z.ltb_ge]; lia).
    destruct (st <? lim) eqn:E; [|reflexivity]. rewrite (average_gen_ok c _ _ _ HD) by (apply TI; lia). rewrite average_ok by lia. cbn [bind].
    replace ((Z.of_N st + Z.of_N lim) / 2)%Z with (Z.of_N ((st + lim) / 2)) by (rewrite N2Z.inj_div, N2Z.inj_add; reflexivity).
    pose proof (N.div_mod (st + lim) 2 ltac:(lia)) as Hm. pose proof (N.mod_lt (st + lim) 2 ltac:(lia)) as Hm2.
    set (mid := (st + lim) / 2) in *. set (e := (st + lim) mod 2) in *. clearbody mid e.
    unfold lift_f at 1. rewrite N2Z.id. destruct (f mid) as [y| |]; cbn [bind]; [|reflexivity|reflexivity].
    destruct (value <=? y) eqn:G.
    - replace (Z.of_N mid - 1)%Z with (Z.of_N (mid - 1)) by lia. rewrite pi_wrap_N by (apply T; lia). rewrite wsub_ok by lia. cbn [bind].
      unfold lift_f at 1. rewrite N2Z.id. destruct (f (mid - 1)) as [y'| |]; cbn [bind]; [|reflexivity|reflexivity].
      destruct (y' <? value); cbn [bind]; [reflexivity|]. apply IH; lia.
    - replace (Z.of_N mid + 1)%Z with (Z.of_N (mid + 1)) by lia. rewrite pi_wrap_N by (apply T; lia). rewrite wadd_ok by lia. cbn [bind]. apply IH; lia. }
  unfold binary_search_gen, binary_search_function.
  replace (Z.of_N limit <=? Z.of_N start)%Z with (limit <=? start) by (destruct (limit <=? start) eqn:E; symmetry; [apply Z.leb_le|apply Z.leb_gt]; lia).
  destruct (limit <=? start) eqn:E; [reflexivity|]. unfold lift_f at 1. rewrite N2Z.id. destruct (f start) as [y| |]; cbn [bind]; [|reflexivity|reflexivity].
  destruct (value <=? y); [reflexivity|].
  replace (Z.of_N start + 1)%Z with (Z.of_N (start + 1)) by lia. rewrite pi_wrap_N by (apply T; lia). rewrite wadd_ok by lia. cbn [bind]. apply L; lia.
Qed.

(** ** How many rank queries a select makes *)
(** A function that notes its arguments *)
Definition logged (f : N -> res N) (p : Z) (log : list N) : res (N * list N) := y <- f (Z.to_N p) ;; Ok (y, log ++ [Z.to_N p]).
Lemma erase_log c D value f fuel start limit log :
  (o <- binary_search_gen c D (fun x y => y <=? x) N.ltb fuel start limit value (logged f) log ;; Ok (fst o)) =
  (o <- binary_search_gen c D (fun x y => y <=? x) N.ltb fuel start limit value (lift_f f) tt ;; Ok (fst o)).
Proof.
  assert (L : forall k st lim log, (o <- search_loop_gen c D (fun x y => y <=? x) N.ltb value (logged f) k st lim log ;; Ok (fst o)) =
    (o <- search_loop_gen c D (fun x y => y <=? x) N.ltb value (lift_f f) k st lim tt ;; Ok (fst o))).
  { induction k as [|k IH]; intros st lim lg; unfold search_loop_gen; cbn [loop_fuel]; [reflexivity|].
    destruct (st <? lim)%Z; [|reflexivity]. destruct (average_gen c D st lim) as [mid| |]; cbn [bind]; [|reflexivity|reflexivity].
    unfold logged at 1, lift_f at 1. destruct (f (Z.to_N mid)) as [y| |]; cbn [bind]; [|reflexivity|reflexivity].
    destruct (value <=? y).
    - destruct (pi_wrap c D (mid - 1)) as [m1| |]; cbn [bind]; [|reflexivity|reflexivity].
      unfold logged at 1, lift_f at 1. destruct (f (Z.to_N m1)) as [y'| |]; cbn [bind]; [|reflexivity|reflexivity].
      destruct (y' <? value); cbn [bind]; [reflexivity|]. apply IH.
    - destruct (pi_wrap c D (mid + 1)) as [m1| |]; cbn [bind]; [|reflexivity|reflexivity]. apply IH. }
  unfold binary_search_gen. destruct (limit <=? start)%Z; [reflexivity|].
  unfold logged at 1, lift_f at 1. destruct (f (Z.to_N start)) as [y| |]; cbn [bind]; [|reflexivity|reflexivity].
  destruct (value <=? y); [reflexivity|]. destruct (pi_wrap c D (start + 1)) as [m1| |]; cbn [bind]; [|reflexivity|reflexivity]. apply L.
Qed.
Lemma calls_logged f log tr log' : calls (logged f) log tr log' -> log' = log ++ map (fun q => Z.to_N (fst q)) tr.
Proof.
  induction 1 as [|s p y s1 tr s2 H HC IH]; cbn; [now rewrite app_nil_r|]. unfold logged in H. destruct (f (Z.to_N p)); try discriminate. cbn in H. inversion H; subst.
  now rewrite <- app_assoc.
Qed.
(** The arguments of the calls to [f], in order *)
Definition queries (c : cfg) (fuel : nat) (limit value : N) (f : N -> res N) (o : option N) (log : list N) : Prop :=
  binary_search_gen c (unsigned 64) (fun x y => y <=? x) N.ltb fuel 0 (Z.of_N limit) value (logged f) [] = Ok (option_map Z.of_N o, log).
Lemma search_queries c limit value f fuel : limit < 2 ^ 64 -> (64 < fuel)%nat -> (forall p, p < limit -> exists y, f p = Ok y) ->
  exists o log, binary_search_function c 64 fuel 0 limit value f = Ok o /\ queries c fuel limit value f o log /\
    Forall (fun p => p < limit) log /\ lengthN log <= 1 + 2 * N.size (limit - 1).
Proof.
  intros Hl Hfuel Hf. assert (HlZ : (Z.of_N limit < 2 ^ 64)%Z) by (change (2 ^ 64)%Z with (Z.of_N (2 ^ 64)); lia).
  destruct (C81_any_function c (unsigned 64) (list N) N (fun x y => y <=? x) N.ltb 0%Z (Z.of_N limit) value (logged f) [] fuel) as (o & log & tr & R1 & R2 & R3 & R4 & _).
  - exists 64. split; [lia|auto].
  - split; cbn [pi_min pi_max unsigned]; change (Z.of_N 64) with 64%Z; lia.
  - split; cbn [pi_min pi_max unsigned]; change (Z.of_N 64) with 64%Z; lia.
  - intros p lg Hp. destruct (Hf (Z.to_N p) ltac:(lia)) as [y E]. exists y, (lg ++ [Z.to_N p]). unfold logged. now rewrite E.
  - intros w [E|E].
    2: { apply (f_equal pi_min) in E. cbn [pi_min unsigned signed] in E. pose proof (Z.pow_pos_nonneg 2 (Z.of_N (w - 1)) ltac:(lia) ltac:(lia)). lia. }
    apply (f_equal pi_max) in E. cbn [pi_max unsigned] in E.
    assert (E' : (2 ^ Z.of_N 64 = 2 ^ Z.of_N w)%Z) by lia. apply Z.pow_inj_r in E'; lia.
  - pose proof (C81_instance c 64 fuel 0 limit value f ltac:(lia) ltac:(reflexivity) Hl) as HI. pose proof (erase_log c (unsigned 64) value f fuel 0%Z (Z.of_N limit) []) as HE.
    change (Z.of_N 0) with 0%Z in HI. rewrite HI, R1 in HE. destruct (binary_search_function c 64 fuel 0 limit value f) as [o'| |]; try discriminate HE.
    cbn [to_opt bind fst] in HE. injection HE as ->. exists o', log. split; [reflexivity|]. split; [exact R1|]. rewrite (calls_logged _ _ _ _ R2). cbn [app].
    split; [apply Forall_map; eapply Forall_impl; [|exact R3]; cbn; lia|]. unfold lengthN in *. rewrite map_length.
    replace (Z.to_N (Z.of_N limit - 0 - 1)) with (limit - 1) in R4 by lia. exact R4.
Qed.
(** Whatever the rank structure, as long as it answers every position below its limit: a select makes at most
    1 + 2 * (bits of (limit - 1)) rank queries, so never more than 129, all of them below the limit. *)
Theorem C81_select_queries : forall c T A (R : ranksup A T) (B : bitrank T) t i v limit limit' fuel,
  i + 1 < 2 ^ 64 -> (64 < fuel)%nat -> limit < 2 ^ 64 -> limit' < 2 ^ 64 ->
  rs_limit R t = Ok limit -> (forall p, p < limit -> exists y, rs_rank R t p v = Ok y) ->
  rs_limit (br_rs B) t = Ok limit' -> (forall p, p < limit' -> exists y y', br_rank1 B t p = Ok y /\ br_rank0 B t p = Ok y') ->
  (exists o log, bss_select c R fuel t i v = Ok o /\ queries c fuel limit (i + 1) (fun p => rs_rank R t p v) o log /\
     Forall (fun p => p < limit) log /\ lengthN log <= 1 + 2 * N.size (limit - 1)) /\
  (exists o log, bss_select1 c B fuel t i = Ok o /\ queries c fuel limit' (i + 1) (br_rank1 B t) o log /\
     Forall (fun p => p < limit') log /\ lengthN log <= 1 + 2 * N.size (limit' - 1)) /\
  (exists o log, bss_select0 c B fuel t i = Ok o /\ queries c fuel limit' (i + 1) (br_rank0 B t) o log /\
     Forall (fun p => p < limit') log /\ lengthN log <= 1 + 2 * N.size (limit' - 1)).
Proof.
  intros c T A R B t i v limit limit' fuel Hi Hfuel Hl Hl' E H E' H'. unfold bss_select, bss_select1, bss_select0. rewrite E, E'. cbn [bind]. rewrite wadd_ok by lia. cbn [bind].
  split; [|split]; apply search_queries; auto; intros p Hp; destruct (H' p Hp) as (y & y' & ? & ?); eauto.
Qed.

(** ** Rank queries in constant time: one block of the store, whatever the rest of the store contains *)
(** Two structures with the same directories over stores of any two types: the answers at [p] are the same as soon as
    the stores agree on the block of [p] (and, for Jacobson, on the length). *)
Theorem C81_jacobson_one_block : forall c T T' (B : bitvec T) (B' : bitvec T') (j : jacobson T) (j' : jacobson T') p,
  wf_cfg c -> wf_nb (bv_nb B) -> bv_nb B' = bv_nb B ->
  jr_large_block_size j' = jr_large_block_size j -> jr_large j' = jr_large j -> jr_small j' = jr_small j ->
  bv_bit_len B' (jr_store j') = bv_bit_len B (jr_store j) ->
  bv_get_block B' (jr_store j') (p / bv_nb B) = bv_get_block B (jr_store j) (p / bv_nb B) ->
  jacobson_rank1 c B' j' p = jacobson_rank1 c B j p.
Proof.
  intros c T T' B B' j j' p Hc Hnb E1 E2 E3 E4 E5 E6. unfold jacobson_rank1. rewrite E1, E2, E3, E4, E5.
  destruct (bv_bit_len B (jr_store j)) as [bl| |]; cbn [bind]; [|reflexivity|reflexivity].
  destruct (assert_ (p <? bl)) as [[]| |]; cbn [bind]; [|reflexivity|reflexivity].
  destruct (wdiv p (jr_large_block_size j)) as [lb| |]; cbn [bind]; [|reflexivity|reflexivity].
  destruct (address_new c (bv_nb B) p) as [a| |] eqn:E; cbn [bind]; [|reflexivity|reflexivity].
  assert (Ea : block_index a = p / bv_nb B).
  { unfold address_new in E. rewrite checked_div_nbits_ok in E by assumption. cbn [bind] in E. unfold to_usize in E. destruct (p / bv_nb B <? 2 ^ ptr c); [|discriminate].
    cbn [expect bind] in E. rewrite mod_nbits_ok in E by assumption. cbn [bind] in E. now inversion E. }
  rewrite Ea, E6. reflexivity.
Qed.
Theorem C81_rank9_one_block : forall c T T' (B : bitvec T) (B' : bitvec T') (r : rank9 T) (r' : rank9 T') p,
  r9_counts r' = r9_counts r -> bv_get_block B' (r9_store r') (p / 64) = bv_get_block B (r9_store r) (p / 64) ->
  rank9_rank1 c B' r' p = rank9_rank1 c B r p.
Proof.
  intros c T T' B B' r r' p E1 E2. unfold rank9_rank1. rewrite E1.
  destruct (expect (to_usize c (p / 512))) as [bb| |]; cbn [bind]; [|reflexivity|reflexivity].
  destruct (expect (to_usize c (p / 64))) as [wi| |] eqn:E; cbn [bind]; [|reflexivity|reflexivity].
  assert (Ew : wi = p / 64). { unfold to_usize in E. destruct (p / 64 <? 2 ^ ptr c); [|discriminate]. cbn in E. now inversion E. }
  rewrite Ew, E2. reflexivity.
Qed.

(** An i8 interval with negative positions, signed values, and a function that counts its calls *)
Definition cube (p : Z) (n : N) : res (Z * N) := if (-100 <=? p)%Z && (p <? 90)%Z then Ok ((p * p * p)%Z, n + 1) else Panic PAssert.
Example C81_ex : wf_pint (signed 8) /\ in_type (signed 8) (-100)%Z /\ in_type (signed 8) 90%Z /\
  (forall p n, (-100 <= p < 90)%Z -> exists n', cube p n = Ok ((p * p * p)%Z, n')) /\
  (forall x y, Z.ltb x y = negb (Z.geb x y)) /\
  (forall p q, (-100 <= p <= q)%Z -> (q < 90)%Z -> Z.geb (q * q * q)%Z (p * p * p)%Z = true) /\
  binary_search_gen dbg64 (signed 8) Z.geb Z.ltb 9 (-100)%Z 90%Z (-26000)%Z cube 0 = Ok (Some (-29)%Z, 11) /\
  binary_search_gen dbg64 (signed 8) Z.geb Z.ltb 9 (-100)%Z 90%Z 1000000%Z cube 0 = Ok (None, 8) /\
  binary_search_gen dbg64 (signed 8) Z.geb Z.ltb 9 (-100)%Z 90%Z (-2000000)%Z cube 0 = Ok (Some (-100)%Z, 1).
Proof.
  split; [exists 8; split; [lia|auto]|]. split; [split; vm_compute; discriminate|]. split; [split; vm_compute; discriminate|].
  split. { intros p n H. exists (n + 1). unfold cube. replace ((-100 <=? p)%Z) with true by (symmetry; apply Z.leb_le; lia).
    replace ((p <? 90)%Z) with true by (symmetry; apply Z.ltb_lt; lia). reflexivity. }
  split. { intros x y. rewrite Z.geb_leb, Z.ltb_antisym. reflexivity. }
  split. { intros p q H H'. rewrite Z.geb_leb. apply Z.leb_le.
    assert (0 <= (q - p) * ((q + p) * (q + p) + q * q + p * p))%Z by (apply Z.mul_nonneg_nonneg; [lia|]; pose proof (Z.square_nonneg (q + p)); pose proof (Z.square_nonneg q); pose proof (Z.square_nonneg p); lia).
    lia. }
  vm_compute. auto.
Qed.
(** A function that is not monotone: the answer is one of its crossings. *)
Definition wave (p : Z) (u : unit) : res (Z * unit) := Ok ((p * p)%Z, u).
Example C81_wave_ex : binary_search_gen dbg64 (signed 8) Z.geb Z.ltb 9 (-3)%Z 90%Z 5%Z wave tt = Ok (Some (-3)%Z, tt) /\
  binary_search_gen dbg64 (signed 8) Z.geb Z.ltb 9 (-2)%Z 90%Z 5%Z wave tt = Ok (Some 3%Z, tt) /\
  binary_search_gen dbg64 (signed 8) Z.geb Z.ltb 9 (-2)%Z 3%Z 5%Z wave tt = Ok (None, tt).
Proof. vm_compute. auto. Qed.
Example C81_select_ex : exists j, jacobson_new dbg64 (blocks_bitvec dbg64 8) sample = Ok j /\
  rs_limit (br_rs (jacobson_bitrank dbg64 (blocks_bitvec dbg64 8))) j = Ok (8 * lengthN sample) /\
  bss_select1 dbg64 (jacobson_bitrank dbg64 (blocks_bitvec dbg64 8)) 65 j 18 = Ok (Some 45) /\
  queries dbg64 65 (8 * lengthN sample) 19 (br_rank1 (jacobson_bitrank dbg64 (blocks_bitvec dbg64 8)) j) (Some 45) [0; 28; 42; 49; 48; 46; 45; 44; 45; 44].
Proof. eexists. split; [vm_compute; reflexivity|]. split; [vm_compute; reflexivity|]. split; [vm_compute; reflexivity|]. unfold queries. vm_compute. reflexivity. Qed.
Example C81_one_block_ex : exists j, jacobson_new dbg64 (blocks_bitvec dbg64 8) sample = Ok j /\
  let j' := {| jr_store := [1; 2; 3; 4; 5; nth 5 sample 0; 7]; jr_large_block_size := jr_large_block_size j; jr_large := jr_large j; jr_small := jr_small j |} in
  bv_bit_len (blocks_bitvec dbg64 8) (jr_store j') = bv_bit_len (blocks_bitvec dbg64 8) (jr_store j) /\
  bv_get_block (blocks_bitvec dbg64 8) (jr_store j') (45 / 8) = bv_get_block (blocks_bitvec dbg64 8) (jr_store j) (45 / 8) /\
  jr_store j' <> jr_store j /\ jacobson_rank1 dbg64 (blocks_bitvec dbg64 8) j' 45 = Ok 19.
Proof. eexists. split; [vm_compute; reflexivity|]. cbv zeta. split; [vm_compute; reflexivity|]. split; [vm_compute; reflexivity|]. split; [vm_compute; discriminate|]. vm_compute. reflexivity. Qed.

Print Assumptions C81_any_function.
Print Assumptions C81_fixed_function.
Print Assumptions C81_monotone.
Print Assumptions C81_instance.
Print Assumptions C81_select_queries.
Print Assumptions C81_jacobson_one_block.
Print Assumptions C81_rank9_one_block.
