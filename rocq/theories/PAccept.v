(** * Proofs about the codes: a value is decoded only from its own code word. *)
From Verif Require Import Machine MStorage MTraits MStream MCoding SpecBits SpecCfg SpecStream PBase PBits PDefaults PStream PCoding PCoding2 PCoding3 PCoding4.

(** On every source that delivers [l] and then stops, a value [v] is delivered only for a prefix
    [w] of [l] that satisfies [W v w], and exactly [w] has been read. *)
Definition accepts (C : code) (W : N -> list bool -> Prop) (l : list bool) : Prop :=
  forall fuel S (src : source S) s s' o s'' v t, reads src s l s' -> stops src s' o s'' ->
    decode C src fuel s = Ok (IOk (Some v), t) ->
    exists w q, l = w ++ q /\ reads src s w t /\ reads src t q s' /\ W v w.

Lemma loop_accepts {S} (src : source S) s' {L} (body : L -> io S (flow L (option N))) (I : L -> list bool -> Prop) (W : N -> list bool -> Prop) l0 :
  (forall x p l s r t, I x p -> l0 = p ++ l -> reads src s l s' -> body x s = Ok (IOk r, t) ->
    match r with
    | Return (Some v) => exists a q, l = a ++ q /\ reads src s a t /\ reads src t q s' /\ W v (p ++ a)
    | Return None => True
    | Continue x' => exists a q, l = a ++ q /\ reads src s a t /\ reads src t q s' /\ I x' (p ++ a)
    end) ->
  forall fuel x p l s v t, I x p -> l0 = p ++ l -> reads src s l s' -> loop_io fuel body x s = Ok (IOk (Some v), t) ->
  exists a q, l = a ++ q /\ reads src s a t /\ reads src t q s' /\ W v (p ++ a).
Proof.
  intros Hb. induction fuel as [|fuel IH]; intros x p l s v t HI El H E; cbn [loop_io] in E; [discriminate|].
  unfold try_ in E. destruct (body x s) as [[[r|e] t1]| |] eqn:Eb; cbn [bind] in E; try discriminate.
  specialize (Hb x p l s r t1 HI El H Eb). destruct r as [x'|ov].
  - destruct Hb as (a & q & -> & H1 & H2 & HI'). rewrite app_assoc in El.
    destruct (IH x' (p ++ a) q t1 v t HI' El H2 E) as (a' & q' & -> & H3 & H4 & HW).
    exists (a ++ a'), q'. split; [now rewrite app_assoc|]. split; [apply reads_app; eauto|]. split; [exact H4|]. now rewrite app_assoc.
  - unfold ret in E. injection E as -> ->. exact Hb.
Qed.

Lemma reads_1 {S} (src : source S) s b t : read_bit src s = Ok (IOk (Some b), t) -> reads src s [b] t.
Proof. intros E. econstructor; [exact E|constructor]. Qed.

Lemma unary_accepts c l : lengthN l < 2 ^ 64 -> accepts (unary c) (fun v w => v < 2 ^ 64 /\ codeword (unary c) v w) l.
Proof.
  intros Hl fuel S src s s' o s'' v t H Ho E. cbn in E. unfold unary_decode in E.
  refine (loop_accepts src s' _ (fun (x : N * bool) p => p = repeatN false (fst x)) (fun v w => v < 2 ^ 64 /\ codeword (unary c) v w) l _ fuel (0, false) [] l s v t eq_refl eq_refl H E).
  clear fuel s v t H E. intros [r b] p q s f t -> El H E. cbn [fst] in *. pose proof (f_equal lengthN El) as Hll. rewrite lengthN_app, lengthN_repeatN in Hll.
  destruct (read_bit_cases src s' o s'' Ho s q H) as [(-> & -> & [(e & E')|E'])|(x & q' & t1 & -> & E' & H')]; unfold try_ in E; rewrite E' in E; cbn [bind] in E; try discriminate.
  - destruct b; [discriminate|]. unfold ret in E. injection E as <- <-. exact I.
  - rewrite lengthN_cons in Hll. destruct x.
    + unfold ret in E. injection E as <- <-. exists [true], q'. split; [reflexivity|]. split; [now apply reads_1|]. split; [exact H'|]. split; [lia|].
      apply unary_codeword. lia.
    + unfold lift in E. rewrite wadd_ok in E by lia. cbn [bind ret] in E. injection E as <- <-. exists [false], q'. split; [reflexivity|].
      split; [now apply reads_1|]. split; [exact H'|]. cbn [fst]. unfold repeatN. rewrite N.add_1_r, N2Nat.inj_succ. cbn [repeat]. now rewrite repeat_cons.
Qed.
Lemma elias_value x n : n <= 63 -> x < 2 ^ n -> N.lor x (2 ^ n) = 2 ^ n + x /\ N.log2 (2 ^ n + x) = n /\ bits_of n (2 ^ n + x) = bits_of n x /\ 2 ^ n + x < 2 ^ 64.
Proof.
  intros Hn Hx. assert (Elog : N.log2 (2 ^ n + x) = n) by (apply N.log2_unique; [lia|]; rewrite <- N.add_1_r, N.pow_add_r, N.pow_1_r; lia).
  assert (Hm : (2 ^ n + x) mod 2 ^ n = x).
  { pose proof (pow2_pos n). rewrite N.add_comm. replace (2 ^ n) with (1 * 2 ^ n) at 1 by lia. rewrite N.mod_add by lia. now apply N.mod_small. }
  split; [|split; [exact Elog|split]].
  - pose proof (low_high (2 ^ n + x)) as G. rewrite Elog, Hm in G. apply G. pose proof (pow2_pos n). lia.
  - rewrite <- Hm at 2. apply nthN_ext. intros i. rewrite !nthN_bits_of. destruct (i <? n) eqn:Ei; [|reflexivity]. f_equal. now rewrite N.mod_pow2_bits_low by lia.
  - assert (2 ^ n <= 2 ^ 63) by (apply N.pow_le_mono_r; lia). lia.
Qed.
Lemma elias_accepts c C (D : N -> Prop) l : wf_cfg c -> accepts C (fun v w => D v /\ codeword C v w) l ->
  accepts (elias c C) (fun v w => (1 <= v < 2 ^ 64 /\ D (N.log2 v)) /\ codeword (elias c C) v w) l.
Proof.
  intros Hc HC fuel S src s s' o s'' v t H Ho E. cbn in E. unfold elias_decode in E. pose proof (wf_ptr c Hc) as Hp. unfold try_ at 1 in E.
  destruct (decode C src fuel s) as [[[[n|]|e] t1]| |] eqn:E1; cbn [bind] in E; try discriminate.
  destruct (HC fuel S src s s' o s'' n t1 H Ho E1) as (hw & q & -> & H1 & H2 & HD & Hw).
  destruct (63 <? n) eqn:En; [discriminate|]. rewrite as_usize_small in E by lia. unfold try_ at 1 in E.
  destruct (n <=? lengthN q) eqn:Eq.
  2:{ rewrite (read_int_stop c src 64 ltac:(lia) n q t1 s' o s'' ltac:(lia) H2 Ho) in E. unfold stopped in E. destruct o as [a|e]; [|discriminate]. destruct q; discriminate. }
  rewrite <- (firstn_skipnN n q) in H2. apply reads_app in H2. destruct H2 as (t2 & H2 & H3).
  assert (Hlp : lengthN (firstnN n q) = n) by (rewrite lengthN_firstnN; lia).
  rewrite (read_int_ok c src 64 ltac:(lia) n _ t1 t2 Hlp H2) in E. cbn [bind] in E. set (p := firstnN n q) in *. set (q' := skipnN n q) in *.
  assert (El : q = p ++ q') by (symmetry; apply firstn_skipnN). clearbody p q'. subst q.
  set (x := int_of p) in *. assert (Hbr : bits_of n x = p) by (unfold x; rewrite <- Hlp at 1; apply bits_of_int_of).
  assert (Hx : x < 2 ^ n) by (unfold x; rewrite <- Hbr, int_of_bits_of; apply N.mod_lt; pose proof (pow2_pos n); lia).
  destruct (elias_value x n ltac:(lia) Hx) as (Ev & Elog & Eb & Hlt).
  rewrite (N.mod_small x) in E by lia. rewrite (try_lift _ (2 ^ n)) in E.
  2:{ rewrite wshl_ok by lia. rewrite N.shiftl_1_l, N.mod_small by (apply N.pow_lt_mono_r; lia). reflexivity. }
  unfold ret in E. injection E as <- <-. rewrite Ev. exists (hw ++ p), q'. split; [now rewrite app_assoc|]. split; [apply reads_app; eauto|]. split; [exact H3|].
  split; [rewrite Elog; split; [pose proof (pow2_pos n); lia|exact HD]|]. rewrite <- Hbr, <- Eb.
  pose proof (elias_codeword c C (2 ^ n + x) hw Hc ltac:(pose proof (pow2_pos n); lia) Hlt) as G. rewrite Elog in G. exact (G Hw).
Qed.
Lemma lift0_accepts c C (D : N -> Prop) l : (forall v, D v -> 1 <= v < 2 ^ 64) -> accepts C (fun v w => D v /\ codeword C v w) l ->
  accepts (lift0 c C) (fun v w => (v + 1 < 2 ^ 64 /\ D (v + 1)) /\ codeword (lift0 c C) v w) l.
Proof.
  intros HD HC fuel S src s s' o s'' v t H Ho E. cbn in E. unfold lift0_decode, try_ at 1 in E.
  destruct (decode C src fuel s) as [[[[n|]|e] t1]| |] eqn:E1; cbn [bind] in E; try discriminate.
  destruct (HC fuel S src s s' o s'' n t1 H Ho E1) as (w & q & -> & H1 & H2 & Hn & Hw). pose proof (HD n Hn) as Hn'.
  rewrite (try_lift _ (n - 1)) in E by (apply wsub_ok; lia). unfold ret in E. injection E as <- <-. exists w, q. split; [reflexivity|]. split; [exact H1|]. split; [exact H2|].
  split; [replace (n - 1 + 1) with n by lia; split; [lia|exact Hn]|]. apply lift0_codeword; [lia|]. now replace (n - 1 + 1) with n by lia.
Qed.
Lemma accepts_mono C (W W' : N -> list bool -> Prop) l : (forall v w, W v w -> W' v w) -> accepts C W l -> accepts C W' l.
Proof.
  intros H HC fuel S src s s' o s'' v t H1 H2 E. destruct (HC fuel S src s s' o s'' v t H1 H2 E) as (w & q & El & H3 & H4 & HW). exists w, q. auto.
Qed.
Lemma gamma_accepts c l : wf_cfg c -> lengthN l < 2 ^ 64 -> accepts (gamma c) (fun v w => 1 <= v < 2 ^ 64 /\ codeword (gamma c) v w) l.
Proof. intros Hc Hl. eapply accepts_mono; [|eapply elias_accepts; [exact Hc|now apply unary_accepts]]. cbn. tauto. Qed.
Lemma delta_accepts c l : wf_cfg c -> lengthN l < 2 ^ 64 -> accepts (delta c) (fun v w => 1 <= v < 2 ^ 64 /\ codeword (delta c) v w) l.
Proof. intros Hc Hl. eapply accepts_mono; [|eapply elias_accepts; [exact Hc|eapply lift0_accepts; [|now apply gamma_accepts]; auto]]. cbn. tauto. Qed.

Lemma fib_accepts c l : accepts (fibonacci c) (fun v w => 1 <= v < fib_max /\ fib_word v w) l.
Proof.
  intros fuel S src s s' o s'' v t H Ho E.
  change (loop_io fuel (fib_body c src) (0, fibp 0, false) s = Ok (IOk (Some v), t)) in E.
  refine (loop_accepts src s' _ (fun (x : N * fib * bool) z => x = (fsum 0 z, fibp (length z), last z false) /\ no_adjacent z /\ (length z <= 91)%nat) (fun v w => 1 <= v < fib_max /\ fib_word v w) l _ fuel _ [] l s v t _ eq_refl H E).
  2:{ split; [reflexivity|]. split; [apply no_adjacent_nil|]. cbn. lia. }
  clear fuel s v t H E. intros x z q s f t (-> & Hz & Hlen) El H E.
  destruct (read_bit_cases src s' o s'' Ho s q H) as [(-> & -> & [(e & E')|E'])|(y & q' & t1 & -> & E' & H')]; unfold fib_body, try_ at 1 in E; rewrite E' in E; cbn [bind] in E; try discriminate.
  - destruct (fsum 0 z =? 0); [|discriminate]. unfold ret in E. injection E as <- <-. exact I.
  - destruct (y && last z false) eqn:Ey.
    + unfold ret in E. injection E as <- <-. apply andb_true_iff in Ey. destruct Ey as [-> Ey]. exists [true], q'. split; [reflexivity|]. split; [now apply reads_1|]. split; [exact H'|].
      destruct (fsum_bound z Hz) as [Hb _]. pose proof (fibp_mono (length z) 91 Hlen) as Hm. rewrite fibp_91 in Hm.
      pose proof (fsum_last 0 z Ey) as Hl. pose proof (fibp_pos (0 + length z - 1)). split; [lia|]. exists z. split; [reflexivity|]. split; [exact Hz|]. auto.
    + assert (Hna : no_adjacent (z ++ [y])) by (apply no_adjacent_snoc; [exact Hz|]; intros ->; exact Ey).
      assert (Efs : fsum 0 (z ++ [y]) = fsum 0 z + (if y then fi (fibp (length z)) else 0)) by (rewrite fsum_app, fsum_cons, fsum_nil; cbn [Nat.add]; lia).
      unfold try_ at 1 in E. destruct (lift (if y then wadd c 64 (fsum 0 z) (fi (fibp (length z))) else Ok (fsum 0 z)) t1) as [[[r|e] t2]| |] eqn:Er; cbn [bind] in E; try discriminate.
      destruct (Nat.eq_dec (length z) 91) as [E91|N91].
      { exfalso. rewrite E91 in E. unfold try_, lift_io in E. rewrite fib_next_91 in E. discriminate. }
      destruct (fsum_bound _ Hna) as [Hb _]. rewrite app_length in Hb. cbn [length] in Hb. pose proof (fibp_small (length z + 1) ltac:(lia)) as Hs.
      assert (r = fsum 0 (z ++ [y]) /\ t2 = t1) as [-> ->].
      { rewrite Efs in *. destruct y; [|unfold lift in Er; cbn in Er; injection Er as <- <-; split; [lia|reflexivity]].
        unfold lift in Er. rewrite wadd_ok in Er by lia. cbn in Er. injection Er as <- <-. auto. }
      unfold try_, lift_io in E. rewrite fib_next_ok in E by lia. unfold ret in E. cbn [bind] in E. injection E as <- <-.
      exists [y], q'. split; [reflexivity|]. split; [now apply reads_1|]. split; [exact H'|]. rewrite last_last, app_length. cbn [length]. rewrite Nat.add_1_r.
      split; [reflexivity|]. split; [exact Hna|lia].
Qed.

Lemma omega_accepts c l : wf_cfg c -> debug c = true -> ptr c = 64 -> lengthN l < 2 ^ 32 ->
  accepts (omega c) (fun v w => 1 <= v < 2 ^ 64 /\ omega_word v w) l.
Proof.
  intros Hc Hd Hp Hl fuel S src s s' o s'' v t H Ho E.
  change (loop_io fuel (omega_body c src) 1 s = Ok (IOk (Some v), t)) in E.
  refine (loop_accepts src s' _ (fun r p => 1 <= r < 2 ^ 64 /\ omega_groups r p) (fun v w => 1 <= v < 2 ^ 64 /\ omega_word v w) l _ fuel _ [] l s v t _ eq_refl H E).
  2:{ split; [lia|constructor]. }
  clear fuel s v t H E. intros r p q s f t (Hr & HG) El H E.
  destruct (read_bit_cases src s' o s'' Ho s q H) as [(-> & -> & [(e & E')|E'])|(y & q' & t1 & -> & E' & H')]; unfold omega_body, try_ at 1 in E; rewrite E' in E; cbn [bind] in E; try discriminate.
  - destruct (r =? 1); [|discriminate]. unfold ret in E. injection E as <- <-. exact I.
  - destruct y; cbn [negb] in E.
    2:{ unfold ret in E. injection E as <- <-. exists [false], q'. split; [reflexivity|]. split; [now apply reads_1|]. split; [exact H'|]. split; [exact Hr|]. exists p. auto. }
    assert (Eu : as_usize c r = r) by (unfold as_usize; apply N.mod_small; rewrite Hp; lia). rewrite Eu in E. unfold try_ at 1 in E.
    pose proof (f_equal lengthN El) as Hll. rewrite lengthN_app, lengthN_cons in Hll.
    destruct (r <=? lengthN q') eqn:Er.
    2:{ rewrite (read_int_be_stop c src 64 ltac:(lia) r q' t1 s' o s'' ltac:(lia) H' Ho) in E. unfold stopped in E. destruct o as [a|e]; [|discriminate]. destruct q'; discriminate. }
    rewrite <- (firstn_skipnN r q') in H'. apply reads_app in H'. destruct H' as (t2 & H1 & H2).
    assert (Hlp : lengthN (firstnN r q') = r) by (rewrite lengthN_firstnN; lia).
    rewrite (read_int_be_ok c src 64 ltac:(lia) r _ t1 t2 Hlp H1) in E. cbn [bind] in E. set (a := firstnN r q') in *. set (q2 := skipnN r q') in *.
    assert (Eq : q' = a ++ q2) by (symmetry; apply firstn_skipnN). clearbody a q2. subst q'. rewrite (N.mod_small r) in E by lia.
    destruct (r <? 64) eqn:E64.
    2:{ unfold try_, lift, wshl in E. rewrite E64, Hd in E. discriminate. }
    set (x := int_of (rev a)) in *. assert (Hbr : bits_of r x = rev a) by (unfold x; rewrite <- Hlp at 1; rewrite <- lengthN_rev; apply bits_of_int_of).
    assert (Hx : x < 2 ^ r) by (unfold x; rewrite <- Hbr, int_of_bits_of; apply N.mod_lt; pose proof (pow2_pos r); lia).
    destruct (elias_value x r ltac:(lia) Hx) as (Ev & Elog & Eb & Hlt). rewrite (N.mod_small x) in E by lia.
    rewrite (try_lift _ (2 ^ r)) in E by (rewrite wshl_ok by lia; rewrite N.shiftl_1_l, N.mod_small by (apply N.pow_lt_mono_r; lia); reflexivity).
    unfold ret in E. injection E as <- <-. rewrite Ev. pose proof (pow2_pos r). exists (true :: a), q2. split; [reflexivity|].
    split; [econstructor; [exact E'|exact H1]|]. split; [exact H2|]. split; [lia|].
    assert (1 < 2 ^ r + x). { assert (2 ^ 1 <= 2 ^ r) by (apply N.pow_le_mono_r; lia). change (2 ^ 1) with 2 in *. lia. }
    pose proof (og_more (2 ^ r + x) p ltac:(lia)) as G. rewrite Elog in G. specialize (G HG).
    replace (true :: a) with (rev (bits_of (r + 1) (2 ^ r + x))); [exact G|].
    pose proof (group_cons (2 ^ r + x) ltac:(lia)) as GC. unfold group in GC. rewrite Elog, Eb, Hbr, rev_involutive in GC. exact GC.
Qed.

Lemma comma_accepts c n l : debug c = true -> 2 <= n <= 63 ->
  accepts (comma c n) (fun v w => v < 2 ^ 64 /\ exists k w', w = repeatN false (k * n) ++ w' /\ comma_word n v w') l.
Proof.
  intros Hd Hn fuel S src s s' o s'' v t H Ho E. cbn in E. rewrite (comma_decode_eq c n Hn) in E. set (base := 2 ^ n - 1).
  assert (Hbase : base < 2 ^ n) by (unfold base; pose proof (pow2_pos n); lia).
  assert (G : exists a q, l = a ++ q /\ reads src s a t /\ reads src t q s' /\
    (v < 2 ^ 64 /\ exists ds, Forall (fun d => d < base) ds /\ fold_left (fun a d => a * base + d) ds 0 = v /\ [] ++ a = flat_map (bits_of n) ds ++ bits_of n base)).
  { refine (loop_accepts src s' _ (fun (x : N * bool) p => fst x < 2 ^ 64 /\ exists ds, Forall (fun d => d < base) ds /\ fold_left (fun a d => a * base + d) ds 0 = fst x /\ p = flat_map (bits_of n) ds)
      (fun v w => v < 2 ^ 64 /\ exists ds, Forall (fun d => d < base) ds /\ fold_left (fun a d => a * base + d) ds 0 = v /\ w = flat_map (bits_of n) ds ++ bits_of n base) l _ fuel _ [] l s v t _ eq_refl H E).
    2:{ split; [cbn; lia|]. exists []. auto. }
    clear fuel s v t H E. intros [r b] p q s f t (Hr & ds & HF & Hs & Hp) El H E. cbn [fst] in *. unfold comma_body, try_ at 1 in E.
    destruct (n <=? lengthN q) eqn:Eq.
    2:{ rewrite (read_int_stop c src 64 ltac:(lia) n q s s' o s'' ltac:(lia) H Ho) in E. unfold stopped in E. destruct o as [a|e]; [|discriminate].
        destruct q; cbn [bind] in E; [|discriminate]. destruct b; [discriminate|]. unfold ret in E. injection E as <- <-. exact I. }
    rewrite <- (firstn_skipnN n q) in H. apply reads_app in H. destruct H as (t2 & H1 & H2).
    assert (Hlp : lengthN (firstnN n q) = n) by (rewrite lengthN_firstnN; lia).
    rewrite (read_int_ok c src 64 ltac:(lia) n _ s t2 Hlp H1) in E. cbn [bind] in E. set (a := firstnN n q) in *. set (q2 := skipnN n q) in *.
    assert (Eqq : q = a ++ q2) by (symmetry; apply firstn_skipnN). clearbody a q2. subst q.
    set (y := int_of a) in *. assert (Hy : bits_of n y = a) by (unfold y; rewrite <- Hlp at 1; apply bits_of_int_of).
    assert (Hyn : y < 2 ^ n) by (unfold y; rewrite <- Hy, int_of_bits_of; apply N.mod_lt; pose proof (pow2_pos n); lia).
    rewrite (N.mod_small y) in E by (assert (2 ^ n < 2 ^ 64) by (apply N.pow_lt_mono_r; lia); lia). fold base in E.
    destruct (y =? base) eqn:Eb.
    - unfold ret in E. injection E as <- <-. exists a, q2. split; [reflexivity|]. split; [exact H1|]. split; [exact H2|]. split; [exact Hr|].
      exists ds. split; [exact HF|]. split; [exact Hs|]. rewrite Hp, <- Hy. f_equal. f_equal. lia.
    - unfold try_, lift, wmul, wadd, wrap in E. rewrite Hd in E. destruct (r * base <? 2 ^ 64) eqn:Em; cbn [bind] in E; [|discriminate].
      destruct (r * base + y <? 2 ^ 64) eqn:Ea; cbn [bind] in E; [|discriminate]. unfold ret in E. injection E as <- <-.
      exists a, q2. split; [reflexivity|]. split; [exact H1|]. split; [exact H2|]. cbn [fst]. split; [lia|]. exists (ds ++ [y]).
      split; [apply Forall_app; split; [exact HF|]; constructor; [unfold base in *; lia|constructor]|]. split; [rewrite fold_left_app, Hs; reflexivity|].
      rewrite flat_map_app, Hp. cbn [flat_map]. now rewrite app_nil_r, Hy. }
  destruct G as (a & q & El & H1 & H2 & Hv & ds & HF & Hs & Ea). cbn [app] in Ea. exists a, q. split; [exact El|]. split; [exact H1|]. split; [exact H2|]. split; [exact Hv|].
  rewrite Ea. clear Ea El H1 H2 Ho H E. revert Hs HF. induction ds as [|d ds IH]; intros Hs HF.
  - exists 0, (bits_of n base). split; [reflexivity|]. exists []. cbn [hd fold_left flat_map app] in *. split; [constructor|]. split; [lia|]. auto.
  - destruct (N.eq_dec d 0) as [->|Hd0].
    + apply Forall_cons_iff in HF. destruct HF as [_ HF]. cbn [fold_left] in Hs. rewrite N.mul_0_l, N.add_0_l in Hs. destruct (IH Hs HF) as (k & w' & Ew & Hw).
      exists (k + 1), w'. split; [|exact Hw]. cbn [flat_map]. rewrite <- app_assoc, Ew, app_assoc. f_equal.
      assert (E0 : bits_of n 0 = repeatN false n). { apply nthN_ext. intros i. rewrite nthN_bits_of, nthN_repeatN, N.bits_0. reflexivity. }
      rewrite E0. replace ((k + 1) * n) with (n + k * n) by lia. unfold repeatN. rewrite N2Nat.inj_add. symmetry. apply repeat_app.
    + exists 0, (flat_map (bits_of n) (d :: ds) ++ bits_of n base). split; [reflexivity|]. exists (d :: ds). auto.
Qed.

(** [None] is answered only if the source stops at once. *)
Definition none_at_end (C : code) (l : list bool) : Prop := forall fuel S (src : source S) s s' o s'' t, reads src s l s' -> stops src s' o s'' ->
  decode C src fuel s = Ok (IOk None, t) -> l = [].

Lemma loop_none {S} (src : source S) s' {L} (body : L -> io S (flow L (option N))) (I : L -> list bool -> Prop) l0 :
  (forall x p l s r t, I x p -> l0 = p ++ l -> reads src s l s' -> body x s = Ok (IOk r, t) ->
    match r with
    | Return (Some v) => True
    | Return None => p ++ l = []
    | Continue x' => exists a q, l = a ++ q /\ reads src t q s' /\ I x' (p ++ a)
    end) ->
  forall fuel x p l s t, I x p -> l0 = p ++ l -> reads src s l s' -> loop_io fuel body x s = Ok (IOk None, t) -> p ++ l = [].
Proof.
  intros Hb. induction fuel as [|fuel IH]; intros x p l s t HI El H E; cbn [loop_io] in E; [discriminate|].
  unfold try_ in E. destruct (body x s) as [[[r|e] t1]| |] eqn:Eb; cbn [bind] in E; try discriminate.
  specialize (Hb x p l s r t1 HI El H Eb). destruct r as [x'|ov].
  - destruct Hb as (a & q & -> & H2 & HI'). rewrite app_assoc in *. exact (IH x' (p ++ a) q t1 t HI' El H2 E).
  - unfold ret in E. injection E as -> ->. exact Hb.
Qed.
Lemma unary_none c l : none_at_end (unary c) l.
Proof.
  intros fuel S src s s' o s'' t H Ho E. cbn in E. unfold unary_decode in E.
  refine (loop_none src s' _ (fun (x : N * bool) p => snd x = false -> p = []) l _ fuel (0, false) [] l s t (fun _ => eq_refl) eq_refl H E).
  clear fuel s t H E. intros [r b] p q s f t Hp _ H E. cbn [snd] in *.
  destruct (read_bit_cases src s' o s'' Ho s q H) as [(-> & -> & [(e & E')|E'])|(x & q' & t1 & -> & E' & H')]; unfold try_ in E; rewrite E' in E; cbn [bind] in E; try discriminate.
  - destruct b; [discriminate|]. unfold ret in E. injection E as <- <-. now rewrite (Hp eq_refl).
  - destruct x.
    + unfold ret in E. injection E as <- <-. exact I.
    + destruct (lift (wadd c 64 r 1) t1) as [[[r'|e] t2]| |] eqn:Er; cbn [bind] in E; try discriminate. unfold ret in E. injection E as <- <-.
      assert (t2 = t1) as -> by (unfold lift in Er; destruct (wadd c 64 r 1); cbn in Er; [now injection Er|discriminate|discriminate]).
      exists [false], q'. split; [reflexivity|]. split; [exact H'|]. cbn [snd]. discriminate.
Qed.
Lemma lift0_none c C l : none_at_end C l -> none_at_end (lift0 c C) l.
Proof.
  intros HC fuel S src s s' o s'' t H Ho E. cbn in E. unfold lift0_decode, try_ at 1 in E.
  destruct (decode C src fuel s) as [[[[n|]|e] t1]| |] eqn:E1; cbn [bind] in E; try discriminate; [|exact (HC fuel S src s s' o s'' t1 H Ho E1)].
  unfold try_ in E. destruct (lift (wsub c 64 n 1) t1) as [[[m|e] t2]| |]; discriminate.
Qed.
Lemma elias_none c C l : none_at_end C l -> none_at_end (elias c C) l.
Proof.
  intros HC fuel S src s s' o s'' t H Ho E. cbn in E. unfold elias_decode, try_ at 1 in E.
  destruct (decode C src fuel s) as [[[[n|]|e] t1]| |] eqn:E1; cbn [bind] in E; try discriminate; [|exact (HC fuel S src s s' o s'' t1 H Ho E1)].
  destruct (63 <? n); [discriminate|]. unfold try_ at 1 in E. destruct (read_int c src 64 (as_usize c n) t1) as [[[[x|]|e] t2]| |]; cbn [bind] in E; try discriminate.
  unfold try_ in E. destruct (lift (wshl c 64 1 n) t2) as [[[m|e] t3]| |]; discriminate.
Qed.
Lemma gamma_none c l : none_at_end (gamma c) l.
Proof. apply elias_none, unary_none. Qed.
Lemma delta_none c l : none_at_end (delta c) l.
Proof. apply elias_none, lift0_none, gamma_none. Qed.
Lemma omega_none c l : wf_cfg c -> debug c = true -> ptr c = 64 -> lengthN l < 2 ^ 32 -> none_at_end (omega c) l.
Proof.
  intros Hc Hd Hp Hl fuel S src s s' o s'' t H Ho E.
  change (loop_io fuel (omega_body c src) 1 s = Ok (IOk None, t)) in E.
  refine (loop_none src s' _ (fun r p => 1 <= r < 2 ^ 64 /\ (r = 1 -> p = [])) l _ fuel 1 [] l s t _ eq_refl H E).
  2:{ split; [lia|reflexivity]. }
  clear fuel s t H E. intros r p q s f t (Hr & Hp1) El H E.
  destruct (read_bit_cases src s' o s'' Ho s q H) as [(-> & -> & [(e & E')|E'])|(y & q' & t1 & -> & E' & H')]; unfold omega_body, try_ at 1 in E; rewrite E' in E; cbn [bind] in E; try discriminate.
  - destruct (r =? 1) eqn:E1; [|discriminate]. unfold ret in E. injection E as <- <-. rewrite Hp1 by lia. reflexivity.
  - destruct y; cbn [negb] in E.
    2:{ unfold ret in E. injection E as <- <-. exact I. }
    pose proof (f_equal lengthN El) as Hll. rewrite lengthN_app, lengthN_cons in Hll.
    unfold try_ at 1 in E. assert (Eu : as_usize c r = r) by (unfold as_usize; apply N.mod_small; rewrite Hp; lia). rewrite Eu in E.
    destruct (read_int_be_cases src s' o s'' Ho c r t1 q' H') as [(e & t2 & Ei)|[(t2 & Ei)|(x & a & q2 & t2 & Ei & -> & Hla & H1 & H2)]]; rewrite Ei in E; cbn [bind] in E; try discriminate.
    rewrite lengthN_app in Hll. rewrite (N.mod_small r) in E by lia. destruct (r <? 64) eqn:E64.
    2:{ unfold try_, lift, wshl in E. rewrite E64, Hd in E. discriminate. }
    rewrite (try_lift _ (2 ^ r)) in E by (rewrite wshl_ok by lia; rewrite N.shiftl_1_l, N.mod_small by (apply N.pow_lt_mono_r; lia); reflexivity).
    rewrite (read_int_be_ok c src 64 ltac:(lia) r _ t1 t2 Hla H1) in Ei. injection Ei as <-.
    unfold ret in E. injection E as <- <-. exists (true :: a), q2. split; [reflexivity|]. split; [exact H2|].
    set (x := int_of (rev a)) in *. assert (Hbr : bits_of r x = rev a) by (unfold x; rewrite <- Hla at 1; rewrite <- lengthN_rev; apply bits_of_int_of).
    assert (Hx : x < 2 ^ r) by (unfold x; rewrite <- Hbr, int_of_bits_of; apply N.mod_lt; pose proof (pow2_pos r); lia).
    destruct (elias_value x r ltac:(lia) Hx) as (Ev & Elog & Eb & Hlt). rewrite (N.mod_small x) by lia. rewrite Ev. pose proof (pow2_pos r). split; [lia|].
    assert (2 ^ 1 <= 2 ^ r) by (apply N.pow_le_mono_r; lia). change (2 ^ 1) with 2 in *. lia.
Qed.

(** ** Whole streams *)
Lemma decode_list_inv C (D : N -> Prop) l : (forall p q, l = p ++ q -> accepts C (fun v w => D v /\ codeword C v w) q) -> (forall p q, l = p ++ q -> none_at_end C q) ->
  forall fuel S (src : source S) s s' o s'' vs t, reads src s l s' -> stops src s' o s'' -> decode_list C src fuel s = Ok (IOk vs, t) ->
  Forall D vs /\ exists ws, Forall2 (codeword C) vs ws /\ l = concat ws.
Proof.
  intros HA HN fuel S src s s' o s'' vs t H Ho E. unfold decode_list in E.
  assert (K : forall k acc ws p q s, Forall D acc -> Forall2 (codeword C) (rev acc) ws -> p = concat ws -> l = p ++ q -> reads src s q s' ->
    loop_io k (fun acc : list N =>
      try_ (decode C src fuel) (fun o => match o with
                                       | Some v => ret (Continue (v :: acc))
                                       | None => ret (Return (rev acc)) end)) acc s = Ok (IOk vs, t) ->
    Forall D vs /\ exists ws, Forall2 (codeword C) vs ws /\ l = concat ws).
  2:{ exact (K fuel [] [] [] l s ltac:(constructor) ltac:(constructor) eq_refl eq_refl H E). }
  clear s H E. induction k as [|k IH]; intros acc ws p q s HD HF Ep El H E; cbn [loop_io] in E; [discriminate|]. unfold try_ at 1 2 in E.
  destruct (decode C src fuel s) as [[[[v|]|e] t1]| |] eqn:Ed; cbn [bind] in E; try discriminate.
  - destruct (HA p q El fuel S src s s' o s'' v t1 H Ho Ed) as (w & q' & -> & H1 & H2 & Dv & Hw). cbn [bind ret] in E.
    refine (IH (v :: acc) (ws ++ [w]) (p ++ w) q' t1 _ _ _ _ H2 E).
    + now constructor. + cbn [rev]. apply Forall2_app; [exact HF|]. constructor; [exact Hw|constructor].
    + rewrite concat_app, Ep. cbn [concat]. now rewrite app_nil_r. + now rewrite <- app_assoc.
  - cbn [bind ret] in E. unfold ret in E. cbn [bind] in E. injection E as <- <-. pose proof (HN p q El fuel S src s s' o s'' t1 H Ho Ed) as ->.
    split; [apply Forall_rev; exact HD|]. exists ws. split; [exact HF|]. rewrite El, Ep. apply app_nil_r.
Qed.
