(** * Proofs about the codes: exactly which inputs make a decoder panic. *)
From Verif Require Import Machine MStorage MTraits MStream MCoding SpecBits SpecCfg SpecStream PBase PBits PDefaults PStream PCoding PCoding2 PCoding3.

Lemma loop_exact {S} (src : source S) s' {G L} (body : L -> io S (flow L (option N))) (I bad : G -> L -> list bool -> Prop) :
  (forall g x l s, I g x l -> reads src s l s' ->
    (bad g x l /\ panics (body x s)) \/
    (~ bad g x l /\ ((exists e t, body x s = Ok (IErr e, t)) \/ (exists v t, body x s = Ok (IOk (Return v), t)))) \/
    (exists g' x' p q t, body x s = Ok (IOk (Continue x'), t) /\ I g' x' q /\ (bad g' x' q <-> bad g x l) /\ p <> [] /\ l = p ++ q /\ reads src t q s')) ->
  forall n fuel g x l s, (length l <= n)%nat -> (n < fuel)%nat -> I g x l -> reads src s l s' ->
  (bad g x l /\ panics (loop_io fuel body x s)) \/ (~ bad g x l /\ exists r, loop_io fuel body x s = Ok r).
Proof.
  intros Hb. induction n as [|n IH]; intros fuel g x l s Hl Hf HI H; (destruct fuel as [|fuel]; [lia|]); cbn [loop_io]; unfold try_ at 1 2;
    destruct (Hb g x l s HI H) as [(HB & k & E)|[(HB & [(e & t & E)|(v & t & E)])|(g' & x' & p & q & t & E & HI' & HB & Hp & El & H2)]];
    rewrite E; cbn [bind]; unfold ret; try (left; split; [exact HB|eexists; reflexivity]); try (right; split; [exact HB|eauto]; fail).
  - destruct l; [|cbn in Hl; lia]. symmetry in El. apply app_eq_nil in El. tauto.
  - assert (Hq : (length q <= n)%nat) by (subst l; rewrite app_length in Hl; destruct p; [congruence|cbn [length] in Hl; lia]).
    destruct (IH fuel g' x' q t Hq ltac:(lia) HI' H2) as [[H1 H3]|[H1 H3]]; [left|right]; tauto.
Qed.

Lemma panics_try {S A B} (m : res A) (f : A -> io S B) s : panics m -> panics (try_ (lift m) f s).
Proof. intros (k & ->). eexists. reflexivity. Qed.
Lemma wadd_over c a b : debug c = true -> 2 ^ 64 <= a + b -> panics (wadd c 64 a b).
Proof. intros Hd H. unfold wadd, wrap. destruct (a + b <? 2 ^ 64) eqn:E; [lia|]. rewrite Hd. eexists. reflexivity. Qed.
Lemma wmul_over c a b : debug c = true -> 2 ^ 64 <= a * b -> panics (wmul c 64 a b).
Proof. intros Hd H. unfold wmul, wrap. destruct (a * b <? 2 ^ 64) eqn:E; [lia|]. rewrite Hd. eexists. reflexivity. Qed.
Lemma wshl_over c a k : debug c = true -> 64 <= k -> panics (wshl c 64 a k).
Proof. intros Hd H. unfold wshl. destruct (k <? 64) eqn:E; [lia|]. rewrite Hd. eexists. reflexivity. Qed.

Lemma app_length_eq {A} (a b a' b' : list A) : lengthN a = lengthN a' -> a ++ b = a' ++ b' -> a = a' /\ b = b'.
Proof.
  revert a'. induction a as [|x a IH]; intros [|y a'] Hl E; rewrite ?lengthN_cons, ?lengthN_nil in Hl; try lia; [auto|].
  cbn [app] in E. injection E as -> E. destruct (IH a' ltac:(lia) E) as [-> ->]. auto.
Qed.
Lemma bits_of_inj n a b : a < 2 ^ n -> b < 2 ^ n -> bits_of n a = bits_of n b -> a = b.
Proof. intros Ha Hb E. rewrite <- (N.mod_small a (2 ^ n) Ha), <- (N.mod_small b (2 ^ n) Hb), <- !int_of_bits_of. now rewrite E. Qed.

(** ** Comma *)
Section CommaExact.
  Context (c : cfg) (n : N).
  Hypothesis Hd : debug c = true.
  Hypothesis Hn : 1 <= n <= 63.
  Let base := 2 ^ n - 1.
  Definition comma_bad (r : N) (l : list bool) : Prop := exists ds rest, l = flat_map (bits_of n) ds ++ rest /\
    Forall (fun d => d < base) ds /\ 2 ^ 64 <= fold_left (fun a d => a * base + d) ds r.
  Lemma comma_loop_exact {S} (src : source S) s' o s'' : stops src s' o s'' ->
    forall fuel l s, (length l < fuel)%nat -> reads src s l s' ->
    (comma_bad 0 l /\ panics (comma_decode c n src fuel s)) \/ (~ comma_bad 0 l /\ exists r, comma_decode c n src fuel s = Ok r).
  Proof.
    intros Ho fuel l s Hf H.
    assert (Eq : comma_decode c n src fuel s = loop_io fuel (comma_body c n src) (0, false) s).
    { unfold comma_decode. rewrite (try_lift _ base); [reflexivity|]. unfold comma_base.
      assert (2 ^ n < 2 ^ 64) by (apply N.pow_lt_mono_r; lia). rewrite wshl_ok by lia. cbn [bind].
      rewrite N.shiftl_1_l, N.mod_small by lia. pose proof (pow2_pos n). now rewrite wsub_ok by lia. }
    rewrite Eq. clear Eq.
    refine (loop_exact src s' (G := unit) (comma_body c n src) (fun _ x _ => fst x < 2 ^ 64) (fun _ x l => comma_bad (fst x) l) _ (length l) fuel tt (0, false) l s _ Hf _ H); auto; [|cbn; lia].
    clear fuel l s Hf H. intros _ [r b] l s Hr H. cbn [fst] in *.
    assert (Hbase : base < 2 ^ n) by (unfold base; pose proof (pow2_pos n); lia).
    destruct (n <=? lengthN l) eqn:En.
    - rewrite <- (firstn_skipnN n l) in H. apply reads_app in H. destruct H as (t & H1 & H2).
      assert (Hlp : lengthN (firstnN n l) = n) by (rewrite lengthN_firstnN; lia).
      set (p := firstnN n l) in *. set (q := skipnN n l) in *. assert (El : l = p ++ q) by (symmetry; apply firstn_skipnN).
      set (y := int_of p). assert (Hp : p = bits_of n y) by (unfold y; rewrite <- Hlp at 1; now rewrite bits_of_int_of).
      assert (Hy : y < 2 ^ n) by (unfold y; rewrite Hp, int_of_bits_of; apply N.mod_lt; pose proof (pow2_pos n); lia).
      assert (Ey : int_of p mod 2 ^ 64 = y).
      { fold y. apply N.mod_small. assert (2 ^ n < 2 ^ 64) by (apply N.pow_lt_mono_r; lia). lia. }
      assert (Hfirst : forall d ds rest, d < base -> l = flat_map (bits_of n) (d :: ds) ++ rest -> d = y /\ q = flat_map (bits_of n) ds ++ rest).
      { intros d ds rest Hdb E. rewrite El in E. cbn [flat_map] in E. rewrite <- app_assoc in E. apply app_length_eq in E; [|rewrite Hlp, lengthN_bits_of; reflexivity].
        destruct E as [E1 E2]. split; [|exact E2]. apply (bits_of_inj n); [lia|exact Hy|congruence]. }
      destruct (y =? base) eqn:Eb.
      + right. left. split.
        * intros (ds & rest & E & HF & Hs). destruct ds as [|d ds]; [cbn [fold_left] in Hs; lia|]. apply Forall_cons_iff in HF; destruct HF as [Hd1 HF].
          destruct (Hfirst d ds rest) as [-> _]; auto. lia.
        * right. exists (Some r), t. unfold comma_body. rewrite (try_ok _ _ _ _ _ (read_int_ok c src 64 ltac:(lia) n p s t Hlp H1)).
          rewrite Ey. fold base. rewrite Eb. reflexivity.
      + assert (Ebody : comma_body c n src (r, b) s = try_ (lift (wmul c 64 r base)) (fun m => try_ (lift (wadd c 64 m y)) (fun r => ret (Continue (r, true)))) t).
        { unfold comma_body. rewrite (try_ok _ _ _ _ _ (read_int_ok c src 64 ltac:(lia) n p s t Hlp H1)). rewrite Ey. fold base. rewrite Eb. reflexivity. }
        rewrite Ebody. assert (Hy' : y < base) by (unfold base in *; lia). destruct (r * base + y <? 2 ^ 64) eqn:Eo.
        * right. right. exists tt, (r * base + y, true), p, q, t. rewrite (try_lift _ (r * base)) by (apply wmul_ok; lia).
          rewrite (try_lift _ (r * base + y)) by (apply wadd_ok; lia). split; [reflexivity|]. cbn [fst]. split; [lia|]. split; [|split; [|auto]].
          -- split.
             ++ intros (ds & rest & E & HF & Hs). exists (y :: ds), rest. split; [|split; [now constructor|exact Hs]].
                cbn [flat_map]. rewrite <- app_assoc, <- E, <- Hp. exact El.
             ++ intros (ds & rest & E & HF & Hs). destruct ds as [|d ds]; [cbn [fold_left] in Hs; lia|]. apply Forall_cons_iff in HF; destruct HF as [Hd1 HF].
                destruct (Hfirst d ds rest) as [-> Eq]; auto. exists ds, rest. auto.
          -- intros Ep. rewrite Ep in Hlp. rewrite lengthN_nil in Hlp. lia.
        * left. split.
          -- exists [y], q. split; [cbn [flat_map]; rewrite app_nil_r, <- Hp; exact El|]. split; [now constructor|]. cbn [fold_left]. lia.
          -- destruct (r * base <? 2 ^ 64) eqn:Em.
             ++ rewrite (try_lift _ (r * base)) by (apply wmul_ok; lia). apply panics_try. apply wadd_over; [exact Hd|lia].
             ++ apply panics_try. apply wmul_over; [exact Hd|lia].
    - right. left. split.
      + intros (ds & rest & E & HF & Hs). destruct ds as [|d ds]; [cbn [fold_left] in Hs; lia|]. cbn [flat_map] in E.
        rewrite E, !lengthN_app, lengthN_bits_of in En. lia.
      + unfold comma_body, try_. rewrite (read_int_stop c src 64 ltac:(lia) n l s s' o s'' ltac:(lia) H Ho). unfold stopped.
        destruct o as [a|e]; [|left; do 2 eexists; reflexivity]. destruct l; cbn [bind]; [destruct b; [left|right]; unfold fail, ret; eauto|left; eauto].
  Qed.
End CommaExact.

(** ** Fibonacci *)
Definition fib_bad (z l : list bool) : Prop := exists z' rest, l = z' ++ rest /\ length (z ++ z') = 92%nat /\ no_adjacent (z ++ z') /\ 2 ^ 64 <= fsum 0 (z ++ z').
Lemma fib_loop_exact c {S} (src : source S) s' o s'' : debug c = true -> stops src s' o s'' ->
  forall fuel l s, (length l < fuel)%nat -> reads src s l s' ->
  (fib_bad [] l /\ panics (fib_decode c src fuel s)) \/ (~ fib_bad [] l /\ exists r, fib_decode c src fuel s = Ok r).
Proof.
  intros Hd Ho fuel l s Hf H.
  change ((fib_bad [] l /\ panics (loop_io fuel (fib_body c src) (0, fibp 0, false) s)) \/ (~ fib_bad [] l /\ exists r, loop_io fuel (fib_body c src) (0, fibp 0, false) s = Ok r)).
  apply (loop_exact src s' (fib_body c src) (fun z (x : N * fib * bool) _ => x = (fsum 0 z, fibp (length z), last z false) /\ no_adjacent z /\ (length z <= 91)%nat)
    (fun z _ l => fib_bad z l)) with (n := length l) (g := []); auto.
  2:{ split; [reflexivity|]. split; [apply no_adjacent_nil|]. cbn; lia. }
  clear fuel l s Hf H. intros z x l s (-> & Hz & Hlen) H.
  assert (Hsmall : (length z <= 90)%nat -> forall y, no_adjacent (z ++ [y]) -> fsum 0 (z ++ [y]) < 2 ^ 64).
  { intros Hl y Hy. destruct (fsum_bound _ Hy) as [Hb _]. rewrite app_length in Hb. cbn [length] in Hb.
    pose proof (fibp_small (length z + 1) ltac:(lia)). lia. }
  assert (Hzs : fsum 0 z < 2 ^ 64).
  { destruct (fsum_bound _ Hz) as [Hb _]. pose proof (fibp_small (length z) ltac:(lia)). lia. }
  destruct (read_bit_cases src s' o s'' Ho s l H) as [(-> & -> & HE)|(y & q & t & -> & E & H')].
  - right. left. split.
    + intros (z' & rest & El & Hl & _). symmetry in El. apply app_eq_nil in El. destruct El as [-> _]. rewrite app_nil_r in Hl. lia.
    + unfold fib_body, try_. destruct HE as [(e & E)|E]; rewrite E; cbn [bind]; [left; eauto|]. destruct (fsum 0 z =? 0); [right|left]; unfold fail, ret; eauto.
  - destruct (y && last z false) eqn:Ey.
    + right. left. split.
      * intros (z' & rest & El & Hl & Hna & _). apply andb_true_iff in Ey. destruct Ey as [-> Ey].
        destruct z' as [|b z']; [rewrite app_nil_r in Hl; lia|]. cbn [app] in El. injection El as <- El.
        destruct z as [|w z _] using rev_ind; [discriminate|]. rewrite last_last in Ey. subst w. rewrite <- app_assoc in Hna. cbn [app] in Hna.
        apply (Hna (lengthN z)). split; rewrite nthN_app_r by lia; [replace (lengthN z - lengthN z) with 0 by lia|replace (lengthN z + 1 - lengthN z) with 1 by lia]; reflexivity.
      * right. unfold fib_body, try_. rewrite E. cbn [bind]. rewrite Ey. unfold ret. eauto.
    + assert (Hna : no_adjacent (z ++ [y])).
      { apply no_adjacent_snoc; [exact Hz|]. intros ->. exact Ey. }
      assert (Efs : fsum 0 (z ++ [y]) = fsum 0 z + (if y then fi (fibp (length z)) else 0)).
      { rewrite fsum_app, fsum_cons, fsum_nil. cbn [Nat.add]. lia. }
      assert (Ebody : fib_body c src (fsum 0 z, fibp (length z), last z false) s =
        try_ (lift (if y then wadd c 64 (fsum 0 z) (fi (fibp (length z))) else Ok (fsum 0 z))) (fun r =>
              try_ (lift_io (fib_next (fibp (length z)))) (fun f' => ret (Continue (r, f', y)))) t).
      { unfold fib_body. rewrite (try_ok _ _ _ _ _ E). rewrite Ey. reflexivity. }
      rewrite Ebody.
      assert (Hadd : fsum 0 (z ++ [y]) < 2 ^ 64 -> (if y then wadd c 64 (fsum 0 z) (fi (fibp (length z))) else Ok (fsum 0 z)) = Ok (fsum 0 (z ++ [y]))).
      { intros Hb. rewrite Efs in *. destruct y; [apply wadd_ok; lia|f_equal; lia]. }
      destruct (Nat.eq_dec (length z) 91) as [E91|N91].
      * destruct (fsum 0 (z ++ [y]) <? 2 ^ 64) eqn:Eo.
        -- right. left. split.
           ++ intros (z' & rest & El & Hl & _ & Hs). rewrite app_length in Hl. destruct z' as [|b [|b' z']]; cbn [length] in Hl; try lia.
              cbn [app] in El. injection El as <- El. lia.
           ++ left. rewrite (try_lift _ _ _ _ (Hadd ltac:(lia))). rewrite E91. unfold try_, lift_io. rewrite fib_next_91. cbn [bind]. eauto.
        -- left. split.
           ++ exists [y], q. split; [reflexivity|]. split; [rewrite app_length; cbn [length]; lia|]. split; [exact Hna|lia].
           ++ apply panics_try. rewrite Efs in Eo. destruct y; [|lia]. apply wadd_over; [exact Hd|lia].
      * right. right. exists (z ++ [y]), (fsum 0 (z ++ [y]), fibp (length (z ++ [y])), y), [y], q, t.
        rewrite (try_lift _ _ _ _ (Hadd (Hsmall ltac:(lia) y Hna))). rewrite last_last, app_length. cbn [length]. rewrite Nat.add_1_r.
        split; [unfold try_, lift_io; rewrite fib_next_ok by lia; reflexivity|]. split; [split; [reflexivity|]; split; [exact Hna|lia]|].
        split; [|split; [discriminate|auto]]. split.
        -- intros (z' & rest & -> & Hl & Hn & Hs). exists (y :: z'), rest. rewrite <- app_assoc in Hl, Hn, Hs. auto.
        -- intros (z' & rest & El & Hl & Hn & Hs). destruct z' as [|b z']; [rewrite app_nil_r in Hl; lia|]. cbn [app] in El. injection El as <- El.
           exists z', rest. rewrite <- app_assoc. auto.
Qed.

(** ** Omega: the groups read from the left. *)
Inductive omega_path : N -> list bool -> N -> Prop :=
| op_nil : forall r, omega_path r [] r
| op_cons : forall r v1 h v, N.log2 v1 = r -> omega_path v1 h v -> omega_path r (rev (bits_of (r + 1) v1) ++ h) v.
Lemma omega_path_snoc r h v v2 : omega_path r h v -> N.log2 v2 = v -> omega_path r (h ++ rev (bits_of (v + 1) v2)) v2.
Proof.
  intros HP. induction HP as [r|r v1 h v E HP IH]; intros E2.
  - cbn [app]. rewrite <- (app_nil_r (rev _)). econstructor; [exact E2|constructor].
  - rewrite <- app_assoc. econstructor; [exact E|auto].
Qed.
Lemma omega_groups_path v g : omega_groups v g -> omega_path 1 g v.
Proof. intros HG. induction HG as [|v w H1 HG IH]; [constructor|]. now apply omega_path_snoc. Qed.
Lemma omega_path_groups r h v : omega_path r h v -> forall g, 1 <= r -> omega_groups r g -> omega_groups v (g ++ h).
Proof.
  intros HP. induction HP as [r|r v1 h v E HP IH]; intros g Hr HG; [now rewrite app_nil_r|].
  rewrite app_assoc. assert (1 < v1). { destruct (N.le_gt_cases v1 1); [|assumption]. assert (v1 = 0 \/ v1 = 1) as [->| ->] by lia; cbn in E; lia. }
  apply IH; [lia|]. rewrite <- E. constructor; [assumption|]. now rewrite E.
Qed.
Lemma omega_path_inv r h v : omega_path r h v -> (h = [] /\ v = r) \/ (exists v1 h', h = rev (bits_of (r + 1) v1) ++ h' /\ N.log2 v1 = r /\ omega_path v1 h' v).
Proof. intros H. destruct H as [r|r v1 h v E H]; [auto|]. right. exists v1, h. auto. Qed.
Definition omega_bad (r : N) (l : list bool) : Prop := exists v h rest, omega_path r h v /\ l = h ++ true :: rest /\ 64 <= v <= lengthN rest.
(** The values the decoder goes through, whatever the pointer width and the lengths: a group is a one and as many bits
    as the value so far says, as a [usize]; the leading one is shifted by the value as a [u32]. *)
Inductive omega_steps (c : cfg) : N -> list bool -> N -> Prop :=
| os_nil : forall r, omega_steps c r [] r
| os_cons : forall r p h v, lengthN p = r mod 2 ^ ptr c -> r mod 2 ^ 32 < 64 ->
    omega_steps c (N.lor (int_of (rev p) mod 2 ^ 64) (2 ^ (r mod 2 ^ 32))) h v -> omega_steps c r (true :: p ++ h) v.
Lemma omega_steps_inv c r h v : omega_steps c r h v -> (h = [] /\ v = r) \/ (exists p h', h = true :: p ++ h' /\
  lengthN p = r mod 2 ^ ptr c /\ omega_steps c (N.lor (int_of (rev p) mod 2 ^ 64) (2 ^ (r mod 2 ^ 32))) h' v).
Proof. intros H. destruct H as [r|r p h v Hl Hk H]; [auto|]. right. exists p, h. auto. Qed.
Definition omega_wrong (c : cfg) (r : N) (l : list bool) : Prop := exists v h rest,
  omega_steps c r h v /\ l = h ++ true :: rest /\ 64 <= v mod 2 ^ 32 /\ v mod 2 ^ ptr c <= lengthN rest.
Lemma omega_loop_steps c {S} (src : source S) s' o s'' : wf_cfg c -> debug c = true -> stops src s' o s'' ->
  forall fuel l s, (length l < fuel)%nat -> reads src s l s' ->
  (omega_wrong c 1 l /\ panics (omega_decode c src fuel s)) \/ (~ omega_wrong c 1 l /\ exists r, omega_decode c src fuel s = Ok r).
Proof.
  intros Hc Hd Ho fuel l s Hf H.
  change ((omega_wrong c 1 l /\ panics (loop_io fuel (omega_body c src) 1 s)) \/ (~ omega_wrong c 1 l /\ exists r, loop_io fuel (omega_body c src) 1 s = Ok r)).
  refine (loop_exact src s' (G := unit) (omega_body c src) (fun _ r l => True) (fun _ r l => omega_wrong c r l) _ (length l) fuel tt 1 l s _ Hf _ H); auto.
  clear fuel l s Hf H. intros _ r l s _ H.
  destruct (read_bit_cases src s' o s'' Ho s l H) as [(-> & -> & HE)|(y & q & t & -> & E & H')].
  - right. left. split.
    + intros (v & h & rest & _ & El & _). destruct h; discriminate.
    + unfold omega_body, try_. destruct HE as [(e & E)|E]; rewrite E; cbn [bind]; [left; eauto|]. destruct (r =? 1); [right|left]; unfold fail, ret; eauto.
  - destruct y.
    2:{ right. left. split.
        - intros (v & h & rest & HP & El & _). destruct HP; discriminate.
        - right. unfold omega_body, try_. rewrite E. cbn [bind negb]. unfold ret. eauto. }
    set (m := r mod 2 ^ ptr c) in *. assert (Eu : as_usize c r = m) by reflexivity.
    destruct (m <=? lengthN q) eqn:Er.
    + rewrite <- (firstn_skipnN m q) in H'. apply reads_app in H'. destruct H' as (t2 & H1 & H2).
      assert (Hlp : lengthN (firstnN m q) = m) by (rewrite lengthN_firstnN; lia).
      set (p := firstnN m q) in *. set (q' := skipnN m q) in *. assert (Eq : q = p ++ q') by (symmetry; apply firstn_skipnN).
      assert (Ebody : omega_body c src r s = try_ (lift (wshl c 64 1 (r mod 2 ^ 32))) (fun h => ret (Continue (N.lor (int_of (rev p) mod 2 ^ 64) h))) t2).
      { unfold omega_body. rewrite (try_ok _ _ _ _ _ E). cbn [negb]. rewrite Eu. rewrite (try_ok _ _ _ _ _ (read_int_be_ok c src 64 ltac:(lia) m p t t2 Hlp H1)).
        reflexivity. }
      rewrite Ebody. set (k := r mod 2 ^ 32) in *. destruct (k <? 64) eqn:E64.
      * right. right. exists tt, (N.lor (int_of (rev p) mod 2 ^ 64) (2 ^ k)), (true :: p), q', t2. rewrite (try_lift _ (2 ^ k)).
        2:{ rewrite wshl_ok by lia. rewrite N.shiftl_1_l, N.mod_small by (apply N.pow_lt_mono_r; lia). reflexivity. }
        split; [reflexivity|]. split; [exact I|]. split; [|split; [discriminate|split; [cbn [app]; now rewrite Eq|exact H2]]].
        split.
        -- intros (v & h & rest & HP & El & Hv). exists v, (true :: p ++ h), rest. split; [|split; [|exact Hv]].
           ++ constructor; [exact Hlp|lia|exact HP].
           ++ rewrite Eq, El. cbn [app]. now rewrite <- app_assoc.
        -- intros (v & h & rest & HP & El & Hv). apply omega_steps_inv in HP. destruct HP as [[-> ->]|(p0 & h0 & -> & Hl0 & HP0)].
           ++ fold k in Hv. lia.
           ++ cbn [app] in El. injection El as El. rewrite <- app_assoc in El.
              assert (p = p0 /\ q' = h0 ++ true :: rest) as [Ep E2].
              { apply app_length_eq; [fold m in Hl0; lia|]. now rewrite <- Eq. }
              rewrite <- Ep in HP0. exists v, h0, rest. auto.
      * left. split.
        -- exists r, [], q. split; [constructor|]. split; [reflexivity|]. fold k m. lia.
        -- apply panics_try. apply wshl_over; [exact Hd|lia].
    + right. left. split.
      * intros (v & h & rest & HP & El & Hv1 & Hv2). apply omega_steps_inv in HP. destruct HP as [[-> ->]|(p0 & h0 & -> & Hl0 & HP0)]; cbn [app] in El; injection El as El.
        -- fold m in Hv2. rewrite <- El in Hv2. lia.
        -- fold m in Hl0. rewrite <- app_assoc in El. rewrite El, lengthN_app in Er. lia.
      * left. unfold omega_body. rewrite (try_ok _ _ _ _ _ E). cbn [negb]. rewrite Eu. unfold try_.
        rewrite (read_int_be_stop c src 64 ltac:(lia) m q t s' o s'' ltac:(lia) H' Ho).
        unfold stopped. destruct o as [a|e]; cbn [bind]; [|eauto]. destruct q; unfold fail; cbn [bind]; eauto.
Qed.
Lemma omega_loop_exact c {S} (src : source S) s' o s'' : wf_cfg c -> debug c = true -> ptr c = 64 -> stops src s' o s'' ->
  forall fuel l s, (length l < fuel)%nat -> lengthN l < 2 ^ 32 -> reads src s l s' ->
  (omega_bad 1 l /\ panics (omega_decode c src fuel s)) \/ (~ omega_bad 1 l /\ exists r, omega_decode c src fuel s = Ok r).
Proof.
  intros Hc Hd Hp64 Ho fuel l s Hf Hl H.
  change ((omega_bad 1 l /\ panics (loop_io fuel (omega_body c src) 1 s)) \/ (~ omega_bad 1 l /\ exists r, loop_io fuel (omega_body c src) 1 s = Ok r)).
  refine (loop_exact src s' (G := unit) (omega_body c src) (fun _ r l => 1 <= r < 2 ^ 64 /\ lengthN l < 2 ^ 32) (fun _ r l => omega_bad r l) _ (length l) fuel tt 1 l s _ Hf _ H); auto; [|lia].
  clear fuel l s Hf H Hl. intros _ r l s [Hr Hl] H.
  destruct (read_bit_cases src s' o s'' Ho s l H) as [(-> & -> & HE)|(y & q & t & -> & E & H')].
  - right. left. split.
    + intros (v & h & rest & _ & El & _). destruct h; discriminate.
    + unfold omega_body, try_. destruct HE as [(e & E)|E]; rewrite E; cbn [bind]; [left; eauto|]. destruct (r =? 1); [right|left]; unfold fail, ret; eauto.
  - destruct y.
    2:{ right. left. split.
        - intros (v & h & rest & HP & El & _). apply omega_path_inv in HP. destruct HP as [[-> _]|(v1 & h' & -> & <- & _)]; [discriminate|].
          fold (group v1) in El. rewrite group_cons in El; [discriminate|]. intros ->. cbn in Hr. lia.
        - right. unfold omega_body, try_. rewrite E. cbn [bind negb]. unfold ret. eauto. }
    assert (Eu : as_usize c r = r) by (unfold as_usize; apply N.mod_small; rewrite Hp64; lia). rewrite lengthN_cons in Hl.
    destruct (r <=? lengthN q) eqn:Er.
    + rewrite <- (firstn_skipnN r q) in H'. apply reads_app in H'. destruct H' as (t2 & H1 & H2).
      assert (Hlp : lengthN (firstnN r q) = r) by (rewrite lengthN_firstnN; lia).
      set (p := firstnN r q) in *. set (q' := skipnN r q) in *. assert (Eq : q = p ++ q') by (symmetry; apply firstn_skipnN).
      assert (Ebody : omega_body c src r s = try_ (lift (wshl c 64 1 r)) (fun h => ret (Continue (N.lor (int_of (rev p) mod 2 ^ 64) h))) t2).
      { unfold omega_body. rewrite (try_ok _ _ _ _ _ E). cbn [negb]. rewrite Eu. rewrite (try_ok _ _ _ _ _ (read_int_be_ok c src 64 ltac:(lia) r p t t2 Hlp H1)).
        rewrite (N.mod_small r) by lia. reflexivity. }
      rewrite Ebody. destruct (r <? 64) eqn:E64.
      * right. right. set (x := int_of (rev p)). set (v1 := 2 ^ r + x).
        assert (Hbr : bits_of r x = rev p) by (unfold x; rewrite <- Hlp at 1; rewrite <- lengthN_rev; apply bits_of_int_of).
        assert (Hx : x < 2 ^ r). { unfold x. rewrite <- Hbr, int_of_bits_of. apply N.mod_lt. pose proof (pow2_pos r). lia. }
        assert (H64 : 2 ^ r <= 2 ^ 63) by (apply N.pow_le_mono_r; lia).
        assert (Elog : N.log2 v1 = r).
        { apply N.log2_unique; [lia|]. rewrite <- N.add_1_r, N.pow_add_r, N.pow_1_r. unfold v1. lia. }
        assert (Hm : v1 mod 2 ^ r = x). { unfold v1. rewrite N.add_comm. replace (2 ^ r) with (1 * 2 ^ r) at 1 by lia. rewrite N.mod_add by (pose proof (pow2_pos r); lia). now apply N.mod_small. }
        assert (Hv0 : v1 <> 0) by (unfold v1; pose proof (pow2_pos r); lia).
        assert (Ev : N.lor (x mod 2 ^ 64) (2 ^ r) = v1).
        { rewrite (N.mod_small x) by lia. pose proof (low_high v1 Hv0) as G. rewrite Elog, Hm in G. exact G. }
        assert (Eg : rev (bits_of (r + 1) v1) = true :: p).
        { pose proof (group_cons v1 Hv0) as G. unfold group in G. rewrite Elog in G. rewrite G. f_equal.
          rewrite <- (rev_involutive p), <- Hbr. f_equal. rewrite <- Hm. clear. apply nthN_ext. intros i. rewrite !nthN_bits_of. destruct (i <? r) eqn:Ei; [|reflexivity].
          f_equal. now rewrite N.mod_pow2_bits_low by lia. }
        exists tt, v1, (true :: p), q', t2. rewrite (try_lift _ (2 ^ r)).
        2:{ rewrite wshl_ok by lia. rewrite N.shiftl_1_l, N.mod_small by lia. reflexivity. }
        fold x. rewrite Ev. split; [reflexivity|]. rewrite Eq, lengthN_app in Hl. split; [unfold v1; pose proof (pow2_pos r); lia|]. split; [|split; [discriminate|split; [cbn [app]; now rewrite Eq|exact H2]]].
        split.
        -- intros (v & h & rest & HP & El & Hv). exists v, ((true :: p) ++ h), rest. split; [rewrite <- Eg; now constructor|]. split; [|exact Hv].
           rewrite <- app_assoc, <- El. cbn [app]. now rewrite Eq.
        -- intros (v & h & rest & HP & El & Hv). apply omega_path_inv in HP. destruct HP as [[_ ->]|(v2 & h' & -> & E0 & HP')]; [lia|]. exists v, h', rest.
           rewrite <- app_assoc in El. cbn [app] in El. rewrite Eq in El. change (true :: p ++ q') with ((true :: p) ++ q') in El. rewrite <- Eg in El.
           apply app_length_eq in El; [|now rewrite !lengthN_rev, !lengthN_bits_of].
           destruct El as [E1 E2]. split; [|auto].
           assert (v1 = v2) as ->; [|exact HP'].
           assert (Hv2 : v2 <> 0) by (intros ->; cbn in E0; lia).
           apply (f_equal (@rev bool)) in E1. rewrite !rev_involutive in E1. apply (bits_of_inj (r + 1)); [rewrite <- Elog|rewrite <- E0|exact E1].
           ++ rewrite N.add_1_r. apply N.log2_spec. lia. ++ rewrite N.add_1_r. apply N.log2_spec. lia.
      * left. split.
        -- exists r, [], q. split; [constructor|]. split; [reflexivity|lia].
        -- apply panics_try. apply wshl_over; [exact Hd|lia].
    + right. left. split.
      * intros (v & h & rest & HP & El & Hv). apply omega_path_inv in HP. destruct HP as [[-> ->]|(v2 & h' & -> & _ & _)].
        -- cbn [app] in El. injection El as ->. lia.
        -- apply (f_equal lengthN) in El. rewrite !lengthN_app, lengthN_rev, lengthN_bits_of, !lengthN_cons in El. lia.
      * left. unfold omega_body. rewrite (try_ok _ _ _ _ _ E). cbn [negb]. rewrite Eu. unfold try_.
        rewrite (read_int_be_stop c src 64 ltac:(lia) r q t s' o s'' ltac:(lia) H' Ho). unfold stopped. destruct o as [a|e]; cbn [bind]; [|eauto]. destruct q; unfold fail; cbn [bind]; eauto.
Qed.
