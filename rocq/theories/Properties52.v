(** * Property C105: what every decoder makes of every input, in every build and on every target. *)
From Verif Require Import Machine MStorage MTraits MStream MCoding SpecBits SpecCfg SpecStream SpecParse
  PBase PBits PDefaults PStream PCoding PCoding4 PAccept Properties29.

(** The reading function of a code. *)
Inductive parses (c : cfg) : code -> (list bool -> parsed) -> Prop :=
| ps_unary : parses c (unary c) (parse_unary c 0)
| ps_omega : parses c (omega c) (fun l => parse_omega c (S (length l)) 1 l)
| ps_fibonacci : parses c (fibonacci c) (parse_fibonacci c 1 1 0 false)
| ps_comma : forall n, parses c (comma c n) (parse_comma c n)
| ps_lift0 : forall C f, parses c C f -> parses c (lift0 c C) (fun l => parse_lift0 c (f l))
| ps_elias : forall C f, parses c C f -> parses c (elias c C) (fun l => parse_elias (f l)).

(** On every source that delivers the bits [l] and then ends, or fails, with the answer [o], the decoder answers as [x] says.  The source is
    left behind the bits read: [p] of [p ++ q]. *)
Definition answers {S A} (src : source S) (s : S) (l : list bool) (o : ioR (option bool)) (s'' : S) (x : parsed) (value : N -> A) (r : res (ioR (option A) * S)) : Prop :=
  match x with
  | Value v q => exists p t, l = p ++ q /\ reads src s p t /\ r = Ok (IOk (Some (value v)), t)
  | Refused q => exists p t, l = p ++ q /\ reads src s p t /\ r = Ok (IErr InvalidData, t)
  | Cut clean => r = Ok (match o with IErr e => IErr e | IOk _ => if clean then IOk None else IErr UnexpectedEof end, s'')
  | Breaks => panics r
  end.
Definition decoding (C : code) (l : list bool) (x : parsed) : Prop :=
  forall S (src : source S) s s' o s'' fuel, reads src s l s' -> stops src s' o s'' -> (length l < fuel)%nat ->
    answers src s l o s'' x (fun v => v) (decode C src fuel s).

Lemma chunk_cases n l : (exists x q, chunk n l = Some (x, q) /\ l = x ++ q /\ lengthN x = n) \/ (chunk n l = None /\ lengthN l < n).
Proof.
  unfold chunk. destruct (n <=? lengthN l) eqn:E; [left|right; split; [reflexivity|lia]].
  exists (firstnN n l), (skipnN n l). split; [reflexivity|]. split; [symmetry; apply firstn_skipnN|]. rewrite lengthN_firstnN. lia.
Qed.
Lemma answers_after {S A} (src : source S) s p t l o s'' x (f : N -> A) r : reads src s p t -> answers src t l o s'' x f r -> answers src s (p ++ l) o s'' x f r.
Proof.
  intros H. destruct x as [v q|q|b|]; cbn [answers]; auto.
  - intros (p1 & t1 & -> & H1 & E). exists (p ++ p1), t1. split; [apply app_assoc|]. split; [|exact E]. apply reads_app. eauto.
  - intros (p1 & t1 & -> & H1 & E). exists (p ++ p1), t1. split; [apply app_assoc|]. split; [|exact E]. apply reads_app. eauto.
Qed.
Lemma stop_none {S} (src : source S) s' o s'' : stops src s' o s'' -> match o with IOk (Some _) => False | _ => True end.
Proof. intros [_ H]. exact H. Qed.

Lemma wrap_cases c x : (debug c && (2 ^ 64 <=? x) = true /\ panics (wrap c 64 x)) \/ (debug c && (2 ^ 64 <=? x) = false /\ wrap c 64 x = Ok (x mod 2 ^ 64)).
Proof.
  unfold wrap. destruct (x <? 2 ^ 64) eqn:E.
  - right. destruct (2 ^ 64 <=? x) eqn:E1; [lia|]. rewrite andb_false_r. rewrite N.mod_small by lia. auto.
  - destruct (2 ^ 64 <=? x) eqn:E1; [|lia]. rewrite andb_true_r. destruct (debug c); [left|right]; (split; [reflexivity|]); [exists POverflow|]; reflexivity.
Qed.
Lemma unary_parse c l : decoding (unary c) l (parse_unary c 0 l).
Proof.
  intros S src s s' o s'' fuel HR HS Hf. cbn [unary decode]. unfold unary_decode.
  assert (K : forall l fuel k s, (debug c = true -> k < 2 ^ 64) -> reads src s l s' -> (length l < fuel)%nat -> answers src s l o s'' (parse_unary c k l) (fun v => v)
    (loop_io fuel (fun st : N * bool =>
        let '(result, consumed) := st in
        try_ (read_bit src) (fun ob =>
        match ob with
        | Some bit =>
            if bit then ret (Return (Some result))
            else try_ (lift (wadd c 64 result 1)) (fun r => ret (Continue (r, true)))
        | None => if consumed then fail UnexpectedEof else ret (Return None)
        end)) (k mod 2 ^ 64, negb (k =? 0)) s)).
  { clear - HS. induction l as [|b l IH]; intros fuel k s Hk HR Hf; (destruct fuel as [|fuel]; [cbn [length] in Hf; lia|]); cbn [loop_io parse_unary].
    - apply reads_nil_inv in HR. subst s'. destruct HS as [E Ho]. unfold try_. rewrite E. cbn [bind answers]. destruct o as [[b|]|e]; [contradiction| |reflexivity].
      destruct (k =? 0); reflexivity.
    - apply reads_inv in HR. destruct HR as (s1 & E & HR). unfold try_ at 1 2. rewrite E. cbn [bind]. destruct b.
      + cbn [ret bind answers]. exists [true], s1. split; [reflexivity|]. split; [now apply reads_1|reflexivity].
      + cbn [length] in Hf. unfold try_ at 1, lift, wadd.
        assert (W : wrap c 64 (k mod 2 ^ 64 + 1) = if debug c && (2 ^ 64 <=? k + 1) then Panic POverflow else Ok ((k + 1) mod 2 ^ 64)).
        { unfold wrap. destruct (debug c) eqn:D; cbn [andb].
          - specialize (Hk eq_refl). rewrite (N.mod_small k) by lia. destruct (k + 1 <? 2 ^ 64) eqn:E1; destruct (2 ^ 64 <=? k + 1) eqn:E2; try lia; [|reflexivity].
            now rewrite N.mod_small by lia.
          - destruct (k mod 2 ^ 64 + 1 <? 2 ^ 64) eqn:E1; f_equal; [|rewrite N.add_mod_idemp_l; [reflexivity|lia]].
            rewrite <- (N.mod_small _ _ (proj1 (N.ltb_lt _ _) E1)). apply N.add_mod_idemp_l. lia. }
        rewrite W. destruct (debug c && (2 ^ 64 <=? k + 1)) eqn:D; [exists POverflow; reflexivity|]. cbn [bind ret].
        apply (answers_after src s [false] s1 l); [now apply reads_1|].
        specialize (IH fuel (k + 1) s1). destruct (k + 1 =? 0) eqn:E0; [lia|]. apply IH; [|exact HR|lia].
        intros D'. rewrite D' in D. cbn [andb] in D. lia. }
  exact (K l fuel 0 s ltac:(lia) HR Hf).
Qed.

Lemma lift0_parse c C l x : decoding C l x -> decoding (lift0 c C) l (parse_lift0 c x).
Proof.
  intros H S src s s' o s'' fuel HR HS Hf. specialize (H S src s s' o s'' fuel HR HS Hf). cbn [lift0 decode]. unfold lift0_decode, try_ at 1.
  destruct x as [v q|q|b|]; cbn [answers parse_lift0] in *.
  - destruct H as (p & t & El & Hp & E). rewrite E. cbn [bind]. unfold try_, lift, wsub. destruct (0 <? v) eqn:Ev; destruct (1 <=? v) eqn:Ev'; try lia; cbn [bind].
    + exists p, t. auto.
    + assert (v = 0) as -> by lia. destruct (debug c); [exists POverflow; reflexivity|]. exists p, t. auto.
  - destruct H as (p & t & El & Hp & E). rewrite E. cbn [bind]. exists p, t. auto.
  - rewrite H. cbn [bind]. destruct o as [ob|e]; [|reflexivity]. destruct b; reflexivity.
  - destruct H as [k ->]. exists k. reflexivity.
Qed.
Lemma elias_parse c C l x : wf_cfg c -> decoding C l x -> decoding (elias c C) l (parse_elias x).
Proof.
  intros Hc H S src s s' o s'' fuel HR HS Hf. specialize (H S src s s' o s'' fuel HR HS Hf). cbn [elias decode]. unfold elias_decode, try_ at 1.
  destruct x as [n q|q|b|]; cbn [answers parse_elias] in *.
  - destruct H as (p & t & El & Hp & E). rewrite E. cbn [bind]. destruct (63 <? n) eqn:En.
    + exists p, t. auto.
    + assert (EU : as_usize c n = n) by (unfold as_usize; apply N.mod_small; destruct Hc as [-> | ->]; lia). rewrite EU.
      assert (Hq : reads src t q s').
      { rewrite El in HR. apply reads_app in HR. destruct HR as (t' & H1 & H2). now rewrite (reads_det src s p t t' Hp H1). }
      destruct (chunk_cases n q) as [(x & q' & -> & Eq & Lx)|[-> Lq]].
      * rewrite Eq in Hq. apply reads_app in Hq. destruct Hq as (t1 & Hx & Hq). unfold try_ at 1. rewrite (read_int_ok c src 64 ltac:(lia) n x t t1 Lx Hx). cbn [bind].
        unfold try_, lift. rewrite wshl_ok by lia. rewrite N.shiftl_1_l. cbn [bind ret].
        exists (p ++ x), t1. split; [now rewrite <- app_assoc, <- Eq|]. split; [apply reads_app; eauto|].
        pose proof (int_of_lt x) as Hi. rewrite Lx in Hi. pose proof (N.pow_lt_mono_r 2 n 64 ltac:(lia) ltac:(lia)) as Hn.
        rewrite (N.mod_small (int_of x)) by lia. rewrite N.mod_small by lia. destruct (elias_value (int_of x) n ltac:(lia) Hi) as (-> & _). reflexivity.
      * unfold try_ at 1. rewrite (read_int_stop c src 64 ltac:(lia) n q t s' o s'' Lq Hq HS). cbn [bind answers]. pose proof (stop_none _ _ _ _ HS) as Ho.
        unfold stopped. destruct o as [ob|e]; [|reflexivity]. destruct q; reflexivity.
  - destruct H as (p & t & El & Hp & E). rewrite E. cbn [bind]. exists p, t. auto.
  - rewrite H. cbn [bind]. destruct o as [ob|e]; [|reflexivity]. destruct b; reflexivity.
  - destruct H as [k ->]. exists k. reflexivity.
Qed.

Lemma omega_parse c l : decoding (omega c) l (parse_omega c (S (length l)) 1 l).
Proof.
  intros T src s s' o s'' fuel HR HS Hf. cbn [omega decode]. unfold omega_decode.
  match goal with |- answers _ _ _ _ _ _ _ (loop_io _ ?b _ _) => set (body := b) end.
  assert (K : forall k fuel l v s, (length l < k)%nat -> reads src s l s' -> (length l < fuel)%nat ->
    answers src s l o s'' (parse_omega c k v l) (fun v => v) (loop_io fuel body v s)).
  { clear - HS. induction k as [|k IH]; intros fuel l v s Hk HR Hf; [lia|]. destruct fuel as [|fuel]; [lia|]. cbn [loop_io parse_omega].
    unfold body at 1. unfold try_ at 1 2. destruct l as [|b l].
    - apply reads_nil_inv in HR. subst s'. destruct HS as [E Ho]. rewrite E. cbn [bind answers]. destruct o as [[b|]|e]; [contradiction| |reflexivity].
      destruct (v =? 1); reflexivity.
    - cbn [length] in *. apply reads_inv in HR. destruct HR as (s1 & E & HR). rewrite E. cbn [bind]. destruct b; cbn [negb].
      2:{ cbn [ret bind answers]. exists [false], s1. split; [reflexivity|]. split; [now apply reads_1|reflexivity]. }
      unfold as_usize. destruct (chunk_cases (v mod 2 ^ ptr c) l) as [(x & q & -> & Eq & Lx)|[-> Lq]].
      + rewrite Eq in HR. apply reads_app in HR. destruct HR as (t1 & Hx & Hq). unfold try_ at 1. rewrite (read_int_be_ok c src 64 ltac:(lia) _ x s1 t1 Lx Hx). cbn [bind].
        unfold try_ at 1, lift, wshl. cbv zeta. rewrite !N.shiftl_1_l.
        assert (P64 : forall m, 2 ^ (m mod 64) mod 2 ^ 64 = 2 ^ (m mod 64)) by (intros m; apply N.mod_small, N.pow_lt_mono_r; [lia|apply N.mod_lt; lia]).
        assert (Rest : answers src s (true :: l) o s'' (parse_omega c k (N.lor (int_of (rev x) mod 2 ^ 64) (2 ^ (v mod 2 ^ 32 mod 64))) q) (fun v => v)
          (loop_io fuel body (N.lor (int_of (rev x) mod 2 ^ 64) (2 ^ (v mod 2 ^ 32 mod 64))) t1)).
        { rewrite Eq. change (true :: x ++ q) with ((true :: x) ++ q). apply (answers_after src s (true :: x) t1).
          - econstructor; [exact E|exact Hx].
          - subst l. rewrite app_length in *. apply IH; [lia|exact Hq|lia]. }
        destruct (v mod 2 ^ 32 <? 64) eqn:E1.
        * destruct (64 <=? v mod 2 ^ 32) eqn:E2; [lia|]. rewrite andb_false_r. cbn [bind ret]. specialize (P64 (v mod 2 ^ 32)).
          rewrite (N.mod_small (v mod 2 ^ 32) 64) in P64 by lia. rewrite P64. rewrite (N.mod_small (v mod 2 ^ 32) 64) in * by lia. exact Rest.
        * destruct (64 <=? v mod 2 ^ 32) eqn:E2; [|lia]. rewrite andb_true_r. destruct (debug c); [exists POverflow; reflexivity|]. cbn [bind ret]. rewrite P64. exact Rest.
      + unfold try_ at 1. rewrite (read_int_be_stop c src 64 ltac:(lia) _ l s1 s' o s'' Lq HR HS). cbn [bind answers]. unfold stopped. destruct o as [ob|e]; [|reflexivity].
        destruct l; reflexivity. }
  apply K; auto.
Qed.

Lemma fibonacci_parse c l : decoding (fibonacci c) l (parse_fibonacci c 1 1 0 false l).
Proof.
  intros T src s s' o s'' fuel HR HS Hf. cbn [fibonacci decode]. unfold fib_decode.
  match goal with |- answers _ _ _ _ _ _ _ (loop_io _ ?b _ _) => set (body := b) end.
  assert (K : forall l fuel a b sum prev s, sum < 2 ^ 64 -> reads src s l s' -> (length l < fuel)%nat ->
    answers src s l o s'' (parse_fibonacci c a b sum prev l) (fun v => v) (loop_io fuel body (sum, {| fi_1 := a; fi := b |}, prev) s)).
  { clear - HS. induction l as [|x l IH]; intros fuel a b sum prev s Hsum HR Hf; (destruct fuel as [|fuel]; [cbn [length] in Hf; lia|]); cbn [loop_io parse_fibonacci];
    unfold body at 1; unfold try_ at 1 2.
    - apply reads_nil_inv in HR. subst s'. destruct HS as [E Ho]. rewrite E. cbn [bind answers]. destruct o as [[b1|]|e]; [contradiction| |reflexivity].
      destruct (sum =? 0); reflexivity.
    - cbn [length] in *. apply reads_inv in HR. destruct HR as (s1 & E & HR). rewrite E. cbn [bind]. destruct (x && prev) eqn:Exp.
      { cbn [ret bind answers]. exists [x], s1. split; [reflexivity|]. split; [now apply reads_1|reflexivity]. }
      cbv zeta. unfold try_ at 1, lift. cbn [fi]. unfold lift_io, fib_next, checked_add. cbn [fi fi_1].
      assert (W : (debug c && (2 ^ 64 <=? (if x then sum + b else sum)) = true /\ panics (if x then wadd c 64 sum b else Ok sum)) \/
                  (debug c && (2 ^ 64 <=? (if x then sum + b else sum)) = false /\ (if x then wadd c 64 sum b else Ok sum) = Ok ((if x then sum + b else sum) mod 2 ^ 64))).
      { destruct x; [apply wrap_cases|]. right. destruct (2 ^ 64 <=? sum) eqn:E1; [lia|]. rewrite andb_false_r, N.mod_small by lia. auto. }
      destruct W as [[-> [k ->]]|[-> ->]]; [exists k; reflexivity|]. cbn [bind]. unfold try_ at 1.
      destruct (a + b <? 2 ^ 64) eqn:E1; destruct (2 ^ 64 <=? a + b) eqn:E2; try lia; cbn [bind ret too_many_bits].
      + apply (answers_after src s [x] s1 l); [now apply reads_1|]. apply IH; [apply N.mod_lt; lia|exact HR|lia].
      + exists [x], s1. split; [reflexivity|]. split; [now apply reads_1|reflexivity]. }
  apply K; auto. lia.
Qed.

Lemma comma_base_ok c n : (debug c && (64 <=? n) = true /\ panics (comma_base c n)) \/ (debug c && (64 <=? n) = false /\ comma_base c n = Ok (comma_radix n)).
Proof.
  unfold comma_base, comma_radix, wshl. rewrite !N.shiftl_1_l. assert (H : n mod 64 < 64) by (apply N.mod_lt; lia).
  pose proof (N.pow_lt_mono_r 2 (n mod 64) 64 ltac:(lia) H) as HP. pose proof (N.pow_nonzero 2 (n mod 64) ltac:(lia)) as HZ.
  destruct (n <? 64) eqn:E; destruct (64 <=? n) eqn:E1; try lia.
  - right. rewrite andb_false_r. split; [reflexivity|]. rewrite (N.mod_small n 64) in * by lia. cbn [bind]. rewrite (N.mod_small (2 ^ n)) by lia. apply wsub_ok. lia.
  - rewrite andb_true_r. destruct (debug c); [left; split; [reflexivity|exists POverflow; reflexivity]|right]. split; [reflexivity|]. cbn [bind].
    rewrite (N.mod_small (2 ^ (n mod 64))) by lia. apply wsub_ok. lia.
Qed.
Lemma comma_parse c n l : decoding (comma c n) l (parse_comma c n l).
Proof.
  intros T src s s' o s'' fuel HR HS Hf. cbn [comma decode]. unfold comma_decode, parse_comma. unfold try_ at 1, lift at 1.
  destruct (comma_base_ok c n) as [[-> [k ->]]|[-> ->]]; [exists k; reflexivity|]. cbn [bind].
  match goal with |- answers _ _ _ _ _ _ _ (loop_io _ ?b _ _) => set (body := b) end.
  assert (K : forall k fuel l v started s, (length l < k)%nat -> reads src s l s' -> (length l < fuel)%nat ->
    answers src s l o s'' (parse_digits c n k v started l) (fun v => v) (loop_io fuel body (v, started) s)).
  { clear - HS. induction k as [|k IH]; intros fuel l v started s Hk HR Hf; [lia|]. destruct fuel as [|fuel]; [lia|]. cbn [loop_io parse_digits].
    unfold body at 1. unfold try_ at 1 2. destruct (chunk_cases n l) as [(x & q & -> & Eq & Lx)|[-> Lq]].
    - pose proof HR as HR'. rewrite Eq in HR'. apply reads_app in HR'. destruct HR' as (t1 & Hx & Hq). rewrite (read_int_ok c src 64 ltac:(lia) n x s t1 Lx Hx). cbn [bind]. cbv zeta.
      destruct (int_of x mod 2 ^ 64 =? comma_radix n) eqn:Ed.
      { cbn [ret bind answers]. exists x, t1. auto. }
      set (B := comma_radix n) in *. set (d := int_of x mod 2 ^ 64) in *.
      assert (Xne : x <> []).
      { intros ->. rewrite lengthN_nil in Lx. subst n. revert Ed. vm_compute. discriminate. }
      assert (Rest : answers src s l o s'' (parse_digits c n k ((v * B + d) mod 2 ^ 64) true q) (fun v => v) (loop_io fuel body ((v * B + d) mod 2 ^ 64, true) t1)).
      { rewrite Eq. apply (answers_after src s x t1); [exact Hx|]. subst l. rewrite app_length in *. destruct x as [|x0 x]; [congruence|]. cbn [length] in *.
        apply IH; [lia|exact Hq|lia]. }
      unfold try_ at 1, lift at 1, wmul. assert (Hd : d < 2 ^ 64) by (apply N.mod_lt; lia). clearbody B d.
      unfold wrap at 1. destruct (v * B <? 2 ^ 64) eqn:E1.
      + cbn [bind]. unfold try_ at 1, lift at 1, wadd.
        destruct (wrap_cases c (v * B + d)) as [[-> [p ->]]|[-> ->]]; [exists p; reflexivity|]. cbn [bind ret]. exact Rest.
      + destruct (2 ^ 64 <=? v * B + d) eqn:E2; [|lia]. destruct (debug c) eqn:Dc; cbn [andb]; [exists POverflow; reflexivity|]. cbn [bind].
        unfold try_ at 1, lift at 1, wadd, wrap. rewrite Dc. 
        assert (EM : ((v * B) mod 2 ^ 64 + d) mod 2 ^ 64 = (v * B + d) mod 2 ^ 64) by (apply N.add_mod_idemp_l; lia).
        destruct ((v * B) mod 2 ^ 64 + d <? 2 ^ 64) eqn:E3; cbn [bind ret].
        * rewrite <- (N.mod_small ((v * B) mod 2 ^ 64 + d) (2 ^ 64)) by lia. rewrite EM. exact Rest.
        * rewrite EM. exact Rest.
    - rewrite (read_int_stop c src 64 ltac:(lia) n l s s' o s'' Lq HR HS). cbn [bind answers]. unfold stopped. destruct o as [ob|e]; [|reflexivity].
      destruct l as [|b l]; [|rewrite lengthN_cons; destruct (lengthN l + 1 =? 0) eqn:E0; [lia|]; rewrite andb_false_r; reflexivity].
      rewrite lengthN_nil. cbn [N.eqb]. destruct started; reflexivity. }
  apply K; auto.
Qed.

Theorem C105_decoding : forall c C f l, wf_cfg c -> parses c C f -> decoding C l (f l).
Proof.
  intros c C f l Hc HP. revert l. induction HP as [| | |n|C f HP IH|C f HP IH]; intros l.
  - apply unary_parse.
  - apply omega_parse.
  - apply fibonacci_parse.
  - apply comma_parse.
  - apply lift0_parse, IH.
  - apply elias_parse; auto.
Qed.
Theorem C105_every_code : forall c C, any_code c C -> exists f, parses c C f.
Proof.
  intros c C. induction 1 as [| | |n|C H [f IH]|C H [f IH]]; eexists; [apply ps_unary|apply ps_omega|apply ps_fibonacci|apply ps_comma|apply ps_lift0, IH|apply ps_elias, IH].
Qed.


(** ** Nothing is read ahead *)
Definition followed (x : parsed) (m : list bool) : parsed :=
  match x with Value v q => Value v (q ++ m) | Refused q => Refused (q ++ m) | _ => x end.
Definition ahead (m : list bool) (x y : parsed) : Prop :=
  match x with
  | Cut _ => forall q, (exists v, y = Value v q) \/ y = Refused q -> lengthN q < lengthN m
  | _ => y = followed x m
  end.
Lemma chunk_app n l m x q : chunk n l = Some (x, q) -> chunk n (l ++ m) = Some (x, q ++ m).
Proof.
  intros H. destruct (chunk_cases n l) as [(x' & q' & E & El & Lx)|[E _]]; [|congruence]. rewrite E in H. injection H as -> ->.
  destruct (chunk_cases n (l ++ m)) as [(x' & q' & E' & El' & Lx')|[_ L]]; [|subst l; rewrite !lengthN_app in L; lia]. rewrite E'. subst l. rewrite <- app_assoc in El'.
  assert (x' = x /\ q' = q ++ m) as [-> ->]; [|reflexivity].
  assert (LL : length x' = length x) by (unfold lengthN in *; lia). clear - El' LL. revert x' El' LL. induction x as [|b x IH]; intros [|b' x'] E LL; cbn [length] in LL; try lia.
  - auto.
  - cbn [app] in E. injection E as -> E. destruct (IH x' E ltac:(lia)) as [-> ->]. auto.
Qed.
Lemma chunk_short n l m : chunk n l = None -> match chunk n (l ++ m) with Some (_, q) => lengthN q < lengthN m | None => True end.
Proof.
  intros H. destruct (chunk_cases n l) as [(x' & q' & E & _)|[_ L]]; [congruence|].
  destruct (chunk_cases n (l ++ m)) as [(x' & q' & -> & El' & Lx')|[-> _]]; [|exact I]. apply (f_equal lengthN) in El'. rewrite !lengthN_app in El'. lia.
Qed.
(** Whatever follows, reading from [m] leaves at most [m]. *)
Definition leaves (m : list bool) (y : parsed) : Prop := forall q, (exists v, y = Value v q) \/ y = Refused q -> lengthN q <= lengthN m.
Lemma unary_leaves c l : forall k, leaves l (parse_unary c k l).
Proof.
  induction l as [|b l IH]; intros k q H; cbn [parse_unary] in H.
  - destruct H as [[v H]|H]; discriminate.
  - rewrite lengthN_cons. destruct b.
    + destruct H as [[v H]|H]; [injection H as <- <-; lia|discriminate].
    + destruct (debug c && _); [destruct H as [[v H]|H]; discriminate|]. specialize (IH _ _ H). lia.
Qed.
Lemma unary_ahead c m l : forall k, ahead m (parse_unary c k l) (parse_unary c k (l ++ m)).
Proof.
  induction l as [|b l IH]; intros k; cbn [parse_unary app].
  - intros q H. destruct m as [|b m]; cbn [parse_unary] in H; [destruct H as [[v H]|H]; discriminate|]. rewrite lengthN_cons. destruct b.
    + destruct H as [[v H]|H]; [injection H as <- <-; lia|discriminate].
    + destruct (debug c && _); [destruct H as [[v H]|H]; discriminate|]. pose proof (unary_leaves c m _ _ H). lia.
  - destruct b; [reflexivity|]. destruct (debug c && _); [reflexivity|apply IH].
Qed.
Lemma lift0_ahead c m x y : ahead m x y -> ahead m (parse_lift0 c x) (parse_lift0 c y).
Proof.
  destruct x as [v q|q|b|]; cbn [ahead parse_lift0].
  - intros ->. cbn [followed parse_lift0]. destruct (0 <? v); [reflexivity|]. destruct (debug c); reflexivity.
  - now intros ->.
  - intros H q K. destruct y as [v q'|q'|b'|]; cbn [parse_lift0] in K.
    + destruct (0 <? v); [|destruct (debug c)]; (destruct K as [[v' K]|K]; [|discriminate]); try discriminate; injection K as <- <-; apply H; eauto.
    + destruct K as [[v' K]|K]; [discriminate|]. injection K as <-. apply H; auto.
    + destruct K as [[v' K]|K]; discriminate.
    + destruct K as [[v' K]|K]; discriminate.
  - now intros ->.
Qed.
Lemma elias_ahead m x y : ahead m x y -> ahead m (parse_elias x) (parse_elias y).
Proof.
  destruct x as [n q|q|b|]; cbn [ahead parse_elias].
  - intros ->. cbn [followed parse_elias]. destruct (63 <? n); [reflexivity|]. destruct (chunk n q) as [[x q']|] eqn:E.
    + rewrite (chunk_app n q m x q' E). reflexivity.
    + pose proof (chunk_short n q m E) as K. destruct (chunk n (q ++ m)) as [[x q']|]; intros q0 H; (destruct H as [[v H]|H]; [|discriminate]); [injection H as _ <-; exact K|discriminate].
  - now intros ->.
  - intros H q K. destruct y as [n q'|q'|b'|]; cbn [parse_elias] in K.
    + specialize (H q' (or_introl (ex_intro _ n eq_refl))). destruct (63 <? n); [destruct K as [[v' K]|K]; [discriminate|]; now injection K as <-|].
      destruct (chunk_cases n q') as [(x & q0 & E & El & _)|[E _]]; rewrite E in K; (destruct K as [[v' K]|K]; [|discriminate]); [|discriminate]. injection K as _ <-.
      apply (f_equal lengthN) in El. rewrite lengthN_app in El. lia.
    + destruct K as [[v' K]|K]; [discriminate|]. injection K as <-. apply H; auto.
    + destruct K as [[v' K]|K]; discriminate.
    + destruct K as [[v' K]|K]; discriminate.
  - now intros ->.
Qed.
Ltac closed H := destruct H as [[? H]|H]; discriminate.
Lemma omega_leaves c k : forall l v, leaves l (parse_omega c k v l).
Proof.
  induction k as [|k IH]; intros l v q H; cbn [parse_omega] in H; [closed H|]. destruct l as [|[|] l]; [closed H| |].
  - rewrite lengthN_cons. destruct (chunk_cases (v mod 2 ^ ptr c) l) as [(x & q' & E & El & _)|[E _]]; rewrite E in H; [|closed H]. cbv zeta in H.
    destruct (debug c && _); [closed H|]. specialize (IH _ _ _ H). apply (f_equal lengthN) in El. rewrite lengthN_app in El. lia.
  - rewrite lengthN_cons. destruct H as [[v' H]|H]; [injection H as <- <-; lia|discriminate].
Qed.
Lemma omega_ahead c m k : forall k' l v, (length l < k)%nat -> (length (l ++ m) < k')%nat -> ahead m (parse_omega c k v l) (parse_omega c k' v (l ++ m)).
Proof.
  induction k as [|k IH]; intros k' l v Hk Hk'; [lia|]. destruct k' as [|k']; [lia|]. destruct l as [|b l].
  - cbn [parse_omega app ahead]. intros q H. destruct m as [|[|] m]; [closed H| |].
    + rewrite lengthN_cons. destruct (chunk_cases (v mod 2 ^ ptr c) m) as [(x & q' & E & El & _)|[E _]]; rewrite E in H; [|closed H]. cbv zeta in H.
      destruct (debug c && _); [closed H|]. pose proof (omega_leaves c k' _ _ _ H). apply (f_equal lengthN) in El. rewrite lengthN_app in El. lia.
    + rewrite lengthN_cons. destruct H as [[v' H]|H]; [injection H as <- <-; lia|discriminate].
  - cbn [app length] in *. cbn [parse_omega]. destruct b; [|reflexivity]. destruct (chunk (v mod 2 ^ ptr c) l) as [[x q]|] eqn:E.
    + rewrite (chunk_app _ l m x q E). cbv zeta. destruct (debug c && _); [reflexivity|].
      destruct (chunk_cases (v mod 2 ^ ptr c) l) as [(x' & q' & E' & El & _)|[E' _]]; rewrite E' in E; [|discriminate]. injection E as -> ->. 
      subst l. rewrite !app_length in *. apply IH; rewrite ?app_length; lia.
    + pose proof (chunk_short _ l m E) as K. destruct (chunk _ (l ++ m)) as [[x q']|]; intros q0 H; [|closed H]. cbv zeta in H.
      destruct (debug c && _); [closed H|]. pose proof (omega_leaves c k' _ _ _ H). lia.
Qed.
Lemma fibonacci_leaves c l : forall a b sum prev, leaves l (parse_fibonacci c a b sum prev l).
Proof.
  induction l as [|x l IH]; intros a b sum prev q H; cbn [parse_fibonacci] in H; [closed H|]. rewrite lengthN_cons. cbv zeta in H.
  destruct (x && prev); [destruct H as [[v' H]|H]; [injection H as <- <-; lia|discriminate]|]. destruct (debug c && _); [closed H|].
  destruct (2 ^ 64 <=? a + b); [destruct H as [[v' H]|H]; [discriminate|injection H as <-; lia]|]. specialize (IH _ _ _ _ _ H). lia.
Qed.
Lemma fibonacci_ahead c m l : forall a b sum prev, ahead m (parse_fibonacci c a b sum prev l) (parse_fibonacci c a b sum prev (l ++ m)).
Proof.
  induction l as [|x l IH]; intros a b sum prev; cbn [parse_fibonacci app].
  - intros q H. destruct m as [|x m]; cbn [parse_fibonacci] in H; [closed H|]. rewrite lengthN_cons. cbv zeta in H.
    destruct (x && prev); [destruct H as [[v' H]|H]; [injection H as <- <-; lia|discriminate]|]. destruct (debug c && _); [closed H|].
    destruct (2 ^ 64 <=? a + b); [destruct H as [[v' H]|H]; [discriminate|injection H as <-; lia]|]. pose proof (fibonacci_leaves c m _ _ _ _ _ H). lia.
  - cbv zeta. destruct (x && prev); [reflexivity|]. destruct (debug c && _); [reflexivity|]. destruct (2 ^ 64 <=? a + b); [reflexivity|apply IH].
Qed.
Lemma digits_leaves c n k : forall l v b, leaves l (parse_digits c n k v b l).
Proof.
  induction k as [|k IH]; intros l v b q H; cbn [parse_digits] in H; [closed H|].
  destruct (chunk_cases n l) as [(x & q' & E & El & _)|[E _]]; rewrite E in H; [|closed H]. cbv zeta in H. apply (f_equal lengthN) in El. rewrite lengthN_app in El.
  destruct (_ =? comma_radix n); [destruct H as [[v' H]|H]; [injection H as <- <-; lia|discriminate]|]. destruct (debug c && _); [closed H|]. specialize (IH _ _ _ _ H). lia.
Qed.
Lemma digits_ahead c n m k : forall k' l v b, (length l < k)%nat -> (length (l ++ m) < k')%nat -> ahead m (parse_digits c n k v b l) (parse_digits c n k' v b (l ++ m)).
Proof.
  induction k as [|k IH]; intros k' l v b Hk Hk'; [lia|]. destruct k' as [|k']; [lia|]. cbn [parse_digits].
  destruct (chunk n l) as [[x q]|] eqn:E.
  - rewrite (chunk_app _ l m x q E). cbv zeta. destruct (_ =? comma_radix n) eqn:Ed; [reflexivity|]. destruct (debug c && _); [reflexivity|].
    destruct (chunk_cases n l) as [(x' & q' & E' & El & Lx)|[E' _]]; rewrite E' in E; [|discriminate]. injection E as -> ->.
    assert (Xne : x <> []). { intros ->. rewrite lengthN_nil in Lx. subst n. revert Ed. vm_compute. discriminate. }
    destruct x as [|x0 x]; [congruence|]. subst l. rewrite !app_length in *. cbn [length] in *. apply IH; rewrite ?app_length; lia.
  - pose proof (chunk_short _ l m E) as K. destruct (chunk _ (l ++ m)) as [[x q']|]; intros q0 H; [|closed H]. cbv zeta in H.
    destruct (_ =? comma_radix n); [destruct H as [[v' H]|H]; [injection H as <- <-; exact K|discriminate]|].
    destruct (debug c && _); [closed H|]. pose proof (digits_leaves c n k' _ _ _ _ H). lia.
Qed.
Lemma comma_ahead c n m l : ahead m (parse_comma c n l) (parse_comma c n (l ++ m)).
Proof. unfold parse_comma. destruct (debug c && _); [reflexivity|]. apply digits_ahead; lia. Qed.
Lemma parses_ahead c C f : parses c C f -> forall l m, ahead m (f l) (f (l ++ m)).
Proof.
  induction 1 as [| | |n|C f HP IH|C f HP IH]; intros l m.
  - apply unary_ahead.
  - apply omega_ahead; lia.
  - apply fibonacci_ahead.
  - apply comma_ahead.
  - apply lift0_ahead, IH.
  - apply elias_ahead, IH.
Qed.

(** What is read, refused or panicked at is unchanged by what follows, and depends on no bit that is left. *)
Theorem C105_no_lookahead : forall c C f l m, parses c C f -> (forall b, f l <> Cut b) -> f (l ++ m) = followed (f l) m.
Proof. intros c C f l m HP H. pose proof (parses_ahead c C f HP l m) as K. unfold ahead in K. destruct (f l) as [v q|q|b|]; auto. now elim (H b). Qed.
Theorem C105_prefix : forall c C f p q v, parses c C f -> (f (p ++ q) = Value v q <-> f p = Value v []).
Proof.
  intros c C f p q v HP. pose proof (parses_ahead c C f HP p q) as K. unfold ahead in K. split.
  - intros E. rewrite E in K. destruct (f p) as [v' q'|q'|b|]; cbn [followed] in K; try discriminate.
    + injection K as -> K. assert (L : lengthN q = lengthN q' + lengthN q) by (rewrite <- lengthN_app; now f_equal). destruct q' as [|x q']; [reflexivity|]. rewrite lengthN_cons in L. lia.
    + specialize (K q (or_introl (ex_intro _ v eq_refl))). lia.
  - intros E. rewrite E in K. exact K.
Qed.
(** Unless the code reads a value from no bits at all ([Comma(0)] and what is built from it), a value takes at least a bit. *)
Theorem C105_progress : forall c C f l v q, wf_cfg c -> parses c C f -> f l = Value v q -> f [] <> Value v [] -> lengthN q < lengthN l.
Proof.
  intros c C f l v q Hc HP E H0. pose proof (C105_decoding c C f l Hc HP) as K. pose proof (reads_deque l []) as RD. rewrite app_nil_r in RD.
  specialize (K _ deque_source l [] (IOk None) [] (S (length l)) RD stops_deque ltac:(lia)). rewrite E in K. cbn [answers] in K.
  destruct K as (p & t & -> & _ & _). rewrite lengthN_app. destruct p as [|b p]; [|rewrite lengthN_cons; lia].
  elim H0. apply (C105_prefix c C f [] q v HP). exact E.
Qed.
(** Without overflow checks nothing panics. *)
Theorem C105_unchecked : forall c C f l, parses c C f -> debug c = false -> f l <> Breaks.
Proof.
  intros c C f l HP D. revert l. induction HP as [| | |n|C f HP IH|C f HP IH]; intros l.
  - generalize 0. induction l as [|[|] l IH]; intros k; cbn [parse_unary]; try discriminate. rewrite D. apply IH.
  - assert (K : forall k l v, (length l < k)%nat -> parse_omega c k v l <> Breaks).
    { induction k as [|k IH]; intros l0 v Hk; [lia|]. cbn [parse_omega]. destruct l0 as [|[|] l0]; try discriminate. cbn [length] in Hk.
      destruct (chunk_cases (v mod 2 ^ ptr c) l0) as [(x & q & -> & El & _)|[-> _]]; [|discriminate]. cbv zeta. rewrite D. cbn [andb]. apply IH. subst l0. rewrite app_length in Hk. lia. }
    apply K. lia.
  - generalize 1 at 1. generalize 1. generalize 0. generalize false. induction l as [|x l IH]; intros prev sum b a; cbn [parse_fibonacci]; [discriminate|]. cbv zeta. rewrite D. cbn [andb].
    destruct (x && prev); [discriminate|]. destruct (2 ^ 64 <=? a + b); [discriminate|apply IH].
  - unfold parse_comma. rewrite D. cbn [andb].
    assert (K : forall k l v b, (length l < k)%nat -> parse_digits c n k v b l <> Breaks).
    { induction k as [|k IH]; intros l0 v b Hk; [lia|]. cbn [parse_digits].
      destruct (chunk_cases n l0) as [(x & q & -> & El & Lx)|[-> _]]; [|discriminate]. cbv zeta. rewrite D. cbn [andb]. destruct (_ =? comma_radix n) eqn:Ed; [discriminate|]. apply IH. subst l0.
      assert (Xne : x <> []). { intros ->. rewrite lengthN_nil in Lx. subst n. revert Ed. vm_compute. discriminate. }
      destruct x; [congruence|]. rewrite app_length in Hk. cbn [length] in Hk. lia. }
    apply K. lia.
  - specialize (IH l). destruct (f l) as [v q|q|b|]; cbn [parse_lift0]; try congruence. rewrite D. destruct (0 <? v); discriminate.
  - specialize (IH l). destruct (f l) as [v q|q|b|]; cbn [parse_elias]; try congruence. destruct (63 <? v); [discriminate|]. destruct (chunk v q) as [[x q']|]; discriminate.
Qed.

(** Omega without overflow checks: after the groups of 2, 6 and 64, a group of 64 zeroes makes 1 again, and the end of the data is then no
    error.  On a 32-bit target the number 2^32 is followed by a group of no bits. *)
Example C105_omega_ex : let l := [true; false] ++ [true; true; false] ++ (true :: repeatN false 6) ++ (true :: repeatN false 64) in
  parse_omega rel64 (S (length l)) 1 l = Cut true /\ parse_omega dbg64 (S (length l)) 1 l = Breaks /\
  decode (omega rel64) deque_source 100 l = Ok (IOk None, []) /\
  let m := [true; false] ++ [true; false; true] ++ (true :: repeatN false 5) ++ (true :: repeatN false 32) ++ [true; true; true; false] in
  parse_omega dbg32 (S (length m)) 1 m = Value 3 [] /\ parse_omega dbg64 (S (length m)) 1 m = Cut false.
Proof. vm_compute. auto. Qed.
(** Comma with digits of 70 bits: the base is 2^6 - 1, and 64 bits of each digit count. *)
Example C105_comma_ex : let d x := bits_of 70 x in
  parse_comma rel64 70 (d 2 ++ d (2 ^ 65 + 5) ++ d 63 ++ [true]) = Value (2 * 63 + 5) [true] /\ parse_comma dbg64 70 [] = Breaks /\
  parse_comma rel64 0 [true] = Value 0 [true] /\ parses rel64 (elias rel64 (comma rel64 0)) (fun l => parse_elias (parse_comma rel64 0 l)).
Proof. split; [vm_compute; reflexivity|]. split; [reflexivity|]. split; [vm_compute; reflexivity|]. apply ps_elias, ps_comma. Qed.
Example C105_delta_ex : parses dbg64 (delta dbg64) (fun l => parse_elias (parse_lift0 dbg64 (parse_elias (parse_unary dbg64 0 l)))) /\
  parse_elias (parse_lift0 dbg64 (parse_elias (parse_unary dbg64 0 [false; false; true; true; false; true; false; false; false; true; true]))) = Value 17 [true; true].
Proof. split; [apply ps_elias, ps_lift0, ps_elias, ps_unary|vm_compute; reflexivity]. Qed.
Print Assumptions C105_decoding.
Print Assumptions C105_every_code.
Print Assumptions C105_no_lookahead.
Print Assumptions C105_prefix.
Print Assumptions C105_progress.
Print Assumptions C105_unchecked.
