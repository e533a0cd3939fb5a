(** * What every decoder answers to every input (C83): malformed, truncated and overlong code words, both kinds of build, 32-bit and
    64-bit targets.  For each code a table of rows says, for the bits a source delivers before it stops with [o], what [decode]
    returns and what it leaves unread; the rows cover all inputs and do not contradict one another. *)
From Verif Require Import Machine MStorage MTraits MStream MCoding SpecBits SpecCfg SpecStream PBase PBits PStream PCoding PCoding2 PCoding4 Properties29.

(** Given exactly the bits [l] by any source that then stops with [o], [decode] comes out as [r].  [Some rest]: the bits [rest] are
    still to be read from the source; [None]: the decoder has met the end (nothing is claimed after a panic). *)
Definition answers (C : code) (o : ioR (option bool)) (l : list bool) (r : res (ioR (option N))) (left : option (list bool)) : Prop :=
  forall fuel S (src : source S) s s' s'', (length l < fuel)%nat -> reads src s l s' -> stops src s' o s'' ->
  match r with
  | Ok x => exists t, decode C src fuel s = Ok (x, t) /\ match left with Some rest => reads src t rest s' | None => t = s'' end
  | Panic k => decode C src fuel s = Panic k
  | OutOfFuel => False
  end.
(** A table of rows describes a code: it covers every input and what it says is true. *)
Definition table := ioR (option bool) -> list bool -> res (ioR (option N)) -> option (list bool) -> Prop.
Definition describes (T : table) (C : code) : Prop :=
  (forall o l r left, T o l r left -> answers C o l r left) /\ (forall o l, exists r left, T o l r left).

(** ** The tables *)
Definition value (v : N) : res (ioR (option N)) := Ok (IOk (Some v)).

(** [k] zeros and a one is [k].  With overflow checks 2^64 zeros are too many; without, the count wraps. *)
Inductive unary_table (c : cfg) : table :=
| ut_value : forall o k rest, (debug c = true -> k < 2 ^ 64) -> unary_table c o (repeatN false k ++ true :: rest) (value (k mod 2 ^ 64)) (Some rest)
| ut_panic : forall o rest, debug c = true -> unary_table c o (repeatN false (2 ^ 64) ++ rest) (Panic POverflow) None
| ut_end : forall o k, (debug c = true -> k < 2 ^ 64) -> unary_table c o (repeatN false k) (Ok (stopped o (repeatN false k))) None.

(** [Lift0] subtracts one from what the inner code says; from zero it cannot. *)
Inductive lift0_table (c : cfg) (T : table) : table :=
| lt_value : forall o l v rest, 1 <= v -> T o l (value v) (Some rest) -> lift0_table c T o l (value (v - 1)) (Some rest)
| lt_zero : forall o l rest, debug c = false -> T o l (value 0) (Some rest) -> lift0_table c T o l (value (2 ^ 64 - 1)) (Some rest)
| lt_panic : forall o l rest, debug c = true -> T o l (value 0) (Some rest) -> lift0_table c T o l (Panic POverflow) None
| lt_pass : forall o l r left, T o l r left -> (forall v, r <> value v) -> lift0_table c T o l r left.

(** [Elias]: the header [n], then the low [n] bits, low end first, of a number with [n + 1] significant bits. *)
Inductive elias_table (T : table) : table :=
| et_value : forall o l n h rest, T o l (value n) (Some (h ++ rest)) -> n <= 63 -> lengthN h = n -> elias_table T o l (value (int_of h + 2 ^ n)) (Some rest)
| et_short : forall o l n h, T o l (value n) (Some h) -> n <= 63 -> lengthN h < n -> elias_table T o l (Ok (stopped o [true])) None
| et_large : forall o l n rest, T o l (value n) (Some rest) -> 63 < n -> elias_table T o l (Ok (IErr InvalidData)) (Some rest)
| et_pass : forall o l r left, T o l r left -> (forall v, r <> value v) -> elias_table T o l r left.

(** Omega: [omega_at c v g] when the groups [g] bring the decoder to the number [v].  A group is a one and [v] more bits, high end
    first, counted in a [usize]; the number it brings has its top bit at position [v], counted in a [u32] and, without overflow checks,
    modulo 64. *)
Inductive omega_at (c : cfg) : N -> list bool -> Prop :=
| oa_one : omega_at c 1 []
| oa_group : forall v g h, omega_at c v g -> lengthN h = v mod 2 ^ ptr c -> (debug c = true -> v mod 2 ^ 32 < 64) ->
    omega_at c (N.lor (int_of (rev h) mod 2 ^ 64) (2 ^ (v mod 2 ^ 32 mod 64))) (g ++ true :: h).
Inductive omega_table (c : cfg) : table :=
| ot_value : forall o v g rest, omega_at c v g -> omega_table c o (g ++ false :: rest) (value v) (Some rest)
| ot_panic : forall o v g h rest, omega_at c v g -> debug c = true -> 64 <= v mod 2 ^ 32 -> lengthN h = v mod 2 ^ ptr c ->
    omega_table c o (g ++ true :: h ++ rest) (Panic POverflow) None
| ot_end : forall o v g, omega_at c v g -> omega_table c o g (Ok (stopped o (if v =? 1 then [] else [true]))) None
| ot_short : forall o v g h, omega_at c v g -> lengthN h < v mod 2 ^ ptr c -> omega_table c o (g ++ true :: h) (Ok (stopped o [true])) None.

(** Fibonacci: digits without adjacent ones, at most 91 of them, closed by a second one.  Input that ends after zeros only counts as the
    end of the data; the 92nd digit is refused. *)
Inductive fibonacci_table (c : cfg) : table :=
| ft_value : forall o z rest, (forall i, ~ (nthN z i = Some true /\ nthN z (i + 1) = Some true)) -> lengthN z <= 91 -> last z false = true ->
    fibonacci_table c o (z ++ true :: rest) (value (fib_sum 1 1 z)) (Some rest)
| ft_large : forall o z rest, (forall i, ~ (nthN z i = Some true /\ nthN z (i + 1) = Some true)) -> lengthN z = 92 -> (debug c = true -> fib_sum 1 1 z < 2 ^ 64) ->
    fibonacci_table c o (z ++ rest) (Ok (IErr InvalidData)) (Some rest)
| ft_panic : forall o z rest, (forall i, ~ (nthN z i = Some true /\ nthN z (i + 1) = Some true)) -> lengthN z = 92 -> debug c = true -> 2 ^ 64 <= fib_sum 1 1 z ->
    fibonacci_table c o (z ++ rest) (Panic POverflow) None
| ft_end : forall o z, (forall i, ~ (nthN z i = Some true /\ nthN z (i + 1) = Some true)) -> lengthN z <= 91 ->
    fibonacci_table c o z (Ok (stopped o (if forallb negb z then [] else z))) None.

(** Comma: groups of [n] bits, low end first, up to the group that says [2^n - 1]; the digits have that base.  A [u64] holds the base and
    the digits; without overflow checks it is [n] modulo 64 that gives the base. *)
Definition comma_top (n : N) : N := 2 ^ (n mod 64) - 1.
Definition comma_digits (n : N) (gs : list (list bool)) : Prop := Forall (fun g => lengthN g = n /\ int_of g mod 2 ^ 64 <> comma_top n) gs.
Definition comma_value (n : N) (gs : list (list bool)) : N := fold_left (fun a g => a * comma_top n + int_of g mod 2 ^ 64) gs 0.
Inductive comma_table (c : cfg) (n : N) : table :=
| ct_value : forall o gs g rest, comma_digits n gs -> (debug c = true -> n < 64 /\ comma_value n gs < 2 ^ 64) -> lengthN g = n -> int_of g mod 2 ^ 64 = comma_top n ->
    comma_table c n o (concat gs ++ g ++ rest) (value (comma_value n gs mod 2 ^ 64)) (Some rest)
| ct_panic : forall o gs rest, comma_digits n gs -> debug c = true -> n < 64 -> 2 ^ 64 <= comma_value n gs -> comma_table c n o (concat gs ++ rest) (Panic POverflow) None
| ct_end : forall o gs h, comma_digits n gs -> (debug c = true -> n < 64 /\ comma_value n gs < 2 ^ 64) -> lengthN h < n ->
    comma_table c n o (concat gs ++ h) (Ok (stopped o (concat gs ++ h))) None
| ct_wide : forall o l, debug c = true -> 64 <= n -> comma_table c n o l (Panic POverflow) None.

(** ** Loops *)
Definition ends {S L} (m : res (ioR (flow L (option N)) * S)) (r : res (ioR (option N))) (left : option (list bool)) (src : source S) (s' s'' : S) : Prop :=
  match r with
  | Ok (IOk x) => exists t, m = Ok (IOk (Return x), t) /\ match left with Some rest => reads src t rest s' | None => t = s'' end
  | Ok (IErr e) => exists t, m = Ok (IErr e, t) /\ match left with Some rest => reads src t rest s' | None => t = s'' end
  | Panic k => m = Panic k
  | OutOfFuel => False
  end.
Section Loop.
  Context {L : Type}.
  Variable body : forall S, source S -> L -> io S (flow L (option N)).
  Variable C : code.
  Variable x0 : L.
  Hypothesis HC : forall S (src : source S) fuel s, decode C src fuel s = loop_io fuel (body S src) x0 s.
  (** [g] leads from the start to [x] *)
  Definition leads (g : list bool) (x : L) : Prop := forall S (src : source S) fuel s t, (length g <= fuel)%nat -> reads src s g t ->
    exists m, (fuel - length g <= m)%nat /\ loop_io fuel (body S src) x0 s = loop_io m (body S src) x t.
  Lemma leads_nil : leads [] x0.
  Proof. intros S src fuel s t _ H. apply reads_nil_inv in H. subst. exists fuel. cbn [length]. split; [lia|reflexivity]. Qed.
  Lemma leads_step g x p x' : leads g x -> p <> [] ->
    (forall S (src : source S) s t, reads src s p t -> body S src x s = Ok (IOk (Continue x'), t)) -> leads (g ++ p) x'.
  Proof.
    intros HL Hp Hb S src fuel s t Hf H. rewrite app_length in Hf. apply reads_app in H. destruct H as (t1 & H1 & H2).
    destruct (HL S src fuel s t1 ltac:(lia) H1) as (m & Hm & E). rewrite E. destruct p as [|b p]; [congruence|]. cbn [length] in Hf.
    destruct m as [|m]; [lia|]. exists m. rewrite app_length. cbn [length]. split; [lia|]. cbn [loop_io]. unfold try_ at 1. rewrite (Hb _ src t1 t H2). reflexivity.
  Qed.
  Lemma leads_end g x o q r left : leads g x -> (forall S (src : source S) s s' s'', reads src s q s' -> stops src s' o s'' -> ends (body S src x s) r left src s' s'') ->
    answers C o (g ++ q) r left.
  Proof.
    intros HL HE fuel S src s s' s'' Hf H Ho. rewrite app_length in Hf. apply reads_app in H. destruct H as (t1 & H1 & H2).
    destruct (HL S src fuel s t1 ltac:(lia) H1) as (m & Hm & E). rewrite HC, E. specialize (HE S src t1 s' s'' H2 Ho).
    destruct m as [|m]; [lia|]. cbn [loop_io]. unfold try_ at 1 2. destruct r as [[v|e]|k|]; cbn [ends] in HE; [| | |exact HE].
    - destruct HE as (t & -> & Ht). exists t. split; [reflexivity|exact Ht].
    - destruct HE as (t & -> & Ht). exists t. split; [reflexivity|exact Ht].
    - rewrite HE. reflexivity.
  Qed.
End Loop.
Lemma answers_ext C o l r r' left left' : answers C o l r left -> r = r' -> left = left' -> answers C o l r' left'.
Proof. intros H -> ->. exact H. Qed.

(** ** Unary *)
Definition unary_body (c : cfg) S (src : source S) (st : N * bool) : io S (flow (N * bool) (option N)) :=
  let '(result, consumed) := st in
  try_ (read_bit src) (fun ob : option bool => match ob with
  | Some bit => if bit then ret (Return (Some result)) else try_ (lift (wadd c 64 result 1)) (fun r => ret (Continue (r, true)))
  | None => if consumed then fail UnexpectedEof else ret (Return None)
  end).
Lemma wadd_any c w a b : (debug c = true -> a + b < 2 ^ w) -> wadd c w a b = Ok ((a + b) mod 2 ^ w).
Proof.
  intros H. unfold wadd, wrap. destruct (a + b <? 2 ^ w) eqn:E; [rewrite N.mod_small by lia; reflexivity|].
  destruct (debug c); [specialize (H eq_refl); lia|reflexivity].
Qed.
Lemma wmul_any c w a b : (debug c = true -> a * b < 2 ^ w) -> wmul c w a b = Ok ((a * b) mod 2 ^ w).
Proof.
  intros H. unfold wmul, wrap. destruct (a * b <? 2 ^ w) eqn:E; [rewrite N.mod_small by lia; reflexivity|].
  destruct (debug c); [specialize (H eq_refl); lia|reflexivity].
Qed.
Lemma wadd_bad c w a b : debug c = true -> 2 ^ w <= a + b -> wadd c w a b = Panic POverflow.
Proof. intros H H1. unfold wadd, wrap. destruct (a + b <? 2 ^ w) eqn:E; [lia|]. now rewrite H. Qed.
Lemma wmul_bad c w a b : debug c = true -> 2 ^ w <= a * b -> wmul c w a b = Panic POverflow.
Proof. intros H H1. unfold wmul, wrap. destruct (a * b <? 2 ^ w) eqn:E; [lia|]. now rewrite H. Qed.
Lemma reads_1 {S} (src : source S) s b q s' : reads src s (b :: q) s' -> exists t, read_bit src s = Ok (IOk (Some b), t) /\ reads src t q s'.
Proof. intros H. apply reads_inv in H. exact H. Qed.
Lemma repeatN_snoc {A} (a : A) k : repeatN a (k + 1) = repeatN a k ++ [a].
Proof. unfold repeatN. rewrite N2Nat.inj_add, repeat_app. reflexivity. Qed.
Lemma unary_leads c k : (debug c = true -> k < 2 ^ 64) -> leads (unary_body c) (0, false) (repeatN false k) (k mod 2 ^ 64, negb (k =? 0)).
Proof.
  induction k as [|k IH] using N.peano_ind; intros Hk; [apply leads_nil|]. rewrite <- N.add_1_r in *. rewrite repeatN_snoc.
  eapply leads_step; [apply IH; intros H; specialize (Hk H); lia|discriminate|]. intros S src s t H. apply reads_1 in H. destruct H as (t1 & E & H). apply reads_nil_inv in H. subst t1.
  unfold unary_body. rewrite (try_ok _ _ _ _ _ E). rewrite (try_lift _ ((k + 1) mod 2 ^ 64)).
  - unfold ret. destruct (k + 1 =? 0) eqn:E0; [lia|]. reflexivity.
  - rewrite wadd_any; [rewrite N.add_mod_idemp_l by lia; reflexivity|]. intros Hd. specialize (Hk Hd). rewrite N.mod_small; lia.
Qed.
Lemma stops_cases {S} (src : source S) s o s'' : stops src s o s'' -> (o = IOk None /\ read_bit src s = Ok (IOk None, s'')) \/ (exists e, o = IErr e /\ read_bit src s = Ok (IErr e, s'')).
Proof. intros [E H]. destruct o as [[b|]|e]; [contradiction|left; auto|right; eauto]. Qed.
Lemma repeatN_nonempty {A} (a : A) k : k <> 0 -> exists t, repeatN a k = a :: t.
Proof. intros H. unfold repeatN. destruct (N.to_nat k) eqn:E; [lia|]. cbn [repeat]. eauto. Qed.
Lemma zeros_cases l : (exists k rest, l = repeatN false k ++ true :: rest) \/ (exists k, l = repeatN false k).
Proof.
  induction l as [|[] l IH]; [right; exists 0; reflexivity|left; exists 0, l; reflexivity|].
  assert (E : forall k, false :: repeatN false k = repeatN false (k + 1)) by (intros k; unfold repeatN; rewrite N2Nat.inj_add, Nat.add_comm; reflexivity).
  destruct IH as [(k & rest & ->)|(k & ->)]; [left; exists (k + 1), rest|right; exists (k + 1)]; now rewrite <- E.
Qed.
Lemma repeatN_add {A} (a : A) j k : repeatN a (j + k) = repeatN a j ++ repeatN a k.
Proof. unfold repeatN. now rewrite N2Nat.inj_add, repeat_app. Qed.
Theorem C83_unary : forall c, describes (unary_table c) (unary c).
Proof.
  intros c. split.
  - intros o l r left H. destruct H as [o k rest Hk|o rest Hd|o k Hk].
    + eapply (leads_end (unary_body c)); [reflexivity|apply unary_leads, Hk|]. intros S src s s' s'' H Ho. apply reads_1 in H. destruct H as (t & E & H).
      exists t. split; [|exact H]. unfold unary_body. rewrite (try_ok _ _ _ _ _ E). reflexivity.
    + change (2 ^ 64) with ((2 ^ 64 - 1) + 1). rewrite repeatN_snoc, <- app_assoc.
      eapply (leads_end (unary_body c)); [reflexivity|apply unary_leads; reflexivity|]. intros S src s s' s'' H Ho. cbn [app] in H. apply reads_1 in H. destruct H as (t & E & H).
      cbn [ends]. unfold unary_body. rewrite (try_ok _ _ _ _ _ E). unfold try_, lift. rewrite wadd_bad; [reflexivity|exact Hd|reflexivity || (cbn; lia)].
    + rewrite <- (app_nil_r (repeatN false k)) at 1. eapply (leads_end (unary_body c)); [reflexivity|apply unary_leads, Hk|]. intros S src s s' s'' H Ho. apply reads_nil_inv in H. subst s'.
      unfold unary_body. destruct (stops_cases _ _ _ _ Ho) as [[-> E]|(e & -> & E)].
      * rewrite (try_ok _ _ _ _ _ E). destruct (k =? 0) eqn:E0.
        -- assert (k = 0) as -> by lia. exists s''. split; reflexivity.
        -- destruct (repeatN_nonempty false k ltac:(lia)) as (w & ->). exists s''. split; reflexivity.
      * rewrite (try_err _ _ _ _ _ E). exists s''. split; reflexivity.
  - intros o l. destruct (debug c) eqn:Hd.
    2:{ destruct (zeros_cases l) as [(k & rest & ->)|(k & ->)]; do 2 eexists; [eapply ut_value|eapply ut_end]; congruence. }
    destruct (zeros_cases l) as [(k & rest & ->)|(k & ->)]; (destruct (k <? 2 ^ 64) eqn:E; [do 2 eexists; ((eapply ut_value + eapply ut_end); intros _; lia)|]).
    + replace k with (2 ^ 64 + (k - 2 ^ 64)) by lia. rewrite repeatN_add, <- app_assoc. do 2 eexists. eapply ut_panic. exact Hd.
    + replace k with (2 ^ 64 + (k - 2 ^ 64)) by lia. rewrite repeatN_add. do 2 eexists. eapply ut_panic. exact Hd.
Qed.

(** ** Lift0 and Elias *)
Lemma value_or r : (exists v, r = value v) \/ (forall v, r <> value v).
Proof. unfold value. destruct r as [[[v|]|e]|k|]; [left; eauto|right; congruence|right; congruence|right; congruence|right; congruence]. Qed.
(** The rows of a table say [Some rest] with every value. *)
Definition leaves (T : table) : Prop := forall o l v left, T o l (value v) left -> exists rest, left = Some rest.
Theorem C83_lift0 : forall c T C, leaves T -> describes T C -> describes (lift0_table c T) (lift0 c C).
Proof.
  intros c T C HT [H1 H2]. split.
  - intros o l r left H. destruct H as [o l v rest Hv HR|o l rest Hd HR|o l rest Hd HR|o l r left HR Hn]; intros fuel S src s s' s'' Hf Hr Ho;
      specialize (H1 _ _ _ _ HR fuel S src s s' s'' Hf Hr Ho); cbn [value] in *; cbn [decode lift0]; unfold lift0_decode.
    + destruct H1 as (t & E & Ht). exists t. split; [|exact Ht]. rewrite (try_ok _ _ _ _ _ E). rewrite (try_lift _ (v - 1)) by (apply wsub_ok; lia). reflexivity.
    + destruct H1 as (t & E & Ht). exists t. split; [|exact Ht]. rewrite (try_ok _ _ _ _ _ E). unfold try_, lift, wsub. rewrite Hd. reflexivity.
    + destruct H1 as (t & E & Ht). rewrite (try_ok _ _ _ _ _ E). unfold try_, lift, wsub. rewrite Hd. reflexivity.
    + destruct r as [[[v|]|e]|k|].
      * destruct (Hn v). reflexivity.
      * destruct H1 as (t & E & Ht). exists t. split; [|exact Ht]. rewrite (try_ok _ _ _ _ _ E). reflexivity.
      * destruct H1 as (t & E & Ht). exists t. split; [|exact Ht]. rewrite (try_err _ _ _ _ _ E). reflexivity.
      * unfold try_. rewrite H1. reflexivity.
      * exact H1.
  - intros o l. destruct (H2 o l) as (r & left & HR). destruct (value_or r) as [(v & ->)|Hn].
    + destruct (HT _ _ _ _ HR) as (rest & ->). destruct (N.eq_dec v 0) as [->|Hv].
      * destruct (debug c) eqn:Hd; do 2 eexists; [eapply lt_panic|eapply lt_zero]; eauto.
      * do 2 eexists. eapply lt_value; [|exact HR]. lia.
    + do 2 eexists. eapply lt_pass; eauto.
Qed.
Lemma usize_small c n : wf_cfg c -> n <= 63 -> as_usize c n = n.
Proof. intros [H|H] Hn; unfold as_usize; rewrite H; apply N.mod_small; [change (2 ^ 32) with 4294967296|change (2 ^ 64) with 18446744073709551616]; lia. Qed.
Lemma int_of_lt h : int_of h < 2 ^ lengthN h.
Proof. rewrite <- (bits_of_int_of h) at 1. rewrite int_of_bits_of. apply N.mod_lt. pose proof (pow2_pos (lengthN h)). lia. Qed.
Lemma int_of_small n h : n <= 63 -> lengthN h = n -> int_of h mod 2 ^ 64 = int_of h.
Proof. intros H1 H2. apply N.mod_small. pose proof (int_of_lt h). rewrite H2 in H. assert (2 ^ n < 2 ^ 64) by (apply N.pow_lt_mono_r; lia). lia. Qed.
Lemma lor_top n h : lengthN h = n -> N.lor (int_of h) (2 ^ n) = int_of h + 2 ^ n.
Proof.
  intros H. pose proof (int_of_lt h) as Hl. rewrite H in Hl. symmetry. rewrite <- (N.lxor_lor (int_of h) (2 ^ n)).
  - apply N.add_nocarry_lxor. apply N.bits_inj. intros i. rewrite N.land_spec, N.bits_0. destruct (N.eq_dec i n) as [->|Hi].
    + rewrite (proj2 (N.testbit_false (int_of h) n)); [reflexivity|]. rewrite N.div_small by exact Hl. reflexivity.
    + rewrite N.pow2_bits_false by congruence. apply andb_false_r.
  - apply N.bits_inj. intros i. rewrite N.land_spec, N.bits_0. destruct (N.eq_dec i n) as [->|Hi].
    + rewrite (proj2 (N.testbit_false (int_of h) n)); [reflexivity|]. rewrite N.div_small by exact Hl. reflexivity.
    + rewrite N.pow2_bits_false by congruence. apply andb_false_r.
Qed.
Theorem C83_elias : forall c T C, wf_cfg c -> leaves T -> describes T C -> describes (elias_table T) (elias c C).
Proof.
  intros c T C Hc HT [H1 H2]. split.
  - intros o l r left H. destruct H as [o l n h rest HR Hn Hh|o l n h HR Hn Hh|o l n rest HR Hn|o l r left HR Hn]; intros fuel S src s s' s'' Hf Hr Ho;
      specialize (H1 _ _ _ _ HR fuel S src s s' s'' Hf Hr Ho); cbn [value] in *; cbn [decode elias]; unfold elias_decode.
    + destruct H1 as (t & E & Ht). apply reads_app in Ht. destruct Ht as (t2 & Ht1 & Ht2). exists t2. split; [|exact Ht2]. rewrite (try_ok _ _ _ _ _ E).
      destruct (63 <? n) eqn:E1; [lia|]. rewrite usize_small by assumption.
      rewrite (try_ok _ _ _ _ _ (read_int_ok c src 64 ltac:(lia) n h t t2 Hh Ht1)). rewrite (int_of_small n) by assumption.
      rewrite (try_lift _ (2 ^ n)).
      * rewrite lor_top by exact Hh. reflexivity.
      * rewrite wshl_ok by lia. rewrite N.shiftl_1_l. f_equal. apply N.mod_small. apply N.pow_lt_mono_r; lia.
    + destruct H1 as (t & E & Ht). exists s''. rewrite (try_ok _ _ _ _ _ E). destruct (63 <? n) eqn:E1; [lia|]. rewrite usize_small by assumption.
      pose proof (read_int_stop c src 64 ltac:(lia) n h t s' o s'' Hh Ht Ho) as E2. destruct (stops_cases _ _ _ _ Ho) as [[-> _]|(e & -> & _)].
      * destruct h as [|b h]; cbn [stopped] in *; [rewrite (try_ok _ _ _ _ _ E2)|rewrite (try_err _ _ _ _ _ E2)]; split; reflexivity.
      * cbn [stopped] in *. rewrite (try_err _ _ _ _ _ E2). split; reflexivity.
    + destruct H1 as (t & E & Ht). exists t. split; [|exact Ht]. rewrite (try_ok _ _ _ _ _ E). destruct (63 <? n) eqn:E1; [reflexivity|lia].
    + destruct r as [[[v|]|e]|k|].
      * destruct (Hn v). reflexivity.
      * destruct H1 as (t & E & Ht). exists t. split; [|exact Ht]. rewrite (try_ok _ _ _ _ _ E). reflexivity.
      * destruct H1 as (t & E & Ht). exists t. split; [|exact Ht]. rewrite (try_err _ _ _ _ _ E). reflexivity.
      * unfold try_. rewrite H1. reflexivity.
      * exact H1.
  - intros o l. destruct (H2 o l) as (r & left & HR). destruct (value_or r) as [(v & ->)|Hn].
    + destruct (HT _ _ _ _ HR) as (rest & ->). destruct (63 <? v) eqn:E1.
      * do 2 eexists. eapply et_large; [exact HR|lia].
      * destruct (lengthN rest <? v) eqn:E2.
        -- do 2 eexists. eapply et_short; [exact HR|lia|lia].
        -- rewrite <- (firstn_skipnN v rest) in HR. do 2 eexists. eapply et_value; [exact HR|lia|]. rewrite lengthN_firstnN. lia.
    + do 2 eexists. eapply et_pass; eauto.
Qed.

(** ** Omega *)
Lemma wshl1_any c k : (debug c = true -> k < 64) -> wshl c 64 1 k = Ok (2 ^ (k mod 64)).
Proof.
  intros H. assert (Hm : 2 ^ (k mod 64) < 2 ^ 64) by (apply N.pow_lt_mono_r; [lia|]; apply N.mod_lt; lia).
  unfold wshl. destruct (k <? 64) eqn:E; [|destruct (debug c) eqn:Hd; [specialize (H eq_refl); lia|]]; rewrite N.shiftl_1_l.
  - rewrite (N.mod_small k 64) in * by lia. rewrite N.mod_small by exact Hm. reflexivity.
  - rewrite N.mod_small by exact Hm. reflexivity.
Qed.
Lemma omega_leads c v g : omega_at c v g -> leads (fun S => @omega_body c S) 1 g v.
Proof.
  induction 1 as [|v g h HG IH Hh Hs]; [apply leads_nil|]. eapply leads_step; [exact IH|discriminate|]. intros S src s t H.
  apply reads_1 in H. destruct H as (t1 & E & H). unfold omega_body. rewrite (try_ok _ _ _ _ _ E). cbn [negb].
  rewrite (try_ok _ _ _ _ _ (read_int_be_ok c src 64 ltac:(lia) (as_usize c v) h t1 t Hh H)).
  rewrite (try_lift _ (2 ^ (v mod 2 ^ 32 mod 64))) by (apply wshl1_any; exact Hs). reflexivity.
Qed.
Theorem C83_omega : forall c, describes (omega_table c) (omega c).
Proof.
  intros c. split.
  - intros o l r left H. destruct H as [o v g rest HG|o v g h rest HG Hd Hv Hh|o v g HG|o v g h HG Hh].
    + eapply (leads_end (fun S => @omega_body c S)); [reflexivity|apply omega_leads, HG|]. intros S src s s' s'' H Ho. apply reads_1 in H. destruct H as (t & E & H).
      exists t. split; [|exact H]. unfold omega_body. rewrite (try_ok _ _ _ _ _ E). reflexivity.
    + eapply (leads_end (fun S => @omega_body c S)); [reflexivity|apply omega_leads, HG|]. intros S src s s' s'' H Ho. apply reads_1 in H. destruct H as (t & E & H).
      apply reads_app in H. destruct H as (t2 & H & H3). cbn [ends]. unfold omega_body. rewrite (try_ok _ _ _ _ _ E). cbn [negb].
      rewrite (try_ok _ _ _ _ _ (read_int_be_ok c src 64 ltac:(lia) (as_usize c v) h t t2 Hh H)). unfold try_, lift, wshl.
      destruct (v mod 2 ^ 32 <? 64) eqn:E1; [lia|]. rewrite Hd. reflexivity.
    + rewrite <- (app_nil_r g). eapply (leads_end (fun S => @omega_body c S)); [reflexivity|apply omega_leads, HG|]. intros S src s s' s'' H Ho. apply reads_nil_inv in H. subst s'.
      unfold omega_body. destruct (stops_cases _ _ _ _ Ho) as [[-> E]|(e & -> & E)].
      * rewrite (try_ok _ _ _ _ _ E). destruct (v =? 1); exists s''; split; reflexivity.
      * rewrite (try_err _ _ _ _ _ E). exists s''. split; reflexivity.
    + eapply (leads_end (fun S => @omega_body c S)); [reflexivity|apply omega_leads, HG|]. intros S src s s' s'' H Ho. apply reads_1 in H. destruct H as (t & E & H).
      unfold omega_body. rewrite (try_ok _ _ _ _ _ E). cbn [negb].
      pose proof (read_int_be_stop c src 64 ltac:(lia) (as_usize c v) h t s' o s'' Hh H Ho) as E2. destruct (stops_cases _ _ _ _ Ho) as [[-> _]|(e & -> & _)].
      * destruct h as [|b h]; cbn [stopped] in E2; [rewrite (try_ok _ _ _ _ _ E2)|rewrite (try_err _ _ _ _ _ E2)]; exists s''; split; reflexivity.
      * cbn [stopped] in E2. rewrite (try_err _ _ _ _ _ E2). exists s''; split; reflexivity.
  - intros o l.
    assert (HX : forall n q v g, (length q <= n)%nat -> omega_at c v g -> exists r left, omega_table c o (g ++ q) r left).
    { induction n as [|n IH]; intros q v g Hq HG; (destruct q as [|[] q]; [rewrite app_nil_r; do 2 eexists; eapply ot_end, HG| |do 2 eexists; eapply ot_value, HG]); cbn [length] in Hq; [lia|].
      destruct (lengthN q <? v mod 2 ^ ptr c) eqn:E; [do 2 eexists; eapply ot_short; [exact HG|lia]|].
      assert (Hh : lengthN (firstnN (v mod 2 ^ ptr c) q) = v mod 2 ^ ptr c) by (rewrite lengthN_firstnN; lia).
      rewrite <- (firstn_skipnN (v mod 2 ^ ptr c) q). destruct (debug c && (64 <=? v mod 2 ^ 32)) eqn:E1.
      - apply andb_true_iff in E1. destruct E1 as [Hd E1]. do 2 eexists. eapply ot_panic; [exact HG|exact Hd|lia|exact Hh].
      - replace (g ++ true :: firstnN (v mod 2 ^ ptr c) q ++ skipnN (v mod 2 ^ ptr c) q) with ((g ++ true :: firstnN (v mod 2 ^ ptr c) q) ++ skipnN (v mod 2 ^ ptr c) q) by (rewrite <- app_assoc; reflexivity).
        eapply IH; [|eapply oa_group; [exact HG|exact Hh|]].
        + pose proof (f_equal lengthN (firstn_skipnN (v mod 2 ^ ptr c) q)) as El. rewrite lengthN_app in El. unfold lengthN in El. lia.
        + intros Hd. rewrite Hd in E1. cbn [andb] in E1. lia. }
    exact (HX (length l) l 1 [] (le_n _) (oa_one c)).
Qed.

(** ** Fibonacci *)
Lemma fib_leads c z : no_adjacent z -> (length z <= 91)%nat -> leads (fun S => @fib_body c S) (0, fibp 0, false) z (fsum 0 z, fibp (length z), last z false).
Proof.
  induction z as [|y z IH] using rev_ind; intros Hz Hl; [apply leads_nil|]. rewrite app_length in *. cbn [length] in *.
  pose proof (no_adjacent_prefix _ _ Hz) as Hz'.
  assert (Ey : y && last z false = false).
  { destruct y; [|reflexivity]. destruct z as [|w z _] using rev_ind; [reflexivity|]. rewrite last_last. destruct w; [|reflexivity]. exfalso.
    rewrite <- app_assoc in Hz. apply (Hz (lengthN z)). cbn [app]. split; rewrite nthN_app_r by lia; [replace (lengthN z - lengthN z) with 0 by lia|replace (lengthN z + 1 - lengthN z) with 1 by lia]; reflexivity. }
  eapply leads_step; [apply IH; [exact Hz'|lia]|discriminate|]. intros S src s t H. apply reads_1 in H. destruct H as (t1 & E & H). apply reads_nil_inv in H. subst t1.
  assert (Efs : fsum 0 (z ++ [y]) = fsum 0 z + (if y then fi (fibp (length z)) else 0)) by (rewrite fsum_app, fsum_cons, fsum_nil; cbn [Nat.add]; lia).
  assert (Hb : fsum 0 (z ++ [y]) < 2 ^ 64).
  { destruct (fsum_bound _ Hz) as [Hb _]. rewrite app_length in Hb. cbn [length] in Hb. pose proof (fibp_small (length z + 1) ltac:(lia)). lia. }
  unfold fib_body. rewrite (try_ok _ _ _ _ _ E). rewrite Ey. rewrite (try_lift _ (fsum 0 (z ++ [y]))).
  - unfold try_, lift_io. rewrite fib_next_ok by lia. cbn [bind]. unfold ret. rewrite last_last, Nat.add_1_r. reflexivity.
  - rewrite Efs in *. destruct y; [apply wadd_ok; lia|f_equal; lia].
Qed.
Lemma fsum_fib z : fsum 0 z = fib_sum 1 1 z.
Proof. reflexivity. Qed.
Lemma fsum_zero k z : (fsum k z =? 0) = forallb negb z.
Proof.
  revert k. induction z as [|b z IH]; intros k; [reflexivity|]. rewrite fsum_cons. cbn [forallb]. rewrite <- (IH (Datatypes.S k)). pose proof (fibp_pos k).
  destruct b; cbn [negb andb]; [|f_equal; lia]. destruct (fi (fibp k) + fsum (Datatypes.S k) z =? 0) eqn:E; [lia|reflexivity].
Qed.
Lemma snoc_of {A} (z : list A) : z <> [] -> exists z' y, z = z' ++ [y].
Proof. intros H. destruct z as [|y z _] using rev_ind; [congruence|]. eauto. Qed.
Lemma adjacent_last z y : no_adjacent (z ++ [y]) -> y && last z false = false.
Proof.
  intros Hz. destruct y; [|reflexivity]. destruct z as [|w z _] using rev_ind; [reflexivity|]. rewrite last_last. destruct w; [|reflexivity]. exfalso.
  rewrite <- app_assoc in Hz. apply (Hz (lengthN z)). cbn [app]. split; rewrite nthN_app_r by lia; [replace (lengthN z - lengthN z) with 0 by lia|replace (lengthN z + 1 - lengthN z) with 1 by lia]; reflexivity.
Qed.
Theorem C83_fibonacci : forall c, describes (fibonacci_table c) (fibonacci c).
Proof.
  intros c. split.
  - assert (H92 : forall z, no_adjacent z -> lengthN z = 92 -> exists z' y, z = z' ++ [y] /\ length z' = 91%nat /\ leads (fun S => @fib_body c S) (0, fibp 0, false) z' (fsum 0 z', fibp 91, last z' false) /\
        y && last z' false = false /\ fsum 0 z = fsum 0 z' + (if y then fi (fibp 91) else 0) /\ fsum 0 z' < 2 ^ 64).
    { intros z Hz Hl. destruct (snoc_of z) as (z' & y & ->); [intros ->; discriminate|]. exists z', y. rewrite lengthN_app in Hl. assert (Hl' : length z' = 91%nat) by (unfold lengthN in Hl; cbn [length] in Hl; lia).
      split; [reflexivity|]. split; [exact Hl'|]. pose proof (no_adjacent_prefix _ _ Hz) as Hz'. rewrite <- Hl'. split; [apply fib_leads; [exact Hz'|lia]|]. split; [now apply adjacent_last|].
      split; [rewrite fsum_app, fsum_cons, fsum_nil; cbn [Nat.add]; lia|]. destruct (fsum_bound _ Hz') as [Hb _]. pose proof (fibp_small (length z') ltac:(lia)). lia. }
    intros o l r left H. destruct H as [o z rest Hz Hl Hlast|o z rest Hz Hl Hs|o z rest Hz Hl Hd Hs|o z Hz Hl].
    + eapply (leads_end (fun S => @fib_body c S)); [reflexivity|apply fib_leads; [exact Hz|unfold lengthN in Hl; lia]|]. intros S src s s' s'' H Ho. apply reads_1 in H. destruct H as (t & E & H).
      exists t. split; [|exact H]. unfold fib_body. rewrite (try_ok _ _ _ _ _ E). rewrite Hlast. reflexivity.
    + destruct (H92 z Hz Hl) as (z' & y & Ez & Hl' & HL & Hy & Efs & Hb). rewrite <- fsum_fib in Hs. rewrite Efs in Hs. rewrite Ez, <- app_assoc.
      eapply (leads_end (fun S => @fib_body c S)); [reflexivity|exact HL|]. intros S src s s' s'' H Ho. cbn [app] in H. apply reads_1 in H. destruct H as (t & E & H).
      exists t. split; [|exact H]. unfold fib_body. rewrite (try_ok _ _ _ _ _ E). rewrite Hy.
      rewrite (try_lift _ ((fsum 0 z' + (if y then fi (fibp 91) else 0)) mod 2 ^ 64)).
      * unfold try_, lift_io. rewrite fib_next_91. reflexivity.
      * destruct y; [apply wadd_any; exact Hs|]. rewrite N.add_0_r, N.mod_small by exact Hb. reflexivity.
    + destruct (H92 z Hz Hl) as (z' & y & Ez & Hl' & HL & Hy & Efs & Hb). rewrite <- fsum_fib in Hs. rewrite Efs in Hs. rewrite Ez, <- app_assoc.
      eapply (leads_end (fun S => @fib_body c S)); [reflexivity|exact HL|]. intros S src s s' s'' H Ho. cbn [app] in H. apply reads_1 in H. destruct H as (t & E & H).
      cbn [ends]. unfold fib_body. rewrite (try_ok _ _ _ _ _ E). rewrite Hy. destruct y; [|lia]. unfold try_, lift. rewrite wadd_bad by assumption. reflexivity.
    + rewrite <- (app_nil_r z) at 1. eapply (leads_end (fun S => @fib_body c S)); [reflexivity|apply fib_leads; [exact Hz|unfold lengthN in Hl; lia]|]. intros S src s s' s'' H Ho. apply reads_nil_inv in H. subst s'.
      unfold fib_body. destruct (stops_cases _ _ _ _ Ho) as [[-> E]|(e & -> & E)].
      * rewrite (try_ok _ _ _ _ _ E). rewrite fsum_zero. destruct (forallb negb z) eqn:E0; [exists s''; split; reflexivity|]. destruct z as [|b z]; [discriminate|]. exists s''; split; reflexivity.
      * rewrite (try_err _ _ _ _ _ E). exists s''. split; reflexivity.
  - intros o l.
    assert (HX : forall n q z, (length q <= n)%nat -> no_adjacent z -> lengthN z <= 91 -> exists r left, fibonacci_table c o (z ++ q) r left).
    { induction n as [|n IH]; intros q z Hq Hz Hl; (destruct q as [|y q]; [rewrite app_nil_r; do 2 eexists; eapply ft_end; assumption|]); cbn [length] in Hq; [lia|].
      destruct (y && last z false) eqn:Ey.
      - apply andb_true_iff in Ey. destruct Ey as [-> Ey]. do 2 eexists. eapply ft_value; eassumption.
      - assert (Hna : no_adjacent (z ++ [y])) by (apply no_adjacent_snoc; [exact Hz|]; intros ->; exact Ey).
        replace (z ++ y :: q) with ((z ++ [y]) ++ q) by (rewrite <- app_assoc; reflexivity). destruct (lengthN z =? 91) eqn:E91.
        + assert (Hl92 : lengthN (z ++ [y]) = 92) by (rewrite lengthN_app; change (lengthN [y]) with 1; lia).
          destruct (debug c && (2 ^ 64 <=? fib_sum 1 1 (z ++ [y]))) eqn:E1.
          * apply andb_true_iff in E1. destruct E1 as [Hd E1]. do 2 eexists. eapply ft_panic; [exact Hna|exact Hl92|exact Hd|lia].
          * do 2 eexists. eapply ft_large; [exact Hna|exact Hl92|]. intros Hd. rewrite Hd in E1. cbn [andb] in E1. lia.
        + apply IH; [lia|exact Hna|]. rewrite lengthN_app. change (lengthN [y]) with 1. lia. }
    exact (HX (length l) l [] (le_n _) no_adjacent_nil ltac:(rewrite lengthN_nil; lia)).
Qed.

(** ** Comma *)
Definition comma_loop (c : cfg) (n : N) S (src : source S) (st : N * bool) : io S (flow (N * bool) (option N)) :=
  let '(result, consumed) := st in
  try_ (read_int c src 64 n) (fun o : option N => match o with
  | Some digit => if digit =? comma_top n then ret (Return (Some result))
      else try_ (lift (wmul c 64 result (comma_top n))) (fun m => try_ (lift (wadd c 64 m digit)) (fun r => ret (Continue (r, true))))
  | None => if consumed then fail UnexpectedEof else ret (Return None)
  end).
Lemma comma_base_any c n : (debug c = true -> n < 64) -> comma_base c n = Ok (comma_top n).
Proof.
  intros H. unfold comma_base. rewrite wshl1_any by exact H. cbn [bind]. apply wsub_ok. pose proof (pow2_pos (n mod 64)). lia.
Qed.
Lemma comma_value_snoc n gs g : comma_value n (gs ++ [g]) = comma_value n gs * comma_top n + int_of g mod 2 ^ 64.
Proof. unfold comma_value. now rewrite fold_left_app. Qed.
Lemma comma_value_mono n gs g : 1 <= comma_top n -> comma_value n gs <= comma_value n (gs ++ [g]).
Proof. intros H. rewrite comma_value_snoc. set (a := comma_value n gs). set (b := comma_top n) in *. set (d := int_of g mod 2 ^ 64). clearbody a b d. nia. Qed.
Lemma concat_snoc {A} (gs : list (list A)) g : concat (gs ++ [g]) = concat gs ++ g.
Proof. rewrite concat_app. cbn [concat]. now rewrite app_nil_r. Qed.
Lemma comma_digit c n g r b : lengthN g = n -> int_of g mod 2 ^ 64 <> comma_top n ->
  (debug c = true -> r * comma_top n + int_of g mod 2 ^ 64 < 2 ^ 64) ->
  forall S (src : source S) s t, reads src s g t -> comma_loop c n S src (r, b) s = Ok (IOk (Continue ((r * comma_top n + int_of g mod 2 ^ 64) mod 2 ^ 64, true)), t).
Proof.
  intros Hg Hd Hr S src s t H. unfold comma_loop. rewrite (try_ok _ _ _ _ _ (read_int_ok c src 64 ltac:(lia) n g s t Hg H)).
  destruct (int_of g mod 2 ^ 64 =? comma_top n) eqn:E; [lia|]. rewrite (try_lift _ ((r * comma_top n) mod 2 ^ 64)) by (apply wmul_any; intros H1; specialize (Hr H1); lia).
  rewrite (try_lift _ ((r * comma_top n + int_of g mod 2 ^ 64) mod 2 ^ 64)); [reflexivity|].
  rewrite wadd_any; [rewrite N.add_mod_idemp_l by lia; reflexivity|]. intros H1. specialize (Hr H1). rewrite (N.mod_small (r * comma_top n)); lia.
Qed.
Lemma comma_leads c n gs : comma_digits n gs -> (debug c = true -> n < 64 /\ comma_value n gs < 2 ^ 64) ->
  leads (comma_loop c n) (0, false) (concat gs) (comma_value n gs mod 2 ^ 64, match gs with [] => false | _ => true end).
Proof.
  induction gs as [|g gs IH] using rev_ind; intros HF Hv; [apply leads_nil|]. unfold comma_digits in HF. apply Forall_app in HF. destruct HF as [HF Hg].
  inversion Hg as [|? ? [Hgl Hgd] _]; subst x l. rewrite concat_snoc.
  assert (Hn0 : n <> 0) by (intros ->; destruct g; [|discriminate]; apply Hgd; reflexivity).
  assert (Ht : debug c = true -> 1 <= comma_top n).
  { intros H. destruct (Hv H) as [H1 _]. unfold comma_top. rewrite N.mod_small by exact H1. assert (2 ^ 1 <= 2 ^ n) by (apply N.pow_le_mono_r; lia). change (2 ^ 1) with 2 in *. lia. }
  assert (Hv' : debug c = true -> n < 64 /\ comma_value n gs < 2 ^ 64).
  { intros H. pose proof (comma_value_mono n gs g (Ht H)). specialize (Hv H). split; lia. }
  eapply leads_step; [exact (IH HF Hv')|intros ->; rewrite lengthN_nil in Hgl; congruence|]. intros S src s t H.
  rewrite (comma_digit c n g _ _ Hgl Hgd) with (t := t); [|intros Hd; destruct (Hv' Hd) as [_ H1], (Hv Hd) as [_ H2]; rewrite comma_value_snoc in H2; rewrite (N.mod_small _ _ H1); exact H2|exact H].
  rewrite comma_value_snoc. do 5 f_equal; [|destruct gs; reflexivity].
  rewrite <- (N.add_mod_idemp_l (_ * _)), N.mul_mod_idemp_l, N.add_mod_idemp_l by lia. reflexivity.
Qed.
Theorem C83_comma : forall c n, describes (comma_table c n) (comma c n).
Proof.
  intros c n. destruct (debug c && (64 <=? n)) eqn:EW.
  { apply andb_true_iff in EW. destruct EW as [Hd Hn]. split.
    - intros o l r left H. assert (E : r = Panic POverflow).
      { destruct H as [o gs g rest HF Hv| | |]; try reflexivity; [specialize (Hv Hd); lia|]. specialize (H0 Hd). lia. }
      subst r. intros fuel S src s s' s'' _ _ _. cbn [decode comma]. unfold comma_decode, comma_base. unfold try_, lift, wshl. destruct (n <? 64) eqn:E; [lia|]. rewrite Hd. reflexivity.
    - intros o l. do 2 eexists. eapply ct_wide; [exact Hd|lia]. }
  assert (HW : debug c = true -> n < 64) by (intros Hd; rewrite Hd in EW; cbn [andb] in EW; lia).
  assert (HC : forall S (src : source S) fuel s, decode (comma c n) src fuel s = loop_io fuel (comma_loop c n S src) (0, false) s).
  { intros S src fuel s. cbn [decode comma]. unfold comma_decode. rewrite (try_lift _ _ _ _ (comma_base_any c n HW)). reflexivity. }
  split.
  - intros o l r left H. destruct H as [o gs g rest HF Hv Hg Hgt|o gs rest HF Hd Hn Hv|o gs h HF Hv Hh|o l Hd Hn].
    + eapply (leads_end (comma_loop c n)); [exact HC|apply comma_leads; assumption|]. intros S src s s' s'' H Ho. apply reads_app in H. destruct H as (t & H1 & H2).
      exists t. split; [|exact H2]. unfold comma_loop. rewrite (try_ok _ _ _ _ _ (read_int_ok c src 64 ltac:(lia) n g s t Hg H1)). rewrite Hgt, N.eqb_refl. reflexivity.
    + revert rest. induction gs as [|g gs IH] using rev_ind; intros rest; [change (comma_value n []) with 0 in Hv; lia|].
      unfold comma_digits in HF. apply Forall_app in HF. destruct HF as [HF Hg]. inversion Hg as [|? ? [Hgl Hgd] _]; subst x l. rewrite concat_snoc, <- app_assoc.
      destruct (comma_value n gs <? 2 ^ 64) eqn:E; [|apply IH; [exact HF|lia]]. rewrite comma_value_snoc in Hv.
      eapply (leads_end (comma_loop c n)); [exact HC|apply comma_leads; [exact HF|intros _; split; [exact Hn|lia]]|]. intros S src s s' s'' H Ho. apply reads_app in H. destruct H as (t & H1 & H2).
      cbn [ends]. unfold comma_loop. rewrite (try_ok _ _ _ _ _ (read_int_ok c src 64 ltac:(lia) n g s t Hgl H1)).
      destruct (int_of g mod 2 ^ 64 =? comma_top n) eqn:E1; [lia|]. rewrite (N.mod_small (comma_value n gs)) by lia.
      destruct (comma_value n gs * comma_top n <? 2 ^ 64) eqn:E2.
      * rewrite (try_lift _ (comma_value n gs * comma_top n)) by (apply wmul_ok; lia). unfold try_, lift. rewrite wadd_bad by (try exact Hd; lia). reflexivity.
      * unfold try_, lift. rewrite wmul_bad by (try exact Hd; lia). reflexivity.
    + eapply (leads_end (comma_loop c n)); [exact HC|apply comma_leads; assumption|]. intros S src s s' s'' H Ho. unfold comma_loop.
      pose proof (read_int_stop c src 64 ltac:(lia) n h s s' o s'' Hh H Ho) as E2.
      assert (Hne : gs <> [] -> exists b w, concat gs = b :: w).
      { intros Hgs. destruct gs as [|g gs]; [congruence|]. inversion HF as [|? ? [Hgl Hgd] _]; subst x l. cbn [concat]. destruct g as [|b g]; [rewrite lengthN_nil in Hgl; lia|]. cbn [app]. eauto. }
      destruct (stops_cases _ _ _ _ Ho) as [[-> _]|(e & -> & _)].
      * destruct h as [|b h]; cbn [stopped] in E2.
        -- rewrite (try_ok _ _ _ _ _ E2). destruct gs as [|g gs]; [exists s''; split; reflexivity|]. destruct Hne as (b & w & ->); [congruence|]. exists s''. split; reflexivity.
        -- rewrite (try_err _ _ _ _ _ E2). destruct (concat gs); exists s''; split; reflexivity.
      * cbn [stopped] in *. rewrite (try_err _ _ _ _ _ E2). exists s''. split; reflexivity.
    + specialize (HW Hd). lia.
  - intros o l.
    assert (HX : forall k q gs, (length q <= k)%nat -> comma_digits n gs -> (debug c = true -> n < 64 /\ comma_value n gs < 2 ^ 64) -> exists r left, comma_table c n o (concat gs ++ q) r left).
    { induction k as [|k IH]; intros q gs Hq HF Hv; (destruct (lengthN q <? n) eqn:E; [do 2 eexists; eapply ct_end; [exact HF|exact Hv|lia]|]);
        assert (Hg : lengthN (firstnN n q) = n) by (rewrite lengthN_firstnN; lia);
        rewrite <- (firstn_skipnN n q); (destruct (int_of (firstnN n q) mod 2 ^ 64 =? comma_top n) eqn:E1; [do 2 eexists; eapply ct_value; [exact HF|exact Hv|exact Hg|lia]|]);
        assert (HF' : comma_digits n (gs ++ [firstnN n q])) by (apply Forall_app; split; [exact HF|]; constructor; [split; [exact Hg|lia]|constructor]);
        rewrite app_assoc, <- concat_snoc; (destruct (debug c && (2 ^ 64 <=? comma_value n (gs ++ [firstnN n q]))) eqn:E2;
          [apply andb_true_iff in E2; destruct E2 as [Hd E2]; do 2 eexists; eapply ct_panic; [exact HF'|exact Hd|auto|lia]|]);
        assert (Hv' : debug c = true -> n < 64 /\ comma_value n (gs ++ [firstnN n q]) < 2 ^ 64) by (intros Hd; split; [auto|]; rewrite Hd in E2; cbn [andb] in E2; lia).
      - assert (n = 0) by (destruct q; [|cbn [length] in Hq; lia]; rewrite lengthN_nil in E; lia). subst n. destruct q; [|cbn [length] in Hq; lia]. vm_compute in E1. discriminate.
      - apply IH; [|exact HF'|exact Hv']. destruct (N.eq_dec n 0) as [->|Hn0].
        + exfalso. assert (firstnN 0 q = []) as Eq by (destruct q; reflexivity). rewrite Eq in E1. vm_compute in E1. discriminate.
        + pose proof (f_equal lengthN (firstn_skipnN n q)) as El. rewrite lengthN_app in El. unfold lengthN in *. lia. }
    refine (HX (length l) l [] (le_n _) _ _); [constructor|]. intros Hd. split; [auto|]. reflexivity.
Qed.

(** ** The tables of the composite codes *)
Lemma stopped_not_value o p v : Ok (stopped o p) <> value v.
Proof. unfold stopped, value. destruct o as [?|?]; [destruct p|]; discriminate. Qed.
Ltac by_rows := let E := fresh in let H := fresh in intros o l v left H; remember (value v) as r eqn:E; destruct H;
  try (eexists; reflexivity); exfalso; solve [discriminate E|eapply stopped_not_value; exact E|match goal with K : forall v, _ <> _ |- _ => exact (K _ E) end].
Lemma leaves_unary c : leaves (unary_table c).
Proof. by_rows. Qed.
Lemma leaves_lift0 c T : leaves (lift0_table c T).
Proof. by_rows. Qed.
Lemma leaves_elias T : leaves (elias_table T).
Proof. by_rows. Qed.
Lemma leaves_omega c : leaves (omega_table c).
Proof. by_rows. Qed.
Lemma leaves_fibonacci c : leaves (fibonacci_table c).
Proof. by_rows. Qed.
Lemma leaves_comma c n : leaves (comma_table c n).
Proof. by_rows. Qed.

(** Every code that can be put together from the library's codes has a table. *)
Theorem C83_every_code : forall c C, wf_cfg c -> any_code c C -> exists T, leaves T /\ describes T C.
Proof.
  intros c C Hc. induction 1 as [| | |n|C HC (T & HT & HD)|C HC (T & HT & HD)].
  - exists (unary_table c). split; [apply leaves_unary|apply C83_unary].
  - exists (omega_table c). split; [apply leaves_omega|apply C83_omega].
  - exists (fibonacci_table c). split; [apply leaves_fibonacci|apply C83_fibonacci].
  - exists (comma_table c n). split; [apply leaves_comma|apply C83_comma].
  - exists (lift0_table c T). split; [apply leaves_lift0|now apply C83_lift0].
  - exists (elias_table T). split; [apply leaves_elias|now apply C83_elias].
Qed.
Theorem C83_gamma : forall c, wf_cfg c -> describes (elias_table (unary_table c)) (gamma c).
Proof. intros c Hc. apply C83_elias; [exact Hc|apply leaves_unary|apply C83_unary]. Qed.
Theorem C83_delta : forall c, wf_cfg c -> describes (elias_table (lift0_table c (elias_table (unary_table c)))) (delta c).
Proof.
  intros c Hc. apply C83_elias; [exact Hc|apply leaves_lift0|]. apply C83_lift0; [apply leaves_elias|now apply C83_gamma].
Qed.
(** Rows do not contradict one another: the table of a code is a function of the bits and of how the source stops. *)
Lemma reads_list_source o t w t' : match o with IOk (Some _) => False | _ => True end -> reads (list_source o) t w t' -> t = w ++ t'.
Proof.
  intros Ho. induction 1 as [t|t b t1 w t2 HB H2 IH]; [reflexivity|]. cbn [app]. rewrite <- IH.
  destruct t as [|b' t]; cbn [list_source read_bit] in HB; [destruct o as [[?|]|?]; [contradiction| |]|]; congruence.
Qed.
Lemma list_source_reads o l : reads (list_source o) l l [].
Proof. induction l as [|b l IH]; [constructor|]. econstructor; [reflexivity|exact IH]. Qed.
Lemma answers_agree C o l r r' left left' : match o with IOk (Some _) => False | _ => True end -> answers C o l r left -> answers C o l r' left' -> r = r' /\
  (forall x rest rest', r = Ok x -> left = Some rest -> left' = Some rest' -> rest = rest').
Proof.
  intros Ho H H'. assert (Hs : stops (list_source o) [] o []) by (split; [reflexivity|exact Ho]).
  pose proof (H (Datatypes.S (length l)) _ (list_source o) l [] [] (le_n _) (list_source_reads o l) Hs) as E.
  pose proof (H' (Datatypes.S (length l)) _ (list_source o) l [] [] (le_n _) (list_source_reads o l) Hs) as E'.
  destruct r as [x|k|]; [| |contradiction].
  - destruct E as (t & E & Ht). rewrite E in E'. destruct r' as [x'|k'|]; [|discriminate|contradiction]. destruct E' as (t' & E' & Ht'). injection E' as <- <-. split; [reflexivity|].
    intros y rest rest' _ -> ->. apply reads_list_source in Ht, Ht'; try exact Ho. rewrite app_nil_r in *. congruence.
  - rewrite E in E'. destruct r' as [x'|k'|]; [|injection E' as <-|contradiction].
    + destruct E' as (t' & E' & _). discriminate.
    + split; [reflexivity|]. discriminate.
Qed.
Theorem C83_rows_agree : forall T C o l r r' left left', describes T C -> match o with IOk (Some _) => False | _ => True end ->
  T o l r left -> T o l r' left' -> r = r' /\
  (forall x rest rest', r = Ok x -> left = Some rest -> left' = Some rest' -> rest = rest').
Proof. intros T C o l r r' left left' [HD _] Ho H H'. eapply answers_agree; [exact Ho|apply HD, H|apply HD, H']. Qed.
(** ** Consequences.  A decoder never runs out of an input: it returns or panics within as many steps as there are bits, one more at the end. *)
Theorem C83_terminates : forall c C o l fuel S (src : source S) s s' s'', wf_cfg c -> any_code c C -> (length l < fuel)%nat -> reads src s l s' -> stops src s' o s'' ->
  decode C src fuel s <> OutOfFuel.
Proof.
  intros c C o l fuel S src s s' s'' Hc HC Hf Hr Ho. destruct (C83_every_code c C Hc HC) as (T & _ & H1 & H2). destruct (H2 o l) as (r & left & HT).
  specialize (H1 _ _ _ _ HT fuel S src s s' s'' Hf Hr Ho). destruct r as [x|k|]; [destruct H1 as (t & -> & _)|rewrite H1|contradiction]; discriminate.
Qed.
(** A value, of a canonical code word or not, is decided by the bits that were read: other bits may follow them, or none, and the source may stop
    in another way. *)
Definition local (T : table) : Prop := forall o l v rest, T o l (value v) (Some rest) -> exists p, l = p ++ rest /\ forall o' rest', T o' (p ++ rest') (value v) (Some rest').
Lemma local_unary c : local (unary_table c).
Proof.
  intros o l v rest H. remember (value v) as r eqn:E. remember (Some rest) as left eqn:EL. destruct H as [o k rest0 Hk|o rest0 Hd|o k Hk]; [|discriminate|discriminate].
  injection E as <-. injection EL as ->. exists (repeatN false k ++ [true]). split; [now rewrite <- app_assoc|]. intros o' rest'. rewrite <- app_assoc. cbn [app]. now apply ut_value.
Qed.
Lemma local_lift0 c T : local T -> local (lift0_table c T).
Proof.
  intros HT o l v rest H. remember (value v) as r eqn:E. remember (Some rest) as left eqn:EL.
  destruct H as [o l v0 rest0 Hv HR|o l rest0 Hd HR|o l rest0 Hd HR|o l r left HR Hn]; [| |discriminate|destruct (Hn _ E)];
    injection E as <-; injection EL as ->; destruct (HT _ _ _ _ HR) as (p & -> & HP); exists p; (split; [reflexivity|]); intros o' rest'.
  - apply lt_value; auto.
  - eapply lt_zero; auto.
Qed.
Lemma local_elias T : local T -> local (elias_table T).
Proof.
  intros HT o l v rest H. remember (value v) as r eqn:E. remember (Some rest) as left eqn:EL.
  destruct H as [o l n h rest0 HR Hn Hh|o l n h HR Hn Hh|o l n rest0 HR Hn|o l r left HR Hn]; [|discriminate|discriminate|destruct (Hn _ E)].
  injection E as <-. injection EL as ->. destruct (HT _ _ _ _ HR) as (p & -> & HP). exists (p ++ h). split; [now rewrite <- app_assoc|]. intros o' rest'. rewrite <- app_assoc.
  eapply et_value; eauto.
Qed.
Lemma local_omega c : local (omega_table c).
Proof.
  intros o l v rest H. remember (value v) as r eqn:E. remember (Some rest) as left eqn:EL.
  destruct H as [o v0 g rest0 HG|o v0 g h rest0 HG Hd Hv Hh|o v0 g HG|o v0 g h HG Hh]; [|discriminate|discriminate|discriminate].
  injection E as ->. injection EL as ->. exists (g ++ [false]). split; [now rewrite <- app_assoc|]. intros o' rest'. rewrite <- app_assoc. cbn [app]. now apply ot_value.
Qed.
Lemma local_fibonacci c : local (fibonacci_table c).
Proof.
  intros o l v rest H. remember (value v) as r eqn:E. remember (Some rest) as left eqn:EL.
  destruct H as [o z rest0 Hz Hl Hlast|o z rest0 Hz Hl Hs|o z rest0 Hz Hl Hd Hs|o z Hz Hl]; [|discriminate|discriminate|discriminate].
  injection E as <-. injection EL as ->. exists (z ++ [true]). split; [now rewrite <- app_assoc|]. intros o' rest'. rewrite <- app_assoc. cbn [app]. now apply ft_value.
Qed.
Lemma local_comma c n : local (comma_table c n).
Proof.
  intros o l v rest H. remember (value v) as r eqn:E. remember (Some rest) as left eqn:EL.
  destruct H as [o gs g rest0 HF Hv Hg Hgt|o gs rest0 HF Hd Hn Hv|o gs h HF Hv Hh|o l Hd Hn]; [|discriminate|discriminate|discriminate].
  injection E as <-. injection EL as ->. exists (concat gs ++ g). split; [now rewrite <- app_assoc|]. intros o' rest'. rewrite <- app_assoc. now apply ct_value.
Qed.
Theorem C83_prefix_decides : forall c C o l v rest, wf_cfg c -> any_code c C -> match o with IOk (Some _) => False | _ => True end ->
  answers C o l (value v) (Some rest) -> exists p, l = p ++ rest /\ forall o' rest', answers C o' (p ++ rest') (value v) (Some rest').
Proof.
  intros c C o l v rest Hc HC Ho H.
  assert (HX : exists T, leaves T /\ local T /\ describes T C).
  { clear - Hc HC. induction HC as [| | |n|C HC (T & HT & HL & HD)|C HC (T & HT & HL & HD)].
    - exists (unary_table c). split; [apply leaves_unary|]. split; [apply local_unary|apply C83_unary].
    - exists (omega_table c). split; [apply leaves_omega|]. split; [apply local_omega|apply C83_omega].
    - exists (fibonacci_table c). split; [apply leaves_fibonacci|]. split; [apply local_fibonacci|apply C83_fibonacci].
    - exists (comma_table c n). split; [apply leaves_comma|]. split; [apply local_comma|apply C83_comma].
    - exists (lift0_table c T). split; [apply leaves_lift0|]. split; [now apply local_lift0|now apply C83_lift0].
    - exists (elias_table T). split; [apply leaves_elias|]. split; [now apply local_elias|now apply C83_elias]. }
  destruct HX as (T & HT & HL & HD1 & HD2). destruct (HD2 o l) as (r & left & HR). destruct (answers_agree C o l _ _ _ _ Ho H (HD1 _ _ _ _ HR)) as [<- Hrest].
  destruct (HT _ _ _ _ HR) as (rest2 & ->). rewrite (Hrest _ _ _ eq_refl eq_refl eq_refl) in *. destruct (HL _ _ _ _ HR) as (p & -> & HP). exists p. split; [reflexivity|]. intros o' rest'. apply HD1, HP.
Qed.

(** ** Examples *)
(** A source of the bits [l] that stops with [o] *)
Definition run (C : code) (o : ioR (option bool)) (l : list bool) : res (ioR (option N) * list bool) := decode C (list_source o) (Datatypes.S (length l)) l.
(** The groups of 64, a further group of 64 zeros and nothing more: without overflow checks the decoder is back at one and reports the end of the
    data; with them it panics.  On a 32-bit target the same happens, with checks too, after the groups of 2^32. *)
Definition omega_loops : list bool := [true; false] ++ [true; true; false] ++ [true; false; false; false; false; false; false] ++ true :: repeatN false 64.
Definition omega_loops32 : list bool := [true; false] ++ [true; false; true] ++ [true; false; false; false; false; false] ++ true :: repeatN false 32 ++ [true].
Example C83_omega_ex : omega_at rel64 1 omega_loops /\ omega_at dbg32 1 omega_loops32 /\
  run (omega rel64) (IOk None) omega_loops = Ok (IOk None, []) /\ run (omega dbg64) (IOk None) omega_loops = Panic POverflow /\
  run (omega dbg32) (IOk None) omega_loops32 = Ok (IOk None, []) /\ run (omega rel32) (IOk None) omega_loops32 = Ok (IOk None, []) /\
  run (omega dbg32) (IOk None) (omega_loops32 ++ [false; true]) = Ok (IOk (Some 1), [true]).
Proof.
  split.
  { change 1 with (N.lor (int_of (rev (repeatN false 64)) mod 2 ^ 64) (2 ^ (64 mod 2 ^ 32 mod 64))).
    unfold omega_loops. rewrite !app_assoc. apply oa_group; [|reflexivity|discriminate].
    change 64 with (N.lor (int_of (rev [false; false; false; false; false; false]) mod 2 ^ 64) (2 ^ (6 mod 2 ^ 32 mod 64))). apply oa_group; [|reflexivity|discriminate].
    change 6 with (N.lor (int_of (rev [true; false]) mod 2 ^ 64) (2 ^ (2 mod 2 ^ 32 mod 64))). apply oa_group; [|reflexivity|discriminate].
    change 2 with (N.lor (int_of (rev [false]) mod 2 ^ 64) (2 ^ (1 mod 2 ^ 32 mod 64))). apply (oa_group rel64 1 []); [constructor|reflexivity|discriminate]. }
  split.
  { change 1 with (N.lor (int_of (rev []) mod 2 ^ 64) (2 ^ (2 ^ 32 mod 2 ^ 32 mod 64))).
    replace omega_loops32 with (([true; false] ++ [true; false; true] ++ [true; false; false; false; false; false] ++ true :: repeatN false 32) ++ [true]) by reflexivity.
    apply oa_group; [|reflexivity|reflexivity]. rewrite !app_assoc.
    change (2 ^ 32) with (N.lor (int_of (rev (repeatN false 32)) mod 2 ^ 64) (2 ^ (32 mod 2 ^ 32 mod 64))). apply oa_group; [|reflexivity|reflexivity].
    change 32 with (N.lor (int_of (rev [false; false; false; false; false]) mod 2 ^ 64) (2 ^ (5 mod 2 ^ 32 mod 64))). apply oa_group; [|reflexivity|reflexivity].
    change 5 with (N.lor (int_of (rev [false; true]) mod 2 ^ 64) (2 ^ (2 mod 2 ^ 32 mod 64))). apply oa_group; [|reflexivity|reflexivity].
    change 2 with (N.lor (int_of (rev [false]) mod 2 ^ 64) (2 ^ (1 mod 2 ^ 32 mod 64))). apply (oa_group dbg32 1 []); [constructor|reflexivity|reflexivity]. }
  vm_compute. repeat split; reflexivity.
Qed.
Example C83_ex : answers (gamma dbg64) (IOk None) [false; false; true; true; false; true] (value 5) (Some [true]) /\
  answers (gamma dbg64) (IErr IoOther) [false; false; true; true] (Ok (IErr IoOther)) None /\
  run (gamma dbg64) (IOk None) (repeatN false 64 ++ [true; true]) = Ok (IErr InvalidData, [true]) /\
  run (delta rel64) (IOk None) [true; true; false] = Ok (IOk (Some 1), [true; false]) /\
  run (fibonacci dbg64) (IOk None) [false; false; false] = Ok (IOk None, []) /\ run (fibonacci dbg64) (IOk None) [true; false; false] = Ok (IErr UnexpectedEof, []) /\
  run (fibonacci rel64) (IOk None) (repeatN false 91 ++ [true; true]) = Ok (IErr InvalidData, [true]) /\
  run (comma rel64 70) (IOk None) (repeatN true 6 ++ repeatN false 64 ++ [true]) = Ok (IOk (Some 0), [true]) /\
  run (comma dbg64 70) (IOk None) [] = Panic POverflow /\ run (comma dbg64 0) (IOk None) [true] = Ok (IOk (Some 0), [true]).
Proof.
  split; [|split].
  - apply (proj1 (C83_gamma dbg64 (or_intror eq_refl))). apply (et_value _ _ _ 2 [true; false] [true]).
    + exact (ut_value dbg64 _ 2 [true; false; true] ltac:(reflexivity)).
    + discriminate.
    + reflexivity.
  - apply (proj1 (C83_gamma dbg64 (or_intror eq_refl))). apply (et_short (unary_table dbg64) (IErr IoOther) [false; false; true; true] 2 [true]).
    + exact (ut_value dbg64 _ 2 [true] ltac:(reflexivity)).
    + discriminate.
    + reflexivity.
  - vm_compute. repeat split; reflexivity.
Qed.

Print Assumptions C83_unary.
Print Assumptions C83_lift0.
Print Assumptions C83_elias.
Print Assumptions C83_omega.
Print Assumptions C83_fibonacci.
Print Assumptions C83_comma.
Print Assumptions C83_every_code.
Print Assumptions C83_gamma.
Print Assumptions C83_delta.
Print Assumptions C83_rows_agree.
Print Assumptions C83_terminates.
Print Assumptions C83_prefix_decides.
