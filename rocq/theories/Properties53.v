(** * Property C106: what every encoder does with every value, and exactly when what it wrote is read back. *)
From Verif Require Import Machine MStorage MTraits MStream MCoding SpecBits SpecCfg SpecStream SpecParse
  PBase PBits PDefaults PStream PCoding PCoding2 PCoding3 Properties9 Properties18 Properties26 Properties29 Properties51 Properties52.

(** The bits of a word are written; an error and nothing is written; a panic, and nothing is written; no end. *)
Inductive emitted :=
| Word (w : list bool)
| Fails
| Stuck
| Endless.
Definition encoding (C : code) (v : N) (e : emitted) : Prop :=
  match e with
  | Word w => encodes C v w
  | Fails => exists n0, forall fuel, (n0 <= fuel)%nat -> forall S (snk : sink S) s, encode C snk fuel v s = Ok (IErr InvalidData, s)
  | Stuck => exists n0, forall fuel, (n0 <= fuel)%nat -> forall S (snk : sink S) s, panics (encode C snk fuel v s)
  | Endless => forall fuel S (snk : sink S) s, encode C snk fuel v s = OutOfFuel
  end.

(** Digits of [n] bits to the base 2^(n mod 64) - 1, the highest first and none for 0; then the base. *)
Definition digits_word (n v : N) (w : list bool) : Prop := exists ds,
  Forall (fun d => d < comma_radix n) ds /\ hd 1 ds <> 0 /\ fold_left (fun a d => a * comma_radix n + d) ds 0 = v /\
  w = flat_map (bits_of n) ds ++ bits_of n (comma_radix n).

(** The codes of the library, written down; the code meant, and its reading function (C105). *)
Inductive codex :=
| XUnary | XOmega | XFibonacci | XComma (n : N) | XLift0 (C : codex) | XElias (C : codex).
Fixpoint code_of (c : cfg) (C : codex) : code :=
  match C with
  | XUnary => unary c | XOmega => omega c | XFibonacci => fibonacci c | XComma n => comma c n
  | XLift0 C => lift0 c (code_of c C) | XElias C => elias c (code_of c C)
  end.
Fixpoint parse (c : cfg) (C : codex) (l : list bool) : parsed :=
  match C with
  | XUnary => parse_unary c 0 l
  | XOmega => parse_omega c (S (length l)) 1 l
  | XFibonacci => parse_fibonacci c 1 1 0 false l
  | XComma n => parse_comma c n l
  | XLift0 C => parse_lift0 c (parse c C l)
  | XElias C => parse_elias (parse c C l)
  end.
Lemma codex_parses c C : parses c (code_of c C) (parse c C).
Proof.
  induction C as [| | |n|C IH|C IH].
  - exact (ps_unary c).
  - exact (ps_omega c).
  - exact (ps_fibonacci c).
  - exact (ps_comma c n).
  - exact (ps_lift0 c _ _ IH).
  - exact (ps_elias c _ _ IH).
Qed.
Lemma codex_any c C : any_code c C -> exists X, C = code_of c X.
Proof.
  induction 1 as [| | |n|C H [X ->]|C H [X ->]]; [now exists XUnary|now exists XOmega|now exists XFibonacci|now exists (XComma n)|now exists (XLift0 X)|now exists (XElias X)].
Qed.

Inductive emits (c : cfg) : codex -> N -> emitted -> Prop :=
| em_unary : forall v, emits c XUnary v (Word (unary_word v))
| em_omega : forall v w, omega_word (N.max v 1) w -> emits c XOmega v (Word w)
| em_fibonacci : forall v w, 1 <= v < fib_max -> fib_word v w -> emits c XFibonacci v (Word w)
| em_fibonacci_0 : emits c XFibonacci 0 Stuck
| em_fibonacci_big : forall v, fib_max <= v -> emits c XFibonacci v Fails
| em_comma_checked : forall n v, debug c = true -> 64 <= n -> emits c (XComma n) v Stuck
| em_comma : forall n v w, debug c = false \/ n < 64 -> v = 0 \/ 2 <= n mod 64 -> digits_word n v w -> emits c (XComma n) v (Word w)
| em_comma_by_0 : forall n v, debug c = false \/ n < 64 -> n mod 64 = 0 -> 0 < v -> emits c (XComma n) v Stuck
| em_comma_by_1 : forall n v, debug c = false \/ n < 64 -> n mod 64 = 1 -> 0 < v -> emits c (XComma n) v Endless
| em_lift0 : forall C v e, v + 1 < 2 ^ 64 -> emits c C (v + 1) e -> emits c (XLift0 C) v e
| em_lift0_big : forall C v, 2 ^ 64 <= v + 1 -> emits c (XLift0 C) v Fails
| em_elias_0 : forall C, emits c (XElias C) 0 Stuck
| em_elias : forall C v w, 1 <= v -> emits c C (N.log2 v) (Word w) -> emits c (XElias C) v (Word (w ++ bits_of (N.log2 v) v))
| em_elias_not : forall C v e, 1 <= v -> emits c C (N.log2 v) e -> (forall w, e <> Word w) -> emits c (XElias C) v e.

Lemma radix_small n : 2 <= n mod 64 -> 2 <= n mod 64 <= 63 /\ comma_radix n = 2 ^ (n mod 64) - 1.
Proof. intros H. pose proof (N.mod_lt n 64 ltac:(lia)). split; [lia|reflexivity]. Qed.
Lemma unchecked_base c n : debug c = false \/ n < 64 -> comma_base c n = Ok (comma_radix n).
Proof.
  intros H. destruct (comma_base_ok c n) as [[E _]|[_ E]]; [|exact E]. apply andb_true_iff in E. destruct E as [E1 E2]. destruct H as [H|H]; [congruence|lia].
Qed.
Lemma wide_write {S} c n (snk : sink S) ds : forall s, comma_write c n snk ds s = write_all snk (flat_map (bits_of n) ds) s.
Proof.
  induction ds as [|d ds IH]; intros s; [reflexivity|]. cbn [comma_write flat_map]. rewrite write_all_app.
  unfold try_. rewrite write_int_ok by lia. destruct (write_all snk (bits_of n d) s) as [[[u|e] s']| |]; cbn [bind]; auto.
Qed.
(** The digits are those of the number. *)
Lemma digits_unique B ds : forall ds', 2 <= B -> Forall (fun d => d < B) ds -> Forall (fun d => d < B) ds' -> hd 1 ds <> 0 -> hd 1 ds' <> 0 ->
  fold_left (fun a d => a * B + d) ds 0 = fold_left (fun a d => a * B + d) ds' 0 -> ds = ds'.
Proof.
  assert (Pos : forall ds, hd 1 ds <> 0 -> ds <> [] -> fold_left (fun a d => a * B + d) ds 0 = 0 -> 2 <= B -> False).
  { intros [|d l] H H0 E HB; [congruence|]. cbn [hd fold_left] in *. assert (K : forall l a, 0 < a -> 0 < fold_left (fun a d => a * B + d) l a).
    { clear - HB; intros l0; induction l0 as [|x l0 IH]; intros a Ha; [exact Ha|]. cbn [fold_left]. apply IH. nia. } specialize (K l (0 * B + d) ltac:(lia)). lia. }
  induction ds as [|d ds IH] using rev_ind; intros ds' HB F F' H H' E.
  - destruct ds' as [|d' ds']; [reflexivity|]. exfalso. apply (Pos (d' :: ds')); auto. discriminate.
  - destruct ds' as [|d' ds' _] using rev_ind.
    { exfalso. apply (Pos (ds ++ [d])); auto. now destruct ds. }
    rewrite !fold_left_app in E. cbn [fold_left] in E. apply Forall_app in F. destruct F as [F Fd]. apply Forall_app in F'. destruct F' as [F' Fd'].
    inversion Fd; subst. inversion Fd'; subst.
    set (x := fold_left (fun a d0 => a * B + d0) ds 0) in *. set (y := fold_left (fun a d0 => a * B + d0) ds' 0) in *.
    assert (x = y /\ d = d') as [E1 ->].
    { pose proof (N.div_unique (x * B + d) B x d ltac:(assumption) ltac:(lia)). pose proof (N.div_unique (x * B + d) B y d' ltac:(assumption) ltac:(lia)). split; [lia|].
      assert (x = y) by lia. subst x y. nia. }
    f_equal. apply IH; auto.
    + destruct ds; [discriminate|exact H].
    + destruct ds'; [discriminate|exact H'].
Qed.
Lemma digits_of_0 B ds : hd 1 ds <> 0 -> Forall (fun d => d < B) ds -> fold_left (fun a d => a * B + d) ds 0 = 0 -> ds = [].
Proof.
  destruct ds as [|d ds]; [reflexivity|]. cbn [hd fold_left]. intros H F E. inversion F; subst. exfalso.
  assert (HB : 1 <= B) by lia. assert (K : forall l a, 0 < a -> 0 < fold_left (fun a d => a * B + d) l a).
  { clear - HB; intros l0; induction l0 as [|x l0 IH]; intros a Ha; [exact Ha|]. cbn [fold_left]. apply IH. nia. } specialize (K ds (0 * B + d) ltac:(lia)). lia.
Qed.
Lemma wide_encode c n v w : debug c = false \/ n < 64 -> v = 0 \/ 2 <= n mod 64 -> digits_word n v w -> encodes (comma c n) v w.
Proof.
  intros Hb Hv (ds & F & Hh & E & ->).
  assert (K : exists n0, forall fuel, (n0 <= fuel)%nat -> comma_stack fuel (comma_radix n) v = Ok ds).
  { destruct (N.eq_dec v 0) as [->|V0].
    - pose proof (digits_of_0 _ _ Hh F E) as ->. exists 1%nat. intros [|fuel] Hf; [lia|reflexivity].
    - destruct (radix_small n) as [Hn ER]; [lia|]. destruct (comma_stack_ok (n mod 64) Hn v) as (ds' & F' & Hh' & E' & n0 & HL). rewrite <- ER in *.
      assert (ds' = ds) as ->.
      { apply (digits_unique (comma_radix n)); auto; [|congruence]. rewrite ER. pose proof (N.pow_le_mono_r 2 2 (n mod 64) ltac:(lia) ltac:(lia)) as Hp. change (2 ^ 2) with 4 in Hp. lia. }
      exists n0. intros fuel Hf. unfold comma_stack. rewrite HL by exact Hf. now rewrite app_nil_r. }
  destruct K as [n0 K]. exists n0. intros fuel Hf S snk s. cbn. unfold comma_encode. rewrite (try_lift _ (comma_radix n)) by now apply unchecked_base.
  rewrite (try_lift _ ds) by now apply K. rewrite write_all_app. unfold try_. rewrite wide_write. destruct (write_all snk _ s) as [[[u|e] s']| |]; cbn [bind]; auto.
  rewrite write_int_ok by lia. destruct (write_all snk _ s') as [[[[]|e] s2]| |]; reflexivity.
Qed.
Lemma elias_enters {S} c C (snk : sink S) fuel v s : v <> 0 -> v < 2 ^ 64 ->
  encode (elias c C) snk fuel v s = try_ (encode C snk fuel (N.log2 v)) (fun _ => write_int c snk 64 (N.log2 v) v) s.
Proof.
  intros Hv0 Hv. pose proof (log2_lt v 64 Hv0 Hv) as Hk. cbn. unfold elias_encode. unfold leading_zeros. rewrite size_log2 by exact Hv0.
  rewrite (try_lift _ tt). 2:{ apply assert_true. destruct (v =? 0) eqn:E; [lia|reflexivity]. }
  rewrite (try_lift _ 63) by (now rewrite wsub_ok by lia).
  rewrite (try_lift _ (N.log2 v)) by (rewrite wsub_ok by lia; f_equal; lia). reflexivity.
Qed.

Theorem C106_encoding : forall c C v e, wf_cfg c -> emits c C v e -> v < 2 ^ 64 -> encoding (code_of c C) v e.
Proof.
  intros c C v e Hc. induction 1 as [v|v w Hw|v w Hv Hw| |v Hv|n v D Hn|n v w D Hv Hw|n v D Hn Hv|n v D Hn Hv|C v e Hv H IH|C v Hv|C|C v w Hv H IH|C v e Hv H IH Hne]; intros H64; cbn [code_of].
  - exact (cw_encodes _ _ _ (unary_codeword c v H64)).
  - destruct (N.eq_dec v 0) as [->|V0].
    + destruct (cw_encodes _ _ _ (omega_codeword c 1 w Hc ltac:(lia) Hw)) as [n0 K]. exists n0. intros fuel Hf S snk s. rewrite C49_zero_as_one. now apply K.
    + replace (N.max v 1) with v in Hw by lia. exact (cw_encodes _ _ _ (omega_codeword c v w Hc H64 Hw)).
  - exact (cw_encodes _ _ _ (fib_codeword c v w ltac:(lia) ltac:(lia) Hw)).
  - exists 0%nat. intros fuel _ S snk s. apply C50_zero_panics.
  - apply C50_too_large, Hv.
  - exists 0%nat. intros fuel _ S snk s. cbn. unfold comma_encode. apply try_lift_panic. destruct (comma_base_ok c n) as [[_ K]|[K _]]; [exact K|]. rewrite D in K. cbn [andb] in K. lia.
  - now apply wide_encode.
  - exists 1%nat. intros [|fuel] Hf S snk s; [lia|]. cbn. unfold comma_encode. rewrite (try_lift _ (comma_radix n)) by now apply unchecked_base.
    apply try_lift_panic. unfold comma_radix. rewrite Hn. unfold comma_stack. cbn [loop_fuel]. destruct (0 <? v) eqn:E; [|lia]. eexists. reflexivity.
  - intros fuel S snk s. apply C52_base_one; [exact Hv|]. destruct (debug c); [|exact Hn]. destruct D as [D|D]; [discriminate|]. now rewrite N.mod_small in Hn.
  - specialize (IH Hv). assert (K : forall fuel S (snk : sink S) s, encode (lift0 c (code_of c C)) snk fuel v s = encode (code_of c C) snk fuel (v + 1) s).
    { intros. cbn. unfold lift0_encode, checked_add. destruct (v + 1 <? 2 ^ 64) eqn:E; [reflexivity|lia]. }
    destruct e as [w| | |]; cbn [encoding] in *; try (destruct IH as [n0 IH]; exists n0); intros; rewrite K; auto.
  - exists 0%nat. intros fuel _ S snk s. cbn. unfold lift0_encode, checked_add. destruct (v + 1 <? 2 ^ 64) eqn:E; [lia|reflexivity].
  - exists 0%nat. intros fuel _ S snk s. eexists. reflexivity.
  - assert (L : N.log2 v < 2 ^ 64) by (pose proof (log2_lt v 64 ltac:(lia) H64); lia). specialize (IH L). cbn [encoding] in *. destruct IH as [n0 IH]. exists n0. intros fuel Hf S snk s.
    rewrite elias_enters by lia. rewrite write_all_app. unfold try_. rewrite IH by exact Hf. destruct (write_all snk w s) as [[[u|e] s']| |]; cbn [bind]; auto.
    now rewrite write_int_ok by lia.
  - assert (L : N.log2 v < 2 ^ 64) by (pose proof (log2_lt v 64 ltac:(lia) H64); lia). specialize (IH L). destruct e as [w| | |]; cbn [encoding] in *; [now elim (Hne w)| | |].
    + destruct IH as [n0 IH]. exists n0. intros fuel Hf S snk s. rewrite elias_enters by lia. unfold try_. now rewrite IH.
    + destruct IH as [n0 IH]. exists n0. intros fuel Hf S snk s. rewrite elias_enters by lia. unfold try_. destruct (IH fuel Hf S snk s) as [k ->]. exists k. reflexivity.
    + intros fuel S snk s. rewrite elias_enters by lia. unfold try_. now rewrite IH.
Qed.
Lemma digits_exist n v : v = 0 \/ 2 <= n mod 64 -> exists w, digits_word n v w.
Proof.
  intros [->|H].
  - eexists. exists []. split; [constructor|]. split; [cbn; lia|]. split; reflexivity.
  - destruct (radix_small n H) as [Hn ER]. destruct (comma_stack_ok (n mod 64) Hn v) as (ds & F & Hh & E & _). rewrite <- ER in *. eexists. exists ds. eauto.
Qed.
Theorem C106_every_value : forall c C v, v < 2 ^ 64 -> exists e, emits c C v e.
Proof.
  intros c C. induction C as [| | |n|C IH|C IH]; intros v Hv.
  - eexists. apply em_unary.
  - destruct (omega_groups_exists (N.max v 1) ltac:(lia)) as [g Hg]. eexists. apply em_omega. exists g. eauto.
  - destruct (N.eq_dec v 0) as [->|V0]; [eexists; apply em_fibonacci_0|]. destruct (N.lt_ge_cases v fib_max) as [Hm|Hm]; [|eexists; now apply em_fibonacci_big].
    destruct (fib_word_exists v ltac:(lia) Hm) as [w Hw]. eexists. apply em_fibonacci; [lia|exact Hw].
  - assert (D : debug c = true /\ 64 <= n \/ (debug c = false \/ n < 64)) by (destruct (debug c); [|auto]; destruct (N.lt_ge_cases n 64); auto).
    destruct D as [[D1 D2]|D]; [eexists; now apply em_comma_checked|]. destruct (N.eq_dec v 0) as [->|V0].
    { destruct (digits_exist n 0 ltac:(auto)) as [w Hw]. eexists. apply em_comma; eauto. }
    destruct (N.eq_dec (n mod 64) 0) as [E0|E0]; [eexists; apply em_comma_by_0; auto; lia|]. destruct (N.eq_dec (n mod 64) 1) as [E1|E1]; [eexists; apply em_comma_by_1; auto; lia|].
    destruct (digits_exist n v ltac:(lia)) as [w Hw]. eexists. apply em_comma; [exact D|right; lia|exact Hw].
  - destruct (N.lt_ge_cases (v + 1) (2 ^ 64)) as [K|K]; [|eexists; now apply em_lift0_big]. destruct (IH _ K) as [e He]. eexists. apply em_lift0; eauto.
  - destruct (N.eq_dec v 0) as [->|V0]; [eexists; apply em_elias_0|]. assert (L : N.log2 v < 2 ^ 64) by (pose proof (log2_lt v 64 V0 Hv); lia).
    destruct (IH _ L) as [e He]. destruct e as [w| | |]; eexists; [apply em_elias; [lia|exact He]| | |]; (apply em_elias_not; [lia|exact He|discriminate]).
Qed.

(** [Omega] is given the value 0, which it has no word for. *)
Fixpoint omega_of_0 (C : codex) (v : N) : Prop :=
  match C with
  | XOmega => v = 0
  | XLift0 C => omega_of_0 C (v + 1)
  | XElias C => omega_of_0 C (N.log2 v)
  | _ => False
  end.

Lemma decodes_parsed c C f v w : wf_cfg c -> parses c C f -> decodes C w v -> f w = Value v [].
Proof.
  intros Hc HP [n0 H]. pose proof (C105_decoding c C f w Hc HP) as K. pose proof (reads_deque w []) as RD. rewrite app_nil_r in RD.
  specialize (K _ deque_source w [] (IOk None) [] (n0 + S (length w))%nat RD stops_deque ltac:(lia)). rewrite (H (n0 + S (length w))%nat ltac:(lia) _ _ _ _ RD) in K.
  destruct (f w) as [v' q|q|[|]|]; cbn [answers] in K; try discriminate.
  - destruct K as (p & t & El & Hp & E). injection E as <- <-. f_equal. subst w. pose proof (reads_deque p q) as R2. symmetry. exact (reads_det _ _ _ _ _ Hp R2).
  - destruct K as (p & t & _ & _ & E). discriminate.
  - destruct K as [k K]. discriminate.
Qed.
Lemma fold_mono B ds : 1 <= B -> forall a, a <= fold_left (fun a d => a * B + d) ds a.
Proof. intros HB. induction ds as [|d ds IH]; intros a; cbn [fold_left]; [lia|]. specialize (IH (a * B + d)). nia. Qed.
Lemma chunk_exact x q : chunk (lengthN x) (x ++ q) = Some (x, q).
Proof.
  assert (E : chunk (lengthN x) x = Some (x, [])).
  { unfold chunk. destruct (lengthN x <=? lengthN x) eqn:E; [|lia]. f_equal. unfold firstnN, skipnN, lengthN. rewrite Nat2N.id, firstn_all, skipn_all. reflexivity. }
  exact (chunk_app _ _ q _ _ E).
Qed.
Lemma digits_parsed c n : forall ds k v0 b, debug c = false \/ n < 64 -> Forall (fun d => d < comma_radix n) ds -> (length ds < k)%nat ->
  fold_left (fun a d => a * comma_radix n + d) ds v0 < 2 ^ 64 ->
  parse_digits c n k v0 b (flat_map (bits_of n) ds ++ bits_of n (comma_radix n)) = Value (fold_left (fun a d => a * comma_radix n + d) ds v0) [].
Proof.
  assert (HR : comma_radix n < 2 ^ 64 /\ forall d, d <= comma_radix n -> int_of (bits_of n d) mod 2 ^ 64 = d).
  { pose proof (N.mod_lt n 64 ltac:(lia)) as Hm. pose proof (N.pow_lt_mono_r 2 (n mod 64) 64 ltac:(lia) Hm) as Hp. pose proof (N.mod_le n 64 ltac:(lia)) as Hle.
    pose proof (N.pow_le_mono_r 2 (n mod 64) n ltac:(lia) Hle) as Hp2. pose proof (pow2_pos (n mod 64)). unfold comma_radix. split; [lia|]. intros d Hd. rewrite int_of_bits_of.
    rewrite (N.mod_small d (2 ^ n)) by lia. apply N.mod_small. lia. }
  destruct HR as [HR HD].
  induction ds as [|d ds IH]; intros k v0 b Hc F Hk Hv; (destruct k as [|k]; [cbn [length] in Hk; lia|]); cbn [parse_digits flat_map app fold_left] in *.
  - pose proof (chunk_exact (bits_of n (comma_radix n)) []) as E. rewrite lengthN_bits_of, app_nil_r in E. rewrite E. cbv zeta. rewrite HD by lia. now rewrite N.eqb_refl.
  - rewrite <- app_assoc. pose proof (chunk_exact (bits_of n d) (flat_map (bits_of n) ds ++ bits_of n (comma_radix n))) as E. rewrite lengthN_bits_of in E. rewrite E. cbv zeta.
    inversion F; subst. rewrite HD by lia. destruct (d =? comma_radix n) eqn:Ed; [lia|]. pose proof (fold_mono (comma_radix n) ds ltac:(lia) (v0 * comma_radix n + d)) as Hm.
    destruct (2 ^ 64 <=? v0 * comma_radix n + d) eqn:Eo; [lia|]. rewrite andb_false_r. rewrite N.mod_small by lia. cbn [length] in Hk. apply IH; auto. lia.
Qed.
Lemma log2_bits v : v <> 0 -> 2 ^ N.log2 v + int_of (bits_of (N.log2 v) v) = v.
Proof.
  intros H. rewrite int_of_bits_of. pose proof (N.log2_spec v ltac:(lia)) as [H1 H2]. rewrite N.pow_succ_r' in H2. pose proof (pow2_pos (N.log2 v)) as Hp.
  pose proof (N.mod_unique v (2 ^ N.log2 v) 1 (v - 2 ^ N.log2 v) ltac:(lia) ltac:(lia)). lia.
Qed.

(** What was written is read back, whatever follows it, if no [Omega] was given 0; if one was, no value or a larger one is read. *)
Theorem C106_round_trip : forall c C v w m, wf_cfg c -> v < 2 ^ 64 -> emits c C v (Word w) -> ~ omega_of_0 C v -> parse c C (w ++ m) = Value v m.
Proof.
  intros c C v w m Hc Hv HE HZ. apply (C105_prefix c (code_of c C) (parse c C) w m v (codex_parses c C)). revert v w Hv HE HZ.
  induction C as [| | |n|C IH|C IH]; intros v w Hv HE HZ; cbn [omega_of_0] in HZ.
  - inversion HE; subst. apply (decodes_parsed c (unary c) (parse c XUnary)); [exact Hc|exact (codex_parses c XUnary)|]. exact (cw_decodes _ _ _ (unary_codeword c v Hv)).
  - inversion HE; subst. replace (N.max v 1) with v in * by lia.
    apply (decodes_parsed c (omega c) (parse c XOmega)); [exact Hc|exact (codex_parses c XOmega)|]. exact (cw_decodes _ _ _ (omega_codeword c v w Hc Hv ltac:(assumption))).
  - inversion HE; subst.
    apply (decodes_parsed c (fibonacci c) (parse c XFibonacci)); [exact Hc|exact (codex_parses c XFibonacci)|]. exact (cw_decodes _ _ _ (fib_codeword c v w ltac:(lia) ltac:(lia) ltac:(assumption))).
  - inversion HE as [| | | | | |n' v' w' D Hn Hw| | | | | | | ]; subst. cbn [parse]. unfold parse_comma.
    assert (E : debug c && (64 <=? n) = false) by (destruct D as [-> | D]; [reflexivity|]; destruct (64 <=? n) eqn:E; [lia|apply andb_false_r]).
    rewrite E. destruct Hw as (ds & F & Hh & Ev & ->). rewrite digits_parsed; auto; [now rewrite Ev| |now rewrite Ev].
    clear - F Hn Hh Ev. rewrite app_length. assert (K : (length ds <= length (flat_map (bits_of n) ds))%nat); [|lia].
    destruct ds as [|d ds]; [cbn; lia|]. assert (N0 : n <> 0). { intros ->. inversion F; subst. revert H1. vm_compute. destruct d; discriminate. }
    clear - N0. generalize (d :: ds). induction l as [|x l IH]; [cbn; lia|]. cbn [flat_map length]. rewrite app_length. pose proof (lengthN_bits_of n x) as L. unfold lengthN in L. lia.
  - inversion HE as [| | | | | | | | |C' v' e Hv' H| | | | ]; subst. cbn [parse]. rewrite (IH (v + 1) w Hv' H HZ). cbn [parse_lift0]. destruct (0 <? v + 1) eqn:E; [|lia]. f_equal. lia.
  - inversion HE as [| | | | | | | | | | | |C' v' w' Hv' H|C' v' e Hv' H Hne]; subst; [|now elim (Hne w)]. cbn [parse].
    assert (L : N.log2 v < 64) by (apply log2_lt; lia).
    pose proof (IH (N.log2 v) w' ltac:(lia) H HZ) as K. rewrite (C105_no_lookahead c (code_of c C) (parse c C) w' _ (codex_parses c C)) by (rewrite K; discriminate). rewrite K. cbn [followed parse_elias].
    destruct (63 <? N.log2 v) eqn:E; [lia|]. pose proof (chunk_exact (bits_of (N.log2 v) v) []) as EC. rewrite lengthN_bits_of, app_nil_r in EC. cbn [app]. rewrite EC. rewrite log2_bits by lia. reflexivity.
Qed.
Theorem C106_no_round_trip : forall c C v w m v' q, wf_cfg c -> v < 2 ^ 64 -> emits c C v (Word w) -> omega_of_0 C v -> parse c C (w ++ m) = Value v' q -> v < v'.
Proof.
  intros c C v w m v' q Hc Hv HE HZ HP. revert v w m v' q Hv HE HZ HP.
  induction C as [| | |n|C IH|C IH]; intros v w m v' q Hv HE HZ HP; cbn [omega_of_0] in HZ; try contradiction.
  - subst v. inversion HE; subst. change (N.max 0 1) with 1 in *.
    assert (E : parse c XOmega w = Value 1 []).
    { apply (decodes_parsed c (omega c) (parse c XOmega)); [exact Hc|exact (codex_parses c XOmega)|]. exact (cw_decodes _ _ _ (omega_codeword c 1 w Hc ltac:(lia) ltac:(assumption))). }
    rewrite (C105_no_lookahead c (code_of c XOmega) (parse c XOmega) w _ (codex_parses c XOmega)) in HP by (rewrite E; discriminate). rewrite E in HP. injection HP as <- _. lia.
  - inversion HE as [| | | | | | | | |C' v1 e Hv1 H| | | | ]; subst. cbn [parse] in HP. destruct (parse c C (w ++ m)) as [v2 q2|q2|b|] eqn:E; cbn [parse_lift0] in HP; try discriminate.
    pose proof (IH _ _ _ _ _ Hv1 H HZ E). destruct (0 <? v2) eqn:E0; [|lia]. injection HP as <- _. lia.
  - inversion HE as [| | | | | | | | | | | |C' v1 w1 Hv1 H|C' v1 e Hv1 H Hne]; subst; [|now elim (Hne w)]. cbn [parse] in HP.
    rewrite <- app_assoc in HP. destruct (parse c C (w1 ++ bits_of (N.log2 v) v ++ m)) as [n q2|q2|b|] eqn:E; cbn [parse_elias] in HP; try discriminate.
    assert (L : N.log2 v < 64) by (apply log2_lt; lia). assert (L' : N.log2 v < 2 ^ 64) by lia. pose proof (IH _ _ _ _ _ L' H HZ E) as K. destruct (63 <? n); [discriminate|].
    destruct (chunk n q2) as [[x q3]|]; [|discriminate]. injection HP as <- _. pose proof (N.log2_spec v ltac:(lia)) as [_ H2].
    pose proof (N.pow_le_mono_r 2 (N.succ (N.log2 v)) n ltac:(lia) ltac:(lia)). lia.
Qed.
(** Every code of the library is one of those written down, and does with every value one of these things. *)
Theorem C106_codes : forall c C, wf_cfg c -> any_code c C -> exists X, C = code_of c X /\ (forall l, decoding C l (parse c X l)) /\
  forall v, v < 2 ^ 64 -> exists e, emits c X v e /\ encoding C v e.
Proof.
  intros c C Hc HA. destruct (codex_any c C HA) as [X ->]. exists X. split; [reflexivity|]. split.
  - intros l. apply (C105_decoding c); [exact Hc|apply codex_parses].
  - intros v Hv. destruct (C106_every_value c X v Hv) as [e He]. exists e. split; [exact He|]. now apply (C106_encoding c).
Qed.

(** Elias over [Omega] cannot write 1; over [Lift0] of [Omega] it can.  Comma with digits of 70 bits, without overflow checks. *)
Example C106_elias_omega : emits rel64 (XElias XOmega) 1 (Word [false]) /\ omega_of_0 (XElias XOmega) 1 /\ parse rel64 (XElias XOmega) ([false] ++ []) = Cut false /\
  parse rel64 (XElias XOmega) ([false] ++ [true; true]) = Value 3 [true] /\
  emits rel64 (XElias (XLift0 XOmega)) 1 (Word [false]) /\ ~ omega_of_0 (XElias (XLift0 XOmega)) 1 /\ parse rel64 (XElias (XLift0 XOmega)) ([false] ++ [true]) = Value 1 [true].
Proof.
  assert (W : omega_word 1 [false]) by (exists []; split; [constructor|reflexivity]).
  split. { change [false] with ([false] ++ bits_of (N.log2 1) 1). apply em_elias; [lia|]. apply em_omega. exact W. }
  split; [reflexivity|]. split; [vm_compute; reflexivity|]. split; [vm_compute; reflexivity|].
  split. { change [false] with ([false] ++ bits_of (N.log2 1) 1). apply em_elias; [lia|]. apply em_lift0; [cbn; lia|]. apply em_omega. exact W. }
  split; [cbn; lia|vm_compute; reflexivity].
Qed.
Example C106_wide_comma : let w := bits_of 70 2 ++ bits_of 70 5 ++ bits_of 70 63 in
  emits rel32 (XComma 70) 131 (Word w) /\ encode (comma rel32 70) deque_sink 100 131 [] = Ok (IOk tt, w) /\ parse rel32 (XComma 70) (w ++ [true]) = Value 131 [true] /\
  emits dbg32 (XComma 70) 131 Stuck /\ emits rel32 (XComma 64) 5 Stuck /\ emits rel32 (XComma 129) 5 Endless.
Proof.
  intros w. split.
  { apply em_comma; [left; reflexivity|right; vm_compute; discriminate|]. exists [2; 5]. split; [repeat constructor|]. split; [discriminate|]. split; reflexivity. }
  split; [vm_compute; reflexivity|]. split; [vm_compute; reflexivity|]. split; [now apply em_comma_checked|]. split; [apply em_comma_by_0; auto; lia|apply em_comma_by_1; auto; lia].
Qed.
Print Assumptions C106_encoding.
Print Assumptions C106_every_value.
Print Assumptions C106_round_trip.
Print Assumptions C106_no_round_trip.
Print Assumptions C106_codes.
