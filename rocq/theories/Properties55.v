(** * Property C108: losing and finding the place in a stream.  A stream of code words is damaged at its beginning: some bits are lost, or
    replaced by any others.  A listener who carries on after errors is back in step after the first word in Unary, and in Fibonacci after
    a further word other than the shortest and the longest ones; in Gamma it may never be. *)
From Verif Require Import Machine MStorage MTraits MStream MCoding SpecBits SpecCfg SpecStream SpecParse
  PBase PBits PDefaults PStream PCoding PCoding2 PCoding3 Properties9 Properties18 Properties26 Properties29 Properties51 Properties52 Properties53 Properties54.

(** At most [n] answers: values, and [None] for invalid data, after which the listener carries on. *)
Fixpoint listen {S} (C : code) (src : source S) (fuel n : nat) (s : S) : res (list (option N) * S) :=
  match n with
  | O => Ok ([], s)
  | Datatypes.S n =>
      r <- decode C src fuel s ;;
      match r with
      | (IOk (Some v), s) => '(xs, s) <- listen C src fuel n s ;; Ok (Some v :: xs, s)
      | (IErr InvalidData, s) => '(xs, s) <- listen C src fuel n s ;; Ok (None :: xs, s)
      | (_, s) => Ok ([], s)
      end
  end.

(** The words of a list of values in one code. *)
Definition stream (c : cfg) (C : codex) (vs : list N) (l : list bool) : Prop := words c (map (pair C) vs) l.

(** What is heard in [l] until [l'] is left. *)
Inductive until (f : list bool -> parsed) : list bool -> list (option N) -> list bool -> Prop :=
| un_here : forall l, until f l [] l
| un_value : forall l v q xs l', f l = Value v q -> until f q xs l' -> until f l (Some v :: xs) l'
| un_refused : forall l q xs l', f l = Refused q -> until f q xs l' -> until f l (None :: xs) l'.
Inductive stuck (f : list bool -> parsed) : list bool -> Prop :=
| st_here : forall l, f l = Breaks -> stuck f l
| st_value : forall l v q, f l = Value v q -> stuck f q -> stuck f l
| st_refused : forall l q, f l = Refused q -> stuck f q -> stuck f l.
Lemma until_app f l xs l' ys l'' : until f l xs l' -> until f l' ys l'' -> until f l (xs ++ ys) l''.
Proof. intros H K. induction H; cbn [app]; eauto using until. Qed.
Lemma until_stuck f l xs l' : until f l xs l' -> stuck f l' -> stuck f l.
Proof. intros H K. induction H; eauto using stuck. Qed.
(** Every answer takes a bit. *)
Definition shrinks (f : list bool -> parsed) : Prop := forall l q, (exists v, f l = Value v q) \/ f l = Refused q -> (length q < length l)%nat.

Section Listen.
  Context {S : Type} (c : cfg) (C : codex) (src : source S).
  Hypothesis Hc : wf_cfg c.
  Hypothesis Hsh : shrinks (parse c C).
  Lemma listen_until l xs l' : until (parse c C) l xs l' -> (exists b, parse c C l' = Cut b) -> forall s s' s'' fuel n, reads src s l s' -> read_bit src s' = Ok (IOk None, s'') ->
    (length l < fuel)%nat -> (length l < n)%nat -> listen (code_of c C) src fuel n s = Ok (xs, s'').
  Proof.
    intros H [b HB]. induction H as [l|l v q xs l' E H IH|l q xs l' E H IH]; intros s s' s'' fuel n HR HS Hf Hn; (destruct n as [|n]; [lia|]); cbn [listen];
      pose proof (parse_at c C l src s s' (IOk None) s'' fuel Hc HR (conj HS I) Hf) as K.
    - rewrite HB in K. cbn [answers] in K. rewrite K. destruct b; reflexivity.
    - pose proof (Hsh l q (or_introl (ex_intro _ v E))) as HL. rewrite E in K. cbn [answers] in K. destruct K as (p & t & El & H1 & H2). subst l.
      apply reads_app in HR. destruct HR as (t' & H3 & H4). rewrite <- (reads_det _ _ _ _ _ H1 H3) in H4. rewrite H2. cbn [bind].
      rewrite (IH HB t s' s'' fuel n H4 HS) by lia. reflexivity.
    - pose proof (Hsh l q (or_intror E)) as HL. rewrite E in K. cbn [answers] in K. destruct K as (p & t & El & H1 & H2). subst l.
      apply reads_app in HR. destruct HR as (t' & H3 & H4). rewrite <- (reads_det _ _ _ _ _ H1 H3) in H4. rewrite H2. cbn [bind].
      rewrite (IH HB t s' s'' fuel n H4 HS) by lia. reflexivity.
  Qed.
  Lemma listen_stuck l : stuck (parse c C) l -> forall s s' s'' fuel n, reads src s l s' -> read_bit src s' = Ok (IOk None, s'') ->
    (length l < fuel)%nat -> (length l < n)%nat -> panics (listen (code_of c C) src fuel n s).
  Proof.
    intros H. induction H as [l E|l v q E H IH|l q E H IH]; intros s s' s'' fuel n HR HS Hf Hn; (destruct n as [|n]; [lia|]); cbn [listen];
      pose proof (parse_at c C l src s s' (IOk None) s'' fuel Hc HR (conj HS I) Hf) as K.
    - rewrite E in K. cbn [answers] in K. destruct K as [k K]. rewrite K. now exists k.
    - pose proof (Hsh l q (or_introl (ex_intro _ v E))) as HL. rewrite E in K. cbn [answers] in K. destruct K as (p & t & El & H1 & H2). subst l.
      apply reads_app in HR. destruct HR as (t' & H3 & H4). rewrite <- (reads_det _ _ _ _ _ H1 H3) in H4. rewrite H2. cbn [bind].
      destruct (IH t s' s'' fuel n H4 HS ltac:(lia) ltac:(lia)) as [k ->]. now exists k.
    - pose proof (Hsh l q (or_intror E)) as HL. rewrite E in K. cbn [answers] in K. destruct K as (p & t & El & H1 & H2). subst l.
      apply reads_app in HR. destruct HR as (t' & H3 & H4). rewrite <- (reads_det _ _ _ _ _ H1 H3) in H4. rewrite H2. cbn [bind].
      destruct (IH t s' s'' fuel n H4 HS ltac:(lia) ltac:(lia)) as [k ->]. now exists k.
  Qed.
End Listen.

(** In step, everything is heard. *)
Lemma stream_cons_inv c C v vs l : stream c C (v :: vs) l -> exists w l', l = w ++ l' /\ v < 2 ^ 64 /\ emits c C v (Word w) /\ stream c C vs l'.
Proof. intros H. inversion H as [|C' v' w m l' H1 H2 H3]; subst. exists w, l'. auto. Qed.
Lemma stream_app_inv c C vs us l : stream c C (vs ++ us) l -> exists l1 l2, l = l1 ++ l2 /\ stream c C vs l1 /\ stream c C us l2.
Proof.
  revert l. induction vs as [|v vs IH]; intros l H; [exists [], l; split; [reflexivity|]; split; [constructor|exact H]|].
  cbn [app] in H. apply stream_cons_inv in H. destruct H as (w & l' & -> & Hv & He & H). destruct (IH l' H) as (l1 & l2 & -> & H1 & H2).
  exists (w ++ l1), l2. split; [apply app_assoc|]. split; [|exact H2]. now constructor.
Qed.
Lemma in_step c C vs l : wf_cfg c -> stream c C vs l -> (forall v, In v vs -> ~ omega_of_0 C v) -> until (parse c C) l (map Some vs) [].
Proof.
  intros Hc. revert l. induction vs as [|v vs IH]; intros l H HZ; [inversion H; constructor|].
  apply stream_cons_inv in H. destruct H as (w & l' & -> & Hv & He & H). cbn [map].
  apply (un_value _ _ v l'); [apply C106_round_trip; auto; apply HZ; now left|]. apply IH; [exact H|]. intros u Hu. apply HZ. now right.
Qed.

(** ** Unary *)
Lemma unary_shrinks c : shrinks (parse c XUnary).
Proof.
  intros l q. change (parse c XUnary l) with (parse_unary c 0 l). generalize 0 as k. induction l as [|[|] l IH]; intros k [[v H]|H]; cbn [parse_unary] in H; try discriminate.
  - injection H as <- <-. cbn [length]. lia.
  - destruct (debug c && _); [discriminate|]. cbn [length]. specialize (IH _ (or_introl (ex_intro _ v H))). lia.
  - destruct (debug c && _); [discriminate|]. cbn [length]. specialize (IH _ (or_intror H)). lia.
Qed.
(** One answer in [p ++ w ++ l]: within [p], or at the end of the word [w]. *)
Lemma unary_one c n p l k : parse_unary c k (p ++ repeatN false n ++ true :: l) = Breaks /\ debug c = true \/
  exists v, parse_unary c k (p ++ repeatN false n ++ true :: l) = Value v l \/
  exists p', (length p' < length p)%nat /\ parse_unary c k (p ++ repeatN false n ++ true :: l) = Value v (p' ++ repeatN false n ++ true :: l).
Proof.
  revert k. induction p as [|b p IH]; intros k; cbn [app].
  - unfold repeatN. generalize (N.to_nat n) as m. intros m. revert k. induction m as [|m IHm]; intros k; cbn [repeat app parse_unary]; [right; eexists; left; reflexivity|].
    destruct (debug c && (2 ^ 64 <=? k + 1)) eqn:E; [left; split; [reflexivity|]; apply andb_true_iff in E; tauto|].
    destruct (IHm (k + 1)) as [H|[v [H|(p' & H & _)]]]; [now left|right; exists v; now left|cbn [length] in H; lia].
  - destruct b; cbn [parse_unary]; [right; eexists; right; exists p; split; [cbn [length]; lia|reflexivity]|].
    destruct (debug c && (2 ^ 64 <=? k + 1)) eqn:E; [left; split; [reflexivity|]; apply andb_true_iff in E; tauto|].
    destruct (IH (k + 1)) as [H|[v [H|(p' & H & K)]]]; [now left|right; exists v; now left|right; exists v; right; exists p'; split; [cbn [length]; lia|exact K]].
Qed.
Lemma unary_sync c n p l : stuck (parse c XUnary) (p ++ repeatN false n ++ true :: l) /\ debug c = true \/ exists xs, until (parse c XUnary) (p ++ repeatN false n ++ true :: l) xs l.
Proof.
  remember (length p) as k eqn:Ek. revert p Ek. induction k as [k IH] using lt_wf_ind. intros p ->.
  destruct (unary_one c n p l 0) as [[H D]|[v [H|(p' & H & K)]]]; [left; split; [now constructor|exact D]|right; exists [Some v]; eapply un_value; [exact H|constructor]|].
  destruct (IH _ H p' eq_refl) as [[J D]|[xs J]]; [left; split; [eapply st_value; [exact K|exact J]|exact D]|right; exists (Some v :: xs); eapply un_value; [exact K|exact J]].
Qed.

(** ** Fibonacci *)
Lemma fibonacci_shrinks c : shrinks (parse c XFibonacci).
Proof.
  intros l q. change (parse c XFibonacci l) with (parse_fibonacci c 1 1 0 false l).
  enough (E : forall prev sum a b, (exists v, parse_fibonacci c a b sum prev l = Value v q) \/ parse_fibonacci c a b sum prev l = Refused q -> (length q < length l)%nat) by apply E.
  induction l as [|x l IH]; intros prev sum a b [[v H]|H]; cbn [parse_fibonacci] in H; cbv zeta in H; try discriminate; cbn [length].
  - destruct (x && prev); [injection H as <- <-; lia|]. destruct (debug c && _); [discriminate|]. destruct (2 ^ 64 <=? a + b); [discriminate|]. specialize (IH _ _ _ _ (or_introl (ex_intro _ v H))). lia.
  - destruct (x && prev); [discriminate|]. destruct (debug c && _); [discriminate|]. destruct (2 ^ 64 <=? a + b); [injection H as <-; lia|]. specialize (IH _ _ _ _ (or_intror H)). lia.
Qed.
Definition zeck (z : list bool) : Prop := no_adjacent z /\ last z false = true.
Lemma zeck_tail x y z : zeck (x :: y :: z) -> zeck (y :: z).
Proof. intros [H K]. split; [now apply no_adjacent_tail with x|exact K]. Qed.
(** An answer while a word is read. *)
Inductive answer_in (c : cfg) (z l : list bool) : parsed -> Prop :=
| ai_end : forall g, answer_in c z l (Value g l)
| ai_value : forall g x y, z = x ++ y -> x <> [] -> answer_in c z l (Value g (y ++ true :: l))
| ai_refused : forall x y, z = x ++ y -> x <> [] -> answer_in c z l (Refused (y ++ true :: l))
| ai_breaks : debug c = true -> answer_in c z l Breaks.
Lemma answer_in_cons c x z l r : answer_in c z l r -> answer_in c (x :: z) l r.
Proof.
  intros H. destruct H as [g|g a b -> Ha|a b -> Ha|D]; [constructor|apply (ai_value _ _ _ g (x :: a) b); [reflexivity|discriminate]|apply (ai_refused _ _ _ (x :: a) b); [reflexivity|discriminate]|now constructor].
Qed.
Lemma fib_in c z l : zeck z -> forall a b sum prev, answer_in c z l (parse_fibonacci c a b sum prev (z ++ true :: l)).
Proof.
  induction z as [|x z IH]; intros HZ a b sum prev; [destruct HZ; discriminate|]. cbn [app parse_fibonacci]. cbv zeta.
  destruct (x && prev) eqn:E1; [apply (ai_value _ _ _ _ [x] z); [reflexivity|discriminate]|].
  destruct (debug c && _) eqn:E2; [constructor; apply andb_true_iff in E2; tauto|].
  destruct (2 ^ 64 <=? a + b) eqn:E3; [apply (ai_refused _ _ _ [x] z); [reflexivity|discriminate]|].
  destruct z as [|y z].
  - destruct HZ as [_ HL]. cbn in HL. subst x. cbn [app parse_fibonacci andb]. constructor.
  - apply answer_in_cons. apply IH. now apply zeck_tail with x.
Qed.
Lemma fib_before c p z l : zeck z -> forall a b sum prev,
  answer_in c z l (parse_fibonacci c a b sum prev (p ++ z ++ true :: l)) \/
  exists p', (length p' < length p)%nat /\ ((exists g, parse_fibonacci c a b sum prev (p ++ z ++ true :: l) = Value g (p' ++ z ++ true :: l)) \/
    parse_fibonacci c a b sum prev (p ++ z ++ true :: l) = Refused (p' ++ z ++ true :: l)).
Proof.
  intros HZ. induction p as [|x p IH]; intros a b sum prev; [left; now apply fib_in|]. cbn [app parse_fibonacci]. cbv zeta.
  destruct (x && prev) eqn:E1; [right; exists p; split; [cbn [length]; lia|left; eexists; reflexivity]|].
  destruct (debug c && _) eqn:E2; [left; constructor; apply andb_true_iff in E2; tauto|].
  destruct (2 ^ 64 <=? a + b) eqn:E3; [right; exists p; split; [cbn [length]; lia|now right]|].
  destruct (IH b (a + b) ((if x then sum + b else sum) mod 2 ^ 64) x) as [H|(p' & H & K)]; [now left|right; exists p'; split; [cbn [length]; lia|exact K]].
Qed.
(** After the word the place is found, or one bit short of it. *)
Definition near (c : cfg) (f : list bool -> parsed) (m l : list bool) : Prop :=
  stuck f m /\ debug c = true \/ exists xs, until f m xs l \/ until f m xs (true :: l).
Lemma near_value c f m v q l : f m = Value v q -> near c f q l -> near c f m l.
Proof. intros E [[H D]|[xs [H|H]]]; [left; eauto using stuck|right; exists (Some v :: xs); left; eauto using until|right; exists (Some v :: xs); right; eauto using until]. Qed.
Lemma near_refused c f m q l : f m = Refused q -> near c f q l -> near c f m l.
Proof. intros E [[H D]|[xs [H|H]]]; [left; eauto using stuck|right; exists (None :: xs); left; eauto using until|right; exists (None :: xs); right; eauto using until]. Qed.
Lemma zeck_suffix x y : zeck (x ++ y) -> y <> [] -> zeck y.
Proof.
  intros H Hy. induction x as [|a x IH]; [exact H|]. apply IH. cbn [app] in H. destruct (x ++ y) as [|b t] eqn:E; [apply app_eq_nil in E; destruct E; congruence|]. now apply zeck_tail with a.
Qed.
Lemma fib_near c p z l : zeck z -> near c (parse c XFibonacci) (p ++ z ++ true :: l) l.
Proof.
  remember (length p + length z)%nat as k eqn:Ek. revert p z Ek. induction k as [k IH] using lt_wf_ind. intros p z -> HZ.
  assert (Hin : forall y x, z = x ++ y -> x <> [] -> near c (parse c XFibonacci) (y ++ true :: l) l).
  { intros y x E Hx. destruct y as [|b y]; [right; exists []; right; constructor|]. apply (IH (length (b :: y)) ltac:(subst z; rewrite app_length; destruct x; [congruence|cbn [length]; lia]) [] (b :: y) eq_refl).
    apply (zeck_suffix x); [now rewrite <- E|discriminate]. }
  destruct (fib_before c p z l HZ 1 1 0 false) as [H|(p' & H & [[g K]|K])].
  - change (parse_fibonacci c 1 1 0 false (p ++ z ++ true :: l)) with (parse c XFibonacci (p ++ z ++ true :: l)) in H.
    inversion H as [g E|g x y Ez Hx E|x y Ez Hx E|D E]; symmetry in E.
    + right. exists [Some g]. left. eapply un_value; [exact E|constructor].
    + apply (near_value _ _ _ _ _ _ E). now apply (Hin y x).
    + apply (near_refused _ _ _ _ _ E). now apply (Hin y x).
    + left. split; [now constructor|exact D].
  - apply (near_value _ _ _ g (p' ++ z ++ true :: l)); [exact K|]. apply (IH (length p' + length z)%nat ltac:(lia) p' z eq_refl HZ).
  - apply (near_refused _ _ _ (p' ++ z ++ true :: l)); [exact K|]. apply (IH (length p' + length z)%nat ltac:(lia) p' z eq_refl HZ).
Qed.

(** The part of a word from any bit before the last on is a word, of a smaller value. *)
Lemma fib_sum_S z : forall a b a' b', a <= a' -> b <= b' -> fib_sum a b z <= fib_sum a' b' z.
Proof. induction z as [|x z IH]; intros a b a' b' H1 H2; cbn [fib_sum]; [lia|]. specialize (IH b (a + b) b' (a' + b') H2 ltac:(lia)). destruct x; lia. Qed.
Lemma fib_sum_lt z : zeck z -> forall a b a' b', 1 <= b -> a <= a' -> b < b' -> fib_sum a b z < fib_sum a' b' z.
Proof.
  induction z as [|x z IH]; intros HZ a b a' b' H0 H1 H2; [destruct HZ; discriminate|]. cbn [fib_sum]. destruct z as [|y z].
  - destruct HZ as [_ HL]. cbn in HL. subst x. cbn [fib_sum]. lia.
  - specialize (IH (zeck_tail _ _ _ HZ) b (a + b) b' (a' + b') ltac:(lia) ltac:(lia) ltac:(lia)). destruct x; lia.
Qed.
Lemma fib_sum_pos z : zeck z -> 1 <= fib_sum 1 1 z.
Proof.
  enough (H : forall a b, 1 <= b -> zeck z -> 1 <= fib_sum a b z) by (apply H; lia). induction z as [|x z IH]; intros a b Hb HZ; [destruct HZ; discriminate|]. cbn [fib_sum].
  destruct x; [lia|]. destruct z as [|y z]; [destruct HZ; discriminate|]. apply IH; [lia|now apply zeck_tail with false].
Qed.
Lemma zeck_word z : zeck z -> fib_word (fib_sum 1 1 z) (z ++ [true]).
Proof. intros [H1 H2]. exists z. auto. Qed.
Lemma fib_sum_suffix x y : zeck (x ++ y) -> x <> [] -> y <> [] -> fib_sum 1 1 y < fib_sum 1 1 (x ++ y).
Proof.
  intros HZ Hx Hy. induction x as [|a x IH]; [congruence|]. cbn [app] in *. destruct x as [|b x].
  - cbn [app fib_sum] in *. destruct y as [|b y]; [congruence|]. apply zeck_tail in HZ. pose proof (fib_sum_lt _ HZ 1 1 1 (1 + 1) ltac:(lia) ltac:(lia) ltac:(lia)). destruct a; lia.
  - assert (HZ' : zeck ((b :: x) ++ y)) by (now apply zeck_tail with a). specialize (IH HZ' ltac:(discriminate)).
    cbn [app] in *. change (fib_sum 1 1 (a :: b :: x ++ y)) with ((if a then 1 else 0) + fib_sum 1 (1 + 1) (b :: x ++ y)).
    pose proof (fib_sum_S (b :: x ++ y) 1 1 1 (1 + 1) ltac:(lia) ltac:(lia)). destruct a; lia.
Qed.
Lemma zeck_step c z l : wf_cfg c -> zeck z -> fib_sum 1 1 z < fib_max -> until (parse c XFibonacci) (z ++ true :: l) [Some (fib_sum 1 1 z)] l.
Proof.
  intros Hc HZ Hm. pose proof (fib_sum_pos z HZ). eapply un_value; [|constructor].
  pose proof (C106_round_trip c XFibonacci (fib_sum 1 1 z) (z ++ [true]) l Hc) as K. rewrite <- app_assoc in K. apply K; [unfold fib_max in Hm; lia| |cbn; tauto].
  apply em_fibonacci; [split; assumption|now apply zeck_word].
Qed.
Theorem C108_tail : forall v x r, fib_word v (x ++ r) -> x <> [] -> (2 <= length r)%nat -> exists g, fib_word g r /\ 1 <= g < v.
Proof.
  intros v x r (z & Hs & Hn & Hl & E) Hx Hr.
  destruct (@exists_last _ r ltac:(destruct r; [cbn in Hr; lia|discriminate])) as (r' & b & ->). rewrite app_assoc in E. apply app_inj_tail in E. destruct E as [E ->].
  rewrite app_length in Hr. cbn [length] in Hr. assert (Hr' : r' <> []) by (destruct r'; [cbn in Hr; lia|discriminate]).
  assert (HZ : zeck (x ++ r')) by (rewrite E; now split). pose proof (zeck_suffix x r' HZ Hr') as HZ'.
  exists (fib_sum 1 1 r'). split; [now apply zeck_word|]. split; [now apply fib_sum_pos|]. rewrite <- Hs, <- E. now apply fib_sum_suffix.
Qed.
Lemma fib_sum_double z : forall a b, fib_sum (2 * a) (2 * b) z = 2 * fib_sum a b z.
Proof. induction z as [|x z IH]; intros a b; cbn [fib_sum]; [reflexivity|]. replace (2 * a + 2 * b) with (2 * (a + b)) by lia. rewrite IH. destruct x; lia. Qed.
Lemma one_bit_short c z l : wf_cfg c -> zeck z -> 2 <= fib_sum 1 1 z -> 2 * fib_sum 1 1 z + 1 < fib_max -> exists xs, until (parse c XFibonacci) (true :: z ++ true :: l) xs l.
Proof.
  intros Hc HZ H2 Hm. destruct z as [|x z]; [destruct HZ; discriminate|]. destruct x.
  - destruct z as [|y z]; [cbn in H2; lia|]. pose proof (zeck_tail _ _ _ HZ) as HZ'. exists [Some 1; Some (fib_sum 1 1 (y :: z))]. apply (un_value _ _ 1 ((y :: z) ++ true :: l)).
    + change (parse c XFibonacci (true :: (true :: y :: z) ++ true :: l)) with (parse_fibonacci c 1 1 0 false (true :: (true :: y :: z) ++ true :: l)). cbn [app parse_fibonacci andb]. cbv zeta.
      change (2 ^ 64 <=? 0 + 1) with false. rewrite andb_false_r. reflexivity.
    + apply zeck_step; [exact Hc|exact HZ'|]. pose proof (fib_sum_suffix [true] (y :: z) HZ ltac:(discriminate) ltac:(discriminate)). cbn [app] in H. lia.
  - assert (HZ' : zeck (true :: false :: z)).
    { destruct HZ as [H1 H3]. split; [|exact H3]. intros i [A1 A2]. rewrite nthN_cons in A1, A2. destruct (i + 1 =? 0) eqn:E; [lia|]. destruct (i =? 0) eqn:E0.
      - replace (i + 1 - 1) with 0 in A2 by lia. rewrite nthN_cons in A2. discriminate.
      - apply (H1 (i - 1)). replace (i - 1 + 1) with (i + 1 - 1) by lia. auto. }
    exists [Some (fib_sum 1 1 (true :: false :: z))]. change (true :: (false :: z) ++ true :: l) with ((true :: false :: z) ++ true :: l). apply zeck_step; [exact Hc|exact HZ'|].
    set (t := false :: z) in *. clearbody t. cbn [fib_sum]. pose proof (fib_sum_S t 1 (1 + 1) (2 * 1) (2 * 1) ltac:(lia) ltac:(lia)) as K. rewrite fib_sum_double in K. lia.
Qed.
Lemma fib_stream_cons c v vs l : stream c XFibonacci (v :: vs) l -> exists z l', l = z ++ true :: l' /\ zeck z /\ fib_sum 1 1 z = v /\ v < fib_max /\ stream c XFibonacci vs l'.
Proof.
  intros H. apply stream_cons_inv in H. destruct H as (w & l' & -> & Hv & He & H). inversion He; subst.
  match goal with K : fib_word v w |- _ => destruct K as (z & Hs & Hn & Hl & ->) end.
  exists z, l'. rewrite <- app_assoc. split; [reflexivity|]. split; [now split|]. split; [exact Hs|]. split; [tauto|exact H].
Qed.
Lemma near_until c f m xs l l' : until f m xs l -> near c f l l' -> near c f m l'.
Proof.
  intros H [[K D]|[ys [K|K]]]; [left; split; [now apply (until_stuck _ _ _ _ H)|exact D]|right; exists (xs ++ ys); left; now apply (until_app _ _ _ _ _ _ H)|right; exists (xs ++ ys); right; now apply (until_app _ _ _ _ _ _ H)].
Qed.
(** Over any words. *)
Lemma near_over c m a l' : wf_cfg c -> forall l, stream c XFibonacci a l -> near c (parse c XFibonacci) m (l ++ l') -> near c (parse c XFibonacci) m l'.
Proof.
  intros Hc. induction a as [|v a IH]; intros l H HN; [inversion H; subst; exact HN|].
  apply fib_stream_cons in H. destruct H as (z & l1 & -> & HZ & Hs & Hm & H). rewrite <- app_assoc in HN. cbn [app] in HN. apply (IH l1 H).
  destruct HN as [K|[xs [K|K]]]; [now left| |].
  - apply (near_until _ _ _ _ _ _ K). right. eexists. left. apply zeck_step; [exact Hc|exact HZ|lia].
  - apply (near_until _ _ _ _ _ _ K). exact (fib_near c [true] z (l1 ++ l') HZ).
Qed.
(** Any bits [p] instead of those lost before the words. *)
Theorem C108_fibonacci : forall S c p a v rest l (src : source S) s s' s'' fuel n, wf_cfg c -> stream c XFibonacci (a ++ v :: rest) l -> a <> [] -> 2 <= v -> 2 * v + 1 < fib_max ->
  reads src s (p ++ l) s' -> read_bit src s' = Ok (IOk None, s'') -> (length (p ++ l) < fuel)%nat -> (length (p ++ l) < n)%nat ->
  debug c = true /\ panics (listen (fibonacci c) src fuel n s) \/ exists xs, listen (fibonacci c) src fuel n s = Ok (xs ++ map Some rest, s'').
Proof.
  intros S c p a v rest l src s s' s'' fuel n Hc H Ha H2 Hm HR HS Hf Hn. change (fibonacci c) with (code_of c XFibonacci).
  apply stream_app_inv in H. destruct H as (l1 & l2 & -> & H1 & H3). destruct a as [|v0 a]; [congruence|].
  apply fib_stream_cons in H1. destruct H1 as (z0 & l1' & -> & HZ0 & _ & _ & H1). apply fib_stream_cons in H3. destruct H3 as (z & l3 & -> & HZ & Hs & _ & H3).
  assert (HN : near c (parse c XFibonacci) (p ++ (z0 ++ true :: l1') ++ z ++ true :: l3) (z ++ true :: l3)).
  { apply (near_over c _ a _ Hc l1' H1). rewrite <- app_assoc. cbn [app]. now apply fib_near. }
  assert (HI : until (parse c XFibonacci) l3 (map Some rest) []) by (apply in_step; [exact Hc|exact H3|intros u _; cbn; tauto]).
  assert (HE : forall xs, until (parse c XFibonacci) (p ++ (z0 ++ true :: l1') ++ z ++ true :: l3) xs l3 -> exists ys, listen (code_of c XFibonacci) src fuel n s = Ok (ys ++ map Some rest, s'')).
  { intros xs K. exists xs. apply (listen_until c XFibonacci src Hc (fibonacci_shrinks c) _ _ [] (until_app _ _ _ _ _ _ K HI) (ex_intro _ true eq_refl) s s' s'' fuel n HR HS Hf Hn). }
  destruct HN as [[K D]|[xs [K|K]]].
  - left. split; [exact D|]. exact (listen_stuck c XFibonacci src Hc (fibonacci_shrinks c) _ K s s' s'' fuel n HR HS Hf Hn).
  - right. apply (HE (xs ++ [Some (fib_sum 1 1 z)])). apply (until_app _ _ _ _ _ _ K). apply zeck_step; [exact Hc|exact HZ|]. lia.
  - right. destruct (one_bit_short c z l3 Hc HZ ltac:(lia) ltac:(lia)) as [ys J]. apply (HE (xs ++ ys)). now apply (until_app _ _ _ _ _ _ K).
Qed.
(** Bits lost at the beginning of a word, leaving two or more: a smaller value is heard instead, and then all the others. *)
Theorem C108_lost : forall S c v x r rest l (src : source S) s s' s'' fuel n, wf_cfg c -> v < fib_max -> fib_word v (x ++ r) -> x <> [] -> (2 <= length r)%nat -> stream c XFibonacci rest l ->
  reads src s (r ++ l) s' -> read_bit src s' = Ok (IOk None, s'') -> (length (r ++ l) < fuel)%nat -> (length (r ++ l) < n)%nat ->
  exists g, 1 <= g < v /\ listen (fibonacci c) src fuel n s = Ok (Some g :: map Some rest, s'').
Proof.
  intros S c v x r rest l src s s' s'' fuel n Hc Hv HW Hx Hr H HR HS Hf Hn. destruct (C108_tail v x r HW Hx Hr) as (g & HG & Hg). exists g. split; [exact Hg|].
  apply (listen_until c XFibonacci src Hc (fibonacci_shrinks c) (r ++ l) (map Some (g :: rest)) [] (in_step c XFibonacci (g :: rest) (r ++ l) Hc
    (words_cons c XFibonacci g r _ l ltac:(unfold fib_max in Hv; lia) (em_fibonacci c g r ltac:(lia) HG) H) ltac:(intros u _; cbn; tauto)) (ex_intro _ true eq_refl) s s' s'' fuel n HR HS Hf Hn).
Qed.
Theorem C108_unary : forall S c p v rest l (src : source S) s s' s'' fuel n, wf_cfg c -> stream c XUnary (v :: rest) l ->
  reads src s (p ++ l) s' -> read_bit src s' = Ok (IOk None, s'') -> (length (p ++ l) < fuel)%nat -> (length (p ++ l) < n)%nat ->
  debug c = true /\ panics (listen (unary c) src fuel n s) \/ exists xs, listen (unary c) src fuel n s = Ok (xs ++ map Some rest, s'').
Proof.
  intros S c p v rest l src s s' s'' fuel n Hc H HR HS Hf Hn. change (unary c) with (code_of c XUnary).
  apply stream_cons_inv in H. destruct H as (w & l' & -> & Hv & He & H). inversion He; subst. unfold unary_word in *. rewrite <- app_assoc in *. cbn [app] in *.
  destruct (unary_sync c v p l') as [[K D]|[xs K]].
  - left. split; [exact D|]. exact (listen_stuck c XUnary src Hc (unary_shrinks c) _ K s s' s'' fuel n HR HS Hf Hn).
  - right. exists xs. apply (listen_until c XUnary src Hc (unary_shrinks c) _ _ [] (until_app _ _ _ _ _ _ K (in_step c XUnary rest l' Hc H ltac:(intros u _; cbn; tauto))) (ex_intro _ true eq_refl) s s' s'' fuel n HR HS Hf Hn).
Qed.

(** ** Gamma: the first bit lost, and never in step again *)
Lemma gamma_shrinks c : shrinks (parse c (XElias XUnary)).
Proof.
  intros l q. change (parse c (XElias XUnary) l) with (parse_elias (parse c XUnary l)). intros H.
  destruct (parse c XUnary l) as [n q'|q'|b|] eqn:E; cbn [parse_elias] in H; try (destruct H as [[v H]|H]; discriminate).
  - pose proof (unary_shrinks c l q' (or_introl (ex_intro _ n E))) as K. destruct (63 <? n); [destruct H as [[v H]|H]; [discriminate|injection H as <-; exact K]|].
    destruct (chunk_cases n q') as [(x & y & Hc & -> & _)|[Hc _]]; rewrite Hc in H; [|destruct H as [[v H]|H]; discriminate].
    rewrite app_length in K. destruct H as [[v H]|H]; [injection H as _ <-; lia|discriminate].
  - pose proof (unary_shrinks c l q' (or_intror E)) as K. destruct H as [[v H]|H]; [discriminate|injection H as <-; exact K].
Qed.
Lemma gamma_cycle c m : until (parse c (XElias XUnary)) ([true; false; false; true; false; false] ++ m) [Some 1; Some 4] m.
Proof.
  eapply un_value with (q := [false; false; true; false; false] ++ m).
  - change (parse c (XElias XUnary) ([true; false; false; true; false; false] ++ m)) with (parse_elias (Value 0 ([false; false; true; false; false] ++ m))). cbn [parse_elias]. change (63 <? 0) with false. cbv iota.
    pose proof (chunk_exact [] ([false; false; true; false; false] ++ m)) as K. change (lengthN []) with 0 in K. cbn [app] in *. rewrite K. reflexivity.
  - eapply un_value; [|constructor].
    change (parse c (XElias XUnary) ([false; false; true; false; false] ++ m)) with (parse_elias (parse_unary c 0 ([false; false; true; false; false] ++ m))). cbn [app parse_unary].
    change (2 ^ 64 <=? 0 + 1) with false. change (2 ^ 64 <=? 0 + 1 + 1) with false. rewrite !andb_false_r. cbn [parse_elias]. change (63 <? (0 + 1 + 1) mod 2 ^ 64) with false. cbv iota. change ((0 + 1 + 1) mod 2 ^ 64) with 2.
    pose proof (chunk_exact [false; false] m) as K. change (lengthN [false; false]) with 2 in K. cbn [app] in *. rewrite K. reflexivity.
Qed.
Lemma gamma_twos c k l : stream c (XElias XUnary) (repeat 2 (2 * k)) l -> l = concat (repeat [false; true; false; false; true; false] k).
Proof.
  revert l. induction k as [|k IH]; intros l H; [now inversion H|]. replace (2 * S k)%nat with (S (S (2 * k))) in H by lia. cbn [repeat] in H.
  assert (W : forall vs m, stream c (XElias XUnary) (2 :: vs) m -> exists m', m = [false; true; false] ++ m' /\ stream c (XElias XUnary) vs m').
  { intros vs m K. apply stream_cons_inv in K. destruct K as (w & l' & -> & _ & He & K). exists l'. split; [|exact K]. inversion He; subst; [|exfalso; match goal with K : forall w, _ <> Word w |- _ => exact (K _ eq_refl) end]. match goal with K : emits c XUnary _ _ |- _ => inversion K; subst end. reflexivity. }
  apply W in H. destruct H as (m1 & -> & H). apply W in H. destruct H as (m2 & -> & H). rewrite (IH m2 H). reflexivity.
Qed.
Theorem C108_gamma : forall S c k l (src : source S) s s' s'' fuel n, wf_cfg c -> stream c (XElias XUnary) (repeat 2 (2 * (k + 1))) l ->
  reads src s (tl l) s' -> read_bit src s' = Ok (IOk None, s'') -> (length l < fuel)%nat -> (length l < n)%nat ->
  listen (gamma c) src fuel n s = Ok (concat (repeat [Some 1; Some 4] k) ++ [Some 1], s'').
Proof.
  intros S c k l src s s' s'' fuel n Hc H HR HS Hf Hn. change (gamma c) with (code_of c (XElias XUnary)). apply gamma_twos in H.
  assert (E : tl l = concat (repeat [true; false; false; true; false; false] k) ++ [true; false; false; true; false]).
  { subst l. rewrite Nat.add_1_r. cbn [repeat concat app tl]. clear. induction k as [|k IH]; [reflexivity|]. cbn [repeat concat app]. repeat f_equal. exact IH. }
  assert (U : until (parse c (XElias XUnary)) (tl l) (concat (repeat [Some 1; Some 4] k) ++ [Some 1]) [false; false; true; false]).
  { rewrite E. clear. induction k as [|k IH].
    - cbn [repeat concat app]. eapply un_value; [|constructor]. destruct (debug c); vm_compute; reflexivity.
    - cbn [repeat concat]. rewrite <- !app_assoc. apply (until_app _ _ _ _ _ _ (gamma_cycle c _) IH). }
  assert (HL : (length (tl l) <= length l)%nat) by (destruct l; cbn [tl length]; lia).
  apply (listen_until c (XElias XUnary) src Hc (gamma_shrinks c) _ _ _ U) with (s' := s'); try assumption; try lia.
  exists false. cbn [parse]. change (parse c XUnary [false; false; true; false]) with (parse_unary c 0 [false; false; true; false]). cbn [parse_unary].
  change (2 ^ 64 <=? 0 + 1) with false. change (2 ^ 64 <=? 0 + 1 + 1) with false. rewrite !andb_false_r. reflexivity.
Qed.

(** Bits put before, a word cut, ones that keep the listener a bit short, and long words that do. *)
Fixpoint apart (z : list bool) : bool := match z with true :: (true :: _) => false | _ :: t => apart t | [] => true end.
Lemma apart_zeck z : apart z = true -> last z false = true -> zeck z.
Proof.
  intros H K. split; [|exact K]. clear K. induction z as [|x z IH]; intros i [A1 A2]; rewrite nthN_cons in A1, A2 || discriminate.
  destruct (i + 1 =? 0) eqn:E; [lia|]. destruct (i =? 0) eqn:E0.
  - injection A1 as ->. replace (i + 1 - 1) with 0 in A2 by lia. destruct z as [|y z]; [discriminate|]. rewrite nthN_cons in A2. cbn in A2. injection A2 as ->. discriminate.
  - assert (H' : apart z = true) by (destruct x; [destruct z as [|[|] z]; [reflexivity|discriminate|exact H]|exact H]). apply (IH H' (i - 1)). replace (i - 1 + 1) with (i + 1 - 1) by lia. auto.
Qed.
Fixpoint C108_stream (zs : list (list bool)) : list bool := match zs with [] => [] | z :: zs => z ++ true :: C108_stream zs end.
Lemma streams_108 c zs : Forall (fun z => apart z = true /\ last z false = true /\ fib_sum 1 1 z < fib_max) zs -> stream c XFibonacci (map (fib_sum 1 1) zs) (C108_stream zs).
Proof.
  intros H. induction H as [|z zs (H1 & H2 & H3) H IH]; [constructor|]. cbn [map C108_stream]. change (z ++ true :: C108_stream zs) with (z ++ [true] ++ C108_stream zs). rewrite app_assoc.
  pose proof (apart_zeck z H1 H2) as HZ. pose proof (fib_sum_pos z HZ). constructor; [unfold fib_max in H3; lia| |exact IH]. apply em_fibonacci; [auto|now apply zeck_word].
Qed.
Ltac streams := cbv zeta; match goal with |- stream _ _ ?vs (C108_stream ?zs) => replace vs with (map (fib_sum 1 1) zs) by (vm_compute; reflexivity) end;
  apply streams_108; repeat (apply Forall_cons; [repeat apply conj; vm_compute; reflexivity|]); apply Forall_nil.
Example C108_ex : let z5 := [false; false; false; true] in let z7 := [false; true; false; true] in let z3 := [false; false; true] in let z9 := [true; false; false; false; true] in
  stream rel64 XFibonacci ([5; 1] ++ 7 :: [3; 9]) (C108_stream [z5; [true]; z7; z3; z9]) /\
  listen (fibonacci rel64) deque_source 400 400 ([true; false; true] ++ C108_stream [z5; [true]; z7; z3; z9]) = Ok ([Some 25; Some 1; Some 7] ++ map Some [3; 9], []) /\
  fib_word 7 ([false] ++ [true; false; true; true]) /\
  listen (fibonacci dbg64) deque_source 400 400 ([true; false; true; true] ++ C108_stream [z3; z9]) = Ok (Some 4 :: map Some [3; 9], []) /\
  stream rel64 XUnary [4; 0; 2] [false; false; false; false; true; true; false; false; true] /\
  listen (unary rel64) deque_source 400 400 ([true; true; false] ++ [false; false; false; false; true; true; false; false; true]) = Ok ([Some 0; Some 0; Some 5] ++ map Some [0; 2], []).
Proof.
  split; [streams|]. split; [vm_compute; reflexivity|].
  split; [apply (zeck_word [false; true; false; true]); apply apart_zeck; reflexivity|]. split; [vm_compute; reflexivity|]. split; [|vm_compute; reflexivity].
  change [false; false; false; false; true; true; false; false; true] with (unary_word 4 ++ unary_word 0 ++ unary_word 2 ++ []). repeat (constructor; [lia|apply em_unary|]). constructor.
Qed.
Example C108_late : let z := repeatN false 90 ++ [true] in
  stream rel64 XFibonacci [1; 1; 1; 3; 9] (C108_stream [[true]; [true]; [true]; [false; false; true]; [true; false; false; false; true]]) /\
  listen (fibonacci rel64) deque_source 400 400 (true :: C108_stream [[true]; [true]; [true]; [false; false; true]; [true; false; false; false; true]]) = Ok ([Some 1; Some 1; Some 1; Some 6] ++ map Some [9], []) /\
  stream rel64 XFibonacci ([fib_sum 1 1 z; fib_sum 1 1 z] ++ 2 :: [9]) (C108_stream [z; z; [false; true]; [true; false; false; false; true]]) /\
  listen (fibonacci rel64) deque_source 400 400 (true :: C108_stream [z; z; [false; true]; [true; false; false; false; true]]) = Ok ([None; None; Some 4] ++ map Some [9], []) /\
  stream rel64 (XElias XUnary) (repeat 2 (2 * (1 + 1))) [false; true; false; false; true; false; false; true; false; false; true; false].
Proof.
  cbv zeta. split; [streams|]. split; [vm_compute; reflexivity|].
  split; [streams|].
  split; [vm_compute; reflexivity|].
  assert (W : emits rel64 (XElias XUnary) 2 (Word [false; true; false])) by (apply (em_elias rel64 XUnary 2 (unary_word 1)); [lia|apply em_unary]).
  change [false; true; false; false; true; false; false; true; false; false; true; false] with ([false; true; false] ++ [false; true; false] ++ [false; true; false] ++ [false; true; false] ++ []).
  repeat (constructor; [lia|exact W|]). constructor.
Qed.
Print Assumptions C108_tail.
Print Assumptions C108_fibonacci.
Print Assumptions C108_lost.
Print Assumptions C108_unary.
Print Assumptions C108_gamma.
