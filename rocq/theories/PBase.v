(** * General lemmas: the outcome monad, machine arithmetic, lists indexed by [N]. *)
From Coq Require Export ZifyBool ZifyNat ZifyN.
From Verif Require Export Machine SpecBits.
Ltac Zify.zify_post_hook ::= Z.div_mod_to_equations.
Arguments N.add : simpl never.
Arguments N.sub : simpl never.
Arguments N.mul : simpl never.
Arguments N.div : simpl never.
Arguments N.modulo : simpl never.
Arguments N.pow : simpl never.
Arguments N.eqb : simpl never.
Arguments N.ltb : simpl never.
Arguments N.leb : simpl never.
Arguments N.of_nat : simpl never.
Arguments N.to_nat : simpl never.

(** ** Machine arithmetic *)

Lemma bind_ok {A B} (m : res A) (f : A -> res B) a : m = Ok a -> bind m f = f a.
Proof. intros ->. reflexivity. Qed.

Lemma bind_inv {A B} (m : res A) (f : A -> res B) b :
  bind m f = Ok b -> exists a, m = Ok a /\ f a = Ok b.
Proof. destruct m; cbn; intros H; try discriminate. eauto. Qed.

Lemma bind_panics {A B} (m : res A) (f : A -> res B) : panics m -> panics (bind m f).
Proof. intros [p ->]. exists p. reflexivity. Qed.

Lemma panics_Panic {A} p : panics (@Panic A p).
Proof. exists p. reflexivity. Qed.
#[export] Hint Resolve panics_Panic : core.

Lemma panics_not_ok {A} (r : res A) a : panics r -> r <> Ok a.
Proof. intros [p ->]. discriminate. Qed.

Lemma assert_true b : b = true -> assert_ b = Ok tt.
Proof. intros ->. reflexivity. Qed.
Lemma assert_false b : b = false -> assert_ b = Panic PAssert.
Proof. intros ->. reflexivity. Qed.
Lemma debug_assert_true c b : b = true -> debug_assert c b = Ok tt.
Proof. intros ->. unfold debug_assert. destruct (debug c); reflexivity. Qed.

Lemma wrap_ok c w x : x < 2 ^ w -> wrap c w x = Ok x.
Proof. intros H. unfold wrap. apply N.ltb_lt in H. rewrite H. reflexivity. Qed.
Lemma wadd_ok c w a b : a + b < 2 ^ w -> wadd c w a b = Ok (a + b).
Proof. apply wrap_ok. Qed.
Lemma wmul_ok c w a b : a * b < 2 ^ w -> wmul c w a b = Ok (a * b).
Proof. apply wrap_ok. Qed.
Lemma wsub_ok c w a b : b <= a -> wsub c w a b = Ok (a - b).
Proof. intros H. unfold wsub. apply N.leb_le in H. rewrite H. reflexivity. Qed.
Lemma wshl_ok c w a k : k < w -> wshl c w a k = Ok (N.shiftl a k mod 2 ^ w).
Proof. intros H. unfold wshl. apply N.ltb_lt in H. rewrite H. reflexivity. Qed.
Lemma wshr_ok c w a k : k < w -> wshr c w a k = Ok (N.shiftr a k).
Proof. intros H. unfold wshr. apply N.ltb_lt in H. rewrite H. reflexivity. Qed.
Lemma wdiv_ok a b : b <> 0 -> wdiv a b = Ok (a / b).
Proof. intros H. unfold wdiv. apply N.eqb_neq in H. rewrite H. reflexivity. Qed.
Lemma wmod_ok a b : b <> 0 -> wmod a b = Ok (a mod b).
Proof. intros H. unfold wmod. apply N.eqb_neq in H. rewrite H. reflexivity. Qed.
Lemma as_usize_small c x : x < 2 ^ ptr c -> as_usize c x = x.
Proof. intros H. unfold as_usize. apply N.mod_small. exact H. Qed.
Lemma to_usize_small c x : x < 2 ^ ptr c -> to_usize c x = Some x.
Proof. intros H. unfold to_usize. apply N.ltb_lt in H. rewrite H. reflexivity. Qed.
Lemma to_usize_big c x : 2 ^ ptr c <= x -> to_usize c x = None.
Proof. intros H. unfold to_usize. apply N.ltb_ge in H. rewrite H. reflexivity. Qed.
Lemma alloc_ok c w n : n * w <= max_bits c -> alloc c w n = Ok tt.
Proof. intros H. unfold alloc. apply N.leb_le in H. rewrite H. reflexivity. Qed.
Lemma alloc_fail c w n : max_bits c < n * w -> alloc c w n = Panic PAlloc.
Proof. intros H. unfold alloc. apply N.leb_gt in H. rewrite H. reflexivity. Qed.

Lemma wf_ptr c : wf_cfg c -> 2 ^ 32 <= 2 ^ ptr c /\ 2 ^ ptr c <= 2 ^ 64.
Proof. intros [H|H]; rewrite H; split; lia. Qed.

Lemma max_bits_lt c : max_bits c <= 2 ^ 63.
Proof. unfold max_bits. destruct (ptr c =? 32); lia. Qed.

Lemma wf_nb_pow nb : wf_nb nb -> exists k, nb = 2 ^ k /\ 3 <= k <= 6.
Proof.
  intros [H|[H|[H|H]]]; subst; [exists 3|exists 4|exists 5|exists 6]; split; try reflexivity; lia.
Qed.
Lemma wf_nb_range nb : wf_nb nb -> 8 <= nb <= 64.
Proof. intros [H|[H|[H|H]]]; subst; lia. Qed.

Lemma wf_nb_pos nb : wf_nb nb -> 0 < nb.
Proof. intros H. pose proof (wf_nb_range nb H). lia. Qed.

Lemma pow2_pos n : 0 < 2 ^ n.
Proof. apply N.neq_0_lt_0, N.pow_nonzero. lia. Qed.

(** A block count whose bits fit in memory fits in a usize. *)
Lemma blocks_fit c nb n : wf_cfg c -> wf_nb nb -> n * nb <= max_bits c -> n < 2 ^ ptr c.
Proof.
  intros Hc Hn H. pose proof (wf_nb_range _ Hn). unfold max_bits in H.
  destruct Hc as [E|E]; rewrite E in *; cbn in H |- *.
  - destruct (32 =? 32) eqn:?; lia.
  - destruct (64 =? 32) eqn:?; lia.
Qed.

(** ** Lists *)

Lemma nthN_nth_error {A} (l : list A) i : nthN l i = nth_error l (N.to_nat i).
Proof.
  revert i; induction l as [|x t IH]; intros i; cbn [nthN].
  - destruct (N.to_nat i); reflexivity.
  - destruct (i =? 0) eqn:E.
    + apply N.eqb_eq in E; subst. reflexivity.
    + rewrite IH. apply N.eqb_neq in E.
      replace (N.to_nat i) with (S (N.to_nat (i - 1))) by lia. reflexivity.
Qed.

Lemma lengthN_nil {A} : lengthN (@nil A) = 0.
Proof. reflexivity. Qed.
Lemma lengthN_cons {A} (x : A) l : lengthN (x :: l) = lengthN l + 1.
Proof. unfold lengthN. cbn [length]. lia. Qed.
Lemma lengthN_app {A} (l l' : list A) : lengthN (l ++ l') = lengthN l + lengthN l'.
Proof. unfold lengthN. rewrite app_length. lia. Qed.
Lemma lengthN_repeatN {A} (a : A) n : lengthN (repeatN a n) = n.
Proof. unfold lengthN, repeatN. rewrite repeat_length. lia. Qed.
Lemma lengthN_firstnN {A} n (l : list A) : lengthN (firstnN n l) = N.min n (lengthN l).
Proof. unfold lengthN, firstnN. rewrite firstn_length. lia. Qed.
Lemma lengthN_skipnN {A} n (l : list A) : lengthN (skipnN n l) = lengthN l - n.
Proof. unfold lengthN, skipnN. rewrite skipn_length. lia. Qed.
Lemma lengthN_rev {A} (l : list A) : lengthN (rev l) = lengthN l.
Proof. unfold lengthN. rewrite rev_length. reflexivity. Qed.
Lemma lengthN_map {A B} (f : A -> B) l : lengthN (map f l) = lengthN l.
Proof. unfold lengthN. rewrite map_length. reflexivity. Qed.
Lemma updN_length {A} (l : list A) i a : length (updN l i a) = length l.
Proof. revert i; induction l as [|x t IH]; intros i; cbn [updN]; [reflexivity|].
  destruct (i =? 0); cbn [length]; [reflexivity|]. now rewrite IH. Qed.
Lemma lengthN_updN {A} (l : list A) i a : lengthN (updN l i a) = lengthN l.
Proof. unfold lengthN. now rewrite updN_length. Qed.
Lemma lengthN_0 {A} (l : list A) : lengthN l = 0 -> l = [].
Proof. destruct l; [reflexivity|]. rewrite lengthN_cons. lia. Qed.

Lemma nthN_None {A} (l : list A) i : nthN l i = None <-> lengthN l <= i.
Proof. rewrite nthN_nth_error, nth_error_None. unfold lengthN. lia. Qed.
Lemma nthN_lt {A} (l : list A) i a : nthN l i = Some a -> i < lengthN l.
Proof. intros H. destruct (N.lt_ge_cases i (lengthN l)) as [H1|H1]; [exact H1|].
  apply nthN_None in H1. congruence. Qed.
Lemma nthN_Some {A} (l : list A) i : i < lengthN l -> exists a, nthN l i = Some a.
Proof. intros H. destruct (nthN l i) eqn:E; [eauto|]. apply nthN_None in E. lia. Qed.

Lemma nthN_ext {A} (l l' : list A) : (forall i, nthN l i = nthN l' i) -> l = l'.
Proof.
  revert l'; induction l as [|x t IH]; intros [|y u] H.
  - reflexivity.
  - specialize (H 0). discriminate.
  - specialize (H 0). discriminate.
  - pose proof (H 0) as H0. cbn in H0. injection H0 as ->. f_equal. apply IH.
    intros i. specialize (H (i + 1)). cbn [nthN] in H.
    destruct (i + 1 =? 0) eqn:E; [lia|]. now replace (i + 1 - 1) with i in H by lia.
Qed.

Lemma nthN_app_l {A} (l l' : list A) i : i < lengthN l -> nthN (l ++ l') i = nthN l i.
Proof. intros H. rewrite !nthN_nth_error. apply nth_error_app1. unfold lengthN in H. lia. Qed.
Lemma nthN_app_r {A} (l l' : list A) i : lengthN l <= i ->
  nthN (l ++ l') i = nthN l' (i - lengthN l).
Proof. intros H. rewrite !nthN_nth_error. unfold lengthN in *. rewrite nth_error_app2 by lia.
  f_equal. lia. Qed.
Lemma nthN_app {A} (l l' : list A) i :
  nthN (l ++ l') i = if i <? lengthN l then nthN l i else nthN l' (i - lengthN l).
Proof. destruct (i <? lengthN l) eqn:E; [apply nthN_app_l|apply nthN_app_r]; lia. Qed.

Lemma nthN_repeatN {A} (a : A) n i : nthN (repeatN a n) i = if i <? n then Some a else None.
Proof.
  destruct (i <? n) eqn:E.
  - rewrite nthN_nth_error. unfold repeatN. rewrite nth_error_repeat; [reflexivity|lia].
  - apply nthN_None. rewrite lengthN_repeatN. lia.
Qed.

Lemma nth_error_firstn_ {A} (l : list A) n i : (i < n)%nat -> nth_error (firstn n l) i = nth_error l i.
Proof. revert n i; induction l as [|x t IH]; intros [|n] [|i] H; cbn; try reflexivity; try lia.
  apply IH. lia. Qed.
Lemma nth_error_skipn_ {A} (l : list A) n i : nth_error (skipn n l) i = nth_error l (n + i).
Proof. revert l; induction n as [|n IH]; intros [|x t]; cbn; try reflexivity.
  - destruct i; reflexivity. - apply IH. Qed.

Lemma nthN_firstnN {A} n (l : list A) i :
  nthN (firstnN n l) i = if i <? n then nthN l i else None.
Proof.
  destruct (i <? n) eqn:E.
  - rewrite !nthN_nth_error. apply nth_error_firstn_. lia.
  - apply nthN_None. rewrite lengthN_firstnN. lia.
Qed.
Lemma nthN_skipnN {A} n (l : list A) i : nthN (skipnN n l) i = nthN l (n + i).
Proof. rewrite !nthN_nth_error. unfold skipnN. rewrite nth_error_skipn_. f_equal. lia. Qed.
Lemma nthN_cons {A} (x : A) l i : nthN (x :: l) i = if i =? 0 then Some x else nthN l (i - 1).
Proof. reflexivity. Qed.
Lemma nthN_nil {A} i : nthN (@nil A) i = None.
Proof. reflexivity. Qed.
Lemma nthN_map {A B} (f : A -> B) l i :
  nthN (map f l) i = match nthN l i with Some a => Some (f a) | None => None end.
Proof. rewrite !nthN_nth_error, nth_error_map. destruct (nth_error l (N.to_nat i)); reflexivity. Qed.
Lemma nthN_updN {A} (l : list A) i a j :
  nthN (updN l i a) j = if j =? i then (if i <? lengthN l then Some a else None) else nthN l j.
Proof.
  revert i j; induction l as [|x t IH]; intros i j; cbn [updN].
  - rewrite lengthN_nil. cbn [nthN]. destruct (j =? i), (i <? 0) eqn:?; try reflexivity; lia.
  - rewrite lengthN_cons. destruct (i =? 0) eqn:Ei.
    + rewrite !nthN_cons. destruct (j =? 0) eqn:Ej, (j =? i) eqn:Eji, (i <? lengthN t + 1) eqn:?;
        try reflexivity; lia.
    + rewrite !nthN_cons, IH.
      destruct (j =? 0) eqn:Ej, (j =? i) eqn:Eji, (j - 1 =? i - 1) eqn:?,
        (i <? lengthN t + 1) eqn:?, (i - 1 <? lengthN t) eqn:?; try reflexivity; lia.
Qed.
Lemma nthN_sub {A} s n (l : list A) i : nthN (sub s n l) i = if i <? n then nthN l (s + i) else None.
Proof. unfold sub. rewrite nthN_firstnN, nthN_skipnN. reflexivity. Qed.
Lemma lengthN_sub {A} s n (l : list A) : lengthN (sub s n l) = N.min n (lengthN l - s).
Proof. unfold sub. rewrite lengthN_firstnN, lengthN_skipnN. reflexivity. Qed.
Lemma nthN_put {A} s (x l : list A) i : s + lengthN x <= lengthN l ->
  nthN (put s x l) i = if (s <=? i) && (i <? s + lengthN x) then nthN x (i - s) else nthN l i.
Proof.
  intros H. unfold put. rewrite !nthN_app, lengthN_firstnN, nthN_firstnN, nthN_skipnN.
  replace (N.min s (lengthN l)) with s by lia.
  destruct (i <? s) eqn:E1, (i - s <? lengthN x) eqn:E2, (s <=? i) eqn:E3,
    (i <? s + lengthN x) eqn:E4; cbn; try reflexivity; try lia.
  f_equal. lia.
Qed.
Lemma lengthN_put {A} s (x l : list A) : s + lengthN x <= lengthN l ->
  lengthN (put s x l) = lengthN l.
Proof. intros H. unfold put. rewrite !lengthN_app, lengthN_firstnN, lengthN_skipnN. lia. Qed.
Lemma nthN_fit {A} n (b : A) l i :
  nthN (fit n b l) i = if i <? n then Some (match nthN l i with Some a => a | None => b end) else None.
Proof.
  unfold fit. rewrite nthN_app, lengthN_firstnN, nthN_firstnN, nthN_repeatN.
  destruct (i <? N.min n (lengthN l)) eqn:E1, (i <? n) eqn:E2; try lia; try reflexivity.
  - destruct (nthN_Some l i) as [a Ha]; [lia|]. now rewrite Ha.
  - assert (H: nthN l i = None) by (apply nthN_None; lia). rewrite H.
    destruct (i - N.min n (lengthN l) <? n - lengthN l) eqn:E3; [reflexivity|lia].
  - destruct (i - N.min n (lengthN l) <? n - lengthN l) eqn:E3; [lia|reflexivity].
Qed.
Lemma lengthN_fit {A} n (b : A) l : lengthN (fit n b l) = n.
Proof. unfold fit. rewrite lengthN_app, lengthN_firstnN, lengthN_repeatN. lia. Qed.

Lemma firstnN_all {A} n (l : list A) : lengthN l <= n -> firstnN n l = l.
Proof. intros H. apply nthN_ext. intros i. rewrite nthN_firstnN.
  destruct (i <? n) eqn:E; [reflexivity|]. symmetry. apply nthN_None. lia. Qed.
Lemma firstnN_0 {A} (l : list A) : firstnN 0 l = [].
Proof. reflexivity. Qed.
Lemma firstn_skipnN {A} n (l : list A) : firstnN n l ++ skipnN n l = l.
Proof. apply firstn_skipn. Qed.
Lemma skipnN_all {A} n (l : list A) : lengthN l <= n -> skipnN n l = [].
Proof. intros H. apply lengthN_0. rewrite lengthN_skipnN. lia. Qed.
Lemma skipnN_0 {A} (l : list A) : skipnN 0 l = l.
Proof. reflexivity. Qed.
Lemma app_snoc_inv {A} (l : list A) : l <> [] -> exists l' x, l = l' ++ [x].
Proof. intros H. destruct (exists_last H) as [l' [x E]]. eauto. Qed.

Lemma index_Some {A} (l : list A) i a : nthN l i = Some a -> index l i = Ok a.
Proof. intros H. unfold index. now rewrite H. Qed.
Lemma index_None {A} (l : list A) i : lengthN l <= i -> index l i = Panic PIndex.
Proof. intros H. apply nthN_None in H. unfold index. now rewrite H. Qed.
Lemma index_set_ok {A} (l : list A) i a : i < lengthN l -> index_set l i a = Ok (updN l i a).
Proof. intros H. unfold index_set. apply N.ltb_lt in H. now rewrite H. Qed.
Lemma index_set_oob {A} (l : list A) i a : lengthN l <= i -> index_set l i a = Panic PIndex.
Proof. intros H. unfold index_set. apply N.ltb_ge in H. now rewrite H. Qed.

Lemma vec_pop_snoc {A} (l : list A) x : vec_pop (l ++ [x]) = (Some x, l).
Proof. unfold vec_pop. rewrite rev_unit, rev_involutive. reflexivity. Qed.
Lemma vec_pop_nil {A} : vec_pop (@nil A) = (None, []).
Proof. reflexivity. Qed.
Lemma snd_vec_pop {A} (l : list A) : snd (vec_pop l) = firstnN (lengthN l - 1) l.
Proof.
  destruct l as [|x t] using rev_ind; [reflexivity|]. clear IHt.
  rewrite vec_pop_snoc. cbn [snd]. apply nthN_ext. intros i.
  rewrite nthN_firstnN, nthN_app, lengthN_app, lengthN_cons, lengthN_nil.
  destruct (i <? lengthN t + (0 + 1) - 1) eqn:E1, (i <? lengthN t) eqn:E2; try reflexivity; try lia.
  apply nthN_None. lia.
Qed.

Lemma Forall_nthN {A} (P : A -> Prop) l : Forall P l <-> (forall i a, nthN l i = Some a -> P a).
Proof.
  rewrite Forall_forall. split.
  - intros H i a Hi. apply H. rewrite nthN_nth_error in Hi. eapply nth_error_In; eauto.
  - intros H a Ha. apply In_nth_error in Ha. destruct Ha as [n Hn].
    apply (H (N.of_nat n)). rewrite nthN_nth_error. now rewrite Nat2N.id.
Qed.

(** ** Loops *)

Lemma for_loop_ind {S} (P : N -> S -> Prop) (body : N -> S -> res S) n i s :
  P i s ->
  (forall j t, i <= j -> j < i + N.of_nat n -> P j t -> exists t', body j t = Ok t' /\ P (j + 1) t') ->
  exists s', for_loop n i body s = Ok s' /\ P (i + N.of_nat n) s'.
Proof.
  revert i s; induction n as [|n IH]; intros i s H0 Hs; cbn [for_loop].
  - exists s. split; [reflexivity|]. replace (i + N.of_nat 0) with i by lia. exact H0.
  - destruct (Hs i s) as [t [Ht HP]]; [lia|lia|exact H0|].
    rewrite Ht. cbn [bind].
    destruct (IH (i + 1) t HP) as [s' [H1 H2]].
    + intros j u Hj1 Hj2. apply Hs; lia.
    + exists s'. split; [exact H1|]. replace (i + N.of_nat (Datatypes.S n)) with (i + 1 + N.of_nat n) by lia.
      exact H2.
Qed.

Lemma for_range_ind {S} (P : N -> S -> Prop) (body : N -> S -> res S) a b s :
  a <= b -> P a s ->
  (forall j t, a <= j -> j < b -> P j t -> exists t', body j t = Ok t' /\ P (j + 1) t') ->
  exists s', for_range a b body s = Ok s' /\ P b s'.
Proof.
  intros Hab H0 Hs. unfold for_range.
  destruct (for_loop_ind P body (N.to_nat (b - a)) a s H0) as [s' [H1 H2]].
  - intros j t Hj1 Hj2. apply Hs; lia.
  - exists s'. split; [exact H1|]. replace (a + N.of_nat (N.to_nat (b - a))) with b in H2 by lia. exact H2.
Qed.

(** ** Bits and integers *)

Lemma lengthN_bits_of w x : lengthN (bits_of w x) = w.
Proof. unfold bits_of, lengthN. rewrite map_length, seq_length. lia. Qed.
Lemma nthN_seq a n i : nthN (seq a n) i = if i <? N.of_nat n then Some (a + N.to_nat i)%nat else None.
Proof.
  destruct (i <? N.of_nat n) eqn:E.
  - rewrite nthN_nth_error. rewrite nth_error_nth' with (d := O) by (rewrite seq_length; lia).
    rewrite seq_nth by lia. reflexivity.
  - apply nthN_None. unfold lengthN. rewrite seq_length. lia.
Qed.
Lemma nthN_bits_of w x i : nthN (bits_of w x) i = if i <? w then Some (N.testbit x i) else None.
Proof.
  unfold bits_of. rewrite nthN_map, nthN_seq.
  destruct (i <? N.of_nat (N.to_nat w)) eqn:E, (i <? w) eqn:E2; try lia; [|reflexivity].
  f_equal. f_equal. lia.
Qed.

Definition bit_at (l : list bool) (i : N) : bool := match nthN l i with Some b => b | None => false end.

Lemma testbit_int_of l i : N.testbit (int_of l) i = bit_at l i.
Proof.
  unfold bit_at. revert i; induction l as [|b t IH]; intros i; cbn [int_of].
  - rewrite N.bits_0. reflexivity.
  - rewrite nthN_cons. destruct (i =? 0) eqn:E.
    + apply N.eqb_eq in E; subst. destruct b.
      * rewrite N.add_comm, N.testbit_odd_0. reflexivity.
      * rewrite N.add_0_l, N.testbit_even_0. reflexivity.
    + apply N.eqb_neq in E. rewrite <- IH.
      replace i with (N.succ (i - 1)) at 1 by lia. destruct b.
      * rewrite N.add_comm, N.testbit_odd_succ by lia. reflexivity.
      * rewrite N.add_0_l, N.testbit_even_succ by lia. reflexivity.
Qed.

Lemma int_of_lt l : int_of l < 2 ^ lengthN l.
Proof.
  induction l as [|b t IH]; cbn [int_of]; [reflexivity|].
  rewrite lengthN_cons, N.add_1_r, N.pow_succ_r'. destruct b; lia.
Qed.

Lemma int_of_inj l l' : lengthN l = lengthN l' -> int_of l = int_of l' -> l = l'.
Proof.
  intros Hl H. apply nthN_ext. intros i.
  assert (Hb : bit_at l i = bit_at l' i) by (rewrite <- !testbit_int_of, H; reflexivity).
  unfold bit_at in Hb. destruct (nthN l i) eqn:E1, (nthN l' i) eqn:E2; try congruence.
  - apply nthN_lt in E1. apply nthN_None in E2. lia.
  - apply nthN_lt in E2. apply nthN_None in E1. lia.
Qed.

Lemma testbit_small x w i : x < 2 ^ w -> w <= i -> N.testbit x i = false.
Proof.
  intros H Hi. rewrite <- (N.mod_small x (2 ^ w) H). apply N.mod_pow2_bits_high. exact Hi.
Qed.

Lemma bits_lt x w : (forall i, w <= i -> N.testbit x i = false) -> x < 2 ^ w.
Proof.
  intros H. assert (E : x = x mod 2 ^ w).
  { apply N.bits_inj. intros i. destruct (N.lt_ge_cases i w) as [Hi|Hi].
    - now rewrite N.mod_pow2_bits_low.
    - rewrite N.mod_pow2_bits_high by exact Hi. now apply H. }
  rewrite E. apply N.mod_lt. apply N.pow_nonzero. lia.
Qed.

Lemma bits_eq_below x y w : x < 2 ^ w -> y < 2 ^ w ->
  (forall i, i < w -> N.testbit x i = N.testbit y i) -> x = y.
Proof.
  intros Hx Hy H. apply N.bits_inj. intros i. destruct (N.lt_ge_cases i w) as [Hi|Hi]; [auto|].
  rewrite (testbit_small x w i), (testbit_small y w i); auto.
Qed.

Lemma int_of_bits_of w x : int_of (bits_of w x) = x mod 2 ^ w.
Proof.
  apply N.bits_inj. intros i. rewrite testbit_int_of. unfold bit_at. rewrite nthN_bits_of.
  destruct (i <? w) eqn:E.
  - rewrite N.mod_pow2_bits_low; [reflexivity|lia].
  - rewrite N.mod_pow2_bits_high; [reflexivity|lia].
Qed.

Lemma bits_of_int_of l : bits_of (lengthN l) (int_of l) = l.
Proof.
  apply nthN_ext. intros i. rewrite nthN_bits_of, testbit_int_of. unfold bit_at.
  destruct (i <? lengthN l) eqn:E.
  - destruct (nthN_Some l i) as [b Hb]; [lia|]. now rewrite Hb.
  - symmetry. apply nthN_None. lia.
Qed.

Lemma testbit_ones k i : N.testbit (N.ones k) i = (i <? k).
Proof.
  destruct (i <? k) eqn:E.
  - apply N.ones_spec_low. lia.
  - apply N.ones_spec_high. lia.
Qed.

Lemma testbit_lnot a w i : N.testbit (N.lnot a w) i = if i <? w then negb (N.testbit a i) else N.testbit a i.
Proof.
  destruct (i <? w) eqn:E.
  - apply N.lnot_spec_low. lia.
  - apply N.lnot_spec_high. lia.
Qed.

Lemma testbit_shiftl_mod a k w i :
  N.testbit (N.shiftl a k mod 2 ^ w) i = (i <? w) && (k <=? i) && N.testbit a (i - k).
Proof.
  destruct (i <? w) eqn:E1; cbn [andb].
  - rewrite N.mod_pow2_bits_low by lia. destruct (k <=? i) eqn:E2; cbn [andb].
    + apply N.shiftl_spec_high'. lia.
    + apply N.shiftl_spec_low. lia.
  - apply N.mod_pow2_bits_high. lia.
Qed.

Lemma ones_lt k w : k <= w -> N.ones k < 2 ^ w.
Proof.
  intros H. rewrite N.ones_equiv. pose proof (pow2_pos k).
  assert (2 ^ k <= 2 ^ w) by (apply N.pow_le_mono_r; lia). lia.
Qed.
Lemma ones_eq k : N.ones k = 2 ^ k - 1.
Proof. rewrite N.ones_equiv. lia. Qed.
