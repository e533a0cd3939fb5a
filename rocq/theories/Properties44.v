(** * Steps (C97).  Loops that are not bounded by their text run on a number of steps in this model.  Here: the number does not show.
    A call that is over after [n] steps gives the same answer, and does the same to the state, with any larger number; so an answer
    found with some number of steps is the answer.  And, code by code, how many steps are enough. *)
From Verif Require Import Machine MStorage MTraits MBitVector MIntVector MStream MCoding MRank MSelect MSearchGen MDerive MQuickCheck
  SpecBits SpecCfg SpecOps SpecBuffer SpecStream PBase PBits PStream PCoding PCoding2 PCoding4 PIntVector PSelect Properties8 Properties25 Properties28 Properties29 Properties30 Properties31.

(** Once there is an answer, it is the answer for every larger number of steps. *)
Definition settled {A} (f : nat -> res A) : Prop := forall n m, (n <= m)%nat -> f n <> OutOfFuel -> f m = f n.

(** ** Proofs *)
Definition upto {A} (r r' : res A) : Prop := r = OutOfFuel \/ r' = r.
Lemma upto_refl {A} (r : res A) : upto r r.
Proof. now right. Qed.
Lemma upto_bind {A B} (r r' : res A) (k k' : A -> res B) : upto r r' -> (forall a, upto (k a) (k' a)) -> upto (bind r k) (bind r' k').
Proof. intros [-> | ->] H; [now left|]. destruct r as [a|p|]; [apply H|now right|now left]. Qed.
Lemma upto_loop {S R} n m (b b' : S -> res (flow S R)) s : (n <= m)%nat -> (forall s, upto (b s) (b' s)) -> upto (loop_fuel n b s) (loop_fuel m b' s).
Proof.
  intros Hn Hb. revert m Hn s. induction n as [|n IH]; intros m Hn s; [now left|]. destruct m as [|m]; [lia|]. cbn [loop_fuel]. apply upto_bind; [apply Hb|].
  intros [s'|r]; [apply IH; lia|apply upto_refl].
Qed.
Lemma upto_try {S A B} (x x' : io S A) (k k' : A -> io S B) s : upto (x s) (x' s) -> (forall a s, upto (k a s) (k' a s)) -> upto (try_ x k s) (try_ x' k' s).
Proof. intros Hx Hk. unfold try_. apply upto_bind; [exact Hx|]. intros [[a|e] s']; [apply Hk|apply upto_refl]. Qed.
Lemma upto_loop_io {S L R} n m (b b' : L -> io S (flow L R)) l s : (n <= m)%nat -> (forall l s, upto (b l s) (b' l s)) -> upto (loop_io n b l s) (loop_io m b' l s).
Proof.
  intros Hn Hb. revert m Hn l s. induction n as [|n IH]; intros m Hn l s; [now left|]. destruct m as [|m]; [lia|]. cbn [loop_io]. apply upto_try; [apply Hb|].
  intros [l'|r] s'; [apply IH; lia|apply upto_refl].
Qed.
Lemma upto_for_io {S L R} n (b b' : L -> io S (flow L R)) (d d' : L -> io S R) l s : (forall l s, upto (b l s) (b' l s)) -> (forall l s, upto (d l s) (d' l s)) ->
  upto (for_io n b d l s) (for_io n b' d' l s).
Proof.
  intros Hb Hd. revert l s. induction n as [|n IH]; intros l s; cbn [for_io]; [apply Hd|]. apply upto_try; [apply Hb|]. intros [l'|r] s'; [apply IH|apply upto_refl].
Qed.
Lemma settled_upto {A} (f : nat -> res A) : (forall n m, (n <= m)%nat -> upto (f n) (f m)) -> settled f.
Proof. intros H n m Hn Hf. destruct (H n m Hn) as [E|E]; [now destruct Hf|exact E]. Qed.
Lemma upto_settled {A} (f : nat -> res A) n m : settled f -> (n <= m)%nat -> upto (f n) (f m).
Proof. intros H Hn. destruct (f n) as [a|p|] eqn:E; [right|right|now left]; rewrite <- E; apply H; auto; rewrite E; discriminate. Qed.
Lemma upto_lift {S A} (r r' : res A) (s : S) : upto r r' -> upto (lift r s) (lift r' s).
Proof. intros H. unfold lift. apply upto_bind; [exact H|]. intros a. apply upto_refl. Qed.
(** One structural step *)
Ltac up := match goal with
  | H : upto ?a ?b |- upto ?a ?b => exact H
  | |- upto ?a ?a => apply upto_refl
  | H : forall b s, upto (write_bit ?x b s) _ |- upto (write_bit ?x _ _) _ => apply H
  | H : forall s, upto (read_bit ?x s) _ |- upto (read_bit ?x _) _ => apply H
  | |- upto (bind _ _) (bind _ _) => apply upto_bind; [|intros ?]
  | |- upto (try_ _ _ _) (try_ _ _ _) => apply upto_try; [|intros ? ?]
  | |- upto (lift _ _) (lift _ _) => apply upto_lift
  | |- upto (loop_fuel _ _ _) (loop_fuel _ _ _) => apply upto_loop; [assumption|intros ?]
  | |- upto (loop_io _ _ _ _) (loop_io _ _ _ _) => apply upto_loop_io; [assumption|intros ? ?]
  | |- upto (for_io _ _ _ _ _) (for_io _ _ _ _ _) => apply upto_for_io; intros ? ?
  | |- upto (match ?x with _ => _ end) _ => destruct x
  | |- upto (match ?x with _ => _ end _) _ => destruct x
  end.
Ltac ups := repeat (up; cbv beta).

Section Coders.
  Context {S : Type} (c : cfg) (n m : nat) (Hnm : (n <= m)%nat).
  Section Enc.
    Variables snk snk' : sink S.
    Hypothesis Hs : forall b s, upto (write_bit snk b s) (write_bit snk' b s).
    Lemma up_write_int w k v s : upto (write_int c snk w k v s) (write_int c snk' w k v s).
    Proof. unfold write_int. ups. Qed.
    Lemma up_write_int_be w k v s : upto (write_int_be c snk w k v s) (write_int_be c snk' w k v s).
    Proof. unfold write_int_be. ups. Qed.
    Lemma up_encode C v s : any_code c C -> upto (encode C snk n v s) (encode C snk' m v s).
    Proof.
      intros H. revert v s. induction H as [| | |k|C H IH|C H IH]; intros v s.
      - cbn [encode unary]. unfold unary_encode. ups.
      - cbn [encode omega]. unfold omega_encode, omega_stack. ups.
        match goal with |- upto (omega_write _ _ ?st ?s) _ => revert s; induction st as [|[k0 v0] st IH]; intros s'; cbn [omega_write] end; ups; [apply up_write_int_be|apply IH].
      - cbn [encode fibonacci]. unfold fib_encode, fib_search, fib_stack. ups.
        match goal with |- upto (write_stack _ ?st ?s) _ => revert s; induction st as [|b st IH]; intros s'; cbn [write_stack] end; ups. apply IH.
      - cbn [encode comma]. unfold comma_encode, comma_stack. ups; try apply up_write_int.
        match goal with |- upto (comma_write _ _ _ ?st ?s) _ => revert s; induction st as [|b st IH]; intros s'; cbn [comma_write] end; ups; [apply up_write_int|apply IH].
      - cbn [encode lift0]. unfold lift0_encode. ups. apply IH.
      - cbn [encode elias]. unfold elias_encode. ups; [apply IH|apply up_write_int].
    Qed.
    Lemma up_encode_list C vs s : any_code c C -> upto (encode_list C snk n vs s) (encode_list C snk' m vs s).
    Proof. intros H. revert s. induction vs as [|v vs IH]; intros s; cbn [encode_list]; ups; [now apply up_encode|apply IH]. Qed.
  End Enc.
  Section Dec.
    Variables src src' : source S.
    Hypothesis Hs : forall s, upto (read_bit src s) (read_bit src' s).
    Lemma up_read_int w k s : upto (read_int c src w k s) (read_int c src' w k s).
    Proof. unfold read_int. ups. Qed.
    Lemma up_read_int_be w k s : upto (read_int_be c src w k s) (read_int_be c src' w k s).
    Proof. unfold read_int_be. ups. Qed.
    Lemma up_decode C s : any_code c C -> upto (decode C src n s) (decode C src' m s).
    Proof.
      intros H. revert s. induction H as [| | |k|C H IH|C H IH]; intros s.
      - cbn [decode unary]. unfold unary_decode. ups.
      - cbn [decode omega]. unfold omega_decode. ups. apply up_read_int_be.
      - cbn [decode fibonacci]. unfold fib_decode. ups.
      - cbn [decode comma]. unfold comma_decode. ups. apply up_read_int.
      - cbn [decode lift0]. unfold lift0_decode. ups. apply IH.
      - cbn [decode elias]. unfold elias_decode. ups; [apply IH|apply up_read_int].
    Qed.
    Lemma up_decode_list C s : any_code c C -> upto (decode_list C src n s) (decode_list C src' m s).
    Proof. intros H. unfold decode_list. ups. now apply up_decode. Qed.
  End Dec.
End Coders.

(** ** The answers do not depend on the number of steps.  The sink and the source may themselves run on steps. *)
Theorem C97_encode : forall S c C (snk : nat -> sink S) v s, any_code c C -> (forall b s, settled (fun n => write_bit (snk n) b s)) ->
  settled (fun n => encode C (snk n) n v s).
Proof. intros S c C snk v s H Hs. apply settled_upto. intros n m Hn. apply (up_encode c n m Hn); [|exact H]. intros b s'. now apply (upto_settled (fun n => write_bit (snk n) b s')). Qed.
Theorem C97_decode : forall S c C (src : nat -> source S) s, any_code c C -> (forall s, settled (fun n => read_bit (src n) s)) ->
  settled (fun n => decode C (src n) n s).
Proof. intros S c C src s H Hs. apply settled_upto. intros n m Hn. apply (up_decode c n m Hn); [|exact H]. intros s'. now apply (upto_settled (fun n => read_bit (src n) s')). Qed.
Theorem C97_lists : forall S c C (snk : nat -> sink S) (src : nat -> source S) vs s, any_code c C ->
  (forall b s, settled (fun n => write_bit (snk n) b s)) -> (forall s, settled (fun n => read_bit (src n) s)) ->
  settled (fun n => encode_list C (snk n) n vs s) /\ settled (fun n => decode_list C (src n) n s).
Proof.
  intros S c C snk src vs s H Hs Hr. split; apply settled_upto; intros n m Hn.
  - apply (up_encode_list c n m Hn); [|exact H]. intros b s'. now apply (upto_settled (fun n => write_bit (snk n) b s')).
  - apply (up_decode_list c n m Hn); [|exact H]. intros s'. now apply (upto_settled (fun n => read_bit (src n) s')).
Qed.
(** Bit buffers over any bit vector are such sinks. *)
Theorem C97_buffer : forall T c (P : bitvecpush T) b bb, settled (fun n => write_bit (bb_sink c P n) b bb).
Proof. intros T c P b bb. apply settled_upto. intros n m Hn. cbn [write_bit bb_sink]. unfold bb_write_bit. ups. Qed.
(** Select over any rank structure, and the search itself, whatever the function does to its state *)
Theorem C97_select : forall T A c (K : bitrank T) (G : ranksup A T) t i v,
  settled (fun n => bss_select1 c K n t i) /\ settled (fun n => bss_select0 c K n t i) /\ settled (fun n => bss_select c G n t i v).
Proof.
  intros T A c K G t i v. repeat apply conj; apply settled_upto; intros n m Hn; unfold bss_select1, bss_select0, bss_select, binary_search_function, search_loop; ups.
Qed.
Theorem C97_search : forall S R c D (ge lt : R -> R -> bool) start limit x (f : Z -> S -> res (R * S)) s,
  settled (fun n => binary_search_gen c D ge lt n start limit x f s).
Proof. intros S R c D ge lt start limit x f s. apply settled_upto. intros n m Hn. unfold binary_search_gen, search_loop_gen. ups. Qed.
(** Whole programs on bit vectors, int vectors and bit buffers: all the answers and the final state *)
Lemma up_run {S O X} (f : nat -> S -> O -> res (S * X)) : (forall n m s o, (n <= m)%nat -> upto (f n s o) (f m s o)) ->
  forall n m ops s, (n <= m)%nat -> snd (SpecOps.run (f n) s ops) = OutOfFuel \/ SpecOps.run (f m) s ops = SpecOps.run (f n) s ops.
Proof.
  intros H n m ops s Hn. revert s. induction ops as [|o ops IH]; intros s; [now right|]. cbn [SpecOps.run]. destruct (H n m s o Hn) as [E|E].
  - rewrite E. now left.
  - rewrite E. destruct (f n s o) as [[s' x]|p|]; [|now right|now right]. specialize (IH s'). destruct (SpecOps.run (f n) s' ops) as [xs r]. cbn [snd] in IH.
    destruct IH as [-> | ->]; [now left|now right].
Qed.
Lemma up_collect {I A} (next : I -> res (option A * I)) it n m : (n <= m)%nat -> upto (collect next n it) (collect next m it).
Proof. intros Hn. unfold collect. ups. Qed.
Lemma up_bvec_step c nb v op n m : (n <= m)%nat -> upto (bvec_step c nb n v op) (bvec_step c nb m v op).
Proof.
  intros Hn. unfold bvec_step, unit_. destruct op; try apply upto_refl; (apply upto_bind; [|intros ?; apply upto_refl]).
  - unfold bvec_align_block, default_align_block. ups.
  - now apply up_collect.
Qed.
Lemma up_iv_step c nb v op n m : (n <= m)%nat -> upto (iv_step c nb n v op) (iv_step c nb m v op).
Proof. intros Hn. unfold iv_step. destruct op; try apply upto_refl; (apply upto_bind; [|intros ?; apply upto_refl]). now apply up_collect. Qed.
Theorem C97_bit_vector_programs : forall c nb k ops n m, (n <= m)%nat -> snd (bvec_program c nb n k ops) <> OutOfFuel ->
  bvec_program c nb m k ops = bvec_program c nb n k ops.
Proof.
  intros c nb k ops n m Hn. unfold bvec_program. destruct (bvec_make c nb k) as [v|p|]; [|reflexivity|reflexivity]. intros H.
  destruct (up_run (bvec_step c nb) (fun n m s o => up_bvec_step c nb s o n m) n m ops v Hn) as [E|E]; [now destruct H|exact E].
Qed.
Theorem C97_int_vector_programs : forall c nb k t ops n m, (n <= m)%nat -> snd (iv_program c nb k n t ops) <> OutOfFuel ->
  iv_program c nb k m t ops = iv_program c nb k n t ops.
Proof.
  intros c nb k t ops n m Hn. unfold iv_program. destruct (iv_make c nb k t) as [v|p|]; [|reflexivity|reflexivity]. intros H.
  destruct (up_run (iv_step c nb) (fun n m s o => up_iv_step c nb s o n m) n m ops v Hn) as [E|E]; [now destruct H|exact E].
Qed.
Theorem C97_file_programs : forall T c (P : bitvecpush T) append t ops n m, (n <= m)%nat -> snd (file_program c P append n t ops) <> OutOfFuel ->
  file_program c P append m t ops = file_program c P append n t ops.
Proof.
  intros T c P append t ops n m Hn. unfold file_program. destruct (if append then _ else _) as [bb|p|]; [|reflexivity|reflexivity]. intros H.
  assert (Hs : forall n m s o, (n <= m)%nat -> upto (bb_step c P n s o) (bb_step c P m s o)).
  { clear. intros n m s o Hn. unfold bb_step. destruct o; try apply upto_refl. unfold io_out. apply upto_bind; [|intros ?; apply upto_refl].
    apply (upto_settled (fun n => write_bit (bb_sink c P n) b s)); [apply C97_buffer|exact Hn]. }
  destruct (up_run (bb_step c P) Hs n m ops bb Hn) as [E|E].
  - destruct (SpecOps.run (bb_step c P n) bb ops) as [xs r]. cbn [snd] in *. subst r. now destruct H.
  - now rewrite E.
Qed.
(** The trait's default [align_block] and [push_block] over any bit vector, the formatters, and the crate's own round-trip check *)
Theorem C97_defaults : forall T c nb bit_len push_bit (t : T) b x,
  settled (fun n => default_align_block c nb bit_len push_bit n t b) /\ settled (fun n => default_push_block c nb bit_len push_bit n t x).
Proof.
  intros T c nb bit_len push_bit t b x. split; apply settled_upto; intros n m Hn; unfold default_push_block, default_align_block; ups.
Qed.
Theorem C97_formatters : forall S c nb (w : formatter S) v iv st, settled (fun n => bvec_fmt_binary c nb w n v st) /\ settled (fun n => iv_fmt_debug c nb w n iv st).
Proof.
  intros S c nb w v iv st. split; apply settled_upto; intros n m Hn.
  - unfold bvec_fmt_binary. generalize (bvec_iter v). intros it. revert m Hn it st. induction n as [|n IH]; intros m Hn it st; [now left|]. destruct m as [|m]; [lia|].
    cbn [fmt_bits]. unfold fmt_then. ups. apply IH. lia.
  - assert (K : forall it st, upto (fmt_ints c nb w n it st) (fmt_ints c nb w m it st)).
    { clear - Hn. revert m Hn. induction n as [|n IH]; intros m Hn it st; [now left|]. destruct m as [|m]; [lia|]. cbn [fmt_ints]. unfold fmt_then. ups. apply IH. lia. }
    unfold iv_fmt_debug, fmt_then. ups. apply K.
Qed.
Theorem C97_self_check : forall c C vec, any_code c C -> settled (fun n => code_decode c C n vec).
Proof.
  intros c C vec H. apply settled_upto. intros n m Hn. unfold code_decode, cd_decode. apply upto_bind.
  - generalize (@nil bool). induction vec as [|v vec IH]; intros dv; cbn [cd_encode]; ups; [|apply IH]. apply (up_encode c n m Hn); [|exact H]. intros; apply upto_refl.
  - intros dv. ups. apply (up_decode c n m Hn); [|exact H]. intros; apply upto_refl.
Qed.

(** ** How many steps are enough *)
(** Encoding: one more than the bits of the word, and no fewer than 93 (the search for the largest Fibonacci number).  An encoder that
    comes to an end at all does so within that many steps; for the decoders see C83_terminates. *)
Definition enough (fuel : nat) (w : list bool) : Prop := (93 <= fuel)%nat /\ (length w < fuel)%nat.
Definition prompt (T : etable) (C : code) : Prop := forall v w out, v < 2 ^ 64 -> T v w out -> out <> OutOfFuel ->
  forall fuel, enough fuel w -> writes (fun S snk => encode C snk fuel v) w out.
Lemma prompt_unary c : prompt unary_writes (unary c).
Proof.
  intros v w out Hv T _ fuel [_ Hf]. destruct T as [v]. apply writes_done. intros S snk s. change (unary_encode c snk fuel v s = write_all snk (unary_word v) s). apply unary_encode_ok.
  rewrite app_length in Hf. cbn [length] in Hf. unfold repeatN in Hf. rewrite repeat_length in Hf. lia.
Qed.
Lemma prompt_lift0 c T C : prompt T C -> prompt (lift0_writes T) (lift0 c C).
Proof.
  intros H v w out Hv R Ho fuel Hf. destruct R as [v w out Hm R|].
  - intros S snk s. cbn [encode lift0]. unfold lift0_encode, checked_add. destruct (v + 1 <? 2 ^ 64) eqn:E; [|apply N.ltb_ge in E; lia]. exact (H (v + 1) w out ltac:(lia) R Ho fuel Hf S snk s).
  - apply writes_none. intros S snk s. reflexivity.
Qed.
Lemma elias_at c H v w out fuel : v <> 0 -> v < 2 ^ 64 -> writes (fun S snk => encode H snk fuel (N.log2 v)) w out ->
  writes (fun S snk => encode (elias c H) snk fuel v) (match out with Ok (IOk _) => w ++ bits_of (N.log2 v) v | _ => w end) out.
Proof.
  intros Hv0 Hv HH. pose proof (log2_lt v 64 Hv0 Hv) as Hk. set (k := N.log2 v) in *.
  assert (E : forall S (snk : sink S) s, elias_encode c H snk fuel v s = try_ (encode H snk fuel k) (fun _ => write_int c snk 64 k v) s).
  { intros S snk s. unfold elias_encode. unfold leading_zeros. rewrite size_log2 by exact Hv0. fold k.
    rewrite (try_lift _ tt). 2:{ apply assert_true. destruct (v =? 0) eqn:E; [lia|reflexivity]. }
    rewrite (try_lift _ 63) by (now rewrite wsub_ok by lia).
    rewrite (try_lift _ k) by (rewrite wsub_ok by lia; f_equal; lia). reflexivity. }
  intros S snk s. cbn [encode elias]. rewrite E. unfold try_. rewrite (HH S snk s). destruct out as [[[]|e]|p|].
  - rewrite Properties29.write_all_app. destruct (write_all snk w s) as [[[[]|e] s']|p|]; cbn [bind]; try reflexivity. rewrite write_int_ok by lia.
    destruct (write_all snk _ s') as [[[[]|e] s2]|p|]; reflexivity.
  - destruct (write_all snk w s) as [[[[]|e'] s']|p|]; reflexivity.
  - destruct (write_all snk w s) as [[[[]|e'] s']|p'|]; reflexivity.
  - destruct (write_all snk w s) as [[[[]|e'] s']|p'|]; reflexivity.
Qed.
Lemma prompt_elias c T C : prompt T C -> prompt (elias_writes T) (elias c C).
Proof.
  intros H v w out Hv R Ho fuel [Hf1 Hf2]. destruct R as [|v n h w Ev Hh R|v n r w out Ev Hr R Hd].
  - apply writes_none. intros S snk s. reflexivity.
  - pose proof (PBase.int_of_lt h) as Hl. rewrite Hh in Hl. destruct (elias_split v n _ Ev Hl) as [El E0]. pose proof (log2_lt v 64 E0 Hv) as Hk.
    assert (n < 2 ^ 64) by (rewrite <- El; change (2 ^ 64) with 18446744073709551616; lia). rewrite app_length in Hf2.
    assert (Hw : (length w < fuel)%nat) by (clear - Hf2; lia). assert (Hdo : done <> OutOfFuel) by discriminate.
    pose proof (H n w done ltac:(assumption) R Hdo fuel (conj Hf1 Hw)) as He. rewrite <- El in He. pose proof (elias_at c C v w done fuel E0 Hv He) as K. cbv beta iota delta [done] in K.
    rewrite El, Ev, (elias_bits n h Hh), <- Ev in K. exact K.
  - destruct (elias_split v n r Ev Hr) as [El E0]. pose proof (log2_lt v 64 E0 Hv) as Hk.
    assert (n < 2 ^ 64) by (rewrite <- El; change (2 ^ 64) with 18446744073709551616; lia).
    pose proof (H n w out ltac:(assumption) R Ho fuel (conj Hf1 Hf2)) as He. rewrite <- El in He. pose proof (elias_at c C v w out fuel E0 Hv He) as K.
    destruct out as [[[]|e]|p|]; [exfalso; apply Hd; reflexivity|exact K|exact K|exact K].
Qed.
Lemma omega_step c v acc fuel : 1 < v -> v < 2 ^ 64 ->
  loop_fuel (S fuel) (fun st : N * list (N * N) =>
        let (value, stack) := st in
        if 1 <? value then
          (nbits <- wsub c 32 64 (leading_zeros 64 value) ;;
           v <- wsub c 64 nbits 1 ;;
           Ok (Continue (v, (nbits, value) :: stack)))%res
        else Ok (Return stack)) (v, acc)
  = loop_fuel fuel (fun st : N * list (N * N) =>
        let (value, stack) := st in
        if 1 <? value then
          (nbits <- wsub c 32 64 (leading_zeros 64 value) ;;
           v <- wsub c 64 nbits 1 ;;
           Ok (Continue (v, (nbits, value) :: stack)))%res
        else Ok (Return stack)) (N.log2 v, (N.log2 v + 1, v) :: acc).
Proof.
  intros H1 Hv. cbn [loop_fuel]. destruct (1 <? v) eqn:E; [|lia]. pose proof (log2_lt v 64 ltac:(lia) Hv) as Hk. unfold leading_zeros. rewrite size_log2 by lia.
  rewrite (wsub_ok c 32 64) by lia. cbn [bind]. replace (64 - (64 - N.succ (N.log2 v))) with (N.log2 v + 1) by lia. rewrite wsub_ok by lia. cbn [bind].
  replace (N.log2 v + 1 - 1) with (N.log2 v) by lia. reflexivity.
Qed.
Lemma omega_stack_small c k : forall v acc fuel, v <= N.of_nat k -> v < 2 ^ 64 -> (k < fuel)%nat ->
  loop_fuel fuel (fun st : N * list (N * N) =>
        let (value, stack) := st in
        if 1 <? value then
          (nbits <- wsub c 32 64 (leading_zeros 64 value) ;;
           v <- wsub c 64 nbits 1 ;;
           Ok (Continue (v, (nbits, value) :: stack)))%res
        else Ok (Return stack)) (v, acc) <> OutOfFuel.
Proof.
  induction k as [|k IH]; intros v acc fuel Hk Hv Hf; (destruct fuel as [|fuel]; [lia|]).
  - assert (v = 0) as -> by lia. discriminate.
  - destruct (1 <? v) eqn:E.
    + rewrite omega_step by lia. pose proof (N.log2_lt_lin v ltac:(lia)). apply IH; lia.
    + cbn [loop_fuel]. rewrite E. discriminate.
Qed.
Lemma omega_stack_ends c v fuel : v < 2 ^ 64 -> (66 <= fuel)%nat -> omega_stack c fuel v <> OutOfFuel.
Proof.
  intros Hv Hf. unfold omega_stack. destruct (1 <? v) eqn:E.
  - destruct fuel as [|fuel]; [lia|]. rewrite omega_step by lia. pose proof (log2_lt v 64 ltac:(lia) Hv). pose proof (N.log2_lt_lin v ltac:(lia)).
    apply (omega_stack_small c 64); lia.
  - apply (omega_stack_small c 64); lia.
Qed.
Lemma prompt_omega c : wf_cfg c -> prompt omega_writes (omega c).
Proof.
  intros Hc v w out Hv R _ fuel [Hf _]. destruct (proj1 (C84_omega c Hc) v w out Hv R) as (n0 & K). set (M := Nat.max n0 fuel).
  pose proof (K M ltac:(lia)) as KM. intros S snk s. rewrite <- (KM S snk s). cbn [encode omega]. unfold omega_encode.
  replace (omega_stack c M v) with (omega_stack c fuel v); [reflexivity|]. symmetry.
  destruct (upto_loop fuel M (fun st : N * list (N * N) =>
        let (value, stack) := st in
        if 1 <? value then
          (nbits <- wsub c 32 64 (leading_zeros 64 value) ;;
           v <- wsub c 64 nbits 1 ;;
           Ok (Continue (v, (nbits, value) :: stack)))%res
        else Ok (Return stack)) _ (v, []) ltac:(lia) (fun s => upto_refl _)) as [E|E]; [|exact E].
  exfalso. exact (omega_stack_ends c v fuel Hv ltac:(lia) E).
Qed.
Lemma prompt_fibonacci c : prompt fibonacci_writes (fibonacci c).
Proof.
  intros v w out Hv R _ fuel [Hf _]. pose proof (proj1 (C84_fibonacci c) v w out Hv R) as (n0 & K). set (M := Nat.max n0 fuel). pose proof (K M ltac:(lia)) as KM.
  destruct (N.eq_dec v 0) as [->|H0].
  { intros S snk s. rewrite <- (KM S snk s). reflexivity. }
  destruct (fib_max <=? v) eqn:Eb.
  { intros S snk s. rewrite <- (KM S snk s). cbn [encode fibonacci]. rewrite !fib_encode_big by lia. reflexivity. }
  intros S snk s. rewrite <- (KM S snk s). cbn [encode fibonacci]. unfold fib_encode.
  assert (A : assert_ (negb (v =? 0)) = Ok tt) by (apply assert_true; destruct (v =? 0) eqn:E; [lia|reflexivity]). rewrite !(try_lift _ tt) by exact A.
  destruct (@fib_search_from S 91 0 fuel v s eq_refl ltac:(lia) ltac:(lia) (or_introl eq_refl) ltac:(lia)) as (k & Hk & Hlohi & ES).
  assert (ESM : fib_search M v s = Ok (IOk (fibp k), s)).
  { destruct (upto_loop_io fuel M (fun f => if fi f <=? v then try_ (lift_io (fib_next f)) (fun f' => ret (Continue f')) else ret (Return f)) _ (fibp 0) s ltac:(lia) (fun l s => upto_refl _)) as [E|E].
    - rewrite ES in E. discriminate.
    - rewrite ES in E. rewrite fibp_0 in E. exact E. }
  rewrite fibp_0 in ES. fold (@fib_search S fuel v s) in ES. rewrite (try_ok _ _ _ _ _ ES), (try_ok _ _ _ _ _ ESM).
  destruct (fib_stack_ok c k v ltac:(lia)) as (z & Hl & _ & _ & _ & _ & HL).
  rewrite !(try_lift _ (z ++ [true])) by (apply HL; lia). reflexivity.
Qed.
Lemma comma_short n (ds : list N) w : (1 <= n \/ ds = []) -> (length ds <= length (flat_map (bits_of n) ds ++ w))%nat.
Proof.
  intros [Hn| ->]; [|apply Nat.le_0_l]. rewrite app_length. induction ds as [|d ds IH]; [apply Nat.le_0_l|]. cbn [flat_map length]. rewrite app_length.
  pose proof (lengthN_bits_of n d) as E. unfold lengthN in E. lia.
Qed.
Lemma prompt_comma c n : prompt (comma_writes c n) (comma c n).
Proof.
  intros v w out Hv R Ho fuel [Hf1 Hf2]. destruct R as [v Hd Hn|v ds HW HF Hh Ev|v HW Hn H0|v HW Hn H0].
  - apply writes_none. intros S snk s. cbn [encode comma]. unfold comma_encode, try_, lift, comma_base, wshl. rewrite Hd. destruct (n <? 64) eqn:E; [lia|]. reflexivity.
  - assert (Hlen : (length ds < fuel)%nat).
    { eapply Nat.le_lt_trans; [apply (comma_short n ds)|exact Hf2]. destruct (N.eq_dec n 0) as [->|]; [|left; lia]. right. destruct ds as [|d ds]; [reflexivity|].
      exfalso. inversion HF as [|? ? Hd _]; subst. change (comma_top 0) with 0 in Hd. lia. }
    apply writes_done. intros S snk s. cbn [encode comma]. unfold comma_encode. rewrite (try_lift _ _ _ _ (comma_base_any c n HW)).
    rewrite (try_lift _ ds). 2:{ unfold comma_stack. rewrite <- Ev, comma_stack_digits by (auto; lia). now rewrite app_nil_r. }
    rewrite Properties29.write_all_app. unfold try_. rewrite comma_write_any. destruct (write_all snk _ s) as [[[u|e] s']| |]; cbn [bind]; auto.
    rewrite write_int_ok by lia. destruct (write_all snk _ s') as [[[[]|e] s2]| |]; reflexivity.
  - apply writes_none. intros S snk s. cbn [encode comma]. unfold comma_encode. rewrite (try_lift _ _ _ _ (comma_base_any c n HW)).
    unfold comma_top. rewrite Hn. destruct fuel as [|fuel]; [lia|]. unfold try_, lift, comma_stack. cbn [loop_fuel]. destruct (0 <? v) eqn:E; [|lia]. reflexivity.
  - now destruct Ho.
Qed.
Lemma emits_nil C v w p : emits C v w (Panic p) -> emits C v [] (Panic p) -> w = [].
Proof.
  intros (n0 & K) (n1 & K'). destruct w as [|b w]; [reflexivity|]. exfalso. set (snk := {| write_bit := fun (_ : bool) (s : unit) => Ok (IErr InvalidData, s) |} : sink unit).
  pose proof (K (n0 + n1)%nat ltac:(lia) _ snk tt) as A. pose proof (K' (n0 + n1)%nat ltac:(lia) _ snk tt) as A'. cbv beta in A, A'. rewrite A' in A. cbn in A. discriminate.
Qed.
Lemma emits_same C v w out w' out' : emits C v w out -> emits C v w' out' -> out = out' /\ (forall x, out = Ok x -> w = w').
Proof.
  intros (n0 & K) (n1 & K').
  pose proof (K (n0 + n1)%nat ltac:(lia) _ deque_sink []) as A. pose proof (K' (n0 + n1)%nat ltac:(lia) _ deque_sink []) as A'. cbv beta in A, A'. rewrite A' in A. clear A'. rewrite !write_all_deque in A. cbn [bind app] in A.
  destruct out as [x|p|], out' as [x'|p'|]; cbn [bind] in A; try discriminate A; split; try congruence.
Qed.
Theorem C97_encode_steps : forall c C v w out fuel, wf_cfg c -> any_code c C -> v < 2 ^ 64 -> emits C v w out -> out <> OutOfFuel ->
  (93 <= fuel)%nat -> (length w < fuel)%nat -> writes (fun S snk => encode C snk fuel v) w out.
Proof.
  intros c C v w out fuel Hc H Hv He Ho Hf1 Hf2.
  assert (G : exists T, edescribes T C /\ clean T /\ prompt T C).
  { clear - Hc H. induction H as [| | |n|C H (T & IH & IC & IP)|C H (T & IH & IC & IP)].
    - exists unary_writes. split; [apply C84_unary|]. split; [|apply prompt_unary]. intros v w out R Ho. destruct R. now destruct Ho.
    - exists omega_writes. split; [now apply C84_omega|]. split; [|now apply prompt_omega]. intros v w out R Ho. destruct R; now destruct Ho.
    - exists fibonacci_writes. split; [apply C84_fibonacci|]. split; [|apply prompt_fibonacci]. intros v w out R Ho. destruct R; try reflexivity; now destruct Ho.
    - exists (comma_writes c n). split; [apply C84_comma|]. split; [|apply prompt_comma]. intros v w out R Ho. destruct R; try reflexivity; now destruct Ho.
    - exists (lift0_writes T). split; [now apply C84_lift0|]. split; [|now apply prompt_lift0]. intros v w out R Ho. destruct R as [v w out Hm R|]; [now apply (IC _ _ _ R)|reflexivity].
    - exists (elias_writes T). split; [now apply C84_elias|]. split; [|now apply prompt_elias]. intros v w out R Ho. destruct R as [|v n h w Ev Hh R|v n r w out Ev Hr R _]; [reflexivity|now destruct Ho|now apply (IC _ _ _ R)]. }
  destruct G as (T & [G1 G2] & HC & HP). destruct (G2 v Hv) as (w' & out' & R). pose proof (G1 v w' out' Hv R) as He'.
  destruct (emits_same C v w out w' out' He He') as [<- Hw].
  assert (w = w') as <-.
  { destruct out as [x|p|]; [now apply (Hw x)| |now destruct Ho]. assert (w' = []) as -> by (apply (HC v w' _ R); discriminate). now apply (emits_nil C v w p). }
  apply (HP v w out Hv R Ho). now split.
Qed.

(** The binary search halves what is left: 65 steps for 64-bit positions, whatever the function answers -- growing or not -- as long as
    each of its own calls returns. *)
Lemma search_loop_ends c value f : (forall p, f p <> OutOfFuel) -> forall k start limit fuel, limit < 2 ^ 64 -> limit - start < 2 ^ N.of_nat k -> (k < fuel)%nat ->
  search_loop c 64 value f fuel start limit <> OutOfFuel.
Proof.
  intros Hf. unfold search_loop. induction k as [|k IH]; intros start limit fuel Hl Hs Hk; (destruct fuel as [|fuel]; [lia|]); cbn [loop_fuel].
  - change (2 ^ N.of_nat 0) with 1 in Hs. destruct (start <? limit) eqn:E; [lia|discriminate].
  - destruct (start <? limit) eqn:E; [|discriminate]. rewrite average_ok by lia. cbn [bind]. set (mid := (start + limit) / 2).
    assert (Hm : start <= mid < limit /\ mid - start <= (limit - start) / 2 /\ limit - mid - 1 <= (limit - start) / 2).
    { unfold mid. replace (start + limit) with (limit - start + start * 2) by lia. rewrite N.div_add by lia.
      pose proof (N.div_mod (limit - start) 2 ltac:(lia)) as D. pose proof (N.mod_lt (limit - start) 2 ltac:(lia)). set (q := (limit - start) / 2) in *. lia. }
    assert (Hh : (limit - start) / 2 < 2 ^ N.of_nat k).
    { apply N.div_lt_upper_bound; [lia|]. replace (N.of_nat (S k)) with (N.succ (N.of_nat k)) in Hs by lia. rewrite N.pow_succ_r' in Hs. exact Hs. }
    clearbody mid. set (h := (limit - start) / 2) in *. clearbody h.
    destruct (f mid) as [fm|p|] eqn:Efm; cbn [bind]; [|discriminate|now destruct (Hf mid)]. destruct (value <=? fm).
    + destruct (wsub c 64 mid 1) as [m1|p|] eqn:E1; cbn [bind]; [|discriminate|].
      2:{ exfalso. revert E1. unfold wsub. destruct (1 <=? mid); [discriminate|]. destruct (debug c); discriminate. }
      destruct (f m1) as [fm1|p|] eqn:Efm1; cbn [bind]; [|discriminate|now destruct (Hf m1)]. destruct (fm1 <? value); [discriminate|]. apply IH; lia.
    + rewrite wadd_ok by lia. cbn [bind]. apply IH; lia.
Qed.
Theorem C97_search_steps : forall c start limit value f fuel, limit < 2 ^ 64 -> (forall p, f p <> OutOfFuel) -> (64 < fuel)%nat ->
  binary_search_function c 64 fuel start limit value f <> OutOfFuel.
Proof.
  intros c start limit value f fuel Hl Hf Hk. unfold binary_search_function. destruct (limit <=? start) eqn:E; [discriminate|].
  destruct (f start) as [fs|p|] eqn:Es; cbn [bind]; [|discriminate|now destruct (Hf start)]. destruct (value <=? fs); [discriminate|]. rewrite wadd_ok by lia. cbn [bind].
  apply (search_loop_ends c value f Hf 64); [exact Hl| |exact Hk]. change (2 ^ N.of_nat 64) with (2 ^ 64). lia.
Qed.
Theorem C97_select_steps : forall T A c (K : bitrank T) (G : ranksup A T) t i v l l' fuel, (64 < fuel)%nat ->
  rs_limit (br_rs K) t = Ok l -> l < 2 ^ 64 -> (forall p, br_rank1 K t p <> OutOfFuel) -> (forall p, br_rank0 K t p <> OutOfFuel) ->
  rs_limit G t = Ok l' -> l' < 2 ^ 64 -> (forall p, rs_rank G t p v <> OutOfFuel) ->
  bss_select1 c K fuel t i <> OutOfFuel /\ bss_select0 c K fuel t i <> OutOfFuel /\ bss_select c G fuel t i v <> OutOfFuel.
Proof.
  intros T A c K G t i v l l' fuel Hk El Hl H1 H0 El' Hl' HG.
  assert (W : forall x (k : N -> res (option N)), (forall y, k y <> OutOfFuel) -> (y <- wadd c 64 x 1 ;; k y) <> OutOfFuel).
  { intros x k Hkk. unfold wadd, wrap. destruct (x + 1 <? 2 ^ 64); cbn [bind]; [apply Hkk|]. destruct (debug c); cbn [bind]; [discriminate|apply Hkk]. }
  unfold bss_select1, bss_select0, bss_select. rewrite El, El'. cbn [bind]. repeat apply conj; apply W; intros y; now apply C97_search_steps.
Qed.

Example C97_ex :
  encode (fibonacci dbg64) deque_sink 3 20 [] = OutOfFuel /\ encode (fibonacci dbg64) deque_sink 8 20 [] = encode (fibonacci dbg64) deque_sink 500 20 [] /\
  (exists w, encode (fibonacci dbg64) deque_sink 8 20 [] = Ok (IOk tt, w)) /\
  decode (delta rel32) deque_source 2 (delta_word 37) = OutOfFuel /\ decode (delta rel32) deque_source 4 (delta_word 37) = Ok (IOk (Some 37), []) /\
  binary_search_function dbg64 64 3 0 100 50 (fun p => Ok (p * p)) = OutOfFuel /\ binary_search_function dbg64 64 65 0 100 50 (fun p => Ok (p * p)) = Ok (Some 8) /\
  snd (bvec_program dbg64 8 3 BNew [BPushBit true; BAlignBlock true]) = OutOfFuel /\
  fst (bvec_program dbg64 8 9 BNew [BPushBit true; BAlignBlock true; BBitLen]) = [OUnit; OUnit; OInt 8] /\
  emits (elias dbg64 (comma dbg64 3)) 1000 (bits_of 3 1 ++ bits_of 3 2 ++ bits_of 3 7 ++ bits_of 9 488) done /\
  (length (bits_of 3 1 ++ bits_of 3 2 ++ bits_of 3 7 ++ bits_of 9 488) < 93)%nat /\
  encode (elias dbg64 (comma dbg64 3)) deque_sink 93 1000 [] = Ok (IOk tt, bits_of 3 1 ++ bits_of 3 2 ++ bits_of 3 7 ++ bits_of 9 488).
Proof.
  split; [vm_compute; reflexivity|]. split; [vm_compute; reflexivity|]. split; [eexists; vm_compute; reflexivity|].
  do 6 (split; [vm_compute; reflexivity|]). split; [|split; [vm_compute; lia|vm_compute; reflexivity]].
  apply (proj1 (C84_elias dbg64 _ _ (C84_comma dbg64 3))); [vm_compute; reflexivity|].
  apply (ew_value _ 1000 9 (bits_of 9 488) (bits_of 3 1 ++ bits_of 3 2 ++ bits_of 3 7)); [vm_compute; reflexivity|vm_compute; reflexivity|].
  apply (cw_value dbg64 3 9 [1; 2]); [lia|repeat constructor|cbn; lia|reflexivity].
Qed.

(** The hypotheses hold: a code on a bit buffer over a bit vector, a code between queues, and select over a word. *)
Example C97_settled_ex : settled (fun n => encode (fibonacci dbg64) (bb_sink dbg64 (bvec_bitvecpush dbg64 8) n) n 20 {| bb_data := {| vb_len := 0; vb_vec := [] |}; bb_pos := 0 |}) /\
  encode (fibonacci dbg64) (bb_sink dbg64 (bvec_bitvecpush dbg64 8) 9) 9 20 {| bb_data := {| vb_len := 0; vb_vec := [] |}; bb_pos := 0 |} <> OutOfFuel /\
  settled (fun n => decode_list (comma rel32 4) deque_source n [true; true; true; true]) /\ decode_list (comma rel32 4) deque_source 6 [true; true; true; true] = Ok (IOk [0], []) /\
  (forall i v fuel, (64 < fuel)%nat -> bss_select1 rel64 (prim_bitrank rel64 8) fuel 41 i <> OutOfFuel /\ bss_select0 rel64 (prim_bitrank rel64 8) fuel 41 i <> OutOfFuel /\
    bss_select rel64 (br_rs (prim_bitrank rel64 8)) fuel 41 i v <> OutOfFuel) /\
  bss_select1 rel64 (prim_bitrank rel64 8) 65 41 2 = Ok (Some 5).
Proof.
  split. { apply (C97_encode _ dbg64 _ (fun n => bb_sink dbg64 (bvec_bitvecpush dbg64 8) n)); [constructor|]. intros b s. apply C97_buffer. }
  split; [vm_compute; discriminate|].
  split. { apply (proj2 (C97_lists _ rel32 (comma rel32 4) (fun _ => deque_sink) (fun _ => deque_source) [] _ ltac:(constructor) ltac:(intros b s n m _ _; reflexivity) ltac:(intros s n m _ _; reflexivity))). }
  split; [vm_compute; reflexivity|]. split; [|vm_compute; reflexivity].
  assert (R : forall p, prim_rank1 rel64 8 41 p <> OutOfFuel).
  { intros p. unfold prim_rank1, low_mask, wadd, wsub, wmul, wrap, div_nbits, lg_nbits, floor_lg, wshr, wsub, wrap, debug_assert. cbn [debug rel64 bind].
    repeat match goal with |- context [if ?b then _ else _] => destruct b; cbn [bind] end; discriminate. }
  intros i v fuel Hf. assert (R0 : forall p, default_rank0 rel64 (prim_rank1 rel64 8) 41 p <> OutOfFuel).
  { intros p. unfold default_rank0. pose proof (R p) as Rp. destruct (prim_rank1 rel64 8 41 p); unfold wadd, wsub, wrap; cbn [debug rel64 bind];
    repeat match goal with |- context [if ?b then _ else _] => destruct b; cbn [bind] end; congruence. }
  apply (C97_select_steps _ _ rel64 _ _ 41 i v 8 8 fuel Hf); try exact R; try exact R0; try reflexivity. intros p. cbn [rs_rank br_rs prim_bitrank mk_bitrank]. unfold rank_by_value.
  destruct v; [exact (R p)|exact (R0 p)].
Qed.

Print Assumptions C97_encode.
Print Assumptions C97_decode.
Print Assumptions C97_lists.
Print Assumptions C97_buffer.
Print Assumptions C97_select.
Print Assumptions C97_search.
Print Assumptions C97_bit_vector_programs.
Print Assumptions C97_int_vector_programs.
Print Assumptions C97_file_programs.
Print Assumptions C97_defaults.
Print Assumptions C97_formatters.
Print Assumptions C97_self_check.
Print Assumptions C97_encode_steps.
Print Assumptions C97_search_steps.
Print Assumptions C97_select_steps.
