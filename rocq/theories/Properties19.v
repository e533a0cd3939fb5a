(** * Exactly which inputs make a decoder panic when overflow checks are on (C57). *)
From Verif Require Import Machine MStorage MTraits MStream MCoding SpecBits SpecCfg SpecStream PBase PStream PCoding2 PCoding4 Properties9 PCoding3.

(** Decoding panics whatever the source, as soon as the source delivers exactly the bits [l]. *)
Definition decoding_panics (C : code) (l : list bool) : Prop :=
  exists n0, forall fuel, (n0 <= fuel)%nat -> forall S (src : source S) s s' o s'',
    reads src s l s' -> stops src s' o s'' -> panics (decode C src fuel s).

(** The digits at the front of the input, up to the comma, exceed 64 bits. *)
Definition comma_overflows (n : N) (l : list bool) : Prop := exists ds rest,
  l = flat_map (bits_of n) ds ++ rest /\ Forall (fun d => d < 2 ^ n - 1) ds /\
  2 ^ 64 <= fold_left (fun a d => a * (2 ^ n - 1) + d) ds 0.
(** The first 92 digits contain no two adjacent ones and their sum exceeds 64 bits. *)
Definition fibonacci_overflows (l : list bool) : Prop := exists z rest,
  l = z ++ rest /\ lengthN z = 92 /\ (forall i, ~ (nthN z i = Some true /\ nthN z (i + 1) = Some true)) /\
  2 ^ 64 <= fib_sum 1 1 z.
(** The groups of a number of at least 64 are followed by a further group of that length. *)
Definition omega_overflows (l : list bool) : Prop := exists v g rest,
  omega_groups v g /\ l = g ++ true :: rest /\ 64 <= v /\ v <= lengthN rest.

Lemma exact_from (C : code) (l : list bool) (P : Prop) :
  (forall S (src : source S) s s' o s'' fuel, (length l < fuel)%nat -> reads src s l s' -> stops src s' o s'' ->
    (P /\ panics (decode C src fuel s)) \/ (~ P /\ exists r, decode C src fuel s = Ok r)) ->
  (P /\ decoding_panics C l) \/ (~ P /\ decoding_returns C l).
Proof.
  intros H.
  assert (Hr : forall m, reads deque_source (m ++ []) m []).
  { induction m as [|b m IH]; [constructor|]. econstructor; [reflexivity|exact IH]. }
  assert (Hs : stops deque_source [] (IOk None) []) by (split; [reflexivity|exact I]).
  destruct (H _ deque_source (l ++ []) [] (IOk None) [] (Datatypes.S (length l)) ltac:(lia) (Hr l) Hs) as [[HP _]|[HP _]]; [left|right]; (split; [exact HP|]);
    exists (Datatypes.S (length l)); intros fuel Hf S src s s' o s'' H1 H2; destruct (H S src s s' o s'' fuel ltac:(lia) H1 H2) as [[H3 H4]|[H3 H4]]; tauto.
Qed.
Theorem C57_comma_exact : forall c n l, debug c = true -> 2 <= n <= 63 ->
  (comma_overflows n l /\ decoding_panics (comma c n) l) \/ (~ comma_overflows n l /\ decoding_returns (comma c n) l).
Proof.
  intros c n l Hd Hn. apply exact_from. intros S src s s' o s'' fuel Hf H Ho. exact (comma_loop_exact c n Hd ltac:(lia) src s' o s'' Ho fuel l s Hf H).
Qed.
(** Every parameter: from 64 on the base itself overflows; the parameters 0 and 1 never overflow. *)
Theorem C57_comma_exact_all : forall c n l, debug c = true ->
  (64 <= n \/ comma_overflows n l) /\ decoding_panics (comma c n) l \/
  ~ (64 <= n \/ comma_overflows n l) /\ decoding_returns (comma c n) l.
Proof.
  intros c n l Hd. destruct (N.le_gt_cases 64 n) as [H64|H64].
  - left. split; [now left|]. exists O. intros fuel _ S src s s' o s'' _ _. cbn [decode comma]. unfold comma_decode.
    apply panics_try. unfold comma_base. destruct (wshl_over c 1 n Hd H64) as [k ->]. eexists. reflexivity.
  - destruct (N.eq_dec n 0) as [->|N0].
    + right. split.
      * intros [F|(ds & rest & _ & HF & Hs)]; [lia|]. destruct ds as [|d ds]; [cbn in Hs; lia|].
        apply Forall_cons_iff in HF. cbn in HF. lia.
      * exists 1%nat. intros [|fuel] Hf S src s s' o s'' _ _; [lia|]. cbn [decode comma]. unfold comma_decode.
        rewrite (try_lift _ 0) by reflexivity. cbn [loop_io]. eexists. reflexivity.
    + destruct (exact_from (comma c n) l (comma_overflows n l)) as [[HP HX]|[HP HX]].
      * intros S src s s' o s'' fuel Hf H Ho. exact (comma_loop_exact c n Hd ltac:(lia) src s' o s'' Ho fuel l s Hf H).
      * left. split; [now right|exact HX].
      * right. split; [|exact HX]. intros [F|F]; [lia|auto].
Qed.
Theorem C57_fibonacci_exact : forall c l, debug c = true ->
  (fibonacci_overflows l /\ decoding_panics (fibonacci c) l) \/ (~ fibonacci_overflows l /\ decoding_returns (fibonacci c) l).
Proof.
  intros c l Hd. apply exact_from. intros S src s s' o s'' fuel Hf H Ho.
  assert (E : fib_bad [] l <-> fibonacci_overflows l).
  { unfold fib_bad, fibonacci_overflows. cbn [app]. split; intros (z & rest & El & Hl & Hz & Hs); exists z, rest; (split; [exact El|]); (split; [unfold lengthN in *; lia|]); split; auto. }
  destruct (fib_loop_exact c src s' o s'' Hd Ho fuel l s Hf H) as [[HP HX]|[HP HX]]; [left|right]; (split; [tauto|exact HX]).
Qed.
Theorem C57_omega_exact : forall c l, wf_cfg c -> debug c = true -> ptr c = 64 -> lengthN l < 2 ^ 32 ->
  (omega_overflows l /\ decoding_panics (omega c) l) \/ (~ omega_overflows l /\ decoding_returns (omega c) l).
Proof.
  intros c l Hc Hd Hp Hl. apply exact_from. intros S src s s' o s'' fuel Hf H Ho.
  assert (E : omega_bad 1 l <-> omega_overflows l).
  { split; intros (v & g & rest & HP & El & Hv).
    - exists v, g, rest. split; [|split; [exact El|exact Hv]]. exact (omega_path_groups _ _ _ HP [] ltac:(lia) og_one).
    - exists v, g, rest. split; [now apply omega_groups_path|auto]. }
  destruct (omega_loop_exact c src s' o s'' Hc Hd Hp Ho fuel l s Hf Hl H) as [[HP HX]|[HP HX]]; [left|right]; (split; [tauto|exact HX]).
Qed.
(** Every pointer width and length: the decoder panics exactly when some value that it reaches, as a [u32], is at least
    64 and is followed by a one and as many bits as it says, as a [usize].  ([omega_steps] are the values it reaches.) *)
Theorem C57_omega_exact_all : forall c l, wf_cfg c -> debug c = true ->
  let overflows := exists v h rest,
    omega_steps c 1 h v /\ l = h ++ true :: rest /\ 64 <= v mod 2 ^ 32 /\ v mod 2 ^ ptr c <= lengthN rest in
  overflows /\ decoding_panics (omega c) l \/ ~ overflows /\ decoding_returns (omega c) l.
Proof.
  intros c l Hc Hd overflows. apply exact_from. intros S src s s' o s'' fuel Hf H Ho.
  exact (omega_loop_steps c src s' o s'' Hc Hd Ho fuel l s Hf H).
Qed.

(** Three digits 2^31-1 of 32 bits overflow; two do not. *)
Example C57_comma_exact_ex : let d := repeatN true 31 ++ [false] in
  comma_overflows 32 (d ++ d ++ d) /\ ~ comma_overflows 32 (d ++ d) /\
  decoding_panics (comma dbg64 32) (d ++ d ++ d) /\ decoding_returns (comma dbg64 32) (d ++ d).
Proof.
  intros d. assert (H3 : comma_overflows 32 (d ++ d ++ d)).
  { exists [2 ^ 31 - 1; 2 ^ 31 - 1; 2 ^ 31 - 1], []. split; [vm_compute; reflexivity|]. split; [repeat constructor|vm_compute; congruence]. }
  destruct (C57_comma_exact dbg64 32 (d ++ d ++ d) eq_refl ltac:(lia)) as [[_ HA]|[HA _]]; [|contradiction].
  destruct (C57_comma_exact dbg64 32 (d ++ d) eq_refl ltac:(lia)) as [[_ [n0 HB]]|[HB1 HB2]]; [exfalso|auto].
  assert (Hr : forall m, reads deque_source (m ++ []) m []).
  { induction m as [|b m IH]; [constructor|]. econstructor; [reflexivity|exact IH]. }
  destruct (HB (3 + n0)%nat ltac:(lia) _ deque_source _ _ (IOk None) [] (Hr (d ++ d)) (conj eq_refl I)) as [k E].
  remember (3 + n0)%nat as f eqn:Ef. destruct f as [|[|[|f]]]; try lia. clear Ef HB HA H3 Hr. vm_compute in E. discriminate.
Qed.
(** The digits 0 1 repeated 46 times: the sum of the Fibonacci numbers of odd index. *)
Example C57_fibonacci_exact_ex : fibonacci_overflows (concat (repeat [false; true] 46)) /\
  decoding_panics (fibonacci dbg64) (concat (repeat [false; true] 46)).
Proof.
  assert (H : fibonacci_overflows (concat (repeat [false; true] 46))).
  { exists (concat (repeat [false; true] 46)), []. split; [now rewrite app_nil_r|]. split; [reflexivity|]. split; [|vm_compute; congruence].
    intros i [H1 H2]. destruct (N.lt_ge_cases i 92) as [Hi|Hi].
    - assert (A : forallb (fun k => negb (match nthN (concat (repeat [false; true] 46)) (N.of_nat k), nthN (concat (repeat [false; true] 46)) (N.of_nat k + 1) with
        | Some true, Some true => true | _, _ => false end)) (seq 0 92) = true) by (vm_compute; reflexivity).
      rewrite forallb_forall in A. specialize (A (N.to_nat i) ltac:(apply in_seq; lia)). rewrite N2Nat.id, H1, H2 in A. discriminate.
    - apply nthN_lt in H1. change (lengthN (concat (repeat [false; true] 46))) with 92 in H1. lia. }
  split; [exact H|]. destruct (C57_fibonacci_exact dbg64 (concat (repeat [false; true] 46)) eq_refl) as [[_ HA]|[HA _]]; [exact HA|contradiction].
Qed.
(** The groups of 2, 6 and 64, and 65 further bits. *)
Example C57_omega_exact_ex : let l := [true; false] ++ [true; true; false] ++ (true :: repeatN false 6) ++ (true :: repeatN false 64) in
  omega_overflows l /\ decoding_panics (omega dbg64) l.
Proof.
  intros l. assert (H : omega_overflows l).
  { exists 64, ([true; false] ++ [true; true; false] ++ (true :: repeatN false 6)), (repeatN false 64). split; [|split; [vm_compute; reflexivity|vm_compute; intuition congruence]].
    exact (og_more 64 ([] ++ [true; false] ++ [true; true; false]) eq_refl (og_more 6 ([] ++ [true; false]) eq_refl (og_more 2 [] eq_refl og_one))). }
  split; [exact H|]. destruct (C57_omega_exact dbg64 l ltac:(auto with wf) eq_refl eq_refl) as [[_ HA]|[HA _]]; [vm_compute; reflexivity|exact HA|contradiction].
Qed.
(** On a 32-bit target the value 2^33 stands for a group of no bits and a shift by no bits: no panic, and the value 1
    again.  64 bits from a group of 63 bits is what a panic takes. *)
Example C57_omega_exact_all_ex :
  let g := [true; false] ++ [true; false; true] ++ (true :: [false; false; false; false; true]) ++ true :: repeatN false 33 in
  omega_steps dbg32 1 g (2 ^ 33) /\ decoding_returns (omega dbg32) (g ++ [true]) /\
  decode (omega dbg32) deque_source 10 (g ++ [true; false]) = Ok (IOk (Some 1), []) /\
  decoding_panics (comma dbg32 64) [] /\ decoding_returns (comma dbg32 1) [false; false; true].
Proof.
  intros g. split; [|split; [|split; [|split]]].
  - exact (os_cons dbg32 1 [false] _ _ eq_refl eq_refl (os_cons dbg32 2 [false; true] _ _ eq_refl eq_refl
      (os_cons dbg32 5 [false; false; false; false; true] _ _ eq_refl eq_refl
        (os_cons dbg32 33 (repeatN false 33) [] _ eq_refl eq_refl (os_nil dbg32 (2 ^ 33)))))).
  - destruct (C57_omega_exact_all dbg32 (g ++ [true]) ltac:(auto with wf) eq_refl) as [[_ [n0 H]]|[_ H]]; [exfalso|exact H].
    assert (Hr : forall m, reads deque_source (m ++ []) m []).
    { induction m as [|b m IH]; [constructor|]. econstructor; [reflexivity|exact IH]. }
    destruct (H (10 + n0)%nat ltac:(lia) _ deque_source _ _ (IOk None) [] (Hr (g ++ [true])) (conj eq_refl I)) as [k E].
    remember (10 + n0)%nat as f eqn:Ef. do 7 (destruct f as [|f]; [lia|]). clear Ef H Hr. vm_compute in E. discriminate.
  - vm_compute. reflexivity.
  - destruct (C57_comma_exact_all dbg32 64 [] eq_refl) as [[_ H]|[H _]]; [exact H|]. exfalso. apply H. left. lia.
  - destruct (C57_comma_exact_all dbg32 1 [false; false; true] eq_refl) as [[[H|H] _]|[_ H]]; [lia| |exact H].
    exfalso. destruct H as (ds & rest & _ & HF & Hs).
    assert (K : fold_left (fun a d => a * (2 ^ 1 - 1) + d) ds 0 = 0).
    { clear Hs. induction ds as [|d ds IH]; [reflexivity|]. apply Forall_cons_iff in HF. destruct HF as [Hd HF]. cbn [fold_left].
      replace (0 * (2 ^ 1 - 1) + d) with 0 by (change (2 ^ 1 - 1) with 1 in *; lia). now apply IH. }
    rewrite K in Hs. lia.
Qed.
Print Assumptions C57_comma_exact.
Print Assumptions C57_comma_exact_all.
Print Assumptions C57_fibonacci_exact.
Print Assumptions C57_omega_exact.
Print Assumptions C57_omega_exact_all.

(** ** Unary, gamma and delta without a bound on the length of the stream: the counter of the zeros is a [u64]. *)
Definition long_zeros (l : list bool) : Prop := exists rest, l = repeatN false (2 ^ 64) ++ rest.
Definition zeros_left (r : N) (l : list bool) : Prop := exists rest, l = repeatN false (2 ^ 64 - r) ++ rest.
Lemma repeatN_cons {A} (a : A) n : 1 <= n -> repeatN a n = a :: repeatN a (n - 1).
Proof. intros H. unfold repeatN. replace (N.to_nat n) with (S (N.to_nat (n - 1))) by lia. reflexivity. Qed.
Lemma zeros_left_cons r b q : r < 2 ^ 64 -> zeros_left r (b :: q) <-> b = false /\ zeros_left (r + 1) q.
Proof.
  intros Hr. unfold zeros_left. rewrite (repeatN_cons false (2 ^ 64 - r)) by lia.
  replace (2 ^ 64 - r - 1) with (2 ^ 64 - (r + 1)) by lia. split.
  - intros [rest E]. cbn [app] in E. injection E as -> E. split; [reflexivity|]. now exists rest.
  - intros [-> [rest ->]]. now exists rest.
Qed.
Lemma zeros_left_max q : zeros_left (2 ^ 64) q.
Proof. exists q. now rewrite N.sub_diag. Qed.
Lemma zeros_left_nil r : r < 2 ^ 64 -> ~ zeros_left r [].
Proof. intros Hr [rest E]. rewrite repeatN_cons in E by lia. discriminate. Qed.
Lemma unary_survives_all c l : debug c = false \/ ~ zeros_left 0 l -> survives (unary c) (fun _ => True) l.
Proof.
  intros Hl. exists (Datatypes.S (length l)). intros fuel Hf S src s s' o s'' H Ho. cbn [decode unary]. unfold unary_decode.
  apply (loop_outcome src s' _ (fun (st : N * bool) q => debug c = false \/ (fst st < 2 ^ 64 /\ ~ zeros_left (fst st) q))) with (n := length l); auto.
  2:{ destruct Hl as [Hl|Hl]; [now left|right]. split; [cbn; lia|exact Hl]. }
  clear H s. intros [r b] q s HI H. cbn [fst] in HI.
  destruct (read_bit_cases src s' o s'' Ho s q H) as [(-> & -> & [(e & E)|E])|(x & q' & t & -> & E & H')]; unfold try_; rewrite E; cbn [bind].
  - left. eauto.
  - destruct b; unfold ret, fail; eauto 6.
  - destruct x.
    + right. right. left. exists r, [true], q', t. split; [reflexivity|]. split; [exact I|]. split; [reflexivity|]. split; [|exact H'].
      econstructor; [exact E|constructor].
    + right. right. right. unfold lift.
      assert (exists m, wadd c 64 r 1 = Ok m /\ (debug c = false \/ (m < 2 ^ 64 /\ ~ zeros_left m q'))) as (m & Em & Hm).
      { destruct HI as [Hd|[Hr Hz]].
        - unfold wadd, wrap. rewrite Hd. destruct (_ <? _); eauto.
        - rewrite zeros_left_cons in Hz by assumption.
          assert (r + 1 < 2 ^ 64). { destruct (N.eq_dec (r + 1) (2 ^ 64)) as [F|F]; [|lia]. exfalso. apply Hz. split; [reflexivity|]. rewrite F. apply zeros_left_max. }
          exists (r + 1). split; [apply wadd_ok; lia|]. right. split; [assumption|]. tauto. }
      rewrite Em. cbn [bind ret]. exists (m, true), [false], q', t. cbn [fst]. split; [reflexivity|]. split; [exact Hm|].
      split; [discriminate|]. split; [reflexivity|]. split; [|exact H']. econstructor; [exact E|constructor].
Qed.
Lemma unary_panics c l : debug c = true -> zeros_left 0 l -> decoding_panics (unary c) l.
Proof.
  intros Hd Hl. exists (Datatypes.S (length l)). intros fuel Hf S src s s' o s'' H Ho. cbn [decode unary]. unfold unary_decode.
  match goal with |- panics (loop_io fuel ?b (0, false) s) => set (body := b) end.
  assert (L : (zeros_left 0 l /\ panics (loop_io fuel body (0, false) s)) \/
              (~ zeros_left 0 l /\ exists r, loop_io fuel body (0, false) s = Ok r));
    [|destruct L as [[_ HP]|[HN _]]; [exact HP|exfalso; exact (HN Hl)]].
  refine (loop_exact src s' (G := unit) body (fun _ x _ => fst x < 2 ^ 64) (fun _ x q => zeros_left (fst x) q) _
    (length l) fuel tt (0, false) l s _ _ _ H); auto; [|cbn; lia]. unfold body. clear body.
  clear H s Hl Hf fuel. intros _ [r b] q s Hr H. cbn [fst] in *.
  destruct (read_bit_cases src s' o s'' Ho s q H) as [(-> & -> & [(e & E)|E])|(x & q' & t & -> & E & H')]; unfold try_; rewrite E; cbn [bind].
  - right. left. split; [now apply zeros_left_nil|]. left. eauto.
  - right. left. split; [now apply zeros_left_nil|]. destruct b; unfold ret, fail; eauto.
  - rewrite zeros_left_cons by assumption. destruct x.
    + right. left. split; [intros [F _]; discriminate|]. right. unfold ret. eauto.
    + destruct (N.eq_dec (r + 1) (2 ^ 64)) as [F|F].
      * left. split; [split; [reflexivity|]; rewrite F; apply zeros_left_max|]. unfold lift. destruct (wadd_over c r 1 Hd) as [k ->]; [lia|]. eexists. reflexivity.
      * right. right. exists tt, (r + 1, true), [false], q', t. unfold lift. rewrite wadd_ok by lia. cbn [bind].
        split; [reflexivity|]. split; [cbn; lia|]. split; [cbn [fst]; rewrite zeros_left_cons by assumption; split; [auto|intros G; exact (proj2 G)]|]. split; [discriminate|]. split; [reflexivity|exact H'].
Qed.
Theorem C57_unary_gamma_delta_exact : forall c l C, wf_cfg c -> C = unary c \/ C = gamma c \/ C = delta c ->
  (debug c = true /\ long_zeros l) /\ decoding_panics C l \/ ~ (debug c = true /\ long_zeros l) /\ decoding_returns C l.
Proof.
  intros c l C Hc HC. assert (Hz : long_zeros l <-> zeros_left 0 l) by (unfold long_zeros, zeros_left; rewrite N.sub_0_r; tauto).
  rewrite Hz.
  assert (Hdec : (debug c = true /\ zeros_left 0 l) \/ ~ (debug c = true /\ zeros_left 0 l)).
  { destruct (debug c) eqn:Hd; [|right; intros [F _]; discriminate].
    assert (D : forall q r, zeros_left r q \/ ~ zeros_left r q).
    { induction q as [|b q IH]; intros r.
      - destruct (N.le_gt_cases (2 ^ 64) r) as [F|F]; [left|right; now apply zeros_left_nil].
        exists []. replace (2 ^ 64 - r) with 0 by lia. reflexivity.
      - destruct (N.le_gt_cases (2 ^ 64) r) as [F|F]; [left; exists (b :: q); replace (2 ^ 64 - r) with 0 by lia; reflexivity|].
        rewrite zeros_left_cons by assumption. destruct b; [right; intros [G _]; discriminate|]. destruct (IH (r + 1)); tauto. }
    destruct (D l 0); [left|right]; tauto. }
  destruct Hdec as [[Hd Hl]|Hn].
  - left. split; [auto|]. pose proof (unary_panics c l Hd Hl) as HU.
    assert (HE : forall A, decoding_panics A l -> decoding_panics (elias c A) l).
    { intros A [n0 H]. exists n0. intros fuel Hf S src s s' o s'' H1 H2. cbn [decode elias]. unfold elias_decode, try_ at 1.
      destruct (H fuel Hf S src s s' o s'' H1 H2) as [k ->]. eexists. reflexivity. }
    assert (HL : forall A, decoding_panics A l -> decoding_panics (lift0 c A) l).
    { intros A [n0 H]. exists n0. intros fuel Hf S src s s' o s'' H1 H2. cbn [decode lift0]. unfold lift0_decode, try_ at 1.
      destruct (H fuel Hf S src s s' o s'' H1 H2) as [k ->]. eexists. reflexivity. }
    destruct HC as [->|[->| ->]]; [exact HU| |]; unfold delta, gamma; auto.
  - right. split; [exact Hn|].
    assert (HU : survives (unary c) (fun _ => True) l).
    { apply unary_survives_all. destruct (debug c); [right|left; reflexivity]. intros F. apply Hn. auto. }
    pose proof (elias_survives c _ _ l Hc HU) as HG. fold (gamma c) in HG.
    destruct HC as [->|[->| ->]]; [exact (survives_returns _ _ _ HU)|exact (survives_returns _ _ _ HG)|].
    eapply survives_returns. eapply elias_survives; [exact Hc|].
    apply (lift0_survives c (gamma c) (fun v => 1 <= v < 2 ^ 64)); [|exact HG]. intros v [H _]. exact H.
Qed.
(** The zeros must be at the front: after a one no number of them matters. *)
Example C57_unary_gamma_delta_exact_ex :
  long_zeros (repeatN false (2 ^ 64)) /\ decoding_panics (gamma dbg32) (repeatN false (2 ^ 64)) /\
  decoding_returns (gamma rel32) (repeatN false (2 ^ 64)) /\ decoding_returns (gamma dbg32) (true :: repeatN false (2 ^ 64)).
Proof.
  assert (HZ : long_zeros (repeatN false (2 ^ 64))) by (exists []; now rewrite app_nil_r).
  split; [exact HZ|]. split; [|split].
  - destruct (C57_unary_gamma_delta_exact dbg32 (repeatN false (2 ^ 64)) (gamma dbg32)) as [[_ H]|[H _]]; auto with wf. now destruct H.
  - destruct (C57_unary_gamma_delta_exact rel32 (repeatN false (2 ^ 64)) (gamma rel32)) as [[[H _] _]|[_ H]]; auto with wf. discriminate H.
  - destruct (C57_unary_gamma_delta_exact dbg32 (true :: repeatN false (2 ^ 64)) (gamma dbg32)) as [[[_ [rest H]] _]|[_ H]]; auto with wf.
    rewrite (repeatN_cons false (2 ^ 64)) in H by lia. discriminate H.
Qed.
Print Assumptions C57_unary_gamma_delta_exact.
