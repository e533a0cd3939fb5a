(** * Property C126: a text as literals and copies in a stream ([MLz.v]). *)
From Verif Require Import Machine MStorage MTraits MStream MCoding MLz
  SpecBits SpecCfg SpecStream PBase PBits PStream PCoding PCoding2 PCoding3 Properties68 Properties69.

(** ** What the tokens mean: a copy repeats what is [distance] places earlier, also in what it has itself added *)
Inductive expands : list N -> list lz_token -> list N -> Prop :=
| ex_nil out : expands out [] out
| ex_literal out x ts r : expands (out ++ [x]) ts r -> expands out (Literal x :: ts) r
| ex_copy out d n e ts r : 1 <= d <= lengthN out -> 1 <= n -> lengthN e = n ->
    (forall j, j < n -> nthN (out ++ e) (lengthN out + j) = nthN (out ++ e) (lengthN out + j - d)) ->
    expands (out ++ e) ts r -> expands out (Copy d n :: ts) r.
(** The numbers that are written. *)
Fixpoint numbers (ts : list lz_token) : list N :=
  match ts with [] => [] | Literal x :: r => 0 :: x :: numbers r | Copy d n :: r => n :: d :: numbers r end.

Lemma numbers_app a b : numbers (a ++ b) = numbers a ++ numbers b.
Proof. induction a as [|[x|d n] a IH]; [reflexivity| |]; cbn [app numbers]; now rewrite IH. Qed.
Lemma expands_length out ts r : expands out ts r -> lengthN out <= lengthN r.
Proof. induction 1; [lia| |]; rewrite lengthN_app in *; lia. Qed.
Lemma save_numbers {S} C (snk : sink S) fuel ts : forall s, lz_save C snk fuel ts s = encode_list C snk fuel (numbers ts) s.
Proof.
  induction ts as [|[x|d n] ts IH]; intros s; [reflexivity| |]; cbn [lz_save numbers encode_list]; unfold try_.
  - destruct (encode C snk fuel 0 s) as [[[u|e] s1]| |]; cbn [bind]; auto. destruct (encode C snk fuel x s1) as [[[u'|e] s2]| |]; cbn [bind]; auto.
  - destruct (encode C snk fuel n s) as [[[u|e] s1]| |]; cbn [bind]; auto. destruct (encode C snk fuel d s1) as [[[u'|e] s2]| |]; cbn [bind]; auto.
Qed.
Lemma copy_ok c out d n e : d < 2 ^ ptr c -> 1 <= d <= lengthN out -> lengthN e = n ->
  (forall j, j < n -> nthN (out ++ e) (lengthN out + j) = nthN (out ++ e) (lengthN out + j - d)) -> lz_copy c d n out = Ok (out ++ e).
Proof.
  intros Hd Hd2 He HE. unfold lz_copy, as_usize. rewrite N.mod_small by exact Hd.
  destruct (for_range_ind (fun j acc => acc = out ++ firstnN j e) (fun _ out => i <- wsub c (ptr c) (lengthN out) d ;; x <- index out i ;; Ok (out ++ [x])) 0 n out) as (r & Er & Hr).
  - lia.
  - rewrite firstnN_0, app_nil_r. reflexivity.
  - intros j acc _ Hj ->. assert (L : lengthN (out ++ firstnN j e) = lengthN out + j) by (rewrite lengthN_app, lengthN_firstnN; lia). rewrite L, wsub_ok by lia. cbn [bind].
    destruct (nthN e j) as [x|] eqn:Ex; [|apply nthN_None in Ex; lia].
    assert (EI : nthN (out ++ firstnN j e) (lengthN out + j - d) = Some x).
    { rewrite <- Ex. transitivity (nthN (out ++ e) (lengthN out + j)); [|rewrite nthN_app_r by lia; f_equal; lia]. rewrite (HE j Hj), !nthN_app. destruct (lengthN out + j - d <? lengthN out) eqn:E; [reflexivity|].
      rewrite nthN_firstnN. destruct (lengthN out + j - d - lengthN out <? j) eqn:E2; [reflexivity|lia]. }
    unfold index. rewrite EI. cbn [bind]. eexists. split; [reflexivity|]. rewrite <- app_assoc. f_equal. apply nthN_ext. intros i. rewrite nthN_app, lengthN_firstnN, !nthN_firstnN, nthN_cons, nthN_nil.
    replace (N.min j (lengthN e)) with j by lia. destruct (i <? j) eqn:E1, (i <? j + 1) eqn:E2, (i - j =? 0) eqn:E3; try lia; try reflexivity. replace i with j by lia. now rewrite Ex.
  - rewrite Er, Hr. rewrite firstnN_all by lia. reflexivity.
Qed.

Definition lz_body {S} c C (src : source S) fuel := fun out : list N =>
  try_ (decode C src fuel) (fun o => match o with
    | None => ret (Return out)
    | Some count => try_ (decode C src fuel) (fun o => match o with
        | None => fail UnexpectedEof
        | Some v => if count =? 0 then ret (Continue (out ++ [v])) else if (v =? 0) || (lengthN out <? v) then fail InvalidData else try_ (lift (lz_copy c v count out)) (fun out => ret (Continue out))
        end)
    end).
Lemma word_reads C d w : codeword C d w -> exists n0, forall fuel, (n0 <= fuel)%nat -> forall S (src : source S) s s', reads src s w s' -> decode C src fuel s = Ok (IOk (Some d), s').
Proof. intros [_ _ [n0 H]]. exists n0. exact H. Qed.
(** The tokens are taken one by one. *)
Lemma load_tokens c C out ts r : wf_cfg c -> expands out ts r -> lengthN r < 2 ^ ptr c -> forall ws, Forall2 (codeword C) (numbers ts) ws ->
  exists n0, forall fuel k, (n0 <= fuel)%nat -> forall S (src : source S) s s', reads src s (concat ws) s' ->
    loop_io (length ts + k) (lz_body c C src fuel) out s = loop_io k (lz_body c C src fuel) r s'.
Proof.
  intros Hc HX. induction HX as [out|out x ts r HX IH|out d n e ts r Hd Hn He HE HX IH]; intros HL ws HW; cbn [numbers] in HW.
  - inversion HW; subst. exists 0%nat. intros fuel k _ S src s s' Hr. apply reads_nil_inv in Hr. now subst s'.
  - inversion HW as [|? w1 ? ws1 W1 HW1]; subst. inversion HW1 as [|? w2 ? ws2 W2 HW2]; subst. destruct (IH HL ws2 HW2) as [n0 H0]. destruct (word_reads _ _ _ W1) as [n1 H1]. destruct (word_reads _ _ _ W2) as [n2 H2].
    exists (n0 + n1 + n2)%nat. intros fuel k Hf S src s s' Hr. cbn [concat] in Hr. apply reads_app in Hr. destruct Hr as (s1 & R1 & Hr). apply reads_app in Hr. destruct Hr as (s2 & R2 & Hr).
    assert (E : lz_body c C src fuel out s = Ok (IOk (Continue (out ++ [x])), s2)).
    { unfold lz_body. rewrite (try_ok _ _ _ _ _ (H1 fuel ltac:(lia) S src s s1 R1)). rewrite (try_ok _ _ _ _ _ (H2 fuel ltac:(lia) S src s1 s2 R2)). reflexivity. }
    cbn [length plus loop_io]. rewrite (try_ok _ _ _ _ _ E). apply (H0 fuel k ltac:(lia) S src s2 s' Hr).
  - inversion HW as [|? w1 ? ws1 W1 HW1]; subst. inversion HW1 as [|? w2 ? ws2 W2 HW2]; subst. destruct (IH HL ws2 HW2) as [n0 H0]. destruct (word_reads _ _ _ W1) as [n1 H1]. destruct (word_reads _ _ _ W2) as [n2 H2].
    exists (n0 + n1 + n2)%nat. intros fuel k Hf S src s s' Hr. cbn [concat] in Hr. apply reads_app in Hr. destruct Hr as (s1 & R1 & Hr). apply reads_app in Hr. destruct Hr as (s2 & R2 & Hr).
    pose proof (expands_length _ _ _ HX) as LX. rewrite lengthN_app in LX.
    assert (E : lz_body c C src fuel out s = Ok (IOk (Continue (out ++ e)), s2)).
    { unfold lz_body. rewrite (try_ok _ _ _ _ _ (H1 fuel ltac:(lia) S src s s1 R1)). rewrite (try_ok _ _ _ _ _ (H2 fuel ltac:(lia) S src s1 s2 R2)).
      destruct (lengthN e =? 0) eqn:E0; [lia|]. destruct (d =? 0) eqn:E1; [lia|]. destruct (lengthN out <? d) eqn:E2; [lia|]. cbn [orb]. unfold lift, try_. rewrite (copy_ok c out d (lengthN e) e); [reflexivity|lia|exact Hd|reflexivity|exact HE]. }
    cbn [length plus loop_io]. rewrite (try_ok _ _ _ _ _ E). apply (H0 fuel k ltac:(lia) S src s2 s' Hr).
Qed.

(** ** The text comes back, whichever way it was divided into literals and copies *)
Theorem C126_loaded : forall c strict C D ts text, wf_cfg c -> tower_code c strict C D -> expands [] ts text -> Forall D (numbers ts) -> lengthN text * 64 <= max_bits c ->
  exists w n0, forall fuel, (n0 <= fuel)%nat ->
    (forall S (snk : sink S) s, lz_save C snk fuel ts s = write_all snk w s) /\
    (forall S (src : source S) s s' s'', reads src s w s' -> read_bit src s' = Ok (IOk None, s'') -> lz_load c C src fuel s = Ok (IOk text, s'')).
Proof.
  intros c strict C D ts text Hc HP HX HF HL. destruct (tower_words c strict C D _ Hc HP HF) as (ws & Hws). apply words_only in Hws.
  assert (HL' : lengthN text < 2 ^ ptr c) by (apply (blocks_fit c 64); auto; unfold wf_nb; auto).
  destruct (encode_list_ok C _ ws Hws) as [n1 H1]. destruct (load_tokens c C [] ts text Hc HX HL' ws Hws) as [n2 H2]. destruct (tower_clean c strict C D HP) as [n3 H3].
  exists (concat ws), (n1 + n2 + n3 + length ts + 1)%nat. intros fuel Hf. split.
  - intros S snk s. rewrite save_numbers. apply H1. lia.
  - intros S src s s' s'' Hr He. change (loop_io fuel (lz_body c C src fuel) [] s = Ok (IOk text, s'')). replace fuel with (length ts + Datatypes.S (fuel - length ts - 1))%nat at 1 by lia.
    rewrite (H2 fuel _ ltac:(lia) S src s s' Hr). cbn [loop_io].
    assert (E : lz_body c C src fuel text s' = Ok (IOk (Return text), s'')) by (unfold lz_body; rewrite (try_ok _ _ _ _ _ (H3 fuel ltac:(lia) S src s' s'' He)); reflexivity).
    rewrite (try_ok _ _ _ _ _ E). reflexivity.
Qed.

(** ** A distance that leads before the text is an error, whatever follows; so is half a token *)
Theorem C126_refused : forall c strict C D ts text d n rest, wf_cfg c -> tower_code c strict C D -> expands [] ts text -> Forall D (numbers ts) -> lengthN text * 64 <= max_bits c ->
  1 <= n -> d = 0 \/ lengthN text < d -> D n -> D d -> Forall D (numbers rest) ->
  exists w w' n0, forall fuel, (n0 <= fuel)%nat ->
    (forall S (snk : sink S) s, lz_save C snk fuel (ts ++ Copy d n :: rest) s = write_all snk w s) /\
    (forall S (src : source S) s s', reads src s w s' -> exists t, lz_load c C src fuel s = Ok (IErr InvalidData, t)) /\
    (forall S (src : source S) s s' s'', reads src s w' s' -> read_bit src s' = Ok (IOk None, s'') -> lz_load c C src fuel s = Ok (IErr UnexpectedEof, s'')) /\
    (forall S (snk : sink S) s, encode_list C snk fuel (numbers ts ++ [n]) s = write_all snk w' s).
Proof.
  intros c strict C D ts text d n rest Hc HP HX HF HL Hn Hd Dn Dd HF'. destruct (tower_words c strict C D _ Hc HP HF) as (ws & Hws). apply words_only in Hws.
  destruct (tower_words c strict C D (n :: d :: numbers rest) Hc HP ltac:(repeat constructor; assumption)) as (ws' & Hws'). apply words_only in Hws'.
  assert (HL' : lengthN text < 2 ^ ptr c) by (apply (blocks_fit c 64); auto; unfold wf_nb; auto).
  inversion Hws' as [|? w1 ? ws1 W1 HW1]; subst. inversion HW1 as [|? w2 ? ws2 W2 HW2]; subst.
  assert (HA : Forall2 (codeword C) (numbers (ts ++ Copy d n :: rest)) (ws ++ w1 :: w2 :: ws2)) by (rewrite numbers_app; apply Forall2_app; [exact Hws|exact Hws']).
  assert (HB : Forall2 (codeword C) (numbers ts ++ [n]) (ws ++ [w1])) by (apply Forall2_app; [exact Hws|constructor; [exact W1|constructor]]).
  destruct (encode_list_ok C _ _ HA) as [n1 H1]. destruct (encode_list_ok C _ _ HB) as [n1' H1']. destruct (load_tokens c C [] ts text Hc HX HL' ws Hws) as [n2 H2]. destruct (tower_clean c strict C D HP) as [n3 H3].
  destruct (word_reads _ _ _ W1) as [n4 H4]. destruct (word_reads _ _ _ W2) as [n5 H5].
  exists (concat (ws ++ w1 :: w2 :: ws2)), (concat (ws ++ [w1])), (n1 + n1' + n2 + n3 + n4 + n5 + length ts + 1)%nat. intros fuel Hf. split; [|split; [|split]].
  - intros S snk s. rewrite save_numbers. apply H1. lia.
  - intros S src s s' Hr. rewrite concat_app in Hr. cbn [concat] in Hr. apply reads_app in Hr. destruct Hr as (s0 & R0 & Hr). apply reads_app in Hr. destruct Hr as (s1 & R1 & Hr). apply reads_app in Hr. destruct Hr as (s2 & R2 & Hr).
    exists s2. change (loop_io fuel (lz_body c C src fuel) [] s = Ok (IErr InvalidData, s2)). replace fuel with (length ts + Datatypes.S (fuel - length ts - 1))%nat at 1 by lia.
    rewrite (H2 fuel _ ltac:(lia) S src s s0 R0). cbn [loop_io].
    assert (E : lz_body c C src fuel text s0 = Ok (IErr InvalidData, s2)).
    { unfold lz_body. rewrite (try_ok _ _ _ _ _ (H4 fuel ltac:(lia) S src s0 s1 R1)). rewrite (try_ok _ _ _ _ _ (H5 fuel ltac:(lia) S src s1 s2 R2)).
      destruct (n =? 0) eqn:E0; [lia|]. assert (E1 : (d =? 0) || (lengthN text <? d) = true) by (apply orb_true_iff; destruct Hd; [left|right]; lia). now rewrite E1. }
    rewrite (try_err _ _ _ _ _ E). reflexivity.
  - intros S src s s' s'' Hr He. rewrite concat_app in Hr. cbn [concat] in Hr. rewrite app_nil_r in Hr. apply reads_app in Hr. destruct Hr as (s0 & R0 & R1).
    change (loop_io fuel (lz_body c C src fuel) [] s = Ok (IErr UnexpectedEof, s'')). replace fuel with (length ts + Datatypes.S (fuel - length ts - 1))%nat at 1 by lia.
    rewrite (H2 fuel _ ltac:(lia) S src s s0 R0). cbn [loop_io].
    assert (E : lz_body c C src fuel text s0 = Ok (IErr UnexpectedEof, s'')).
    { unfold lz_body. rewrite (try_ok _ _ _ _ _ (H4 fuel ltac:(lia) S src s0 s' R1)). rewrite (try_ok _ _ _ _ _ (H3 fuel ltac:(lia) S src s' s'' He)). reflexivity. }
    rewrite (try_err _ _ _ _ _ E). reflexivity.
  - intros S snk s. apply H1'. lia.
Qed.

(** "abcabcabcabd": three literals, one copy that overlaps itself, and a last literal. *)
Example C126_ex : let C := lift0 dbg64 (gamma dbg64) in let ts := [Literal 97; Literal 98; Literal 99; Copy 3 8; Literal 100] in
  exists w, lz_save C deque_sink 70 ts [] = Ok (IOk tt, w) /\ lz_load dbg64 C deque_source 70 w = Ok (IOk [97; 98; 99; 97; 98; 99; 97; 98; 99; 97; 98; 100], []) /\
    (exists w' t, lz_save C deque_sink 70 [Literal 5; Copy 2 1; Literal 6] [] = Ok (IOk tt, w') /\ lz_load dbg64 C deque_source 70 w' = Ok (IErr InvalidData, t)) /\
    lz_load dbg64 C deque_source 70 (w ++ [true]) = Ok (IErr UnexpectedEof, []).
Proof. cbv zeta. eexists. split; [vm_compute; reflexivity|]. split; [vm_compute; reflexivity|]. split; [eexists; eexists; split; [vm_compute; reflexivity|]; vm_compute; reflexivity|]. vm_compute. reflexivity. Qed.
Example C126_ex_ok : let ts := [Literal 97; Literal 98; Literal 99; Copy 3 8; Literal 100] in
  expands [] ts [97; 98; 99; 97; 98; 99; 97; 98; 99; 97; 98; 100] /\
  (exists D, tower_code dbg64 true (lift0 dbg64 (gamma dbg64)) D /\ Forall D (numbers ts) /\ Forall D (numbers [Literal 5]) /\ D 1 /\ D 2 /\ Forall D (numbers [Literal 6])) /\
  expands [] [Literal 5] [5] /\ lengthN [5] < 2 /\ 12 * 64 <= max_bits dbg64.
Proof.
  cbv zeta. split.
  - do 3 apply ex_literal. apply (ex_copy _ 3 8 [97; 98; 99; 97; 98; 99; 97; 98]); [vm_compute; split; congruence|lia|reflexivity| |].
    + intros j Hj. assert (j = 0 \/ j = 1 \/ j = 2 \/ j = 3 \/ j = 4 \/ j = 5 \/ j = 6 \/ j = 7) as H by lia. destruct H as [->|[->|[->|[->|[->|[->|[->| ->]]]]]]]; reflexivity.
    + apply ex_literal. apply ex_nil.
  - split; [|split; [apply ex_literal, ex_nil|split; [reflexivity|vm_compute; congruence]]].
    eexists. split; [apply tc_lift0, tc_lib, pr_gamma|]. repeat split; repeat constructor; vm_compute; congruence || reflexivity.
Qed.

Print Assumptions C126_loaded.
Print Assumptions C126_refused.
