(** * A value is decoded only from its own code word (C76). *)
From Verif Require Import Machine MStorage MTraits MStream MCoding SpecBits SpecCfg SpecStream PBase PStream PCoding2 PCoding3 PAccept.

(** On every source that delivers the bits [l] and then stops: if a value is decoded, the bits read
    for it are exactly the bits the encoder writes for it, and the encoder accepts it ([D]). *)
Definition decodes_only_words (C : code) (D : N -> Prop) (l : list bool) : Prop :=
  forall fuel S (src : source S) s s' o s'' v t, reads src s l s' -> stops src s' o s'' ->
    decode C src fuel s = Ok (IOk (Some v), t) ->
    D v /\ exists w q, l = w ++ q /\ reads src s w t /\ reads src t q s' /\ encodes C v w.
(** Decoding a whole stream and encoding the values again gives the stream back, on every sink. *)
Definition reencodes (C : code) (D : N -> Prop) (l : list bool) : Prop :=
  forall fuel S (src : source S) s s' o s'' vs t, reads src s l s' -> stops src s' o s'' ->
    decode_list C src fuel s = Ok (IOk vs, t) ->
    Forall D vs /\ exists n0, forall fuel, (n0 <= fuel)%nat -> forall T (snk : sink T) u, encode_list C snk fuel vs u = write_all snk l u.

(** The codes, and combinations of them, for streams of fewer than [m] bits.  Omega needs overflow
    checks and a 64-bit target; [Lift0] needs a code that never yields 0; [strict] excludes Fibonacci. *)
Inductive canonical (c : cfg) (m : N) : bool -> code -> (N -> Prop) -> Prop :=
| cn_unary : m <= 2 ^ 64 -> canonical c m true (unary c) (fun v => v < 2 ^ 64)
| cn_gamma : m <= 2 ^ 64 -> canonical c m true (gamma c) (fun v => 1 <= v < 2 ^ 64)
| cn_delta : m <= 2 ^ 64 -> canonical c m true (delta c) (fun v => 1 <= v < 2 ^ 64)
| cn_fib : canonical c m false (fibonacci c) (fun v => 1 <= v < fib_max)
| cn_omega : m <= 2 ^ 32 -> debug c = true -> ptr c = 64 -> canonical c m true (omega c) (fun v => 1 <= v < 2 ^ 64)
| cn_lift0 : forall strict C D, canonical c m strict C D -> (forall v, D v -> 1 <= v < 2 ^ 64) ->
    canonical c m strict (lift0 c C) (fun v => v + 1 < 2 ^ 64 /\ D (v + 1))
| cn_elias : forall strict H D, canonical c m strict H D ->
    canonical c m strict (elias c H) (fun v => 1 <= v < 2 ^ 64 /\ D (N.log2 v)).

Lemma canonical_provided c m b C D : canonical c m b C D -> provided c b C D.
Proof. induction 1; constructor; auto. Qed.
Lemma canonical_accepts c m b C D l : wf_cfg c -> canonical c m b C D -> lengthN l < m -> accepts C (fun v w => D v /\ codeword C v w) l.
Proof.
  intros Hc HP Hl. induction HP.
  - apply unary_accepts. lia. - apply gamma_accepts; [exact Hc|lia]. - apply delta_accepts; [exact Hc|lia].
  - eapply accepts_mono; [|apply fib_accepts]. cbn. intros v w [H1 H2]. split; [exact H1|]. apply fib_codeword; [lia|lia|exact H2].
  - eapply accepts_mono; [|apply omega_accepts; auto; lia]. cbn. intros v w [H2 H3]. split; [exact H2|]. apply PCoding.omega_codeword; [exact Hc|lia|exact H3].
  - now apply lift0_accepts.
  - now apply elias_accepts.
Qed.
Lemma canonical_none c m b C D l : wf_cfg c -> canonical c m b C D -> b = true -> lengthN l < m -> none_at_end C l.
Proof.
  intros Hc HP Hb Hl. induction HP.
  - apply unary_none. - apply gamma_none. - apply delta_none. - discriminate.
  - apply omega_none; auto. lia. - apply lift0_none. auto. - apply elias_none. auto.
Qed.

Theorem C76_words_partial : forall c m strict C D l, wf_cfg c -> canonical c m strict C D -> lengthN l < m -> decodes_only_words C D l.
Proof.
  intros c m b C D l Hc HP Hl fuel S src s s' o s'' v t H Ho E.
  destruct (canonical_accepts c m b C D l Hc HP Hl fuel S src s s' o s'' v t H Ho E) as (w & q & El & H1 & H2 & HD & Hw).
  split; [exact HD|]. exists w, q. split; [exact El|]. split; [exact H1|]. split; [exact H2|apply Hw].
Qed.
(** On a queue: the value [v] is decoded with the rest [q] left over exactly if the queue starts
    with the word of [v]. *)
Theorem C76_queue_partial : forall c m strict C D l v q, wf_cfg c -> canonical c m strict C D -> lengthN l < m ->
  ((exists fuel, decode C deque_source fuel l = Ok (IOk (Some v), q)) <-> (D v /\ exists w, l = w ++ q /\ encodes C v w)).
Proof.
  intros c m b C D l v q Hc HP Hl. split.
  - intros [fuel E]. pose proof (reads_deque l []) as Hr. rewrite app_nil_r in Hr.
    destruct (C76_words_partial c m b C D l Hc HP Hl fuel _ deque_source l [] (IOk None) [] v q Hr (conj eq_refl I) E) as (HD & w & q' & El & H1 & H2 & Hw).
    split; [exact HD|]. exists w. split; [|exact Hw].
    assert (Hd : forall x y z, reads deque_source x y z -> x = y ++ z).
    { intros x y. revert x. induction y as [|a y IH]; intros x z Hx; [now apply reads_nil_inv in Hx|]. apply reads_inv in Hx. destruct Hx as (t & Et & Hx). apply IH in Hx. subst t.
      cbn in Et. destruct x as [|a' x]; [discriminate|]. now injection Et as -> ->. }
    now apply Hd.
  - intros (HD & w & -> & [n1 Hw]). destruct (provided_codeword c b C D v Hc (canonical_provided _ _ _ _ _ HP) HD) as (w' & [_ [n2 H2] [n3 H3]] & _).
    assert (w = w'). { pose proof (Hw (n1 + n2)%nat ltac:(lia) _ deque_sink []) as E1. rewrite (H2 (n1 + n2)%nat) in E1 by lia. rewrite !write_all_deque in E1. now injection E1. }
    subst w'. exists n3. exact (H3 n3 (le_n _) _ deque_source _ q (reads_deque w q)).
Qed.
Theorem C76_reencode_partial : forall c m C D l, wf_cfg c -> canonical c m true C D -> lengthN l < m -> reencodes C D l.
Proof.
  intros c m C D l Hc HP Hl fuel S src s s' o s'' vs t H Ho E.
  destruct (decode_list_inv C D l) with (5 := E) (o := o) (s'' := s'') (s' := s') as (HD & ws & HF & El); auto.
  - intros p q ->. rewrite lengthN_app in Hl. apply (canonical_accepts c m true C D q Hc HP). lia.
  - intros p q ->. rewrite lengthN_app in Hl. apply (canonical_none c m true C D q Hc HP eq_refl). lia.
  - split; [exact HD|]. destruct (encode_list_ok C vs ws HF) as [n0 Hn]. exists n0. intros fuel' Hf T snk u. rewrite El. now apply Hn.
Qed.

(** Comma: leading digits 0 are skipped, and nothing else. *)
Theorem C76_comma_partial : forall c n l, debug c = true -> 2 <= n <= 63 ->
  forall fuel S (src : source S) s s' o s'' v t, reads src s l s' -> stops src s' o s'' ->
    decode (comma c n) src fuel s = Ok (IOk (Some v), t) ->
    v < 2 ^ 64 /\ exists k w q, l = repeatN false (k * n) ++ w ++ q /\ reads src s (repeatN false (k * n) ++ w) t /\ reads src t q s' /\ encodes (comma c n) v w.
Proof.
  intros c n l Hd Hn fuel S src s s' o s'' v t H Ho E.
  destruct (comma_accepts c n l Hd Hn fuel S src s s' o s'' v t H Ho E) as (w & q & El & H1 & H2 & Hv & k & w' & -> & Hw).
  split; [exact Hv|]. exists k, w', q. split; [now rewrite app_assoc|]. split; [exact H1|]. split; [exact H2|]. exact (cw_encodes _ _ _ (comma_codeword c n v w' Hn Hv Hw)).
Qed.

(** The statement is false for the comma code: the number 0 written with a leading digit 0. *)
Theorem C76_comma_refuted : exists l v, decode (comma dbg64 2) deque_source 10 l = Ok (IOk (Some v), []) /\
  encode (comma dbg64 2) deque_sink 10 v [] = Ok (IOk tt, [true; true]) /\ l <> [true; true].
Proof. exists [false; false; true; true], 0. vm_compute. intuition congruence. Qed.
(** … for omega without overflow checks: the groups of 2, 6 and 64, then a group of 64 zeroes. *)
Theorem C76_omega_refuted : exists l v, decode (omega rel64) deque_source 10 l = Ok (IOk (Some v), []) /\
  encode (omega rel64) deque_sink 10 v [] = Ok (IOk tt, [false]) /\ l <> [false].
Proof.
  exists ([true; false] ++ [true; true; false] ++ (true :: repeatN false 6) ++ (true :: repeatN false 64) ++ [false]), 1. vm_compute. intuition congruence.
Qed.
(** … for omega on 32-bit targets: the groups of 2, 5, 32 and 2^32, then a group without bits. *)
Theorem C76_omega32_refuted : exists l v, decode (omega dbg32) deque_source 10 l = Ok (IOk (Some v), []) /\
  encode (omega dbg32) deque_sink 10 v [] = Ok (IOk tt, [false]) /\ l <> [false].
Proof.
  exists ([true; false] ++ [true; false; true] ++ (true :: repeatN false 5) ++ (true :: repeatN false 32) ++ [true; false]), 1. vm_compute. intuition congruence.
Qed.
(** … and whole streams for Fibonacci: zeroes at the end are ignored. *)
Theorem C76_fibonacci_refuted : exists l vs, decode_list (fibonacci dbg64) deque_source 20 l = Ok (IOk vs, []) /\
  encode_list (fibonacci dbg64) deque_sink 100 vs [] = Ok (IOk tt, [false; true; true]) /\ l <> [false; true; true].
Proof. exists [false; true; true; false; false], [2]. vm_compute. intuition congruence. Qed.

(** Delta on a queue that starts with the word of 17; Lift0 of omega over a whole stream. *)
Example C76_words_ex : canonical dbg32 (2 ^ 64) true (delta dbg32) (fun v => 1 <= v < 2 ^ 64) /\ lengthN (delta_word 17 ++ [true; false]) < 2 ^ 64 /\
  decode (delta dbg32) deque_source 20 (delta_word 17 ++ [true; false]) = Ok (IOk (Some 17), [true; false]) /\
  canonical rel64 (2 ^ 64) false (elias rel64 (lift0 rel64 (fibonacci rel64))) (fun v => 1 <= v < 2 ^ 64 /\ (N.log2 v + 1 < 2 ^ 64 /\ 1 <= N.log2 v + 1 < fib_max)).
Proof.
  split; [constructor; lia|]. split; [reflexivity|]. split; [vm_compute; reflexivity|]. apply (cn_elias rel64 (2 ^ 64) false (lift0 rel64 (fibonacci rel64)) (fun v => v + 1 < 2 ^ 64 /\ 1 <= v + 1 < fib_max)).
  apply (cn_lift0 rel64 (2 ^ 64) false (fibonacci rel64) (fun v => 1 <= v < fib_max)); [constructor|]. unfold fib_max. lia.
Qed.
Example C76_reencode_ex : canonical dbg64 (2 ^ 32) true (lift0 dbg64 (omega dbg64)) (fun v => v + 1 < 2 ^ 64 /\ 1 <= v + 1 < 2 ^ 64) /\
  let l := [false; true; false; false; true; false; true; true; true; false] in
  lengthN l < 2 ^ 32 /\ decode_list (lift0 dbg64 (omega dbg64)) deque_source 20 l = Ok (IOk [0; 1; 6], []).
Proof.
  split; [apply (cn_lift0 dbg64 (2 ^ 32) true (omega dbg64) (fun v => 1 <= v < 2 ^ 64)); [constructor; [lia|reflexivity|reflexivity]|lia]|]. split; [reflexivity|]. vm_compute. reflexivity.
Qed.
Example C76_comma_ex : decode (comma dbg64 3) deque_source 20 [false; false; false; true; false; true; true; true; true; false] = Ok (IOk (Some 5), [false]).
Proof. vm_compute. reflexivity. Qed.
Print Assumptions C76_words_partial.
Print Assumptions C76_queue_partial.
Print Assumptions C76_reencode_partial.
Print Assumptions C76_comma_partial.
Print Assumptions C76_comma_refuted.
Print Assumptions C76_omega_refuted.
Print Assumptions C76_omega32_refuted.
Print Assumptions C76_fibonacci_refuted.
