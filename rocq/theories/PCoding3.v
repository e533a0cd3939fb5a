(** * Proofs about the codes: arbitrary input, sequences, all codes together. *)
From Verif Require Import Machine MStorage MTraits MStream MCoding SpecBits SpecCfg SpecStream PBase PBits PDefaults PStream PCoding PCoding2.

(** ** Arbitrary input *)
Section Survive.
  Context {S : Type} (src : source S) (s' : S) (o : ioR (option bool)) (s'' : S).
  Hypothesis Ho : stops src s' o s''.

  Lemma read_bit_cases s l : reads src s l s' ->
    (l = [] /\ s = s' /\ ((exists e, read_bit src s = Ok (IErr e, s'')) \/ read_bit src s = Ok (IOk None, s''))) \/
    (exists b l' t, l = b :: l' /\ read_bit src s = Ok (IOk (Some b), t) /\ reads src t l' s').
  Proof.
    intros H. destruct l as [|b l].
    - left. apply reads_nil_inv in H. subst s. destruct Ho as [E K]. split; [reflexivity|]. split; [reflexivity|]. destruct o as [[b|]|e]; [contradiction| |]; eauto.
    - right. apply reads_inv in H. destruct H as (t & E & H). exists b, l, t. auto.
  Qed.
  Lemma read_int_cases c n s l : reads src s l s' ->
    (exists e t, read_int c src 64 n s = Ok (IErr e, t)) \/ (exists t, read_int c src 64 n s = Ok (IOk None, t)) \/
    (exists x p q t, read_int c src 64 n s = Ok (IOk (Some x), t) /\ l = p ++ q /\ lengthN p = n /\ reads src s p t /\ reads src t q s').
  Proof.
    intros H. destruct (n <=? lengthN l) eqn:En.
    - right. right. rewrite <- (firstn_skipnN n l) in H. apply reads_app in H. destruct H as (t & H1 & H2).
      exists (int_of (firstnN n l) mod 2 ^ 64), (firstnN n l), (skipnN n l), t. rewrite firstn_skipnN. rewrite lengthN_firstnN.
      split; [|repeat split; auto; lia]. apply (read_int_ok c src 64 ltac:(lia) n); [rewrite lengthN_firstnN; lia|exact H1].
    - rewrite (read_int_stop c src 64 ltac:(lia) n l s s' o s'' ltac:(lia) H Ho). unfold stopped. destruct o as [a|e]; [|eauto]. destruct l; eauto.
  Qed.
  Lemma read_int_be_cases c n s l : reads src s l s' ->
    (exists e t, read_int_be c src 64 n s = Ok (IErr e, t)) \/ (exists t, read_int_be c src 64 n s = Ok (IOk None, t)) \/
    (exists x p q t, read_int_be c src 64 n s = Ok (IOk (Some x), t) /\ l = p ++ q /\ lengthN p = n /\ reads src s p t /\ reads src t q s').
  Proof.
    intros H. destruct (n <=? lengthN l) eqn:En.
    - right. right. rewrite <- (firstn_skipnN n l) in H. apply reads_app in H. destruct H as (t & H1 & H2).
      exists (int_of (rev (firstnN n l)) mod 2 ^ 64), (firstnN n l), (skipnN n l), t. rewrite firstn_skipnN. rewrite lengthN_firstnN.
      split; [|repeat split; auto; lia]. apply (read_int_be_ok c src 64 ltac:(lia) n); [rewrite lengthN_firstnN; lia|exact H1].
    - rewrite (read_int_be_stop c src 64 ltac:(lia) n l s s' o s'' ltac:(lia) H Ho). unfold stopped. destruct o as [a|e]; [|eauto]. destruct l; eauto.
  Qed.

  (** A decoding loop whose body reads at least one bit when it continues. *)
  Lemma loop_outcome {L} (body : L -> io S (flow L (option N))) (I : L -> list bool -> Prop) (ok : N -> Prop) :
    (forall x l s, I x l -> reads src s l s' ->
      (exists e t, body x s = Ok (IErr e, t)) \/ (exists t, body x s = Ok (IOk (Return None), t)) \/
      (exists v p q t, body x s = Ok (IOk (Return (Some v)), t) /\ ok v /\ l = p ++ q /\ reads src s p t /\ reads src t q s') \/
      (exists x' p q t, body x s = Ok (IOk (Continue x'), t) /\ I x' q /\ p <> [] /\ l = p ++ q /\ reads src s p t /\ reads src t q s')) ->
    forall n fuel x l s, (length l <= n)%nat -> (n < fuel)%nat -> I x l -> reads src s l s' -> outcome src ok s l s' (loop_io fuel body x s).
  Proof.
    intros Hb. induction n as [|n IH]; intros fuel x l s Hl Hf HI H; (destruct fuel as [|fuel]; [lia|]); cbn [loop_io]; unfold try_ at 1;
      destruct (Hb x l s HI H) as [(e & t & E)|[(t & E)|[(v & p & q & t & E & Hv & El & H1 & H2)|(x' & p & q & t & E & HI' & Hp & El & H1 & H2)]]];
      rewrite E; cbn [bind]; unfold ret; try (left; eauto; fail); try (right; left; eauto; fail); try (right; right; exists v, p, q, t; auto; fail).
    - destruct l; [|cbn in Hl; lia]. symmetry in El. apply app_eq_nil in El. tauto.
    - assert (Hq : (length q <= n)%nat) by (subst l; rewrite app_length in Hl; destruct p; [congruence|cbn [length] in Hl; lia]).
      destruct (IH fuel x' q t Hq ltac:(lia) HI' H2) as [(e & t' & E')|[(t' & E')|(v & p' & q' & t' & E' & Hv & Eq & H1' & H2')]].
      + left. eauto. + right. left. eauto.
      + right. right. exists v, (p ++ p'), q', t'. split; [exact E'|]. split; [exact Hv|]. split; [subst; now rewrite app_assoc|].
        split; [|exact H2']. apply reads_app. eauto.
  Qed.
End Survive.

Lemma unary_survives c l : lengthN l < 2 ^ 64 -> survives (unary c) (fun v => v <= lengthN l) l.
Proof.
  intros Hl. exists (Datatypes.S (length l)). intros fuel Hf S src s s' o s'' H Ho. cbn. unfold unary_decode.
  apply (loop_outcome src s' _ (fun (st : N * bool) q => fst st + lengthN q <= lengthN l)) with (n := length l); auto; [|cbn [fst]; lia].
  clear H s. intros [r b] q s HI H. cbn [fst] in HI.
  destruct (read_bit_cases src s' o s'' Ho s q H) as [(-> & -> & [(e & E)|E])|(x & q' & t & -> & E & H')]; unfold try_; rewrite E; cbn [bind].
  - left. eauto. - destruct b; unfold ret, fail; eauto 6.
  - rewrite lengthN_cons in HI. destruct x.
    + right. right. left. exists r, [true], q', t. split; [reflexivity|]. split; [lia|]. split; [reflexivity|]. split; [|exact H'].
      econstructor; [exact E|constructor].
    + right. right. right. unfold lift. rewrite wadd_ok by lia. cbn [bind ret]. exists (r + 1, true), [false], q', t. cbn [fst]. split; [reflexivity|]. split; [lia|].
      split; [discriminate|]. split; [reflexivity|]. split; [|exact H']. econstructor; [exact E|constructor].
Qed.
Lemma elias_survives c C ok l : wf_cfg c -> (survives C ok l) -> survives (elias c C) (fun v => 1 <= v < 2 ^ 64) l.
Proof.
  intros Hc [n0 Hs]. pose proof (wf_ptr c Hc) as Hptr. exists n0. intros fuel Hf S src s s' o s'' H Ho. cbn. unfold elias_decode.
  destruct (Hs fuel Hf S src s s' o s'' H Ho) as [(e & t & E)|[(t & E)|(v & p & q & t & E & Hv & -> & H1 & H2)]]; unfold try_ at 1; rewrite E; cbn [bind].
  - left. eauto. - right. left. unfold ret. eauto.
  - destruct (63 <? v) eqn:Ev; [left; unfold fail; eauto|]. rewrite as_usize_small by lia.
    destruct (read_int_cases src s' o s'' Ho c v t q H2) as [(e & t' & E')|[(t' & E')|(x & p' & q' & t' & E' & -> & Hp & H1' & H2')]]; unfold try_ at 1; rewrite E'; cbn [bind].
    + left. eauto. + left. unfold fail. eauto.
    + right. right. rewrite (try_lift _ (2 ^ v)).
      2:{ rewrite wshl_ok by lia. rewrite N.shiftl_1_l, N.mod_small by (apply N.pow_lt_mono_r; lia). reflexivity. }
      assert (Hx : x < 2 ^ 64).
      { rewrite (read_int_ok c src 64 ltac:(lia) v p' t t' Hp H1') in E'. injection E' as <-. apply N.mod_lt. lia. }
      exists (N.lor x (2 ^ v)), (p ++ p'), q', t'. split; [reflexivity|]. split; [split|].
      * destruct (N.eq_dec (N.lor x (2 ^ v)) 0) as [E0|E0]; [|lia]. apply N.lor_eq_0_iff in E0. pose proof (pow2_pos v). lia.
      * apply bits_lt. intros i Hi. rewrite N.lor_spec, N.pow2_bits_false by lia. rewrite orb_false_r.
        destruct (N.eq_dec x 0) as [->|H0]; [apply N.bits_0|]. apply N.bits_above_log2. pose proof (log2_lt x 64 H0 Hx). lia.
      * split; [now rewrite app_assoc|]. split; [|exact H2']. apply reads_app. eauto.
Qed.
Lemma lift0_survives c C (ok : N -> Prop) l : (forall v, ok v -> 1 <= v) -> survives C ok l -> survives (lift0 c C) (fun v => ok (v + 1)) l.
Proof.
  intros Hok [n0 Hs]. exists n0. intros fuel Hf S src s s' o s'' H Ho. cbn. unfold lift0_decode.
  destruct (Hs fuel Hf S src s s' o s'' H Ho) as [(e & t & E)|[(t & E)|(v & p & q & t & E & Hv & El & H1 & H2)]]; unfold try_ at 1; rewrite E; cbn [bind].
  - left. eauto. - right. left. unfold ret. eauto.
  - right. right. specialize (Hok v Hv). rewrite (try_lift _ (v - 1)) by (apply wsub_ok; lia). exists (v - 1), p, q, t.
    split; [reflexivity|]. split; [|auto]. now replace (v - 1 + 1) with v by lia.
Qed.
Lemma lift0_survives_release c C ok l : debug c = false -> survives C ok l -> survives (lift0 c C) (fun _ => True) l.
Proof.
  intros Hd [n0 Hs]. exists n0. intros fuel Hf S src s s' o s'' H Ho. cbn. unfold lift0_decode.
  destruct (Hs fuel Hf S src s s' o s'' H Ho) as [(e & t & E)|[(t & E)|(v & p & q & t & E & Hv & El & H1 & H2)]]; unfold try_ at 1; rewrite E; cbn [bind].
  - left. eauto. - right. left. unfold ret. eauto.
  - right. right. assert (exists m, wsub c 64 v 1 = Ok m) as (m & Em) by (unfold wsub; rewrite Hd; destruct (1 <=? v); eauto).
    rewrite (try_lift _ m) by exact Em. exists m, p, q, t. auto.
Qed.
Lemma gamma_survives c l : wf_cfg c -> lengthN l < 2 ^ 64 -> survives (gamma c) (fun v => 1 <= v < 2 ^ 64) l.
Proof. intros Hc Hl. eapply elias_survives; [exact Hc|]. now apply unary_survives. Qed.
Lemma delta_survives c l : wf_cfg c -> lengthN l < 2 ^ 64 -> survives (delta c) (fun v => 1 <= v < 2 ^ 64) l.
Proof.
  intros Hc Hl. eapply elias_survives; [exact Hc|]. apply (lift0_survives c (gamma c) (fun v => 1 <= v < 2 ^ 64)).
  - intros v [H _]. exact H. - now apply gamma_survives.
Qed.

(** Without overflow checks arithmetic does not panic. *)
Lemma wshl_release c w a k : debug c = false -> exists x, wshl c w a k = Ok x.
Proof. intros H. unfold wshl. rewrite H. destruct (k <? w); eauto. Qed.
Lemma wsub_release c w a b : debug c = false -> exists x, wsub c w a b = Ok x.
Proof. intros H. unfold wsub. rewrite H. destruct (b <=? a); eauto. Qed.
Lemma wadd_release c w a b : debug c = false -> exists x, wadd c w a b = Ok x.
Proof. intros H. unfold wadd, wrap. rewrite H. destruct (_ <? _); eauto. Qed.
Lemma wmul_release c w a b : debug c = false -> exists x, wmul c w a b = Ok x.
Proof. intros H. unfold wmul, wrap. rewrite H. destruct (_ <? _); eauto. Qed.

Lemma omega_survives c l : debug c = false -> survives (omega c) (fun _ => True) l.
Proof.
  intros Hd. exists (Datatypes.S (length l)). intros fuel Hf S src s s' o s'' H Ho. cbn. unfold omega_decode.
  change (outcome src (fun _ => True) s l s' (loop_io fuel (omega_body c src) 1 s)).
  apply (loop_outcome src s' _ (fun _ _ => True)) with (n := length l); auto.
  clear H s l Hf. intros r l s _ H. unfold omega_body.
  destruct (read_bit_cases src s' o s'' Ho s l H) as [(-> & -> & [(e & E)|E])|(x & q' & t & -> & E & H')];
    [rewrite (try_err _ _ _ _ _ E)|rewrite (try_ok _ _ _ _ _ E)|rewrite (try_ok _ _ _ _ _ E)].
  - left. eauto. - destruct (r =? 1); unfold ret, fail; eauto 6.
  - assert (Hx : reads src s [x] t) by (econstructor; [exact E|constructor]). destruct x; cbn [negb].
    + destruct (read_int_be_cases src s' o s'' Ho c (as_usize c r) t q' H') as [(e & t' & E')|[(t' & E')|(y & p & q & t' & E' & -> & _ & H1 & H2)]];
        [rewrite (try_err _ _ _ _ _ E')|rewrite (try_ok _ _ _ _ _ E')|rewrite (try_ok _ _ _ _ _ E')].
      * left. eauto. * left. unfold fail. eauto.
      * right. right. right. destruct (wshl_release c 64 1 (r mod 2 ^ 32) Hd) as (h & Eh). rewrite (try_lift _ h) by exact Eh. unfold ret.
        exists (N.lor y h), (true :: p), q, t'. split; [reflexivity|]. split; [exact I|]. split; [discriminate|]. split; [reflexivity|]. split; [|exact H2].
        econstructor; [exact E|exact H1].
    + right. right. left. unfold ret. exists r, [false], q', t. auto 6.
Qed.
Lemma fib_survives c l : debug c = false -> survives (fibonacci c) (fun _ => True) l.
Proof.
  intros Hd. exists (Datatypes.S (length l)). intros fuel Hf S src s s' o s'' H Ho. cbn. unfold fib_decode.
  change (outcome src (fun _ => True) s l s' (loop_io fuel (fib_body c src) (0, fib_new, false) s)).
  apply (loop_outcome src s' _ (fun _ _ => True)) with (n := length l); auto.
  clear H s l Hf. intros [[r f] b] l s _ H. unfold fib_body.
  destruct (read_bit_cases src s' o s'' Ho s l H) as [(-> & -> & [(e & E)|E])|(x & q' & t & -> & E & H')];
    [rewrite (try_err _ _ _ _ _ E)|rewrite (try_ok _ _ _ _ _ E)|rewrite (try_ok _ _ _ _ _ E)].
  - left. eauto. - destruct (r =? 0); unfold ret, fail; eauto 6.
  - assert (Hx : reads src s [x] t) by (econstructor; [exact E|constructor]). destruct (x && b) eqn:Exb.
    + right. right. left. unfold ret. exists r, [x], q', t. auto 6.
    + assert (exists r', (if x then wadd c 64 r (fi f) else Ok r) = Ok r') as (r' & Er) by (destruct x; [now apply wadd_release|eauto]).
      rewrite (try_lift _ r') by exact Er. unfold try_, lift_io, fib_next, checked_add. destruct (fi_1 f + fi f <? 2 ^ 64); cbn [bind].
      * right. right. right. unfold ret. eexists. exists [x], q', t. split; [reflexivity|]. split; [exact I|]. split; [|split; [|split; [exact Hx|exact H']]]; [discriminate|reflexivity].
      * left. unfold too_many_bits. eauto.
Qed.
Lemma comma_survives c n l : debug c = false -> survives (comma c n) (fun _ => True) l.
Proof.
  intros Hd. exists (Datatypes.S (length l)). intros fuel Hf S src s s' o s'' H Ho. cbn. unfold comma_decode.
  assert (exists base, comma_base c n = Ok base /\ (n = 0 -> base = 0)) as (base & Eb & Hz).
  { unfold comma_base. destruct (wshl_release c 64 1 n Hd) as (x & Ex). rewrite Ex. cbn [bind]. destruct (wsub_release c 64 x 1 Hd) as (y & Ey). rewrite Ey. exists y. split; [reflexivity|].
    intros ->. vm_compute in Ex. injection Ex as <-. vm_compute in Ey. congruence. }
  rewrite (try_lift _ base) by exact Eb.
  apply (loop_outcome src s' _ (fun _ _ => True)) with (n := length l); auto.
  clear H s l Hf. intros [r b] l s _ H.
  destruct (read_int_cases src s' o s'' Ho c n s l H) as [(e & t' & E')|[(t' & E')|(y & p & q & t' & E' & -> & Hp & H1 & H2)]];
    [rewrite (try_err _ _ _ _ _ E')|rewrite (try_ok _ _ _ _ _ E')|rewrite (try_ok _ _ _ _ _ E')].
  - left. eauto. - destruct b; unfold ret, fail; eauto 6.
  - destruct (y =? base) eqn:Ey.
    + right. right. left. unfold ret. exists r, p, q, t'. auto 6.
    + right. right. right. destruct (wmul_release c 64 r base Hd) as (m & Em). rewrite (try_lift _ m) by exact Em.
      destruct (wadd_release c 64 m y Hd) as (m' & Em'). rewrite (try_lift _ m') by exact Em'. unfold ret. exists (m', true), p, q, t'.
      split; [reflexivity|]. split; [exact I|]. split; [|auto]. intros ->. rewrite lengthN_nil in Hp. specialize (Hz (eq_sym Hp)). subst.
      apply reads_nil_inv in H1. subst. vm_compute in E'. injection E' as <-. discriminate.
Qed.

(** ** All codes together *)
Lemma provided_codeword c b C D v : wf_cfg c -> provided c b C D -> D v -> exists w, codeword C v w /\ (b = true -> truncates C w).
Proof.
  intros Hc HP. revert v. induction HP as [| | | | |n Hn|b C D HP IH|b H D HP IH]; intros v Hv.
  - exists (unary_word v). split; [now apply unary_codeword|]. intros _. now apply unary_truncates.
  - exists (gamma_word v). split; [apply gamma_codeword; auto; lia|]. intros _. apply gamma_truncates; auto; lia.
  - exists (delta_word v). split; [apply delta_codeword; auto; lia|]. intros _. apply delta_truncates; auto; lia.
  - destruct (omega_groups_exists v ltac:(lia)) as (g & Hg). exists (g ++ [false]). assert (Hw : omega_word v (g ++ [false])) by (exists g; auto).
    split; [apply omega_codeword; auto; lia|]. intros _. apply (omega_truncates c v); auto; lia.
  - destruct (fib_word_exists v) as (w & Hw); try lia. exists w. split; [|discriminate]. apply fib_codeword; auto; lia.
  - destruct (comma_encode_ok c n Hn v) as (w & Hw & _). exists w. split; [now apply comma_codeword|]. intros _. now apply (comma_truncates c n Hn v).
  - destruct Hv as [Hv Hd]. destruct (IH _ Hd) as (w & Hw & Ht). exists w. split; [now apply lift0_codeword|]. intros Hb. apply lift0_truncates. auto.
  - destruct Hv as [Hv Hd]. destruct (IH _ Hd) as (w & Hw & Ht). exists (w ++ bits_of (N.log2 v) v).
    split; [apply elias_codeword; auto; lia|]. intros Hb. apply elias_truncates; auto; lia.
Qed.
Lemma codeword_unique C v w w' : codeword C v w -> codeword C v w' -> w = w'.
Proof.
  intros [_ [n1 H1] _] [_ [n2 H2] _].
  pose proof (H1 (n1 + n2)%nat ltac:(lia) _ deque_sink []) as E1. rewrite (H2 (n1 + n2)%nat) in E1 by lia. rewrite !write_all_deque in E1. now injection E1.
Qed.
Lemma codeword_prefix C v w v' w' q : codeword C v w -> codeword C v' w' -> w' = w ++ q -> v = v' /\ q = [].
Proof.
  intros [_ _ [n1 H1]] [_ _ [n2 H2]] ->.
  pose proof (H1 (n1 + n2)%nat ltac:(lia) _ deque_source (w ++ q) q (reads_deque w q)) as E1.
  pose proof (reads_deque (w ++ q) []) as Hr. rewrite app_nil_r in Hr. rewrite (H2 (n1 + n2)%nat ltac:(lia) _ _ _ _ Hr) in E1. injection E1. auto.
Qed.

(** The decoders answer [None] at a clean end. *)
Definition clean_end (C : code) : Prop := exists n0, forall fuel, (n0 <= fuel)%nat -> forall S (src : source S) s s',
  read_bit src s = Ok (IOk None, s') -> decode C src fuel s = Ok (IOk None, s').
Lemma provided_clean c b C D : provided c b C D -> clean_end C.
Proof.
  assert (HL : forall C', clean_end C' -> clean_end (lift0 c C')).
  { intros C' [n0 H]. exists n0. intros fuel Hf S src s s' E. cbn. unfold lift0_decode. rewrite (try_ok _ _ _ _ _ (H fuel Hf S src s s' E)). reflexivity. }
  assert (HE : forall C', clean_end C' -> clean_end (elias c C')).
  { intros C' [n0 H]. exists n0. intros fuel Hf S src s s' E. cbn. unfold elias_decode. rewrite (try_ok _ _ _ _ _ (H fuel Hf S src s s' E)). reflexivity. }
  assert (HU : clean_end (unary c)).
  { exists 1%nat. intros [|fuel] Hf S src s s' E; [lia|]. cbn. unfold unary_decode. cbn [loop_io]. unfold try_. rewrite E. reflexivity. }
  induction 1 as [| | | | |n Hn|b C D HP IH|b H D HP IH]; auto.
  - apply HE. exact HU. - apply HE, HL, HE, HU.
  - exists 1%nat. intros [|fuel] Hf S src s s' E; [lia|]. cbn. unfold omega_decode. cbn [loop_io]. unfold try_. rewrite E. reflexivity.
  - exists 1%nat. intros [|fuel] Hf S src s s' E; [lia|]. cbn. unfold fib_decode. cbn [loop_io]. unfold try_. rewrite E. reflexivity.
  - exists 1%nat. intros [|fuel] Hf S src s s' E; [lia|]. cbn. unfold comma_decode. rewrite (try_lift _ (2 ^ n - 1)) by now apply comma_base_ok.
    cbn [loop_io]. unfold try_. rewrite (read_int_stop c src 64 ltac:(lia) n [] s s (IOk None) s'); [reflexivity|rewrite lengthN_nil; lia|constructor|split; [exact E|exact I]].
Qed.

Lemma encode_list_ok C vs ws : Forall2 (codeword C) vs ws -> exists n0, forall fuel, (n0 <= fuel)%nat -> forall S (snk : sink S) s,
  encode_list C snk fuel vs s = write_all snk (concat ws) s.
Proof.
  induction 1 as [|v w vs ws [_ [n1 H1] _] HF [n2 IH]].
  - exists 0%nat. reflexivity.
  - exists (n1 + n2)%nat. intros fuel Hf S snk s. cbn [encode_list concat]. rewrite write_all_app. unfold try_. rewrite H1 by lia.
    destruct (write_all snk w s) as [[[u|e] s1]| |]; cbn [bind]; auto. apply IH. lia.
Qed.
Lemma decode_list_ok C vs ws : Forall2 (codeword C) vs ws -> clean_end C -> exists n0, forall fuel, (n0 <= fuel)%nat -> forall S (src : source S) s s' s'',
  reads src s (concat ws) s' -> read_bit src s' = Ok (IOk None, s'') -> decode_list C src fuel s = Ok (IOk vs, s'').
Proof.
  intros HF HE.
  assert (K : exists n0, forall fuel k acc, (n0 <= fuel)%nat -> (length vs < k)%nat -> forall S (src : source S) s s' s'',
    reads src s (concat ws) s' -> read_bit src s' = Ok (IOk None, s'') ->
    loop_io k (fun acc : list N =>
      try_ (decode C src fuel) (fun o => match o with
                                       | Some v => ret (Continue (v :: acc))
                                       | None => ret (Return (rev acc)) end)) acc s = Ok (IOk (rev acc ++ vs), s'')).
  { induction HF as [|v w vs ws [_ _ [n1 H1]] HF IH].
    - destruct HE as [n0 HE]. exists n0. intros fuel k acc Hf Hk S src s s' s'' Hr E. destruct k as [|k]; [lia|]. cbn [loop_io concat] in *.
      apply reads_nil_inv in Hr. subst s'. unfold try_. rewrite (HE fuel Hf S src s s'' E). cbn [bind ret]. now rewrite app_nil_r.
    - destruct IH as [n2 IH]. exists (n1 + n2)%nat. intros fuel k acc Hf Hk S src s s' s'' Hr E. cbn [length concat] in *. destruct k as [|k]; [lia|]. cbn [loop_io].
      apply reads_app in Hr. destruct Hr as (t & Hr1 & Hr2). unfold try_ at 1 2. rewrite (H1 fuel ltac:(lia) S src s t Hr1). cbn [bind ret].
      rewrite (IH fuel k (v :: acc) ltac:(lia) ltac:(lia) S src t s' s'' Hr2 E). cbn [rev]. now rewrite <- app_assoc. }
  destruct K as [n0 K]. exists (n0 + Datatypes.S (length vs))%nat. intros fuel Hf S src s s' s'' Hr E. unfold decode_list. rewrite (K fuel fuel [] ltac:(lia) ltac:(lia) S src s s' s'' Hr E). reflexivity.
Qed.
Lemma provided_words c b C D vs : wf_cfg c -> provided c b C D -> Forall D vs -> exists ws, Forall2 (codeword C) vs ws.
Proof.
  intros Hc HP. induction 1 as [|v vs Hv HF [ws IH]]; [exists []; constructor|].
  destruct (provided_codeword c b C D v Hc HP Hv) as (w & Hw & _). exists (w :: ws). now constructor.
Qed.

(** ** Failing sinks *)
Lemma write_all_limited m e w : forall l, lengthN l <= m -> write_all (limited_sink m e) w l =
  Ok (if lengthN l + lengthN w <=? m then (IOk tt, l ++ w) else (IErr e, l ++ firstnN (m - lengthN l) w)).
Proof.
  induction w as [|b w IH]; intros l Hl; cbn [write_all].
  - rewrite lengthN_nil, N.add_0_r, app_nil_r. destruct (lengthN l <=? m) eqn:E; [reflexivity|lia].
  - cbn [limited_sink write_bit]. rewrite lengthN_cons. destruct (lengthN l <? m) eqn:E.
    + change (write_all (limited_sink m e) w (l ++ [b]) = Ok (if lengthN l + (lengthN w + 1) <=? m then (IOk tt, l ++ b :: w) else (IErr e, l ++ firstnN (m - lengthN l) (b :: w)))).
      rewrite IH by (rewrite lengthN_app, lengthN_cons, lengthN_nil; lia). rewrite lengthN_app, lengthN_cons, lengthN_nil, <- app_assoc.
      replace (lengthN l + (0 + 1) + lengthN w) with (lengthN l + (lengthN w + 1)) by lia. destruct (lengthN l + (lengthN w + 1) <=? m) eqn:E1; [reflexivity|].
      do 2 f_equal. rewrite <- app_assoc. f_equal. cbn [app]. unfold firstnN. replace (N.to_nat (m - lengthN l)) with (Datatypes.S (N.to_nat (m - (lengthN l + (0 + 1))))) by lia. reflexivity.
    + destruct (lengthN l + (lengthN w + 1) <=? m) eqn:E1; [lia|]. replace (m - lengthN l) with 0 by lia. cbn. now rewrite app_nil_r.
Qed.

(** ** Termination of the comma encoder *)
Lemma write_all_fuel {S} (snk : sink S) w : (forall b s, write_bit snk b s <> OutOfFuel) -> forall s, write_all snk w s <> OutOfFuel.
Proof.
  intros Hs. induction w as [|b w IH]; intros s; cbn [write_all]; [discriminate|]. specialize (Hs b s). destruct (write_bit snk b s) as [[[u|e] s1]| |]; auto; discriminate.
Qed.
Lemma comma_terminates c n v : v < 2 ^ 64 -> n mod 64 <> 1 \/ (debug c = true /\ n <> 1) -> exists n0, forall fuel, (n0 <= fuel)%nat ->
  forall S (snk : sink S) s, (forall b s, write_bit snk b s <> OutOfFuel) -> encode (comma c n) snk fuel v s <> OutOfFuel.
Proof.
  intros Hv Hn.
  assert (Hb : (exists p, comma_base c n = Panic p) \/ exists base, comma_base c n = Ok base /\ (base = 0 \/ 3 <= base)).
  { unfold comma_base, wshl. destruct (n <? 64) eqn:E.
    - right. rewrite N.shiftl_1_l. assert (2 ^ n < 2 ^ 64) by (apply N.pow_lt_mono_r; lia). rewrite N.mod_small by assumption. cbn [bind]. pose proof (pow2_pos n).
      rewrite wsub_ok by lia. eexists. split; [reflexivity|]. destruct (N.eq_dec n 0) as [->|Hz]; [left; reflexivity|right].
      assert (n <> 1) by (intros ->; destruct Hn as [Hn|Hn]; [now apply Hn|tauto]). assert (2 ^ 2 <= 2 ^ n) by (apply N.pow_le_mono_r; lia). change (2 ^ 2) with 4 in *. lia.
    - destruct (debug c) eqn:Ed; [left; eexists; reflexivity|]. right. destruct Hn as [Hn|[Hn _]]; [|discriminate]. rewrite N.shiftl_1_l.
      pose proof (N.mod_lt n 64 ltac:(lia)) as Hm. set (k := n mod 64) in *. clearbody k.
      assert (2 ^ k < 2 ^ 64) by (apply N.pow_lt_mono_r; lia). rewrite N.mod_small by assumption. cbn [bind]. pose proof (pow2_pos k).
      rewrite wsub_ok by lia. eexists. split; [reflexivity|]. destruct (N.eq_dec k 0) as [->|Hz]; [left; reflexivity|right].
      assert (2 ^ 2 <= 2 ^ k) by (apply N.pow_le_mono_r; lia). change (2 ^ 2) with 4 in *. lia. }
  destruct Hb as [(p & Ep)|(base & Eb & Hbase)].
  { exists 0%nat. intros fuel _ S snk s Hs. cbn. unfold comma_encode, try_, lift. rewrite Ep. discriminate. }
  assert (Hst : exists n0, forall fuel, (n0 <= fuel)%nat -> comma_stack fuel base v <> OutOfFuel).
  { unfold comma_stack. destruct Hbase as [->|Hbase].
    - exists 1%nat. intros [|fuel] Hf; [lia|]. cbn [loop_fuel]. destruct (0 <? v); [cbn; discriminate|discriminate].
    - assert (K : forall v, exists n0, forall fuel acc, (n0 <= fuel)%nat ->
        loop_fuel fuel (fun st : N * list N =>
        let (value, stack) := st in
        if 0 <? value then
          (d <- wmod value base ;; v <- wdiv value base ;; Ok (Continue (v, d :: stack)))%res
        else Ok (Return stack)) (v, acc) <> OutOfFuel).
      { clear v Hv. intros v. induction v as [v IH] using (well_founded_induction N.lt_wf_0). destruct (N.eq_dec v 0) as [->|H0].
        - exists 1%nat. intros [|fuel] acc Hf; [lia|]. cbn. discriminate.
        - destruct (IH (v / base)) as [n0 K]; [apply N.div_lt; lia|]. exists (Datatypes.S n0). intros [|fuel] acc Hf; [lia|]. cbn [loop_fuel].
          destruct (0 <? v) eqn:E; [|lia]. rewrite wmod_ok, wdiv_ok by lia. cbn [bind]. apply K. lia. }
      destruct (K v) as [n0 K']. exists n0. auto. }
  destruct Hst as [n0 Hst]. exists n0. intros fuel Hf S snk s Hs. cbn. unfold comma_encode. rewrite (try_lift _ base) by exact Eb. specialize (Hst fuel Hf).
  unfold try_ at 1, lift. destruct (comma_stack fuel base v) as [ds| |] eqn:Ed; cbn [bind]; [|discriminate|congruence].
  unfold try_ at 1.
  assert (Hw : comma_write c n snk ds s <> OutOfFuel).
  { clear Ed Hst. revert s. induction ds as [|d ds IH]; intros s; cbn [comma_write]; [discriminate|]. unfold try_. rewrite write_int_ok by lia.
    pose proof (write_all_fuel snk (bits_of n d) Hs s). destruct (write_all snk (bits_of n d) s) as [[[u|e] s1]| |]; cbn [bind]; auto; discriminate. }
  destruct (comma_write c n snk ds s) as [[[u|e] s1]| |]; cbn [bind]; try discriminate; [|congruence].
  unfold try_. rewrite write_int_ok by lia. pose proof (write_all_fuel snk (bits_of n base) Hs s1). destruct (write_all snk (bits_of n base) s1) as [[[u'|e] s2]| |]; cbn [bind]; auto; discriminate.
Qed.
