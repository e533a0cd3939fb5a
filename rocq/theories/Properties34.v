(** * A program and its data mean the same on 32-bit and on 64-bit targets (C87): what runs on a 32-bit target runs on a 64-bit target with
    the same results; codes and integers are written alike, and read alike from any input, well formed or not; blocks of every type but
    [usize] have the same bytes.  Two things do depend on the target: the bytes of a [usize] block, and what [Omega] makes of an ill-formed
    input. *)
From Verif Require Import Machine MStorage MTraits MVectorBase MBitVector MIntVector MStream MCoding MIO SpecBits SpecCfg SpecStream SpecOps
  PBase PBits PVectorBase PRun PIntRun PStream PCoding Properties3 Properties4 Properties29 Properties30.
From Verif Require Import SpecOps.

(** A build with ([d]) or without overflow checks for a target with pointers of [p] bits. *)
Definition on (d : bool) (p : N) : cfg := {| debug := d; ptr := p |}.
Lemma wf_on d p : p = 32 \/ p = 64 -> wf_cfg (on d p). Proof. exact (fun H => H). Qed.

(** ** Vectors *)
Definition ends_well {A} (r : res A) : Prop := exists v, r = Ok v.

Lemma run_prefix {S O X} (step : S -> O -> res (S * X)) a b s : exists more, fst (run step s (a ++ b)) = fst (run step s a) ++ more.
Proof.
  revert s. induction a as [|o a IH]; intros s; [eexists; reflexivity|]. cbn [app run]. destruct (step s o) as [[s' x]|p|]; [|exists []; reflexivity..].
  destruct (IH s') as (more & E). destruct (run step s' (a ++ b)) as [xs r]. destruct (run step s' a) as [ys r']. cbn [fst] in *. exists more. now rewrite E.
Qed.
Section Mono.
  Context {S O X : Type} (f g : S -> O -> option (S * X)) (P Q : S -> O -> Prop).
  Hypothesis Hfg : forall s o r, f s o = Some r -> g s o = Some r.
  Hypothesis HPQ : forall s o, P s o -> Q s o.
  Lemma spec_run_mono ops s l : along f P s ops -> snd (spec_run f s ops) = Some l -> spec_run g s ops = spec_run f s ops /\ along g Q s ops.
  Proof.
    revert s. induction ops as [|o ops IH]; intros s Ha E; [split; [reflexivity|exact I]|]. cbn [along spec_run] in *. destruct Ha as [Ho Ha].
    destruct (f s o) as [[s' x]|] eqn:Ef; [|discriminate E]. rewrite (Hfg _ _ _ Ef). destruct (spec_run f s' ops) as [xs r] eqn:Er. cbn [snd] in E. subst r.
    destruct (IH s' Ha) as [E1 E2]; [now rewrite Er|]. rewrite Er in E1. rewrite E1. auto.
  Qed.
End Mono.
(** The operations that run are a program of their own. *)
Lemma spec_run_ran {S O X} (f : S -> O -> option (S * X)) (P : S -> O -> Prop) ops s : along f P s ops -> exists a b l, ops = a ++ b /\ along f P s a /\
  spec_run f s a = (fst (spec_run f s ops), Some l) /\ (snd (spec_run f s ops) <> None -> b = []).
Proof.
  revert s. induction ops as [|o ops IH]; intros s Ha; [exists [], [], s; repeat split|]. cbn [along spec_run] in *. destruct Ha as [Ho Ha].
  destruct (f s o) as [[s' x]|] eqn:Ef; [|exists [], (o :: ops), s; repeat split; cbn; congruence].
  destruct (IH s' Ha) as (a & b & l & -> & H1 & H2 & H3). exists (o :: a), b, l. cbn [along spec_run app]. rewrite Ef, H2.
  destruct (spec_run f s' (a ++ b)) as [xs r]. cbn [fst snd] in *. repeat split; auto.
Qed.
Lemma max_bits_mono d : max_bits (on d 32) <= max_bits (on d 64). Proof. vm_compute. discriminate. Qed.
Lemma fitsb_mono d nb n : fitsb (on d 32) nb n = true -> fitsb (on d 64) nb n = true.
Proof. unfold fitsb. rewrite !N.leb_le. pose proof (max_bits_mono d). lia. Qed.
Lemma blocks_mono d n : (n <=? max_bits (on d 32)) = true -> (n <=? max_bits (on d 64)) = true.
Proof. rewrite !N.leb_le. pose proof (max_bits_mono d). lia. Qed.
Lemma ptr_mono d i : i < 2 ^ ptr (on d 32) -> i < 2 ^ ptr (on d 64).
Proof. cbn [ptr on]. change (2 ^ 32) with 4294967296. change (2 ^ 64) with 18446744073709551616. lia. Qed.
Ltac mono_if H := repeat match type of H with
  | (if fitsb (on ?d 32) ?nb ?n then _ else _) = _ => let E := fresh in destruct (fitsb (on d 32) nb n) eqn:E; [rewrite (fitsb_mono _ _ _ E)|discriminate H]
  | (if (?n <=? max_bits (on ?d 32)) then _ else _) = _ => let E := fresh in destruct (n <=? max_bits (on d 32)) eqn:E; [rewrite (blocks_mono _ _ E)|discriminate H]
  | (if ?a && fitsb (on ?d 32) ?nb ?n then _ else _) = _ => let E := fresh in destruct a; [|discriminate H]; cbn [andb] in *;
      destruct (fitsb (on d 32) nb n) eqn:E; [rewrite (fitsb_mono _ _ _ E)|discriminate H]
  end.
Lemma spec_bmake_mono d nb t l : spec_bmake (on d 32) nb t = Some l -> spec_bmake (on d 64) nb t = Some l.
Proof. intros H. destruct t; cbn [spec_bmake] in *; mono_if H; exact H. Qed.
Lemma spec_bstep_mono d nb l o r : spec_bstep (on d 32) nb l o = Some r -> spec_bstep (on d 64) nb l o = Some r.
Proof. intros H. destruct o; cbn [spec_bstep] in *; mono_if H; exact H. Qed.
Lemma bmake_ok_mono d nb t : bmake_ok (on d 32) nb t -> bmake_ok (on d 64) nb t.
Proof. destruct t; cbn [bmake_ok]; try exact (fun H => H); intuition auto using ptr_mono. Qed.
Lemma span_ok_mono d nb l s n : span_ok (on d 32) nb l s n -> span_ok (on d 64) nb l s n.
Proof. intros (H1 & H2 & H3). repeat split; auto using ptr_mono; apply H3; assumption. Qed.
Lemma bop_ok_mono d nb l o : bop_ok (on d 32) nb l o -> bop_ok (on d 64) nb l o.
Proof. destruct o; cbn [bop_ok]; try exact (fun H => H); intuition auto using ptr_mono, span_ok_mono. Qed.
Lemma spec_imake_mono d nb k t l : spec_imake (on d 32) nb k t = Some l -> spec_imake (on d 64) nb k t = Some l.
Proof. intros H. unfold spec_imake in *. destruct ((k =? 0) || (nb <? k)); [discriminate H|]. destruct t; mono_if H; exact H. Qed.
Lemma spec_istep_mono d nb k l o r : spec_istep (on d 32) nb k l o = Some r -> spec_istep (on d 64) nb k l o = Some r.
Proof. intros H. destruct o; cbn [spec_istep] in *; mono_if H; exact H. Qed.
Lemma imake_ok_mono d nb k t : imake_ok (on d 32) nb k t -> imake_ok (on d 64) nb k t.
Proof. destruct t; cbn [imake_ok]; try exact (fun H => H); intuition auto using ptr_mono. Qed.
Lemma iop_ok_mono d nb k l o : iop_ok (on d 32) nb k l o -> iop_ok (on d 64) nb k l o.
Proof. destruct o; cbn [iop_ok]; try exact (fun H => H); unfold index_ok; intuition auto using ptr_mono, span_ok_mono. Qed.

(** A program for [BitVector] delivers on a 64-bit target at least what it delivers on a 32-bit target, and ends well if it does so there;
    a 32-bit target can only stop earlier. *)
Theorem C87_bit_vector : forall d nb t ops, wf_nb nb -> bprogram_ok (on d 32) nb t ops -> exists n0, forall fuel, (n0 <= fuel)%nat ->
  (exists more, fst (bvec_program (on d 64) nb fuel t ops) = fst (bvec_program (on d 32) nb fuel t ops) ++ more) /\
  (forall v, snd (bvec_program (on d 32) nb fuel t ops) = Ok v ->
     fst (bvec_program (on d 64) nb fuel t ops) = fst (bvec_program (on d 32) nb fuel t ops) /\ ends_well (snd (bvec_program (on d 64) nb fuel t ops))).
Proof.
  intros d nb t ops Hnb Hok. destruct (C13_bitvector_is_a_list (on d 32) nb t ops (wf_on _ _ (or_introl eq_refl)) Hnb Hok) as (n1 & H1).
  destruct Hok as [Hm Ha]. destruct (spec_bmake (on d 32) nb t) as [l0|] eqn:Em.
  - destruct (spec_run_ran _ _ _ _ Ha) as (a & b & l & -> & Ha' & Ea & Hb).
    destruct (spec_run_mono _ (spec_bstep (on d 64) nb) _ (bop_ok (on d 64) nb) (spec_bstep_mono d nb) (bop_ok_mono d nb) a l0 l Ha') as [E2 Ha2]; [now rewrite Ea|].
    destruct (C13_bitvector_is_a_list (on d 64) nb t a (wf_on _ _ (or_intror eq_refl)) Hnb) as (n2 & H2).
    { split; [now apply bmake_ok_mono|]. now rewrite (spec_bmake_mono _ _ _ _ Em). }
    exists (n1 + n2)%nat. intros fuel Hf. destruct (H1 fuel ltac:(lia)) as [A1 B1]. destruct (H2 fuel ltac:(lia)) as [A2 B2]. unfold spec_bprogram in *.
    rewrite (spec_bmake_mono _ _ _ _ Em), E2, Ea in A2, B2. rewrite Em in A1, B1. cbn [fst snd] in A2, B2. rewrite <- A1 in A2. rewrite <- A2. split.
    + unfold bvec_program. destruct (bvec_make (on d 64) nb t) as [v|p|]; [apply run_prefix|exists []; reflexivity..].
    + intros v Ev. rewrite Hb, app_nil_r; [|intros E; rewrite E, Ev in B1; destruct B1 as [? B1]; discriminate]. split; [reflexivity|exact B2].
  - exists n1. intros fuel Hf. destruct (H1 fuel Hf) as [A1 B1]. unfold spec_bprogram in A1, B1. rewrite Em in A1, B1. cbn [fst snd] in A1, B1. rewrite A1. split; [eexists; reflexivity|].
    intros v Ev. rewrite Ev in B1. destruct B1 as [? B1]. discriminate.
Qed.
Theorem C87_int_vector : forall d nb k t ops, wf_nb nb -> 1 <= k <= nb -> iprogram_ok (on d 32) nb k t ops -> exists n0, forall fuel, (n0 <= fuel)%nat ->
  (exists more, fst (iv_program (on d 64) nb k fuel t ops) = fst (iv_program (on d 32) nb k fuel t ops) ++ more) /\
  (forall v, snd (iv_program (on d 32) nb k fuel t ops) = Ok v ->
     fst (iv_program (on d 64) nb k fuel t ops) = fst (iv_program (on d 32) nb k fuel t ops) /\
     exists v' xs, snd (iv_program (on d 64) nb k fuel t ops) = Ok v' /\ iv_holds (on d 32) nb v xs /\ iv_holds (on d 64) nb v' xs).
Proof.
  intros d nb k t ops Hnb Hk Hok. destruct (C16_intvector_is_a_list (on d 32) nb k t ops (wf_on _ _ (or_introl eq_refl)) Hnb Hk Hok) as (n1 & H1).
  destruct Hok as [Hm Ha]. destruct (spec_imake (on d 32) nb k t) as [l0|] eqn:Em.
  - destruct (spec_run_ran _ _ _ _ Ha) as (a & b & l & -> & Ha' & Ea & Hb).
    destruct (spec_run_mono _ (spec_istep (on d 64) nb k) _ (iop_ok (on d 64) nb k) (spec_istep_mono d nb k) (iop_ok_mono d nb k) a l0 l Ha') as [E2 Ha2]; [now rewrite Ea|].
    destruct (C16_intvector_is_a_list (on d 64) nb k t a (wf_on _ _ (or_intror eq_refl)) Hnb Hk) as (n2 & H2).
    { split; [now apply imake_ok_mono|]. now rewrite (spec_imake_mono _ _ _ _ _ Em). }
    exists (n1 + n2)%nat. intros fuel Hf. destruct (H1 fuel ltac:(lia)) as [A1 B1]. destruct (H2 fuel ltac:(lia)) as [A2 B2]. unfold spec_iprogram in *.
    rewrite (spec_imake_mono _ _ _ _ _ Em), E2, Ea in A2, B2. rewrite Em in A1, B1. cbn [fst snd] in A2, B2. rewrite <- A1 in A2. rewrite <- A2. split.
    + unfold iv_program. destruct (iv_make (on d 64) nb k t) as [v|p|]; [apply run_prefix|exists []; reflexivity..].
    + intros v Ev. assert (Eb : b = []) by (apply Hb; intros E; rewrite E, Ev in B1; destruct B1 as [? B1]; discriminate). subst b. rewrite app_nil_r in *. split; [reflexivity|].
      rewrite Ea in B1. cbn [snd] in B1. destruct B1 as (v1 & E1 & K1). destruct B2 as (v2 & E2' & K2). rewrite Ev in E1. injection E1 as <-. exists v2, l. auto.
  - exists n1. intros fuel Hf. destruct (H1 fuel Hf) as [A1 B1]. unfold spec_iprogram in A1, B1. rewrite Em in A1, B1. cbn [fst snd] in A1, B1. rewrite A1. split; [eexists; reflexivity|].
    intros v Ev. rewrite Ev in B1. destruct B1 as [? B1]. discriminate.
Qed.
(** 2^35 bits are too many for a 32-bit target only; what came before is the same. *)
Example C87_vector_ex : bprogram_ok (on true 32) 8 BNew [BPushBit true; BBitLen; BResize (2 ^ 35) true; BBitLen] /\
  bvec_program (on true 32) 8 3 BNew [BPushBit true; BBitLen; BResize (2 ^ 35) true; BBitLen] = ([OUnit; OInt 1], Panic PExpect) /\
  fst (bvec_program (on true 64) 8 3 BNew [BPushBit true; BBitLen; BResize 70 true; BBitLen; BGetBits 0 3]) = [OUnit; OInt 1; OUnit; OInt 70; OInt 7].
Proof. split; [|split; vm_compute; reflexivity]. repeat split; vm_compute; auto; discriminate. Qed.

(** ** Codes *)

(** The same code in builds for targets of [p] and of [q] bits; the flag says whether [Omega] is part of it. *)
Inductive same_code (d : bool) (p q : N) : bool -> code -> code -> Prop :=
| sc_unary : same_code d p q false (unary (on d p)) (unary (on d q))
| sc_omega : same_code d p q true (omega (on d p)) (omega (on d q))
| sc_fibonacci : same_code d p q false (fibonacci (on d p)) (fibonacci (on d q))
| sc_comma : forall n, same_code d p q false (comma (on d p) n) (comma (on d q) n)
| sc_lift0 : forall f C D, same_code d p q f C D -> same_code d p q f (lift0 (on d p) C) (lift0 (on d q) D)
| sc_elias : forall f C D, same_code d p q f C D -> same_code d p q f (elias (on d p) C) (elias (on d q) D).

Lemma wrap_on d p q w n : wrap (on d p) w n = wrap (on d q) w n. Proof. reflexivity. Qed.
Lemma wsub_on d p q w a b : wsub (on d p) w a b = wsub (on d q) w a b. Proof. reflexivity. Qed.
Lemma write_int_be_on {S} d p q (snk : sink S) w n v s : wf_cfg (on d p) -> wf_cfg (on d q) -> 1 <= n -> n < 2 ^ 32 ->
  write_int_be (on d p) snk w n v s = write_int_be (on d q) snk w n v s.
Proof.
  intros Hp Hq H1 H2. unfold write_int_be, try_ at 1, lift at 1. cbn [ptr on]. rewrite wsub_ok by lia.
  symmetry. unfold try_ at 1, lift at 1. rewrite wsub_ok by lia. reflexivity.
Qed.
Lemma try_ext {S A B} (m m' : io S A) (f f' : A -> io S B) s : m s = m' s -> (forall a s', m s = Ok (IOk a, s') -> f a s' = f' a s') -> try_ m f s = try_ m' f' s.
Proof. intros E H. unfold try_. rewrite <- E. destruct (m s) as [[[a|e] s']|k|] eqn:Em; cbn [bind]; auto. Qed.
Lemma omega_stack_small d p fuel v st : v < 2 ^ 64 -> omega_stack (on d p) fuel v = Ok st -> Forall (fun x => 1 <= fst x < 2 ^ 32) st.
Proof.
  intros Hv. unfold omega_stack.
  assert (G : forall fuel v acc, v < 2 ^ 64 -> Forall (fun x : N * N => 1 <= fst x < 2 ^ 32) acc -> loop_fuel fuel (fun st : N * list (N * N) =>
        let (value, stack) := st in
        if 1 <? value then
          (nbits <- wsub (on d p) 32 64 (leading_zeros 64 value) ;;
           v <- wsub (on d p) 64 nbits 1 ;;
           Ok (Continue (v, (nbits, value) :: stack)))%res
        else Ok (Return stack)) (v, acc) = Ok st -> Forall (fun x => 1 <= fst x < 2 ^ 32) st).
  { clear. induction fuel as [|fuel IH]; intros v acc Hv Hacc E; [discriminate|]. cbn [loop_fuel bind] in E. destruct (1 <? v) eqn:E1; [|injection E as <-; exact Hacc].
    assert (Hl : leading_zeros 64 v <= 63).
    { unfold leading_zeros, N.size. destruct v; [discriminate|]. assert (0 < N.pos p0) by lia. pose proof (N.size_gt (N.pos p0)). cbn in *. lia. }
    rewrite wsub_ok in E by lia. cbn [bind] in E. rewrite wsub_ok in E by lia. cbn [bind] in E. eapply IH; [|constructor; [|exact Hacc]|exact E].
    - change (2 ^ 64) with 18446744073709551616. lia.
    - cbn [fst]. change (2 ^ 32) with 4294967296. lia. }
  intros E. eapply G; [exact Hv|constructor|exact E].
Qed.
Theorem C87_encoders : forall d p q f C D v, wf_cfg (on d p) -> wf_cfg (on d q) -> same_code d p q f C D -> v < 2 ^ 64 ->
  forall S (snk : sink S) fuel s, encode C snk fuel v s = encode D snk fuel v s.
Proof.
  intros d p q f C D v Hp Hq H. revert v. induction H as [| | |n|f C D H IH|f C D H IH]; intros v Hv S snk fuel s; try reflexivity.
  - cbn [encode omega]. unfold omega_encode. apply try_ext; [reflexivity|]. intros st s' E. apply try_ext; [|reflexivity].
    unfold lift in E. destruct (omega_stack (on d p) fuel v) as [st'|k|] eqn:Es; try discriminate E. cbn [bind] in E. injection E as -> _. apply omega_stack_small in Es; [|exact Hv].
    revert s'. clear - Es Hp Hq. induction Es as [|[nb x] st [H1 H2] Es IH]; intros s; [reflexivity|]. cbn [omega_write fst] in *. apply try_ext; [now apply write_int_be_on|]. intros _ s' _. apply IH.
  - cbn [encode lift0]. unfold lift0_encode, checked_add. destruct (v + 1 <? 2 ^ 64) eqn:E; [|reflexivity]. apply IH. lia.
  - cbn [encode elias]. unfold elias_encode. apply try_ext; [reflexivity|]. intros _ s1 _. apply try_ext; [reflexivity|]. intros t s2 E2. apply try_ext; [reflexivity|]. intros n s3 E3.
    apply try_ext; [|reflexivity]. apply IH. cbv [lift wsub bind] in E2, E3. cbn [N.leb N.compare] in E2. injection E2 as <- _.
    destruct (leading_zeros 64 v <=? 64 - 1) eqn:EL.
    + injection E3 as <- _. change (2 ^ 64) with 18446744073709551616. lia.
    + destruct (debug (on d p)); [discriminate|]. injection E3 as <- _. change (2 ^ 64) with 18446744073709551616. apply N.lt_trans with (2 ^ 32); [apply N.mod_lt; lia|reflexivity].
Qed.
(** No decoder but that of [Omega] can tell the targets apart, whatever it is given. *)
Theorem C87_decoders_partial : forall d p q C D, wf_cfg (on d p) -> wf_cfg (on d q) -> same_code d p q false C D ->
  forall S (src : source S) fuel s, decode C src fuel s = decode D src fuel s.
Proof.
  intros d p q C D Hp Hq H. remember false as f eqn:Ef. induction H as [| | |n|f C D H IH|f C D H IH]; intros S src fuel s; try reflexivity; try discriminate Ef.
  - cbn [decode lift0]. unfold lift0_decode. apply try_ext; [now apply IH|reflexivity].
  - cbn [decode elias]. unfold elias_decode. apply try_ext; [now apply IH|]. intros [n|] s' _; [|reflexivity]. destruct (63 <? n) eqn:E; [reflexivity|].
    rewrite !usize_small by (assumption || lia). reflexivity.
Qed.
(** [Omega]: whatever a 64-bit target makes of an input of fewer than 2^32 bits, a 32-bit target makes of it too, unless the 64-bit target
    is left waiting for more bits.  (In full: always the same; see [C87_omega_refuted].) *)
Theorem C87_omega_partial : forall d l o S (src : source S) s s' s'' fuel, lengthN l < 2 ^ 32 -> (length l < fuel)%nat -> reads src s l s' -> stops src s' o s'' ->
  decode (omega (on d 32)) src fuel s = decode (omega (on d 64)) src fuel s \/ decode (omega (on d 64)) src fuel s = Ok (stopped o [true], s'').
Proof.
  intros d l o S src s s' s'' fuel Hl Hf Hr Ho.
  assert (G : forall fuel l s v, v < 2 ^ 64 -> lengthN l < 2 ^ 32 -> (length l < fuel)%nat -> reads src s l s' ->
    loop_io fuel (omega_body (on d 32) src) v s = loop_io fuel (omega_body (on d 64) src) v s \/ loop_io fuel (omega_body (on d 64) src) v s = Ok (stopped o [true], s'')).
  2:{ exact (G fuel l s 1 eq_refl Hl Hf Hr). }
  clear fuel l s Hl Hf Hr. induction fuel as [|fuel IH]; intros l s v Hv Hl Hf Hr; [lia|]. cbn [loop_io].
  assert (E64 : as_usize (on d 64) v = v) by (apply N.mod_small; exact Hv). destruct l as [|[] l].
  - left. apply reads_nil_inv in Hr. subst s'. unfold omega_body. destruct (stops_cases _ _ _ _ Ho) as [[-> E]|(e & -> & E)].
    + unfold try_. rewrite E. cbn [bind]. destruct (v =? 1); reflexivity.
    + unfold try_. rewrite E. reflexivity.
  - apply reads_1 in Hr. destruct Hr as (t & E & Hr). rewrite lengthN_cons in Hl. cbn [length] in Hf. destruct (v <=? lengthN l) eqn:E1.
    + assert (E32 : as_usize (on d 32) v = v) by (apply N.mod_small; change (ptr (on d 32)) with 32; lia).
      rewrite <- (firstn_skipnN v l) in Hr. apply reads_app in Hr. destruct Hr as (t2 & H1 & H2). assert (Hh : lengthN (firstnN v l) = v) by (rewrite lengthN_firstnN; lia).
      assert (EB : forall p, as_usize (on d p) v = v -> omega_body (on d p) src v s = (h <-- lift (wshl (on d 64) 64 1 (v mod 2 ^ 32)) ;; ret (Continue (N.lor (int_of (rev (firstnN v l)) mod 2 ^ 64) h)))%io t2).
      { intros p Ep. unfold omega_body. rewrite (try_ok _ _ _ _ _ E). cbn [negb]. rewrite Ep, (try_ok _ _ _ _ _ (read_int_be_ok _ src 64 ltac:(lia) v _ t t2 Hh H1)). reflexivity. }
      unfold try_ at 1 2 3. rewrite (EB 32 E32), (EB 64 E64). unfold try_, lift, ret. destruct (wshl (on d 64) 64 1 (v mod 2 ^ 32)) as [h|k|] eqn:Eh; cbn [bind]; [|left; reflexivity..].
      apply IH with (l := skipnN v l).
      * apply PBase.bits_lt. intros i Hi. rewrite N.lor_spec, N.mod_pow2_bits_high by exact Hi. cbn [orb]. apply (PBase.testbit_small _ 64); [|exact Hi].
        revert Eh. unfold wshl. destruct (v mod 2 ^ 32 <? 64); [|destruct (debug (on d 64))]; intros [= <-]; apply N.mod_lt; discriminate.
      * pose proof (lengthN_skipnN v l). lia.
      * pose proof (lengthN_skipnN v l) as K. unfold lengthN in K. lia.
      * exact H2.
    + assert (EB : exists e, stopped (A := N) o [true] = IErr e /\ omega_body (on d 64) src v s = Ok (IErr e, s'')).
      { unfold omega_body. rewrite (try_ok _ _ _ _ _ E). cbn [negb]. rewrite E64. pose proof (read_int_be_stop (on d 64) src 64 ltac:(lia) v l t s' o s'' ltac:(lia) Hr Ho) as E2.
        destruct (stops_cases _ _ _ _ Ho) as [[-> _]|(e & -> & _)].
        - exists UnexpectedEof. split; [reflexivity|]. destruct l as [|b l]; cbn [stopped] in E2; [rewrite (try_ok _ _ _ _ _ E2)|rewrite (try_err _ _ _ _ _ E2)]; reflexivity.
        - exists e. split; [reflexivity|]. cbn [stopped] in E2. rewrite (try_err _ _ _ _ _ E2). reflexivity. }
      right. destruct EB as (e & -> & EB). unfold try_. rewrite EB. reflexivity.
  - left. apply reads_1 in Hr. destruct Hr as (t & E & Hr). unfold omega_body, try_. rewrite E. reflexivity.
Qed.
(** The groups of 2^32, one more and the closing zero: on a 32-bit target the group of 2^32 bits has none, and the answer is 1; a 64-bit target
    waits for the bits. *)
Definition omega_wraps : list bool := [true; false] ++ [true; false; true] ++ [true; false; false; false; false; false] ++ true :: repeatN false 32 ++ [true; false].
Theorem C87_omega_refuted : exists l, forall d,
  decode (omega (on d 32)) deque_source 50 l = Ok (IOk (Some 1), []) /\ decode (omega (on d 64)) deque_source 50 l = Ok (IErr UnexpectedEof, []).
Proof.
  exists omega_wraps. intros d. split; [destruct d; vm_compute; reflexivity|].
  assert (HA : answers (omega (on d 64)) (IOk None) omega_wraps (Ok (IErr UnexpectedEof)) None).
  { apply (proj1 (C83_omega (on d 64))). change omega_wraps with (([true; false] ++ [true; false; true] ++ [true; false; false; false; false; false] ++ true :: repeatN false 32) ++ true :: [false]).
    apply (ot_short (on d 64) (IOk None) (2 ^ 32)); [|reflexivity].
    change ([true; false] ++ [true; false; true] ++ [true; false; false; false; false; false] ++ true :: repeatN false 32)
      with ((((([] ++ true :: [false]) ++ true :: [false; true]) ++ true :: [false; false; false; false; false])) ++ true :: repeatN false 32).
    change (2 ^ 32) with (N.lor (int_of (rev (repeatN false 32)) mod 2 ^ 64) (2 ^ (32 mod 2 ^ 32 mod 64))). constructor; [|reflexivity|intros _; reflexivity].
    change 32 with (N.lor (int_of (rev [false; false; false; false; false]) mod 2 ^ 64) (2 ^ (5 mod 2 ^ 32 mod 64))). constructor; [|reflexivity|intros _; reflexivity].
    change 5 with (N.lor (int_of (rev [false; true]) mod 2 ^ 64) (2 ^ (2 mod 2 ^ 32 mod 64))). constructor; [|reflexivity|intros _; reflexivity].
    change 2 with (N.lor (int_of (rev [false]) mod 2 ^ 64) (2 ^ (1 mod 2 ^ 32 mod 64))). constructor; [constructor|reflexivity|intros _; reflexivity]. }
  destruct (HA 50%nat _ deque_source omega_wraps [] []) as (t & E & ->); [vm_compute; lia|rewrite <- (app_nil_r omega_wraps) at 1; apply reads_deque|split; [reflexivity|exact I]|exact E].
Qed.

(** ** Integers and blocks *)
Theorem C87_integers : forall d p q S (snk : sink S) (src : source S) w n v s,
  write_int (on d p) snk w n v s = write_int (on d q) snk w n v s /\
  read_int (on d p) src w n s = read_int (on d q) src w n s /\ read_int_be (on d p) src w n s = read_int_be (on d q) src w n s /\
  (1 <= n < 2 ^ 32 -> write_int_be (on d p) snk w n v s = write_int_be (on d q) snk w n v s).
Proof.
  intros d p q S snk src w n v s. repeat split. intros [H1 H2]. unfold write_int_be, try_ at 1, lift at 1. cbn [ptr on]. rewrite wsub_ok by lia.
  symmetry. unfold try_ at 1, lift at 1. rewrite wsub_ok by lia. reflexivity.
Qed.
Theorem C87_blocks_partial : forall d p q S t o x s (snk : byte_sink S) (src : byte_source S), t <> Usize ->
  write_block (on d p) S t snk o x s = write_block (on d q) S t snk o x s /\ read_block (on d p) S t src o s = read_block (on d q) S t src o s.
Proof. intros d p q S t o x s snk src H. destruct t; [split; reflexivity..|contradiction]. Qed.
(** The bytes of a [usize] cannot be exchanged: the same block takes 4 bytes on one target and 8 on the other. *)
Theorem C87_blocks_refuted : exists x, forall d, x < 2 ^ 32 /\
  write_block (on d 32) _ Usize bytes_sink BigEndian x [] = Ok (IOk tt, [0; 0; 1; 2]) /\
  write_block (on d 64) _ Usize bytes_sink BigEndian x [] = Ok (IOk tt, [0; 0; 0; 0; 0; 0; 1; 2]) /\
  read_block (on d 32) _ Usize bytes_source BigEndian [0; 0; 0; 0; 0; 0; 1; 2] = Ok (IOk 0, [0; 0; 1; 2]) /\
  read_block (on d 64) _ Usize bytes_source BigEndian [0; 0; 1; 2] = Ok (IErr UnexpectedEof, []).
Proof. exists 258. intros d. repeat split; destruct d; vm_compute; reflexivity. Qed.
(** [write_int_be] with no bits at all, without overflow checks, is the reason for the bound of 1: with an odd type width it would matter which
    power of two wraps; for the widths there are it does not. *)
Theorem C87_no_bits : forall d p q S (snk : sink S) w v s, wf_cfg (on d p) -> wf_cfg (on d q) -> wf_nb w ->
  write_int_be (on d p) snk w 0 v s = write_int_be (on d q) snk w 0 v s.
Proof.
  intros d p q S snk w v s Hp Hq Hw.
  assert (EM : (n1 <- wsub (on d p) p 0 1 ;; wshl (on d p) w 1 n1)%res = (n1 <- wsub (on d q) q 0 1 ;; wshl (on d q) w 1 n1)%res).
  { unfold wf_nb in Hw. destruct Hp as [Hp|Hp], Hq as [Hq|Hq]; cbn [ptr on] in Hp, Hq; subst p q; destruct d; destruct Hw as [-> | [-> | [-> | ->]]]; vm_compute; reflexivity. }
  assert (EW : forall r, write_int_be (on d r) snk w 0 v s = (m <- (n1 <- wsub (on d r) r 0 1 ;; wshl (on d r) w 1 n1) ;; Ok (IOk tt, s))%res).
  { intros r. unfold write_int_be, try_, lift. cbn [ptr on]. destruct (wsub (on d r) r 0 1) as [n1|k|]; cbn [bind]; [|reflexivity..].
    destruct (wshl (on d r) w 1 n1) as [m|k|]; reflexivity. }
  rewrite !EW, EM. reflexivity.
Qed.
Example C87_codes_ex : same_code true 32 64 true (elias (on true 32) (omega (on true 32))) (elias (on true 64) (omega (on true 64))) /\
  same_code false 32 64 false (delta (on false 32)) (delta (on false 64)) /\
  encode (omega (on true 32)) deque_sink 50 1000 [] = encode (omega (on true 64)) deque_sink 50 1000 [] /\
  encode (omega (on true 32)) deque_sink 50 5 [] = Ok (IOk tt, [true; false; true; false; true; false]).
Proof. split; [repeat constructor|]. split; [repeat constructor|]. split; vm_compute; reflexivity. Qed.

Print Assumptions C87_bit_vector.
Print Assumptions C87_int_vector.
Print Assumptions C87_encoders.
Print Assumptions C87_decoders_partial.
Print Assumptions C87_omega_partial.
Print Assumptions C87_omega_refuted.
Print Assumptions C87_integers.
Print Assumptions C87_blocks_partial.
Print Assumptions C87_blocks_refuted.
Print Assumptions C87_no_bits.
