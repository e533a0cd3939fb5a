(** * Messages of bits, integers and code words mixed, written and read on different machines (C79). *)
From Verif Require Import Machine MStorage MTraits MVectorBase MBitVector MStream MCoding SpecBits SpecCfg SpecLaws SpecOps SpecStream SpecBuffer
  PBase PBits PBlocks PDefaults PBitVector PVectorBase3 PRun PStream PBuffer PCoding PCoding2 PCoding3 Properties8 Properties9
  MSigned SpecSigned Properties12.

(** The codes by name, so that the two ends of a stream can be different builds. *)
Inductive code_name := NUnary | NGamma | NDelta | NOmega | NFibonacci | NComma (n : N) | NLift0 (inner : code_name) | NElias (header : code_name).
Fixpoint code_of (c : cfg) (nm : code_name) : code :=
  match nm with
  | NUnary => unary c | NGamma => gamma c | NDelta => delta c | NOmega => omega c | NFibonacci => fibonacci c | NComma n => comma c n
  | NLift0 i => lift0 c (code_of c i) | NElias h => elias c (code_of c h)
  end.
(** The values each of them encodes. *)
Fixpoint encodable (nm : code_name) (v : N) : Prop :=
  match nm with
  | NUnary => v < 2 ^ 64
  | NGamma | NDelta | NOmega => 1 <= v < 2 ^ 64
  | NFibonacci => 1 <= v < fib_max
  | NComma n => 2 <= n <= 63 /\ v < 2 ^ 64
  | NLift0 i => v + 1 < 2 ^ 64 /\ encodable i (v + 1)
  | NElias h => 1 <= v < 2 ^ 64 /\ encodable h (N.log2 v)
  end.

(** A message: what kind of item, and its value. *)
Inductive kind := KBit | KInt (w n : N) | KIntBe (w n : N) | KSInt (w n : N) | KSIntBe (w n : N) | KCode (nm : code_name).
Inductive value := VBool (b : bool) | VNum (x : N) | VInt (z : Z).
Definition item_ok (i : kind * value) : Prop :=
  match i with
  | (KBit, VBool _) => True
  | (KInt w n, VNum x) => wf_nb w /\ x < 2 ^ w /\ x < 2 ^ n
  | (KIntBe w n, VNum x) => wf_nb w /\ 1 <= n <= w /\ x < 2 ^ n
  | (KSInt w n, VInt z) => wf_nb w /\ signed_range w z /\ (w <= n \/ (0 <= z < 2 ^ Z.of_N n)%Z)
  | (KSIntBe w n, VInt z) => wf_nb w /\ signed_range w z /\ 1 <= n < w /\ (0 <= z < 2 ^ Z.of_N n)%Z
  | (KCode nm, VNum x) => encodable nm x
  | _ => False
  end.
Definition write_item (c : cfg) {S} (snk : sink S) (fuel : nat) (i : kind * value) : io S unit :=
  match i with
  | (KBit, VBool b) => write_bit snk b
  | (KInt w n, VNum x) => write_int c snk w n x
  | (KIntBe w n, VNum x) => write_int_be c snk w n x
  | (KSInt w n, VInt z) => write_sint c snk w n z
  | (KSIntBe w n, VInt z) => write_sint_be c snk w n z
  | (KCode nm, VNum x) => encode (code_of c nm) snk fuel x
  | _ => ret tt
  end.
Definition num {S} (m : io S (option N)) : io S (option value) := try_ m (fun o => ret (match o with Some x => Some (VNum x) | None => None end)).
Definition read_item (c : cfg) {S} (src : source S) (fuel : nat) (k : kind) : io S (option value) :=
  match k with
  | KBit => try_ (read_bit src) (fun o => ret (match o with Some b => Some (VBool b) | None => None end))
  | KInt w n => num (read_int c src w n)
  | KIntBe w n => num (read_int_be c src w n)
  | KSInt w n => try_ (read_sint c src w n) (fun o => ret (match o with Some z => Some (VInt z) | None => None end))
  | KSIntBe w n => try_ (read_sint_be c src w n) (fun o => ret (match o with Some z => Some (VInt z) | None => None end))
  | KCode nm => num (decode (code_of c nm) src fuel)
  end.
Fixpoint write_message (c : cfg) {S} (snk : sink S) (fuel : nat) (m : list (kind * value)) : io S unit :=
  match m with [] => ret tt | i :: t => try_ (write_item c snk fuel i) (fun _ => write_message c snk fuel t) end.
Fixpoint read_message (c : cfg) {S} (src : source S) (fuel : nat) (ks : list kind) : io S (list (option value)) :=
  match ks with
  | [] => ret []
  | k :: t => try_ (read_item c src fuel k) (fun o => try_ (read_message c src fuel t) (fun l => ret (o :: l)))
  end.

Lemma named_word nm : forall v, encodable nm v -> exists w, forall c, wf_cfg c -> codeword (code_of c nm) v w.
Proof.
  induction nm as [| | | | |n|i IH|h IH]; intros v Hv; cbn [encodable code_of] in *.
  - exists (unary_word v). intros c Hc. now apply unary_codeword.
  - exists (gamma_word v). intros c Hc. apply gamma_codeword; auto; lia.
  - exists (delta_word v). intros c Hc. apply delta_codeword; auto; lia.
  - destruct (omega_stack_ok dbg64 v) as (st & _ & HG & _); try lia. eexists. intros c Hc. apply omega_codeword; [exact Hc|lia|]. eexists. split; [exact HG|reflexivity].
  - destruct (fib_encode_ok dbg64 v) as (w & Hw & _); try lia. exists w. intros c Hc. apply fib_codeword; auto; lia.
  - destruct Hv as [Hn Hv]. destruct (comma_encode_ok dbg64 n Hn v) as (w & Hw & _). exists w. intros c Hc. now apply comma_codeword.
  - destruct Hv as [H1 H2]. destruct (IH _ H2) as (w & Hw). exists w. intros c Hc. apply lift0_codeword; auto.
  - destruct Hv as [H1 H2]. destruct (IH _ H2) as (w & Hw). exists (w ++ bits_of (N.log2 v) v). intros c Hc. apply elias_codeword; auto; lia.
Qed.

Lemma item_word i : item_ok i -> exists w, forall c, wf_cfg c -> exists n0, forall fuel, (n0 <= fuel)%nat ->
  (forall S (snk : sink S) s, write_item c snk fuel i s = write_all snk w s) /\
  (forall S (src : source S) s s', reads src s w s' -> read_item c src fuel (fst i) s = Ok (IOk (Some (snd i)), s')).
Proof.
  destruct i as [[|w n|w n|w n|w n|nm] [b|x|z]]; cbn [item_ok]; try contradiction.
  - intros _. exists [b]. intros c Hc. exists O. intros fuel _. split; intros.
    + cbn. destruct (write_bit snk b s) as [[[[]|e] s']| |]; reflexivity.
    + inversion H as [|? ? ? ? ? H1 H2]; subst. inversion H2; subst. cbn. now rewrite (try_ok _ _ _ _ _ H1).
  - intros (Hw & Hx & Hn). exists (bits_of n x). intros c Hc. exists O. intros fuel _. split; intros; cbn.
    + now apply C41_write_int.
    + unfold num. rewrite (try_ok _ _ _ _ _ (C41_read_int _ c src w n x s s' Hw Hx H)). now rewrite (N.mod_small x (2 ^ n)).
  - intros (Hw & Hn & Hx). exists (rev (bits_of n x)). intros c Hc. exists O. intros fuel _. split; intros; cbn.
    + now apply C41_write_int_be.
    + assert (x < 2 ^ w) by (pose proof (N.pow_le_mono_r 2 n w ltac:(lia) ltac:(lia)); lia).
      unfold num. rewrite (try_ok _ _ _ _ _ (C41_read_int_be _ c src w n x s s' Hw ltac:(assumption) H)). now rewrite (N.mod_small x (2 ^ n)).
  - intros (Hw & Hz & Hn). exists (zbits_of n z). intros c Hc. exists O. intros fuel _. split; intros; cbn.
    + now apply C67_write_int.
    + rewrite (try_ok _ _ _ _ _ (C67_read_int _ c src w n z s s' Hw Hz H)). destruct (n <? w) eqn:E; [|reflexivity].
      rewrite Z.mod_small; [reflexivity|]. destruct Hn as [Hn|Hn]; [lia|exact Hn].
  - intros (Hw & Hz & Hn & Hb). exists (rev (zbits_of n z)). intros c Hc. exists O. intros fuel _. split; intros; cbn.
    + apply C67_write_int_be_partial; auto; lia.
    + rewrite (try_ok _ _ _ _ _ (C67_read_int_be _ c src w n z s s' Hw Hz H)). destruct (n <? w) eqn:E; [|reflexivity].
      rewrite Z.mod_small; [reflexivity|exact Hb].
  - intros Hv. destruct (named_word nm x Hv) as (w & Hw). exists w. intros c Hc. destruct (Hw c Hc) as [_ [n1 H1] [n2 H2]]. exists (n1 + n2)%nat. intros fuel Hf. split; intros; cbn.
    + apply H1. lia.
    + unfold num. now rewrite (try_ok _ _ _ _ _ (H2 fuel ltac:(lia) _ _ _ _ H)).
Qed.

(** ** C79 *)
(** There is one list of bits that every build writes for the message, to any sink, and from which every
    build reads the message back, from any source, leaving what follows. *)
Theorem C79_any_stream : forall m, Forall item_ok m -> exists w, forall c, wf_cfg c -> exists n0, forall fuel, (n0 <= fuel)%nat ->
  (forall S (snk : sink S) s, write_message c snk fuel m s = write_all snk w s) /\
  (forall S (src : source S) s s', reads src s w s' ->
     read_message c src fuel (map fst m) s = Ok (IOk (map (fun i => Some (snd i)) m), s')).
Proof.
  intros m HF. induction HF as [|i m Hi HF (w & IH)].
  - exists []. intros c Hc. exists O. intros fuel _. split; [reflexivity|]. intros S src s s' H. inversion H; subst. reflexivity.
  - destruct (item_word i Hi) as (w1 & H1). exists (w1 ++ w). intros c Hc. destruct (IH c Hc) as (n2 & H2). destruct (H1 c Hc) as (n1 & H1').
    exists (n1 + n2)%nat. intros fuel Hf. destruct (H1' fuel ltac:(lia)) as [A B]. destruct (H2 fuel ltac:(lia)) as [A' B']. split.
    + intros S snk s. rewrite write_all_app. cbn [write_message]. unfold try_. rewrite A. destruct (write_all snk w1 s) as [[[[]|e] s']| |]; cbn [bind]; auto.
    + intros S src s s' H. apply reads_app in H as (s1 & R1 & R2). cbn [map read_message].
      rewrite (try_ok _ _ _ _ _ (B _ _ _ _ R1)). now rewrite (try_ok _ _ _ _ _ (B' _ _ _ _ R2)).
Qed.
(** Written on one machine and read on another, through a queue. *)
Theorem C79_queue : forall m c1 c2, Forall item_ok m -> wf_cfg c1 -> wf_cfg c2 -> exists n0, forall fuel, (n0 <= fuel)%nat -> forall before rest,
  exists w, write_message c1 deque_sink fuel m before = Ok (IOk tt, before ++ w) /\
    read_message c2 deque_source fuel (map fst m) (w ++ rest) = Ok (IOk (map (fun i => Some (snd i)) m), rest).
Proof.
  intros m c1 c2 HF H1 H2. destruct (C79_any_stream m HF) as (w & K). destruct (K c1 H1) as (n1 & K1). destruct (K c2 H2) as (n2 & K2).
  exists (n1 + n2)%nat. intros fuel Hf before rest. exists w. destruct (K1 fuel ltac:(lia)) as [A _]. destruct (K2 fuel ltac:(lia)) as [_ B].
  rewrite A, write_all_deque. split; [reflexivity|]. apply B. apply reads_deque.
Qed.
(** Through a [BitBuffer] over a [BitVector], as far as the message fits in memory. *)
Theorem C79_bit_buffer : forall m c nb, Forall item_ok m -> wf_cfg c -> wf_nb nb -> exists w n0, forall fuel, (n0 <= fuel)%nat ->
  write_message c deque_sink fuel m [] = Ok (IOk tt, w) /\
  (fits c nb (lengthN w) -> exists b0 b1 b2 b3, bb_new c nb = Ok b0 /\
     write_message c (bb_sink c (bvec_bitvecpush c nb) fuel) fuel m b0 = Ok (IOk tt, b1) /\
     bb_seek (bvec_bitvec c nb) 0 b1 = Ok (IOk tt, b2) /\
     read_message c (bb_source c (bvec_bitvec c nb)) fuel (map fst m) b2 = Ok (IOk (map (fun i => Some (snd i)) m), b3) /\
     read_bit (bb_source c (bvec_bitvec c nb)) b3 = Ok (IOk None, b3)).
Proof.
  intros m c nb HF Hc Hnb. pose proof (wf_nb_range nb Hnb). destruct (C79_any_stream m HF) as (w & K0). destruct (K0 c Hc) as (n0 & K). exists w, (n0 + 2)%nat. intros fuel Hf.
  destruct (K fuel ltac:(lia)) as [K1 K2]. split; [now rewrite K1, write_all_deque|]. intros Hfit.
  destruct (vb_with_capacity_ok c nb 1 Hc Hnb ltac:(lia) 0) as (v0 & E0 & R0); [apply fits_0; lia|].
  pose (LB := bvec_lawful_bits c nb Hc Hnb). pose (LK := bvec_lawful_blocks c nb Hc Hnb).
  assert (LP : lawful_push c (bvec_bitvecpush c nb) (R_bv c nb) (fun n => fitsb c nb n = true)).
  { destruct (bvec_lawful_push c nb Hc Hnb) as [A1 A2 A3 A4]. split; auto.
    - intros t0 l0 b H0 H1. apply A1; auto. now apply fitsb_spec.
    - intros t0 l0 b H0 H1. apply A2 with (l := l0); auto. intros H2. apply H1. now apply fitsb_spec. }
  assert (Hb0 : R_buf (R_bv c nb) {| bb_data := v0; bb_pos := 0 |} ([], @lengthN bool [])) by (split; [exact R0|split; reflexivity || (cbn; lia)]).
  destruct (bb_write_all c (bvec_bitvecpush c nb) (R_bv c nb) (fitsb c nb) Hc LB LK (mutblocks_setblock _ _ _ (bvec_lawful_mutblocks c nb Hc Hnb)) LP fuel w ltac:(lia) _ [] Hb0) as (b1 & E1 & HR1 & Hp1 & _).
  { intros n Hn. rewrite lengthN_nil in Hn. apply fitsb_spec. apply (fits_mono c nb n (lengthN w)); [lia|lia|exact Hfit]. }
  cbn [app fst snd] in *.
  destruct (bb_reads_all c (bvec_bitvec c nb) (R_bv c nb) Hc LB LK (bb_data b1) w HR1) as [Hr [Hs _]].
  eexists. exists b1, {| bb_data := bb_data b1; bb_pos := 0 |}. eexists. split; [unfold bb_new, bb_with_capacity, bvec_with_capacity; rewrite E0; reflexivity|].
  split; [now rewrite K1|]. split; [|split].
  - unfold bb_seek. rewrite (lb_bit_len _ _ _ LB _ w HR1). cbn [bind]. destruct (0 <=? lengthN w) eqn:E; [reflexivity|lia].
  - apply (K2 _ (bb_source c (bvec_bitvec c nb)) _ _ Hr).
  - exact Hs.
Qed.
(** A tag bit, signed integers (one of them wider than its type), a 5-bit and a big-endian 12-bit integer, a delta, an omega and a lifted Fibonacci word,
    and an Elias code over the comma code. *)
Definition C79_message : list (kind * value) :=
  [(KBit, VBool true); (KInt 8 5, VNum 19); (KCode NDelta, VNum 1000); (KIntBe 16 12, VNum 2741); (KCode NOmega, VNum (2 ^ 40 + 3));
   (KCode (NLift0 NFibonacci), VNum 0); (KBit, VBool false); (KCode (NElias (NComma 2)), VNum 77); (KSInt 16 16, VInt (-300)); (KSIntBe 8 7, VInt 100); (KSInt 8 12, VInt (-1)); (KCode NUnary, VNum 3)].
Example C79_ex_ok : Forall item_ok C79_message.
Proof. unfold C79_message, wf_nb. repeat (apply Forall_cons; [cbn [item_ok encodable]; try exact I; repeat split; try solve [left; vm_compute; discriminate]; vm_compute; auto; try discriminate|]). constructor. Qed.
Example C79_ex : exists w, write_message rel32 deque_sink 200 C79_message [] = Ok (IOk tt, w) /\ lengthN w = 141 /\
  read_message dbg64 deque_source 200 (map fst C79_message) (w ++ [true; false]) = Ok (IOk (map (fun i => Some (snd i)) C79_message), [true; false]).
Proof. eexists. split; [vm_compute; reflexivity|]. split; vm_compute; reflexivity. Qed.

Print Assumptions C79_any_stream.
Print Assumptions C79_queue.
Print Assumptions C79_bit_buffer.
