(** * Properties C41-C45: bit streams (src/stream/traits.rs, src/stream/bit_buffer.rs).
    [write_all snk w] writes the bits [w] one by one and stops at the first error;
    [reads src s w s'] says that the source delivers the bits [w] on the way from [s] to [s'];
    [stops src s o s'] that it then answers [o]: end of data or an error. *)
From Verif Require Import Machine MStorage MTraits MVectorBase MBitVector MIntVector MBitSlice MStream
  SpecBits SpecCfg SpecLaws SpecOps SpecStream SpecBuffer PBase PBits PBlocks PDefaults PBitVector PRun PSlice
  PStream PBuffer.

(** ** C41: [w] is the width of the integer type.  The sink and the source are arbitrary. *)
Theorem C41_write_int : forall S c (snk : sink S) w n v s, wf_nb w ->
  write_int c snk w n v s = write_all snk (bits_of n v) s.
Proof. intros S c snk w n v s Hw. pose proof (wf_nb_range w Hw). apply write_int_ok. lia. Qed.
Theorem C41_write_int_be : forall S c (snk : sink S) w n v s, wf_cfg c -> wf_nb w -> 1 <= n -> n <= w ->
  write_int_be c snk w n v s = write_all snk (rev (bits_of n v)) s.
Proof. intros S c snk w n v s Hc Hw H1 Hn. pose proof (wf_nb_range w Hw). apply write_int_be_ok; auto. lia. Qed.
Theorem C41_read_int : forall S c (src : source S) w n v s s', wf_nb w -> v < 2 ^ w ->
  reads src s (bits_of n v) s' ->
  read_int c src w n s = Ok (IOk (Some (v mod 2 ^ n)), s').
Proof.
  intros S c src w n v s s' Hw Hv H. pose proof (wf_nb_range w Hw).
  rewrite (read_int_ok c src w ltac:(lia) n (bits_of n v) s s' (lengthN_bits_of _ _) H). rewrite int_of_bits_of.
  do 4 f_equal. apply N.mod_small. pose proof (N.mod_le v (2 ^ n)). pose proof (pow2_pos n). lia.
Qed.
Theorem C41_read_int_be : forall S c (src : source S) w n v s s', wf_nb w -> v < 2 ^ w ->
  reads src s (rev (bits_of n v)) s' ->
  read_int_be c src w n s = Ok (IOk (Some (v mod 2 ^ n)), s').
Proof.
  intros S c src w n v s s' Hw Hv H. pose proof (wf_nb_range w Hw).
  rewrite (read_int_be_ok c src w ltac:(lia) n _ s s' ltac:(now rewrite lengthN_rev, lengthN_bits_of) H). rewrite rev_involutive, int_of_bits_of.
  do 4 f_equal. apply N.mod_small. pose proof (N.mod_le v (2 ^ n)). pose proof (pow2_pos n). lia.
Qed.
(** On a queue: what was there comes first, then the integer, then what is written later. *)
Theorem C41_queue_roundtrip : forall c w n v l rest, wf_cfg c -> wf_nb w -> v < 2 ^ w ->
  (exists x, write_int c deque_sink w n v l = Ok (IOk tt, l ++ x) /\ lengthN x = n /\
     read_int c deque_source w n (x ++ rest) = Ok (IOk (Some (v mod 2 ^ n)), rest)) /\
  (1 <= n -> n <= w ->
   exists x, write_int_be c deque_sink w n v l = Ok (IOk tt, l ++ x) /\ lengthN x = n /\
     read_int_be c deque_source w n (x ++ rest) = Ok (IOk (Some (v mod 2 ^ n)), rest)).
Proof.
  intros c w n v l rest Hc Hw Hv. split; [|intros H1 Hn].
  - exists (bits_of n v). rewrite C41_write_int, write_all_deque, lengthN_bits_of by exact Hw.
    split; [reflexivity|]. split; [reflexivity|]. apply C41_read_int; auto. apply reads_deque.
  - exists (rev (bits_of n v)). rewrite C41_write_int_be, write_all_deque, lengthN_rev, lengthN_bits_of by auto.
    split; [reflexivity|]. split; [reflexivity|]. apply C41_read_int_be; auto. apply reads_deque.
Qed.
Example C41_ex : write_int dbg64 deque_sink 16 5 0xabd [true] = Ok (IOk tt, [true; true; false; true; true; true]) /\
  read_int dbg64 deque_source 16 5 [true; false; true; true; true; false; true] = Ok (IOk (Some 29), [false; true]) /\
  write_int_be rel32 deque_sink 16 5 0xabd [] = Ok (IOk tt, [true; true; true; false; true]) /\
  read_int_be rel32 deque_source 16 5 [true; true; true; false; true; false; true] = Ok (IOk (Some 29), [false; true]) /\
  0xabd mod 2 ^ 5 = 29.
Proof. vm_compute. intuition congruence. Qed.

(** ** C42 *)
Theorem C42_zero_width_partial : forall S c (snk : sink S) w v s, wf_nb w ->
  write_int c snk w 0 v s = Ok (IOk tt, s) /\
  (wf_cfg c -> debug c = false -> write_int_be c snk w 0 v s = Ok (IOk tt, s)).
Proof.
  intros S c snk w v s Hw. split; [now apply C41_write_int|]. intros Hc Hd. unfold write_int_be.
  rewrite (try_lift _ (2 ^ ptr c - 1)).
  2:{ unfold wsub. rewrite Hd. destruct (1 <=? 0) eqn:E; [lia|]. f_equal. rewrite N.mod_small; [reflexivity|]. lia. }
  unfold wshl. rewrite Hd. destruct (2 ^ ptr c - 1 <? w); (rewrite (try_lift _ _ _ _ eq_refl); reflexivity).
Qed.
Theorem C42_zero_width_refuted : exists c w v, wf_cfg c /\ wf_nb w /\ v < 2 ^ w /\
  panics (write_int_be c deque_sink w 0 v []).
Proof. exists dbg64, 32, 5. split; [auto with wf|]. split; [auto with wf|]. split; [vm_compute; reflexivity|]. eexists. vm_compute. reflexivity. Qed.
Example C42_ex : write_int_be rel64 deque_sink 32 0 5 [true] = Ok (IOk tt, [true]) /\ write_int dbg64 deque_sink 32 0 5 [true] = Ok (IOk tt, [true]).
Proof. split; vm_compute; reflexivity. Qed.

(** ** C43: [q] is what the source still delivers before it stops. *)
Theorem C43_end_of_stream : forall S c (src : source S) w n q s s' o s'', wf_nb w -> 1 <= n ->
  reads src s q s' -> stops src s' o s'' ->
  (n <= lengthN q ->
     (exists x t, read_int c src w n s = Ok (IOk (Some x), t)) /\
     (exists x t, read_int_be c src w n s = Ok (IOk (Some x), t))) /\
  (lengthN q < n ->
     let answer := match o with IErr e => IErr e
                              | IOk _ => if lengthN q =? 0 then IOk None else IErr UnexpectedEof end in
     read_int c src w n s = Ok (answer, s'') /\ read_int_be c src w n s = Ok (answer, s'')).
Proof.
  intros S c src w n q s s' o s'' Hw H1 Hr Ho. pose proof (wf_nb_range w Hw). split.
  - intros Hn. assert (E : q = firstnN n q ++ skipnN n q) by (symmetry; apply firstn_skipnN).
    rewrite E in Hr. apply reads_app in Hr. destruct Hr as (t & Hr & _).
    assert (El : lengthN (firstnN n q) = n) by (rewrite lengthN_firstnN; lia). split.
    + do 2 eexists. apply (read_int_ok c src w ltac:(lia) n _ s t El Hr).
    + do 2 eexists. apply (read_int_be_ok c src w ltac:(lia) n _ s t El Hr).
  - intros Hn answer. assert (Ea : answer = stopped o q).
    { unfold answer, stopped. destruct o; [|reflexivity]. destruct q; [reflexivity|]. rewrite lengthN_cons. destruct (lengthN q + 1 =? 0) eqn:E; [lia|reflexivity]. }
    rewrite Ea. split; [apply (read_int_stop c src w ltac:(lia) n q s s' o s'' Hn Hr Ho)|apply (read_int_be_stop c src w ltac:(lia) n q s s' o s'' Hn Hr Ho)].
Qed.
(** Over a queue this covers all cases. *)
Theorem C43_queue : forall c w n l, wf_nb w -> 1 <= n ->
  (n <= lengthN l -> read_int c deque_source w n l = Ok (IOk (Some (int_of (firstnN n l) mod 2 ^ w)), skipnN n l)) /\
  (lengthN l < n -> read_int c deque_source w n l = Ok (if lengthN l =? 0 then IOk None else IErr UnexpectedEof, [])).
Proof.
  intros c w n l Hw H1. pose proof (wf_nb_range w Hw). split; intros Hn.
  - apply (read_int_ok c deque_source w ltac:(lia) n (firstnN n l)); [rewrite lengthN_firstnN; lia|].
    rewrite <- (firstn_skipnN n l) at 1. apply reads_deque.
  - pose proof (reads_deque l []) as Hr. rewrite app_nil_r in Hr.
    destruct (C43_end_of_stream _ c deque_source w n l l [] (IOk None) [] Hw H1 Hr stops_deque) as [_ K]. now destruct (K Hn).
Qed.
(** A source that delivers its bits and then fails. *)
Definition failing_source : source (list bool) := {|
  read_bit := fun l => Ok (match l with [] => (IErr IoOther, []) | b :: t => (IOk (Some b), t) end) |}.
Example C43_ex : read_int dbg64 deque_source 8 4 [true; false] = Ok (IErr UnexpectedEof, []) /\
  read_int dbg64 deque_source 8 4 [] = Ok (IOk None, []) /\
  read_int dbg64 failing_source 8 4 [true; false] = Ok (IErr IoOther, []) /\
  (reads failing_source [true; false] [true; false] [] /\ stops failing_source [] (IErr IoOther) []) /\
  read_int dbg64 deque_source 8 4 [true; false; true; false] = Ok (IOk (Some 5), []).
Proof.
  split; [vm_compute; reflexivity|]. split; [vm_compute; reflexivity|]. split; [vm_compute; reflexivity|].
  split; [|vm_compute; reflexivity]. split; [|split; [reflexivity|exact I]]. repeat (econstructor; [reflexivity|]). constructor.
Qed.

(** ** C44: [spec_fstep] is the behaviour of a list of bits with a cursor ([SpecBuffer.v]).
    [t] is the bit vector given to [BitBuffer::from] or [BitBuffer::append]; the program may also
    use the buffer as a bit vector. *)
Definition file_program {T} (c : cfg) (P : bitvecpush T) (append : bool) (fuel : nat) (t : T) (ops : list fop) : list fout * res T :=
  match (if append then bb_append (bm_bv (bp_bm P)) t else Ok (bb_from t)) with
  | Ok bb => let (xs, r) := run (bb_step c P fuel) bb ops in (xs, bb <- r ;; Ok (bb_inner bb))
  | Panic p => ([], Panic p)
  | OutOfFuel => ([], OutOfFuel)
  end.
Theorem C44_file : forall T c (P : bitvecpush T) (R : T -> list bool -> Prop) roomb append t l ops,
  wf_cfg c -> lawful_bits c (bm_bv (bp_bm P)) R -> lawful_blocks c (bm_bv (bp_bm P)) R ->
  lawful_setblock c (bp_bm P) R -> lawful_push c P R (fun n => roomb n = true) ->
  R t l -> let f0 := (l, if append : bool then lengthN l else 0) in
  along (spec_fstep P roomb) (fop_ok c P) f0 ops ->
  exists n0, forall fuel, (n0 <= fuel)%nat ->
    fst (file_program c P append fuel t ops) = fst (spec_run (spec_fstep P roomb) f0 ops) /\
    match snd (spec_run (spec_fstep P roomb) f0 ops) with
    | Some (l', p') => exists t', snd (file_program c P append fuel t ops) = Ok t' /\ R t' l' /\ p' <= lengthN l'
    | None => panics (snd (file_program c P append fuel t ops))
    end.
Proof.
  intros T c P R roomb append t l ops Hc LB LK LS LP HR f0 Hops.
  destruct (bb_program_sim c P R roomb Hc LB LK LS LP f0 ops Hops) as [n0 H]. exists n0. intros fuel Hf. unfold file_program.
  set (bb := {| bb_data := t; bb_pos := if append then lengthN l else 0 |}).
  assert (Hbb : R_buf R bb f0) by (split; [exact HR|]; split; [reflexivity|]; cbn; destruct append; lia).
  replace (if append then bb_append (bm_bv (bp_bm P)) t else Ok (bb_from t)) with (Ok bb).
  2:{ destruct append; [|reflexivity]. unfold bb_append. now rewrite (lb_bit_len _ _ _ LB t l HR). }
  destruct (H fuel bb Hf Hbb) as [H1 H2]. destruct (run (bb_step c P fuel) bb ops) as [xs r]. cbn [fst snd] in *. split; [exact H1|].
  destruct (snd (spec_run (spec_fstep P roomb) f0 ops)) as [[l' p']|]; cbn [ends] in H2.
  - destruct H2 as (bb' & -> & HR' & _ & Hp'). eexists. split; [reflexivity|]. auto.
  - destruct H2 as (q & ->). eexists. reflexivity.
Qed.
Theorem C44_bitvector : forall c nb t ops v append fops, wf_cfg c -> wf_nb nb ->
  bprogram_ok c nb t ops -> bvec_ends c nb t ops v ->
  exists l, snd (spec_bprogram c nb t ops) = Some l /\
  let P := bvec_bitvecpush c nb in let f0 := (l, if append : bool then lengthN l else 0) in
  (along (spec_fstep P (fitsb c nb)) (fop_ok c P) f0 fops ->
  exists n0, forall fuel, (n0 <= fuel)%nat ->
    fst (file_program c P append fuel v fops) = fst (spec_run (spec_fstep P (fitsb c nb)) f0 fops) /\
    match snd (spec_run (spec_fstep P (fitsb c nb)) f0 fops) with
    | Some (l', _) => exists v', snd (file_program c P append fuel v fops) = Ok v' /\
        vb_len v' = lengthN l' /\ bits_of_blocks nb (vb_vec v') = l' ++ repeatN false (padding nb (lengthN l'))
    | None => panics (snd (file_program c P append fuel v fops))
    end).
Proof.
  intros c nb t ops v append fops Hc Hnb Hok He. destruct (bvec_ends_R c nb t ops v Hc Hnb Hok He) as (l & El & HR).
  exists l. split; [exact El|]. intros P f0 Hf. pose proof (wf_nb_range nb Hnb).
  assert (LP : lawful_push c P (R_bv c nb) (fun n => fitsb c nb n = true)).
  { destruct (bvec_lawful_push c nb Hc Hnb) as [A1 A2 A3 A4]. split; auto.
    - intros t0 l0 b H0 H1. apply A1; auto. now apply fitsb_spec.
    - intros t0 l0 b H0 H1. apply A2 with (l := l0); auto. intros H2. apply H1. now apply fitsb_spec. }
  destruct (C44_file _ c P (R_bv c nb) (fitsb c nb) append v l fops Hc (bvec_lawful_bits c nb Hc Hnb) (bvec_lawful_blocks c nb Hc Hnb)
              (mutblocks_setblock _ _ _ (bvec_lawful_mutblocks c nb Hc Hnb)) LP HR Hf) as [n0 K].
  exists n0. intros fuel Hfu. destruct (K fuel Hfu) as [K1 K2]. split; [exact K1|]. fold f0 in K2.
  destruct (snd (spec_run (spec_fstep P (fitsb c nb)) f0 fops)) as [[l' p']|]; [|exact K2].
  destruct K2 as (v' & E & HR' & _). exists v'. split; [exact E|]. destruct HR' as (Ev & Elen & _). split; [lia|]. rewrite Ev. 
  rewrite bits_of_blocks_pack by lia. apply full_app. lia.
Qed.
Theorem C44_vec_bool : forall c (l : list bool) append fops, wf_cfg c -> lengthN l * 8 <= max_bits c ->
  let P := vecbool_bitvecpush c in let f0 := (l, if append : bool then lengthN l else 0) in
  let roomb := fun n => n * 8 <=? max_bits c in
  along (spec_fstep P roomb) (fop_ok c P) f0 fops ->
  exists n0, forall fuel, (n0 <= fuel)%nat ->
    fst (file_program c P append fuel l fops) = fst (spec_run (spec_fstep P roomb) f0 fops) /\
    match snd (spec_run (spec_fstep P roomb) f0 fops) with
    | Some (l', _) => snd (file_program c P append fuel l fops) = Ok l'
    | None => panics (snd (file_program c P append fuel l fops))
    end.
Proof.
  intros c l append fops Hc Hl P f0 roomb Hf.
  assert (LP : lawful_push c P (R_bools c) (fun n => roomb n = true)).
  { destruct (vecbool_lawful_push c) as [A1 A2 A3 A4]. split; auto.
    - intros t0 l0 b H0 H1. apply A1; auto. unfold room_bools, roomb in *. lia.
    - intros t0 l0 b H0 H1. apply A2 with (l := l0); auto. unfold room_bools, roomb in *. lia. }
  destruct (C44_file _ c P (R_bools c) roomb append l l fops Hc (vecbool_lawful_bits c Hc) (vecbool_lawful_blocks c Hc)
              (vecbool_setblock c Hc) LP (conj eq_refl Hl) Hf) as [n0 K].
  exists n0. intros fuel Hfu. destruct (K fuel Hfu) as [K1 K2]. split; [exact K1|]. fold f0 in K2.
  destruct (snd (spec_run (spec_fstep P roomb) f0 fops)) as [[l' p']|]; [|exact K2].
  destruct K2 as (v' & E & [-> _] & _). exact E.
Qed.
Definition C44_ops : list fop :=
  [ FWrite true; FWrite false; FSeek 2; FRead; FPosition; FWrite true; FWrite true; FRead; FSeek 9; FSeek 0; FRead; FSetBits 1 3 4; FGetBits 0 5;
    FBitLen; FWrite false; FRead; FGetBit 9 ].
Example C44_ex :
  along (spec_fstep (vecbool_bitvecpush dbg64) (fun n => n * 8 <=? max_bits dbg64)) (fop_ok dbg64 (vecbool_bitvecpush dbg64)) ([false; true; true; false], 0) C44_ops /\
  file_program dbg64 (vecbool_bitvecpush dbg64) false 5 [false; true; true; false] C44_ops =
  ([FIo (IOk OUnit); FIo (IOk OUnit); FIo (IOk OUnit); FIo (IOk (OOptBool (Some true))); FVal (OInt 3); FIo (IOk OUnit); FIo (IOk OUnit);
    FIo (IOk (OOptBool None)); FIo (IErr NotFound); FIo (IOk OUnit); FIo (IOk (OOptBool (Some true))); FVal OUnit; FVal (OInt 25); FVal (OInt 5);
    FIo (IOk OUnit); FIo (IOk (OOptBool (Some false)))], Panic PAssert).
Proof. split; vm_compute; intuition congruence. Qed.

(** ** C45: true for every store whose blocks can all be read; for a slice a bit can be read
    exactly when the block it lies in is complete. *)
Theorem C45_read_all_partial : forall T c (B : bitvec T) (R : T -> list bool -> Prop) t l,
  wf_cfg c -> lawful_bits c B R -> lawful_blocks c B R -> R t l ->
  exists s', reads (bb_source c B) (bb_from t) l s' /\ stops (bb_source c B) s' (IOk None) s'.
Proof. intros T c B R t l Hc LB LK HR. eexists. apply (bb_reads_all c B R Hc LB LK t l HR). Qed.
Theorem C45_slice_partial : forall T c (B : bitvec T) (R : T -> list bool -> Prop) sl l p b,
  wf_cfg c -> lawful_bits c B R -> R (sl_data sl) l -> sl_start sl + sl_len sl <= lengthN l ->
  p < sl_len sl -> nthN l (sl_start sl + p) = Some b ->
  let nb := bv_nb B in let bb q := {| bb_data := sl; bb_pos := q |} in
  ((p / nb + 1) * nb <= sl_len sl -> bb_read_bit c (slice_bitvec c B) (bb p) = Ok (IOk (Some b), bb (p + 1))) /\
  (sl_len sl < (p / nb + 1) * nb -> panics (bb_read_bit c (slice_bitvec c B) (bb p))).
Proof.
  intros T c B R sl l p b Hc LB HR Hl Hp Hb nb bb. pose proof (lb_nb _ _ _ LB) as Hnb. fold nb in Hnb. pose proof (wf_nb_range nb Hnb) as nbr.
  assert (HS : R_slice R sl (sub (sl_start sl) (sl_len sl) l)) by (left; exists l; auto).
  pose proof (R_slice_len c B R Hc LB sl _ HS) as El. pose proof (base_63 c B R Hc LB _ _ HR) as H63.
  pose proof (N.div_mod p nb ltac:(lia)) as Ed. pose proof (N.mod_lt p nb ltac:(lia)) as Hm.
  assert (Ha : address_new c nb p = Ok {| block_index := p / nb; bit_offset := p mod nb |}).
  { apply (address_in c nb (sl_len sl)); auto. apply (fits_mono c nb _ (lengthN l)); [lia|lia|]. exact (lb_fits _ _ _ LB _ _ HR). }
  unfold bb_read_bit, bb_bit_len. cbn [bb bb_data bb_pos slice_bitvec bv_bit_len slice_bit_len bind].
  destruct (p <? sl_len sl) eqn:E; [|lia].
  unfold bb_get_bit, default_get_bit, bb_bit_len, bb_get_block. cbn [bb bb_data bb_pos slice_bitvec bv_nb bv_get_block bv_bit_len slice_bit_len bind]. fold nb.
  rewrite assert_true by exact E. cbn [bind]. rewrite Ha. cbn [bind block_index bit_offset]. set (i := p / nb) in *. set (r := p mod nb) in *. clearbody i r. split; intros Hi.
  - rewrite (slice_get_block_ok c B R Hc LB sl _ i HS) by (fold nb; lia). fold nb. cbn [bind]. rewrite blk_get_bit_ok by lia. cbn [bind]. rewrite wadd_ok by lia. cbn [bind].
    do 4 f_equal. rewrite testbit_block_of. destruct (r <? nb) eqn:Er; [|lia]. cbn [andb]. rewrite bit_at_sub. destruct (i * nb + r <? sl_len sl) eqn:E2; [|lia]. cbn [andb].
    apply bit_at_Some. rewrite <- Hb. f_equal. lia.
  - unfold slice_get_block. fold nb. rewrite mul_nbits_ok by (auto; nia). cbn [bind].
    destruct (slice_get_bits_oob c B sl (i * nb) nb) as (q & Eq); [lia|]. rewrite Eq. cbn [bind]. eexists. reflexivity.
Qed.
Theorem C45_slice_refuted : exists c sl, wf_cfg c /\
  slice_new (blocks_bitvec c 8) [181; 7] (Range 0 11) = Ok sl /\
  slice_get_bit c (blocks_bitvec c 8) sl 8 = Ok true /\
  exists bb, read_int c (bb_source c (slice_bitvec c (blocks_bitvec c 8))) 8 8 (bb_from sl) = Ok (IOk (Some 181), bb) /\
  panics (bb_read_bit c (slice_bitvec c (blocks_bitvec c 8)) bb).
Proof.
  exists dbg64, {| sl_data := [181; 7]; sl_start := 0; sl_len := 11 |}. split; [auto with wf|]. split; [vm_compute; reflexivity|].
  split; [vm_compute; reflexivity|]. eexists. split; [vm_compute; reflexivity|]. eexists. vm_compute. reflexivity.
Qed.
Example C45_ex : exists s',
  read_int dbg64 (bb_source dbg64 (slice_bitvec dbg64 (blocks_bitvec dbg64 8))) 16 16 (bb_from {| sl_data := [181; 7; 3]; sl_start := 3; sl_len := 16 |}) = Ok (IOk (Some 24822), s') /\
  read_bit (bb_source dbg64 (slice_bitvec dbg64 (blocks_bitvec dbg64 8))) s' = Ok (IOk None, s').
Proof. exists {| bb_data := {| sl_data := [181; 7; 3]; sl_start := 3; sl_len := 16 |}; bb_pos := 16 |}. split; vm_compute; reflexivity. Qed.

Print Assumptions C41_write_int.
Print Assumptions C41_write_int_be.
Print Assumptions C41_read_int.
Print Assumptions C41_read_int_be.
Print Assumptions C41_queue_roundtrip.
Print Assumptions C42_zero_width_partial.
Print Assumptions C42_zero_width_refuted.
Print Assumptions C43_end_of_stream.
Print Assumptions C43_queue.
Print Assumptions C44_file.
Print Assumptions C44_bitvector.
Print Assumptions C44_vec_bool.
Print Assumptions C45_read_all_partial.
Print Assumptions C45_slice_partial.
Print Assumptions C45_slice_refuted.
