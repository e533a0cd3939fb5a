(** * What [get_bits] and [set_bits] do for every span (C85): every start, every count, in range or not, empty, longer than a block,
    with an end beyond 2^64; every implementation of the traits; both kinds of build, 32-bit and 64-bit targets. *)
From Verif Require Import Machine MStorage MTraits MVectorBase MBitVector MIntVector MBitSlice SpecBits SpecCfg SpecLaws SpecOps
  PBase PStorage PBits PVectorBase PBitVector PIntVector PBlocks PDefaults PRun PIntRun PLong PSlice Properties13 Properties18 Properties21.

(** What is read from the span of [n] bits at [s] of the sequence [l] in blocks of [nb] bits; [None] is a panic.  A span must lie inside
    the sequence.  The empty span at the very end is refused if the end lies on a block boundary.  A span of up to a block is read as it
    is.  A longer one is refused if it reaches into a third block; from the middle of a block its first [nb] bits are read; from the
    start of a block it is refused with overflow checks, and without them the second block is laid over the first. *)
Definition span_read (c : cfg) (nb : N) (l : list bool) (s n : N) : option N :=
  if lengthN l <? s + n then None
  else if (n =? 0) && (s =? lengthN l) && (s mod nb =? 0) then None
  else if n <=? nb then Some (int_of (sub s n l))
  else if 2 * nb <? s mod nb + n then None
  else if s mod nb =? 0 then if debug c then None else Some (N.lor (int_of (sub s nb l)) (int_of (sub (s + nb) (n - nb) l)))
  else Some (int_of (sub s nb l)).
(** The sequence after writing [x] to the span: the spans are the same.  From the middle of a block the value is extended with zeros; from
    the start of a block, without overflow checks, it is written twice. *)
Definition span_write (c : cfg) (nb : N) (l : list bool) (s n x : N) : option (list bool) :=
  match span_read c nb l s n with
  | None => None
  | Some _ => Some (put s (if (nb <? n) && (s mod nb =? 0) then bits_of nb x ++ bits_of (n - nb) x else bits_of n x) l)
  end.
Definition reads_spans {T} (c : cfg) (B : bitvec T) (t : T) (l : list bool) : Prop :=
  forall s n, s < 2 ^ 64 -> n < 2 ^ ptr c ->
  match span_read c (bv_nb B) l s n with Some x => bv_get_bits B t s n = Ok x | None => panics (bv_get_bits B t s n) end.
Definition writes_spans {T} (c : cfg) (M : bitvecmut T) (R : T -> list bool -> Prop) (t : T) (l : list bool) : Prop :=
  forall s n x, s < 2 ^ 64 -> n < 2 ^ ptr c -> x < 2 ^ bv_nb (bm_bv M) ->
  match span_write c (bv_nb (bm_bv M)) l s n x with Some l' => exists t', bm_set_bits M t s n x = Ok t' /\ R t' l' | None => panics (bm_set_bits M t s n x) end.

Section Default.
  Context {T : Type} (c : cfg) (nb : N).
  Variables (bit_len : T -> res N) (get_block : T -> N -> res N) (set_block : T -> N -> N -> res T).
  Variables (t : T) (l : list bool).
  Hypothesis Hc : wf_cfg c.
  Hypothesis Hnb : wf_nb nb.
  Hypothesis Hlen : bit_len t = Ok (lengthN l).
  Hypothesis Hfits : fits c nb (lengthN l).
  Hypothesis Hblk : forall i, i * nb < lengthN l -> get_block t i = Ok (block_of nb i l).
  Hypothesis Hoob : forall i, lengthN l <= i * nb -> i < 2 ^ ptr c -> panics (get_block t i).

  Lemma end_address : lengthN l mod nb = 0 -> address_new c nb (lengthN l) = Ok {| block_index := lengthN l / nb; bit_offset := 0 |} /\
    lengthN l / nb < 2 ^ ptr c /\ lengthN l <= 2 ^ 63 /\ lengthN l / nb * nb = lengthN l.
  Proof.
    intros H0. pose proof (wf_nb_range nb Hnb) as Hr. pose proof (fits_lt64 c nb (lengthN l) (wf_nb_pos nb Hnb) Hfits) as H63.
    pose proof (fits_ptr c nb (lengthN l) Hc Hnb Hfits) as Hp. pose proof (N.div_mod (lengthN l) nb ltac:(lia)) as Ed.
    assert (Hq : lengthN l / nb < 2 ^ ptr c).
    { eapply N.le_lt_trans; [|exact Hp]. unfold blocks_for. apply N.div_le_mono; lia. }
    split; [|split; [exact Hq|split; [lia|lia]]]. rewrite address_new_ok by (auto; lia). now rewrite H0.
  Qed.
  Lemma default_end_get : lengthN l mod nb = 0 -> panics (default_get_bits c nb bit_len get_block t (lengthN l) 0).
  Proof.
    intros H0. destruct (end_address H0) as (Ea & Hq & H63 & Em). pose proof (wf_nb_range nb Hnb) as Hr. pose proof (wf_ptr c Hc) as Hp.
    assert (2 ^ 63 < 2 ^ 64) by reflexivity. unfold default_get_bits. rewrite wadd_ok by lia. cbn [bind]. rewrite Hlen. cbn [bind].
    rewrite assert_true by lia. cbn [bind]. rewrite Ea. cbn [bind block_index bit_offset]. rewrite wsub_ok by lia. cbn [bind].
    destruct (0 <=? nb - 0) eqn:E; [|lia]. destruct (Hoob (lengthN l / nb) ltac:(lia) Hq) as [k ->]. cbn [bind]. eexists. reflexivity.
  Qed.
  Lemma default_end_set x : lengthN l mod nb = 0 -> panics (default_set_bits c nb bit_len get_block set_block t (lengthN l) 0 x).
  Proof.
    intros H0. destruct (end_address H0) as (Ea & Hq & H63 & Em). pose proof (wf_nb_range nb Hnb) as Hr. pose proof (wf_ptr c Hc) as Hp.
    assert (2 ^ 63 < 2 ^ 64) by reflexivity. unfold default_set_bits. rewrite wadd_ok by lia. cbn [bind]. rewrite Hlen. cbn [bind].
    rewrite assert_true by lia. cbn [bind]. rewrite Ea. cbn [bind block_index bit_offset]. rewrite wsub_ok by lia. cbn [bind].
    destruct (0 <=? nb - 0) eqn:E; [|lia]. destruct (Hoob (lengthN l / nb) ltac:(lia) Hq) as [k ->]. cbn [bind]. eexists. reflexivity.
  Qed.
  Lemma default_reads s n : s < 2 ^ 64 -> n < 2 ^ ptr c ->
    match span_read c nb l s n with
    | Some x => default_get_bits c nb bit_len get_block t s n = Ok x
    | None => panics (default_get_bits c nb bit_len get_block t s n)
    end.
  Proof.
    intros Hs Hn. unfold span_read. destruct (lengthN l <? s + n) eqn:E1.
    { apply def_get_bits_oob_all with (l := l); auto. lia. }
    destruct ((n =? 0) && (s =? lengthN l) && (s mod nb =? 0)) eqn:E2.
    { apply andb_prop in E2. destruct E2 as [E2 E3]. apply andb_prop in E2. destruct E2 as [E2 E4]. apply N.eqb_eq in E2, E3, E4. subst s n. now apply default_end_get. }
    destruct (n <=? nb) eqn:E3.
    { apply def_get_bits; auto; try lia. }
    destruct (2 * nb <? s mod nb + n) eqn:E4.
    { apply (long_get c nb bit_len get_block set_block t l); auto; lia. }
    destruct (s mod nb =? 0) eqn:E5.
    - destruct (debug c) eqn:Ed.
      + apply (long_get c nb bit_len get_block set_block t l); auto; [lia|]. right. split; [lia|]. split; [now apply N.eqb_eq|exact Ed].
      + rewrite (long_get_ok c nb bit_len get_block set_block t l) by (auto; lia). now rewrite E5.
    - rewrite (long_get_ok c nb bit_len get_block set_block t l) by (auto; lia). now rewrite E5.
  Qed.
  Variable R : T -> list bool -> Prop.
  Hypothesis Ht : R t l.
  Hypothesis Hset : forall t' l' i v, R t' l' -> lengthN l' = lengthN l -> i * nb < lengthN l -> v < 2 ^ nb ->
    exists t'', set_block t' i v = Ok t'' /\ R t'' (set_block_of nb i v l').
  Lemma default_writes s n x : s < 2 ^ 64 -> n < 2 ^ ptr c -> x < 2 ^ nb ->
    match span_write c nb l s n x with
    | Some l' => exists t', default_set_bits c nb bit_len get_block set_block t s n x = Ok t' /\ R t' l'
    | None => panics (default_set_bits c nb bit_len get_block set_block t s n x)
    end.
  Proof.
    intros Hs Hn Hx. unfold span_write, span_read. destruct (lengthN l <? s + n) eqn:E1.
    { apply def_set_bits_oob_all with (l := l); auto. lia. }
    destruct ((n =? 0) && (s =? lengthN l) && (s mod nb =? 0)) eqn:E2.
    { apply andb_prop in E2. destruct E2 as [E2 E3]. apply andb_prop in E2. destruct E2 as [E2 E4]. apply N.eqb_eq in E2, E3, E4. subst s n. now apply default_end_set. }
    destruct (n <=? nb) eqn:E3.
    { destruct (nb <? n) eqn:E4; [lia|]. cbn [andb]. apply def_set_bits with (R := R); auto; try lia. }
    destruct (nb <? n) eqn:E3'; [|lia]. cbn [andb].
    destruct (2 * nb <? s mod nb + n) eqn:E4.
    { apply (long_set c nb bit_len get_block set_block t l); auto; lia. }
    destruct (s mod nb =? 0) eqn:E5.
    - destruct (debug c) eqn:Ed.
      + apply (long_set c nb bit_len get_block set_block t l); auto; [lia|]. right. split; [lia|]. split; [now apply N.eqb_eq|exact Ed].
      + destruct (long_set_ok c nb bit_len get_block set_block t l Hc Hnb Hlen Hfits Hblk R Ht Hset s n x) as (t' & Et & HR); auto; try lia.
        rewrite E5 in HR. eauto.
    - destruct (long_set_ok c nb bit_len get_block set_block t l Hc Hnb Hlen Hfits Hblk R Ht Hset s n x) as (t' & Et & HR); auto; try lia.
      rewrite E5 in HR. eauto.
  Qed.
End Default.

(** ** The implementations *)

(** The bits of [t], read one by one, are [l]. *)
Definition bits_are {T} (B : bitvec T) (t : T) (l : list bool) : Prop :=
  bv_bit_len B t = Ok (lengthN l) /\ forall i b, nthN l i = Some b -> bv_get_bit B t i = Ok b.
Definition spans {T} (c : cfg) (M : bitvecmut T) (t : T) (l : list bool) : Prop :=
  reads_spans c (bm_bv M) t l /\ writes_spans c M (bits_are (bm_bv M)) t l.

Lemma spans_default {T} c (M : bitvecmut T) (R : T -> list bool -> Prop) t l : wf_cfg c ->
  lawful_bits c (bm_bv M) R -> lawful_blocks c (bm_bv M) R ->
  (forall t l i v, R t l -> i * bv_nb (bm_bv M) < lengthN l -> v < 2 ^ bv_nb (bm_bv M) ->
    exists t', bm_set_block M t i v = Ok t' /\ R t' (set_block_of (bv_nb (bm_bv M)) i v l)) ->
  bv_get_bits (bm_bv M) = default_get_bits c (bv_nb (bm_bv M)) (bv_bit_len (bm_bv M)) (bv_get_block (bm_bv M)) ->
  bm_set_bits M = default_set_bits c (bv_nb (bm_bv M)) (bv_bit_len (bm_bv M)) (bv_get_block (bm_bv M)) (bm_set_block M) ->
  R t l -> spans c M t l.
Proof.
  intros Hc LB LK LS Eg Es HR. split.
  - intros s n Hs Hn. rewrite Eg. apply (default_reads c _ _ _ (bm_set_block M)); auto.
    + apply (lb_nb _ _ _ LB). + now apply (lb_bit_len _ _ _ LB t l). + now apply (lb_fits _ _ _ LB t l).
    + intros i Hi. now apply (lk_get_block _ _ _ LK). + intros i Hi Hp. now apply (lk_get_block_oob _ _ _ LK t l).
  - intros s n x Hs Hn Hx. rewrite Es.
    pose proof (default_writes c (bv_nb (bm_bv M)) (bv_bit_len (bm_bv M)) (bv_get_block (bm_bv M)) (bm_set_block M) t l Hc (lb_nb _ _ _ LB) (lb_bit_len _ _ _ LB t l HR) (lb_fits _ _ _ LB t l HR)
      (fun i Hi => lk_get_block _ _ _ LK t l i HR Hi) (fun i Hi Hp => lk_get_block_oob _ _ _ LK t l i HR Hi Hp) R HR) as K.
    specialize (K ltac:(intros t' l' i v HR' El Hi Hv; apply LS; auto; lia) s n x Hs Hn Hx). destruct (span_write _ _ _ _ _ _) as [l'|]; [|exact K].
    destruct K as (t' & Et & HR'). exists t'. split; [exact Et|]. split; [now apply (lb_bit_len _ _ _ LB)|]. intros i b Hi. exact (lb_get_bit _ _ _ LB t' l' i b HR' Hi).
Qed.

(** Slices and vectors of blocks *)
Theorem C85_blocks : forall c nb v, wf_cfg c -> wf_nb nb -> valid_blocks c nb v -> spans c (blocks_bitvecmut c nb) v (bits_of_blocks nb v).
Proof.
  intros c nb v Hc Hnb Hv. apply (spans_default c (blocks_bitvecmut c nb) (R_blocks c nb)); auto.
  - now apply blocks_lawful_bits. - now apply blocks_lawful_blocks. - intros. now apply blocks_set_block_ok.
  - apply R_blocks_valid; [now apply wf_nb_pos|exact Hv].
Qed.
(** Bit vectors, after any program of calls *)
Theorem C85_bit_vector : forall c nb t ops v l, wf_cfg c -> wf_nb nb -> bprogram_ok c nb t ops -> bvec_ends c nb t ops v ->
  snd (spec_bprogram c nb t ops) = Some l -> spans c (bvec_bitvecmut c nb) v l.
Proof.
  intros c nb t ops v l Hc Hnb O E S. destruct (bvec_ends_R c nb t ops v Hc Hnb O E) as [l0 [S' HR]]. rewrite S in S'. injection S' as <-.
  apply (spans_default c (bvec_bitvecmut c nb) (R_bv c nb)); auto.
  - now apply bvec_lawful_bits. - now apply bvec_lawful_blocks. - intros. now apply (lmk_set_block _ _ _ (bvec_lawful_mutblocks c nb Hc Hnb)).
Qed.
(** Integer vectors, after any program of calls: the bits are those of the elements *)
Theorem C85_int_vector : forall c nb k t ops v xs, wf_cfg c -> wf_nb nb -> 1 <= k <= nb ->
  iprogram_ok c nb k t ops -> iv_ends c nb k t ops v -> snd (spec_iprogram c nb k t ops) = Some xs ->
  spans c (iv_bitvecmut c nb) v (bits_of_blocks k xs).
Proof.
  intros c nb k t ops v xs Hc Hnb Hk O E S. destruct (iv_ends_R c nb k Hc Hnb Hk t ops v O E) as [l0 [S' HR]]. rewrite S in S'. injection S' as <-.
  apply (spans_default c (iv_bitvecmut c nb) (R_ivb c nb k)); auto.
  - now apply iv_lawful_bits. - now apply iv_lawful_blocks. - intros. now apply (lmk_set_block _ _ _ (iv_lawful_mutblocks c nb k Hc Hnb Hk)).
  - now apply R_iv_bits.
Qed.
(** [Vec<bool>] *)
Theorem C85_vec_bool : forall c (l : list bool), wf_cfg c -> lengthN l * 8 <= max_bits c -> spans c (vecbool_bitvecmut c) l l.
Proof.
  intros c l Hc Hl. apply (spans_default c (vecbool_bitvecmut c) (R_bools c)); auto.
  - now apply vecbool_lawful_bits. - now apply vecbool_lawful_blocks. - intros. now apply vb8_set_block_ok.
  - now split.
Qed.

(** Primitive integers have [get_bits] and [set_bits] of their own: up to the width of the integer everything is read and written, the
    empty span at the end too; beyond it everything is refused, but for a span whose end passes 2^64 in a build without overflow checks
    and comes out inside the integer: that one is taken at [s] modulo the width, and long if it is an odd number of widths. *)
Theorem C85_prim : forall c nb x s n v, wf_cfg c -> wf_nb nb -> x < 2 ^ nb -> v < 2 ^ nb -> s < 2 ^ 64 -> n < 2 ^ ptr c ->
  let B := prim_bitvec c nb in let M := prim_bitvecmut c nb in
  (s + n <= nb -> bv_get_bits B x s n = Ok ((x / 2 ^ s) mod 2 ^ n) /\ exists y, bm_set_bits M x s n v = Ok y /\
     forall j, N.testbit y j = if (s <=? j) && (j <? s + n) then N.testbit v (j - s) else N.testbit x j) /\
  (nb < s + n -> s + n < 2 ^ 64 \/ debug c = true \/ 2 ^ 64 + nb < s + n -> panics (bv_get_bits B x s n) /\ panics (bm_set_bits M x s n v)) /\
  (debug c = false -> 2 ^ 64 <= s + n <= 2 ^ 64 + nb ->
     (exists r, bv_get_bits B x s n = Ok r /\
        forall j, N.testbit r j = (N.odd (n / nb) || (j <? n mod nb)) && N.testbit x (j + s mod nb)) /\
     (exists y, bm_set_bits M x s n v = Ok y /\ forall j, N.testbit y j =
        if (s mod nb <=? j) && (j <? nb) && (N.odd (n / nb) || (j - s mod nb <? n mod nb))
        then N.testbit v (j - s mod nb) else N.testbit x j)).
Proof.
  intros c nb x s n v Hc Hnb Hx Hv Hs Hn B M. pose proof (wf_nb_range nb Hnb) as Hr. pose proof (wf_ptr c Hc) as Hp.
  destruct (C68_reads c nb x Hc Hnb Hx) as (_ & _ & _ & _ & _ & Cr). destruct (C68_writes c nb x Hc Hnb Hx) as (_ & _ & Cw).
  destruct (C68_out_of_bounds c nb x Hc Hnb) as (_ & _ & Co). split; [|split].
  - intros H. split; [now apply Cr|]. destruct (Cw s n v H Hv) as (y & E & _ & T). eauto.
  - intros H [H1|[H1|H1]]; [now apply Co; auto|now apply Co; auto|]. destruct (debug c) eqn:Ed; [now apply Co; auto|].
    unfold B, M. cbn [bv_get_bits bm_set_bits prim_bitvec prim_bitvecmut]. unfold prim_get_bits, prim_set_bits, wadd, wrap.
    assert (2 ^ ptr c <= 2 ^ 64) by (destruct Hc as [-> | ->]; discriminate).
    destruct (s + n <? 2 ^ 64) eqn:E; [lia|]. rewrite Ed. cbn [bind].
    assert (Em : (s + n) mod 2 ^ 64 = s + n - 2 ^ 64) by (symmetry; apply (N.mod_unique _ _ 1); lia).
    rewrite Em. rewrite assert_false by lia. cbn [bind]. auto.
  - intros Hd [H1 H2]. assert (Hle : 2 ^ ptr c <= 2 ^ 64) by (destruct Hc as [-> | ->]; discriminate).
    assert (Hu : as_usize c s < 2 ^ ptr c /\ 2 ^ ptr c <= as_usize c s + n <= 2 ^ ptr c + nb /\ as_usize c s mod nb = s mod nb).
    { unfold as_usize. destruct Hc as [E|E]; rewrite E in *.
      - assert (Es : s mod 2 ^ 32 = s - (2 ^ 64 - 2 ^ 32)).
        { symmetry. apply (N.mod_unique _ _ (2 ^ 32 - 1)); [|]; change (2 ^ 64) with 18446744073709551616 in *; change (2 ^ 32) with 4294967296 in *; lia. }
        split; [apply N.mod_lt; discriminate|]. split; [rewrite Es; change (2 ^ 64) with 18446744073709551616 in *; change (2 ^ 32) with 4294967296 in *; lia|].
        assert (D : exists k, 2 ^ 32 = k * nb) by (destruct Hnb as [-> | [-> | [-> | ->]]]; [exists 536870912|exists 268435456|exists 134217728|exists 67108864]; reflexivity).
        destruct D as [k Dk]. pose proof (N.div_mod s (2 ^ 32) ltac:(discriminate)) as Ed. set (r := s mod 2 ^ 32) in *. clearbody r.
        rewrite Ed, Dk. replace (k * nb * (s / (k * nb)) + r) with (r + s / (k * nb) * k * nb) by (clear; nia). symmetry. apply N.mod_add. lia.
      - rewrite N.mod_small by lia. split; [lia|]. split; [lia|reflexivity]. }
    destruct Hu as (U1 & U2 & U3). destruct (C62_wrapped c nb x (as_usize c s) n v Hc Hnb Hd Hx Hv U1 Hn (proj1 U2)) as [_ K].
    specialize (K (proj2 U2)). rewrite !U3 in K.
    unfold B, M. cbn [bv_get_bits bm_set_bits prim_bitvec prim_bitvecmut]. unfold prim_get_bits, prim_set_bits, wadd, wrap.
    destruct (s + n <? 2 ^ 64) eqn:E; [lia|]. rewrite Hd. cbn [bind].
    assert (Em : (s + n) mod 2 ^ 64 = s + n - 2 ^ 64) by (symmetry; apply (N.mod_unique _ _ 1); lia).
    rewrite Em. rewrite assert_true by lia. cbn [bind]. exact K.
Qed.

(** Slices of any store, at any depth: a span that does not lie inside the slice is refused, also when its end passes 2^64; every other
    span is the span of the base that many bits further on. *)
Theorem C85_slice : forall T c (M : bitvecmut T) t l start len p n x, wf_cfg c -> lengthN l <= 2 ^ 63 -> spans c M t l ->
  start + len <= lengthN l -> p < 2 ^ 64 -> n < 2 ^ ptr c -> x < 2 ^ bv_nb (bm_bv M) ->
  let nb := bv_nb (bm_bv M) in let sl := {| sl_data := t; sl_start := start; sl_len := len |} in
  match (if len <? p + n then None else span_read c nb l (start + p) n) with
  | Some r => slice_get_bits c (bm_bv M) sl p n = Ok r
  | None => panics (slice_get_bits c (bm_bv M) sl p n)
  end /\
  match (if len <? p + n then None else span_write c nb l (start + p) n x) with
  | Some l' => exists t', slice_set_bits c M sl p n x = Ok {| sl_data := t'; sl_start := start; sl_len := len |} /\ bits_are (bm_bv M) t' l'
  | None => panics (slice_set_bits c M sl p n x)
  end.
Proof.
  intros T c M t l start len p n x Hc H63 [HR HW] Hin Hp Hn Hx nb sl. assert (2 ^ 63 < 2 ^ 64) by reflexivity.
  destruct (len <? p + n) eqn:E1.
  { split; [apply slice_get_bits_oob|apply slice_set_bits_oob]; unfold sl; cbn [sl_len]; lia. }
  specialize (HR (start + p) n ltac:(lia) Hn). specialize (HW (start + p) n x ltac:(lia) Hn Hx). fold nb in HR, HW.
  unfold slice_get_bits, slice_set_bits, checked_add, sl, with_data. cbn [sl_start sl_len sl_data].
  destruct (p + n <? 2 ^ 64) eqn:E2; [|lia]. cbn [expect bind]. rewrite assert_true by lia. cbn [bind]. rewrite wadd_ok by lia. cbn [bind]. split.
  - exact HR.
  - destruct (span_write c nb l (start + p) n x) as [l'|].
    + destruct HW as (t' & -> & HB). cbn [bind]. exists t'. split; [reflexivity|exact HB].
    + destruct HW as [k ->]. cbn [bind]. eexists. reflexivity.
Qed.

(** [get_random] and [set_random] of [IntVector], every offset, element size and index.  The bits addressed start at [i * w + off], which
    must be below 2^64; the value to write must fit the element size.  Beyond a block the sizes count without overflow checks only: the
    mask is then full for an odd number of blocks, and otherwise as for the remainder. *)
Definition random_fits (c : cfg) (nb w x : N) : bool :=
  if w <=? nb then x <? 2 ^ w else negb (debug c) && (N.odd (w / nb) || (x <? 2 ^ (w mod nb))).
Lemma span_read_full c nb l s n : 0 < nb -> s + n <= lengthN l -> span_read c nb (full nb l) s n = span_read c nb l s n.
Proof.
  intros Hn H. unfold span_read. rewrite lengthN_full. pose proof (blocks_for_spec nb (lengthN l) Hn) as Hb.
  destruct (blocks_for nb (lengthN l) * nb <? s + n) eqn:E1; [lia|]. destruct (lengthN l <? s + n) eqn:E2; [lia|].
  assert (E : (s =? blocks_for nb (lengthN l) * nb) && (s mod nb =? 0) = (s =? lengthN l) && (s mod nb =? 0)).
  { destruct (s mod nb =? 0) eqn:E3; [|now rewrite !andb_false_r]. rewrite !andb_true_r.
    destruct (s =? lengthN l) eqn:E4; [|apply N.eqb_neq; lia].
    apply N.eqb_eq in E3, E4. apply N.eqb_eq. subst s.
    pose proof (N.div_mod (lengthN l) nb ltac:(lia)) as Ed. rewrite E3 in Ed.
    generalize dependent (blocks_for nb (lengthN l)). generalize dependent (lengthN l / nb). intros q Ed b Hb _. clear - Hb Ed Hn. assert (b = q) by nia. subst. lia. }
  rewrite <- !andb_assoc, E. destruct ((n =? 0) && _); [reflexivity|]. rewrite sub_full by (auto; lia).
  destruct (n <=? nb) eqn:E3; [reflexivity|]. rewrite !sub_full by (auto; lia). reflexivity.
Qed.
Section Base.
  Context (c : cfg) (nb k : N).
  Hypothesis Hc : wf_cfg c.
  Hypothesis Hnb : wf_nb nb.
  Hypothesis Hk : 1 <= k <= nb.
  Let nb_range := wf_nb_range nb Hnb.
  Lemma vb_reads v l s n : Vrep c nb k v l -> s < 2 ^ 64 -> n < 2 ^ ptr c ->
    match span_read c nb l s n with Some x => vb_get_bits c nb k v s n = Ok x | None => panics (vb_get_bits c nb k v s n) end.
  Proof.
    intros HV Hs Hn. destruct (lengthN l <? s + n) eqn:E1.
    { unfold span_read. rewrite E1. apply (vb_get_bits_oob c nb k Hc Hnb Hk v l); auto. lia. }
    pose proof HV as [E [El Hf]]. pose proof (fits_lt64 c nb (lengthN l) (wf_nb_pos nb Hnb) Hf). assert (2 ^ 63 < 2 ^ 64) by reflexivity.
    pose proof (R_blocks_pack c nb l (wf_nb_pos nb Hnb) Hf) as HR.
    unfold vb_get_bits. rewrite wadd_ok by lia. cbn [bind]. rewrite (vb_bits64 c nb k Hc Hnb Hk v l HV). cbn [bind]. rewrite assert_true by lia. cbn [bind]. rewrite E.
    rewrite <- span_read_full by lia. unfold blocks_get_bits.
    apply (default_reads c nb _ _ (bm_set_block (blocks_bitvecmut c nb))); auto.
    - now apply (lb_bit_len _ _ _ (blocks_lawful_bits c nb Hc Hnb) _ _ HR).
    - now apply (lb_fits _ _ _ (blocks_lawful_bits c nb Hc Hnb) _ _ HR).
    - intros i Hi. now apply (lk_get_block _ _ _ (blocks_lawful_blocks c nb Hnb) _ _ i HR).
    - intros i Hi Hp. now apply (lk_get_block_oob _ _ _ (blocks_lawful_blocks c nb Hnb) _ _ i HR).
  Qed.
  Lemma vb_writes v l s n x : Vrep c nb k v l -> s < 2 ^ 64 -> n < 2 ^ ptr c -> x < 2 ^ nb ->
    match span_write c nb l s n x with
    | Some l' => exists v', vb_set_bits c nb k v s n x = Ok v' /\ Vrep c nb k v' l' /\ vb_len v' = vb_len v
    | None => panics (vb_set_bits c nb k v s n x)
    end.
  Proof.
    intros HV Hs Hn Hx. destruct (lengthN l <? s + n) eqn:E1.
    { unfold span_write, span_read. rewrite E1. apply (vb_set_bits_oob c nb k Hc Hnb Hk v l); auto. lia. }
    pose proof HV as [E [El Hf]]. pose proof (fits_lt64 c nb (lengthN l) (wf_nb_pos nb Hnb) Hf). assert (2 ^ 63 < 2 ^ 64) by reflexivity.
    pose proof (R_blocks_pack c nb l (wf_nb_pos nb Hnb) Hf) as HR.
    unfold vb_set_bits. rewrite wadd_ok by lia. cbn [bind]. rewrite (vb_bits64 c nb k Hc Hnb Hk v l HV). cbn [bind]. rewrite assert_true by lia. cbn [bind]. rewrite E.
    unfold blocks_set_bits.
    pose proof (default_writes c nb (blocks_bit_len c nb) blocks_get_block blocks_set_block (pack nb l) (full nb l) Hc Hnb
      (lb_bit_len _ _ _ (blocks_lawful_bits c nb Hc Hnb) _ _ HR) (lb_fits _ _ _ (blocks_lawful_bits c nb Hc Hnb) _ _ HR)
      (fun i Hi => lk_get_block _ _ _ (blocks_lawful_blocks c nb Hnb) _ _ i HR Hi)
      (fun i Hi Hp => lk_get_block_oob _ _ _ (blocks_lawful_blocks c nb Hnb) _ _ i HR Hi Hp) (R_blocks c nb) HR) as K.
    specialize (K ltac:(intros t' l' i y HR' El' Hi Hy; apply blocks_set_block_ok; auto; lia) s n x Hs Hn Hx).
    unfold span_write in K |- *. rewrite span_read_full in K by lia. destruct (span_read c nb l s n) as [r|] eqn:Er; [|destruct K as [p ->]; eexists; reflexivity].
    set (w := if (nb <? n) && (s mod nb =? 0) then bits_of nb x ++ bits_of (n - nb) x else bits_of n x) in *.
    assert (Ew : lengthN w = n) by (unfold w; destruct ((nb <? n) && (s mod nb =? 0)) eqn:E3; rewrite ?lengthN_app, ?lengthN_bits_of; lia).
    destruct K as (t' & Et & [K1 K2]). rewrite Et. cbn [bind]. eexists. split; [reflexivity|]. split; [|reflexivity].
    unfold Vrep. cbn [vb_vec vb_len]. rewrite lengthN_put by lia. rewrite K1, (pack_put c nb k Hc Hnb Hk) by lia. auto.
  Qed.
End Base.
Theorem C85_get_random : forall c nb k t ops v xs off w i, wf_cfg c -> wf_nb nb -> 1 <= k <= nb ->
  iprogram_ok c nb k t ops -> iv_ends c nb k t ops v -> snd (spec_iprogram c nb k t ops) = Some xs ->
  off < 2 ^ 64 -> i < 2 ^ 64 -> w < 2 ^ ptr c ->
  match (if 2 ^ 64 <=? i * w + off then None else span_read c nb (bits_of_blocks k xs) (i * w + off) w) with
  | Some r => iv_get_random c nb v off w i = Ok r
  | None => panics (iv_get_random c nb v off w i)
  end.
Proof.
  intros c nb k t ops v xs off w i Hc Hnb Hk O E S Ho Hi Hw.
  destruct (iv_ends_R c nb k Hc Hnb Hk t ops v O E) as [l0 [S' HR]]. rewrite S in S'. injection S' as <-.
  pose proof (R_iv_bits c nb k v xs HR) as [Ek HV]. unfold iv_get_random, compute_address_random, checked_mul, checked_add.
  destruct (2 ^ 64 <=? i * w + off) eqn:E1.
  - destruct (i * w <? 2 ^ 64); cbn [expect bind]; [|auto]. destruct (i * w + off <? 2 ^ 64) eqn:E2; [lia|]. cbn [expect bind]. auto.
  - destruct (i * w <? 2 ^ 64) eqn:E2; [|lia]. destruct (i * w + off <? 2 ^ 64) eqn:E3; [|lia]. cbn [expect bind]. rewrite Ek. apply vb_reads; auto. lia.
Qed.
Theorem C85_set_random : forall c nb k t ops v xs off w i x, wf_cfg c -> wf_nb nb -> 1 <= k <= nb ->
  iprogram_ok c nb k t ops -> iv_ends c nb k t ops v -> snd (spec_iprogram c nb k t ops) = Some xs ->
  off < 2 ^ 64 -> i < 2 ^ 64 -> w < 2 ^ ptr c -> x < 2 ^ nb ->
  match (if negb (random_fits c nb w x) || (2 ^ 64 <=? i * w + off) then None else span_write c nb (bits_of_blocks k xs) (i * w + off) w x) with
  | Some l' => exists v', iv_set_random c nb v off w i x = Ok v' /\ iv_bits v' = k /\ iv_len v' = iv_len v /\ bits_are (iv_bitvec c nb) v' l'
  | None => panics (iv_set_random c nb v off w i x)
  end.
Proof.
  intros c nb k t ops v xs off w i x Hc Hnb Hk O E S Ho Hi Hw Hx. pose proof (wf_nb_range nb Hnb) as Hr.
  destruct (iv_ends_R c nb k Hc Hnb Hk t ops v O E) as [l0 [S' HR]]. rewrite S in S'. injection S' as <-.
  pose proof (R_iv_bits c nb k v xs HR) as [Ek HV]. unfold iv_set_random.
  assert (Cv : if random_fits c nb w x then check_value_random c nb w x = Ok tt else panics (check_value_random c nb w x)).
  { unfold random_fits, check_value_random. destruct (w <=? nb) eqn:E1.
    - rewrite low_mask_ok by (auto; lia). cbn [bind]. rewrite N.ones_equiv. pose proof (N.pow_nonzero 2 w ltac:(discriminate)).
      destruct (x <? 2 ^ w) eqn:E2; [rewrite assert_true by lia; reflexivity|rewrite assert_false by lia; auto].
    - destruct (debug c) eqn:Ed; cbn [negb andb].
      + unfold low_mask, debug_assert. rewrite Ed, E1. cbn [bind]. auto.
      + rewrite low_mask_release by auto. cbn [bind]. unfold wrapped_mask. destruct (N.odd (w / nb)); cbn [orb];
          rewrite N.ones_equiv; [pose proof (N.pow_nonzero 2 nb ltac:(discriminate)); rewrite assert_true by lia; reflexivity|].
        pose proof (N.pow_nonzero 2 (w mod nb) ltac:(discriminate)).
        destruct (x <? 2 ^ (w mod nb)) eqn:E2; [rewrite assert_true by lia; reflexivity|rewrite assert_false by lia; auto]. }
  destruct (random_fits c nb w x); cbn [negb orb]; [|apply bind_panics; exact Cv]. rewrite Cv. cbn [bind].
  unfold compute_address_random, checked_mul, checked_add.
  destruct (2 ^ 64 <=? i * w + off) eqn:E1.
  - destruct (i * w <? 2 ^ 64); cbn [expect bind]; [|auto]. destruct (i * w + off <? 2 ^ 64) eqn:E2; [lia|]. cbn [expect bind]. auto.
  - destruct (i * w <? 2 ^ 64) eqn:E2; [|lia]. destruct (i * w + off <? 2 ^ 64) eqn:E3; [|lia]. cbn [expect bind]. rewrite Ek.
    pose proof (vb_writes c nb k Hc Hnb Hk (iv_base v) (bits_of_blocks k xs) (i * w + off) w x HV ltac:(lia) Hw Hx) as K.
    destruct (span_write _ _ _ _ _ _) as [l'|]; [|apply bind_panics; exact K].
    destruct K as (b & Eb & HVb & Elen). rewrite Eb. cbn [bind]. eexists. split; [reflexivity|]. split; [reflexivity|]. split; [exact Elen|].
    assert (HR' : R_ivb c nb k {| iv_bits := k; iv_base := b |} l') by (split; [reflexivity|exact HVb]).
    pose proof (iv_lawful_bits c nb k Hc Hnb Hk) as LB. split; [now apply (lb_bit_len _ _ _ LB)|]. intros j y Hj. exact (lb_get_bit _ _ _ LB _ _ j y HR' Hj).
Qed.

Definition ex_blocks : list N := [181; 60; 255].
Example C85_ex : valid_blocks rel64 8 ex_blocks /\ spans rel64 (blocks_bitvecmut rel64 8) ex_blocks (bits_of_blocks 8 ex_blocks) /\
  (* inside, across a boundary, empty, empty at the end, beyond the end *)
  map (fun p => span_read rel64 8 (bits_of_blocks 8 ex_blocks) (fst p) (snd p)) [(0, 8); (5, 7); (16, 0); (24, 0); (20, 5)] =
    [Some 181; Some 101; Some 0; None; None] /\
  (* twelve bits: from the middle of a block, from its start without and with checks, into a third block *)
  span_read rel64 8 (bits_of_blocks 8 ex_blocks) 3 12 = Some 150 /\ span_read rel64 8 (bits_of_blocks 8 ex_blocks) 0 12 = Some 189 /\
  span_read dbg64 8 (bits_of_blocks 8 ex_blocks) 0 12 = None /\ span_read rel64 8 (bits_of_blocks 8 ex_blocks) 6 12 = None /\
  default_get_bits rel64 8 (bv_bit_len (blocks_bitvec rel64 8)) (bv_get_block (blocks_bitvec rel64 8)) ex_blocks 0 12 = Ok 189 /\
  bm_set_bits (blocks_bitvecmut rel64 8) ex_blocks 0 12 0 = Ok [0; 48; 255] /\
  bm_set_bits (blocks_bitvecmut rel64 8) ex_blocks 3 12 0 = Ok [5; 0; 255] /\
  bv_get_bits (blocks_bitvec rel64 8) ex_blocks (2 ^ 64 - 1) 3 = Panic PIndex /\
  (* a vector of five bits: the empty span at the end lies inside its block *)
  span_read dbg64 8 [true; false; true; true; false] 5 0 = Some 0 /\
  bvec_get_bits dbg64 8 {| vb_len := 5; vb_vec := [13] |} 5 0 = Ok 0 /\
  (* integers *)
  bv_get_bits (prim_bitvec rel64 8) 181 8 0 = Ok 0 /\ bv_get_bits (prim_bitvec rel64 8) 181 (2 ^ 64 - 6) 9 = Ok 45 /\
  bv_get_bits (prim_bitvec rel32 8) 181 (2 ^ 64 - 6) 9 = Ok 45 /\ bv_get_bits (prim_bitvec dbg32 8) 181 (2 ^ 64 - 6) 9 = Panic POverflow /\
  (* a slice of the blocks *)
  slice_get_bits rel64 (blocks_bitvec rel64 8) {| sl_data := ex_blocks; sl_start := 3; sl_len := 14 |} 2 7 = Ok 101 /\
  slice_get_bits rel64 (blocks_bitvec rel64 8) {| sl_data := ex_blocks; sl_start := 3; sl_len := 14 |} 8 7 = Panic PAssert.
Proof.
  assert (V : valid_blocks rel64 8 ex_blocks) by (split; [repeat constructor|vm_compute; congruence]).
  split; [exact V|]. split; [apply C85_blocks; auto with wf|]. repeat (split; [vm_compute; reflexivity|]). vm_compute. reflexivity.
Qed.
Example C85_vector_ex : exists v l, bprogram_ok rel64 8 (BBlockWithFill 3 165) [] /\ bvec_ends rel64 8 (BBlockWithFill 3 165) [] v /\
  snd (spec_bprogram rel64 8 (BBlockWithFill 3 165) []) = Some l /\ spans rel64 (bvec_bitvecmut rel64 8) v l /\
  bvec_get_bits rel64 8 v 3 12 = Ok 180 /\ bvec_get_bits rel64 8 v 24 0 = Panic PIndex.
Proof.
  exists {| vb_len := 24; vb_vec := [165; 165; 165] |}, (bits_of_blocks 8 [165; 165; 165]).
  assert (P : bprogram_ok rel64 8 (BBlockWithFill 3 165) []) by (repeat split; vm_compute; congruence).
  assert (E : bvec_ends rel64 8 (BBlockWithFill 3 165) [] {| vb_len := 24; vb_vec := [165; 165; 165] |}).
  { exists 10%nat. intros fuel Hf. do 10 (destruct fuel as [|fuel]; [lia|]). vm_compute. reflexivity. }
  assert (S : snd (spec_bprogram rel64 8 (BBlockWithFill 3 165) []) = Some (bits_of_blocks 8 [165; 165; 165])) by (vm_compute; reflexivity).
  split; [exact P|]. split; [exact E|]. split; [exact S|]. split; [now apply (C85_bit_vector rel64 8 (BBlockWithFill 3 165) []); auto with wf|].
  split; vm_compute; reflexivity.
Qed.
Example C85_int_vector_ex : exists v, iprogram_ok rel64 8 5 (IWithFill 4 19) [] /\ iv_ends rel64 8 5 (IWithFill 4 19) [] v /\
  snd (spec_iprogram rel64 8 5 (IWithFill 4 19) []) = Some [19; 19; 19; 19] /\ spans rel64 (iv_bitvecmut rel64 8) v (bits_of_blocks 5 [19; 19; 19; 19]) /\
  bv_get_bits (iv_bitvec rel64 8) v 3 7 = Ok 78.
Proof.
  eexists. assert (P : iprogram_ok rel64 8 5 (IWithFill 4 19) []) by (repeat split; vm_compute; congruence).
  assert (E : iv_ends rel64 8 5 (IWithFill 4 19) [] {| iv_bits := 5; iv_base := {| vb_len := 4; vb_vec := [115; 206; 9] |} |}).
  { exists 40%nat. intros fuel Hf. do 40 (destruct fuel as [|fuel]; [lia|]). vm_compute. reflexivity. }
  assert (S : snd (spec_iprogram rel64 8 5 (IWithFill 4 19) []) = Some [19; 19; 19; 19]) by (vm_compute; reflexivity).
  split; [exact P|]. split; [exact E|]. split; [exact S|]. split; [apply (C85_int_vector rel64 8 5 (IWithFill 4 19) []); auto with wf; lia|].
  vm_compute. reflexivity.
Qed.

Example C85_random_ex : exists v, iprogram_ok rel64 8 5 (IWithFill 4 19) [] /\ iv_ends rel64 8 5 (IWithFill 4 19) [] v /\
  snd (spec_iprogram rel64 8 5 (IWithFill 4 19) []) = Some [19; 19; 19; 19] /\
  (* no element at all, at the end; a whole block; twelve bits; seventeen; an overflowing index *)
  iv_get_random rel64 8 v 20 0 7 = Ok 0 /\ iv_get_random rel64 8 v 4 8 1 = Ok 156 /\ iv_get_random rel64 8 v 3 12 0 = Ok 206 /\
  span_read rel64 8 (bits_of_blocks 5 [19; 19; 19; 19]) 3 12 = Some 206 /\ iv_get_random rel64 8 v 3 17 0 = Panic PAssert /\
  iv_get_random rel64 8 v (2 ^ 63) 2 (2 ^ 62) = Panic PExpect /\
  iv_set_random rel64 8 v 0 0 0 1 = Panic PAssert /\ random_fits rel64 8 12 200 = true /\ random_fits rel64 8 18 4 = false /\
  iv_set_random rel64 8 v 3 12 0 200 = Ok {| iv_bits := 5; iv_base := {| vb_len := 4; vb_vec := [67; 134; 9] |} |} /\
  iv_set_random dbg64 8 v 3 12 0 200 = Panic PDebug.
Proof.
  exists {| iv_bits := 5; iv_base := {| vb_len := 4; vb_vec := [115; 206; 9] |} |}.
  split; [repeat split; vm_compute; congruence|]. split.
  { exists 40%nat. intros fuel Hf. do 40 (destruct fuel as [|fuel]; [lia|]). vm_compute. reflexivity. }
  repeat (split; [vm_compute; reflexivity|]). vm_compute. reflexivity.
Qed.

Print Assumptions C85_get_random.
Print Assumptions C85_set_random.
Print Assumptions C85_blocks.
Print Assumptions C85_bit_vector.
Print Assumptions C85_int_vector.
Print Assumptions C85_vec_bool.
Print Assumptions C85_prim.
Print Assumptions C85_slice.
