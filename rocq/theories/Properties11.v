(** * Block I/O (C08) and space usage (C59). *)
From Verif Require Import PBase PVectorBase2 PIO MIO MStream SpecCfg PSpace MSpace SpecSpace.

(** A byte source as [io::Read] promises: a successful [read_exact(n)] gives [n] bytes. *)
Definition lawful_source {S} (src : byte_source S) : Prop :=
  forall n s l s', src n s = Ok (IOk l, s') -> lengthN l = n /\ Forall (fun b => b < 2 ^ 8) l.

(** C08. [write_block] appends exactly [nbits/8] bytes; the little-endian ones are the bits of the block in
    order, and the big-endian ones are the same bytes reversed. *)
Theorem C08_bytes (c : cfg) (t : block_type) (x : N) (out : list N) :
  wf_cfg c -> x < 2 ^ type_bits c t ->
  exists le, lengthN le * 8 = type_bits c t /\ Forall (fun b => b < 2 ^ 8) le /\
    flat_map (bits_of 8) le = bits_of (type_bits c t) x /\
    write_block c _ t bytes_sink LittleEndian x out = Ok (IOk tt, out ++ le) /\
    write_block c _ t bytes_sink BigEndian x out = Ok (IOk tt, out ++ rev le).
Proof.
  intros Hc Hx. exists (to_bytes LittleEndian (type_bits c t) x).
  rewrite !write_block_bytes, length_to_bytes by assumption.
  assert (E : type_bits c t / 8 * 8 = type_bits c t)
    by (destruct (type_bits_cases c t Hc) as [->|[->|[->| ->]]]; reflexivity).
  split; [exact E|]. split; [apply low_bytes_lt|]. split; [|split; reflexivity].
  unfold to_bytes. rewrite low_bytes_bits. f_equal. lia.
Qed.
Example C08_bytes_ex :
  wf_cfg dbg32 /\ 0xAABBCCDD < 2 ^ type_bits dbg32 Usize /\
  write_block dbg32 _ Usize bytes_sink LittleEndian 0xAABBCCDD [7] = Ok (IOk tt, [7; 0xDD; 0xCC; 0xBB; 0xAA]) /\
  write_block dbg32 _ Usize bytes_sink BigEndian 0xAABBCCDD [7] = Ok (IOk tt, [7; 0xAA; 0xBB; 0xCC; 0xDD]).
Proof. split; [auto with wf|]. repeat split; vm_compute; reflexivity. Qed.
Print Assumptions C08_bytes.

(** C08. Reading back with the same byte order gives the block and leaves what follows it. *)
Theorem C08_roundtrip (c : cfg) (t : block_type) (o : byte_order) (x : N) (rest bytes : list N) :
  wf_cfg c -> x < 2 ^ type_bits c t ->
  write_block c _ t bytes_sink o x [] = Ok (IOk tt, bytes) ->
  read_block c _ t bytes_source o (bytes ++ rest) = Ok (IOk x, rest).
Proof.
  intros Hc Hx E. rewrite write_block_bytes in E by assumption. injection E as <-.
  assert (El : lengthN (to_bytes o (type_bits c t) x) = type_bits c t / 8) by apply length_to_bytes.
  assert (E8 : 8 * (type_bits c t / 8) = type_bits c t)
    by (destruct (type_bits_cases c t Hc) as [->|[->|[->| ->]]]; reflexivity).
  set (b := to_bytes o (type_bits c t) x) in *. cbn [app].
  assert (Er : bytes_source (type_bits c t / 8) (b ++ rest) = Ok (IOk b, rest)).
  { unfold bytes_source. rewrite <- El. rewrite lengthN_app. dif Hle; [|lia].
    unfold firstnN, skipnN, lengthN. rewrite Nat2N.id, firstn_app, skipn_app, firstn_all, skipn_all, Nat.sub_diag.
    cbn [firstn skipn app]. now rewrite app_nil_r. }
  (* the bytes of [rest] need not be bytes for this, so the equations are replayed *)
  assert (Hread : forall f : byte_source (list N), f (type_bits c t / 8) (b ++ rest) = Ok (IOk b, rest) ->
     read_block c _ t f o (b ++ rest) = Ok (IOk x, rest)).
  { intros f Ef. set (g := fun (n : N) (s : list N) => if (n =? type_bits c t / 8) then @Ok (ioR (list N) * list N) (IOk b, rest) else Ok (IErr UnexpectedEof, s)).
    assert (Hg : read_block c _ t g o (b ++ rest) = Ok (IOk x, rest)).
    { rewrite read_block_bytes; [|assumption|].
      - unfold try_, g. rewrite N.eqb_refl. cbn [bind]. unfold ret, b. rewrite of_to_bytes, E8, N.mod_small by assumption. reflexivity.
      - unfold g. intros n s l s'. destruct (N.eqb_spec n (type_bits c t / 8)) as [->|]; [|discriminate].
        intros [= <- <-]. split; [exact El|]. unfold b, to_bytes. destruct o; [apply low_bytes_lt|apply Forall_rev, low_bytes_lt]. }
    rewrite <- Hg. clear - Ef Hc. unfold g.
    destruct t; cbn [type_bits read_block] in *; unfold read_uint, try_;
      try (change (8 / 8) with 1 in *); rewrite ?Ef, ?N.eqb_refl; try reflexivity.
    destruct Hc as [E|E]; rewrite E in *; [change (32 =? 64) with false|change (64 =? 64) with true]; cbv iota beta;
      rewrite Ef, N.eqb_refl; reflexivity. }
  now apply Hread.
Qed.
Example C08_roundtrip_ex :
  exists bytes, write_block rel64 _ U16 bytes_sink BigEndian 0x1234 [] = Ok (IOk tt, bytes) /\ bytes = [0x12; 0x34] /\
    read_block rel64 _ U16 bytes_source BigEndian (bytes ++ [9; 9]) = Ok (IOk 0x1234, [9; 9]).
Proof. eexists. repeat (split; [vm_compute; reflexivity|]). vm_compute; reflexivity. Qed.
Print Assumptions C08_roundtrip.

(** C08. With too few bytes left, [read_block] reports [UnexpectedEof]. *)
Theorem C08_short (c : cfg) (t : block_type) (o : byte_order) (bytes : list N) :
  wf_cfg c -> lengthN bytes * 8 < type_bits c t ->
  exists s, read_block c _ t bytes_source o bytes = Ok (IErr UnexpectedEof, s).
Proof.
  intros Hc Hl. exists [].
  assert (E8 : 8 * (type_bits c t / 8) = type_bits c t)
    by (destruct (type_bits_cases c t Hc) as [->|[->|[->| ->]]]; reflexivity).
  assert (E : bytes_source (type_bits c t / 8) bytes = Ok (IErr UnexpectedEof, [])).
  { unfold bytes_source. dif H; [lia|reflexivity]. }
  destruct t; cbn [type_bits read_block] in *; unfold read_uint, try_;
    try (change (8 / 8) with 1 in *); rewrite ?E; try reflexivity.
  destruct Hc as [Ep|Ep]; rewrite Ep in *; [change (32 =? 64) with false|change (64 =? 64) with true]; cbv iota beta;
    rewrite E; reflexivity.
Qed.
Example C08_short_ex : lengthN [1; 2; 3] * 8 < type_bits dbg64 U32 /\
  read_block dbg64 _ U32 bytes_source LittleEndian [1; 2; 3] = Ok (IErr UnexpectedEof, []).
Proof. split; vm_compute; reflexivity. Qed.
Print Assumptions C08_short.

(** C08, for every sink and source: [write_block] makes exactly one [write_all] with the bytes of
    C08_bytes, and [read_block] one [read_exact]; whatever they answer is passed on. *)
Theorem C08_any_stream (c : cfg) (S : Type) (t : block_type) (o : byte_order) (sink : byte_sink S) (src : byte_source S)
    (x : N) (s : S) :
  wf_cfg c -> x < 2 ^ type_bits c t -> lawful_source src ->
  (exists bytes, write_block c _ t bytes_sink o x [] = Ok (IOk tt, bytes) /\
     write_block c S t sink o x s = sink bytes s) /\
  match src (type_bits c t / 8) s with
  | Ok (IOk l, s') => exists y, read_block c S t src o s = Ok (IOk y, s') /\ y < 2 ^ type_bits c t /\
      write_block c _ t bytes_sink o y [] = Ok (IOk tt, l)
  | Ok (IErr e, s') => read_block c S t src o s = Ok (IErr e, s')
  | Panic p => read_block c S t src o s = Panic p
  | OutOfFuel => read_block c S t src o s = OutOfFuel
  end.
Proof.
  intros Hc Hx Hs. split.
  - exists (to_bytes o (type_bits c t) x). now rewrite !write_block_bytes.
  - rewrite read_block_bytes by assumption. unfold try_.
    destruct (src (type_bits c t / 8) s) as [[[l|e] s']|p|] eqn:E; cbn [bind]; try reflexivity.
    destruct (Hs _ _ _ _ E) as [El Hl]. exists (of_bytes o l). split; [reflexivity|].
    assert (E8 : 8 * (type_bits c t / 8) = type_bits c t)
      by (destruct (type_bits_cases c t Hc) as [->|[->|[->| ->]]]; reflexivity).
    assert (K : forall m, Forall (fun b => b < 2 ^ 8) m -> of_low_bytes m < 2 ^ (8 * lengthN m) /\ low_bytes (length m) (of_low_bytes m) = m).
    { intros m Hm. induction Hm as [|b m Hb Hm [IH1 IH2]]; [split; reflexivity|].
      assert (Eb : of_low_bytes (b :: m) = b + 2 ^ 8 * of_low_bytes m).
      { cbn [of_low_bytes]. rewrite N.shiftl_mul_pow2, (N.mul_comm _ (2 ^ 8)).
        apply N.bits_inj. intros i. rewrite N.lor_spec. destruct (N.lt_ge_cases i 8) as [H|H].
        - rewrite (N.mul_comm (2 ^ 8)), N.mul_pow2_bits_low, orb_false_r by assumption.
          rewrite <- (N.mod_pow2_bits_low (b + _) 8 i) by assumption. rewrite N.mod_add by discriminate. now rewrite N.mod_small.
        - rewrite <- (N.div_pow2_bits b 8 (i - 8)) || idtac.
          replace i with (i - 8 + 8) at 1 2 3 by lia. rewrite <- !N.div_pow2_bits.
          rewrite (N.div_small b) by assumption. rewrite N.bits_0. cbn [orb]. f_equal.
          rewrite (N.mul_comm (2 ^ 8)), N.div_add, N.div_mul, (N.div_small b) by (assumption || discriminate). reflexivity. }
      rewrite Eb. cbn [length low_bytes]. rewrite lengthN_cons. split.
      - replace (8 * (lengthN m + 1)) with (8 + 8 * lengthN m) by lia. rewrite N.pow_add_r.
        set (q := 2 ^ (8 * lengthN m)) in *. clearbody q. change (2 ^ 8) with 256 in *. nia.
      - f_equal.
        + change 255 with (N.ones 8). rewrite N.land_ones, (N.mul_comm (2 ^ 8)), N.mod_add by discriminate. now apply N.mod_small.
        + rewrite N.shiftr_div_pow2, (N.mul_comm (2 ^ 8)), N.div_add, N.div_small by (assumption || discriminate). exact IH2. }
    assert (Hy : of_bytes o l < 2 ^ type_bits c t).
    { rewrite <- E8, <- El. unfold of_bytes. destruct o; [now apply K|].
      replace (lengthN l) with (lengthN (rev l)) by (unfold lengthN; now rewrite rev_length). now apply K, Forall_rev. }
    split; [exact Hy|]. rewrite write_block_bytes by assumption. unfold bytes_sink. cbn [app]. do 2 f_equal.
    unfold to_bytes, of_bytes. rewrite <- El. unfold lengthN. rewrite Nat2N.id. destruct o.
    + now apply K.
    + replace (length l) with (length (rev l)) by apply rev_length. rewrite (proj2 (K (rev l) (Forall_rev Hl))). apply rev_involutive.
Qed.
Example C08_any_stream_ex : lawful_source (fun n s => if (n =? 2) && (s =? 0) then Ok (IOk [1; 2], 1) else Ok (IErr IoOther, s)).
Proof.
  intros n s l s'. destruct (N.eqb_spec n 2) as [->|]; [|discriminate]. destruct (s =? 0); [|discriminate].
  intros [= <- <-]. split; [reflexivity|]. repeat constructor.
Qed.
Print Assumptions C08_any_stream.

(** C59. A value of a stack-only type has no heap memory, and says so. *)
Theorem C59_stack_only (c : cfg) (size_of : ty -> N) (t : ty) (v : val) :
  is_stack_only t = true -> typed t v ->
  heap_bytes c size_of t v = Ok 0 /\ allocations size_of t v = [].
Proof. intros H1 H2. split; [now apply stack_only_heap|now apply stack_only_allocs]. Qed.
Example C59_stack_only_ex :
  is_stack_only (TTuple [TU64; TBinSearch (TRef (TVec TU64)); TTuple [TFlat 0]]) = true /\
  typed (TTuple [TU64; TBinSearch (TRef (TVec TU64)); TTuple [TFlat 0]]) (VTuple [VFlat; VFlat; VTuple [VFlat]]).
Proof. split; cbn; tauto. Qed.
Print Assumptions C59_stack_only.

(** C59. [heap_bytes] is the sum of the sizes of all the heap blocks the value owns, whether
    or not shortcuts are taken on the way; [total_bytes] adds the size of the value itself. *)
Theorem C59_heap_bytes (c : cfg) (size_of : ty -> N) (t : ty) (v : val) :
  typed t v -> size_of t + sum (allocations size_of t v) < 2 ^ ptr c ->
  heap_bytes c size_of t v = Ok (sum (allocations size_of t v)) /\
  total_bytes c size_of t v = Ok (size_of t + sum (allocations size_of t v)).
Proof.
  intros H1 H2. assert (E : heap_bytes c size_of t v = Ok (sum (allocations size_of t v))) by (apply heap_allocs; auto; lia).
  split; [exact E|]. unfold total_bytes, stack_bytes. rewrite E. cbn [bind]. apply PBase.wadd_ok. lia.
Qed.
(** (a vector of two boxed bit vectors, and a vector of plain numbers) *)
Example C59_heap_bytes_ex :
  let size := fun t => match t with TFlat n => n | TBox _ => 8 | TTuple _ => 48 | _ => 24 end in
  let t := TTuple [TVec (TBox (TBitVector TU64)); TVec (TFlat 4)] in
  let v := VTuple [VVec 3 [VBox (VVec 10 [VFlat; VFlat]); VBox (VVec 1 [])]; VVec 5 [VFlat]] in
  typed t v /\ allocations size t v = [24; 24; 80; 24; 8; 20] /\ total_bytes dbg64 size t v = Ok 228.
Proof. cbn [typed]. repeat split; try (vm_compute; congruence); try (now exists 8); repeat constructor. Qed.
Print Assumptions C59_heap_bytes.

(** C59. In particular, a vector of anything. *)
Theorem C59_vec (c : cfg) (size_of : ty -> N) (t : ty) (cap : N) (vs : list val) :
  lengthN vs <= cap -> Forall (typed t) vs ->
  cap * size_of t + sum (map (fun v => sum (allocations size_of t v)) vs) < 2 ^ ptr c ->
  exists hs, map (heap_bytes c size_of t) vs = map Ok hs /\
    heap_bytes c size_of (TVec t) (VVec cap vs) = Ok (cap * size_of t + sum hs).
Proof.
  intros Hl Ht Hlt. exists (map (fun v => sum (allocations size_of t v)) vs).
  assert (Ef : sum (flat_map (allocations size_of t) vs) = sum (map (fun v => sum (allocations size_of t v)) vs)).
  { clear. induction vs as [|v vs IH]; cbn [flat_map map sum]; [reflexivity|]. rewrite sum_app, IH. reflexivity. }
  split.
  - rewrite map_map. apply map_ext_in. intros v Hv. apply heap_allocs.
    + now apply (Forall_forall (typed t) vs).
    + assert (sum (allocations size_of t v) <= sum (map (fun v => sum (allocations size_of t v)) vs)); [|lia].
      clear - Hv. induction vs as [|w vs IH]; [contradiction|]. cbn [map sum].
      destruct Hv as [->|Hv]; [lia|]. specialize (IH Hv). lia.
  - rewrite (heap_allocs c size_of (TVec t) (VVec cap vs)); cbn [allocations sum]; rewrite ?Ef; auto.
    cbn [typed]. split; [exact Hl|]. clear - Ht. induction Ht; auto.
Qed.
Example C59_vec_ex :
  lengthN [VVec 4 [VFlat]; VVec 9 []] <= 6 /\ Forall (typed (TVec (TFlat 2))) [VVec 4 [VFlat]; VVec 9 []] /\
  heap_bytes rel64 (fun t => match t with TFlat n => n | _ => 24 end) (TVec (TVec (TFlat 2))) (VVec 6 [VVec 4 [VFlat]; VVec 9 []])
    = Ok (6 * 24 + (8 + 18)).
Proof. split; [vm_compute; congruence|]. split; [repeat constructor; vm_compute; congruence|]. vm_compute. reflexivity. Qed.
Print Assumptions C59_vec.

(** C59, with no condition on the sizes: the sum of the sizes is computed in [usize], so where it does not fit the call
    panics with overflow checks and gives the sum modulo [2 ^ ptr] without.  (What a value owns fits in
    memory; the theorem does not need that.) *)
Theorem C59_all (c : cfg) (size_of : ty -> N) (t : ty) (v : val) : typed t v ->
  let usize n := if n <? 2 ^ ptr c then Ok n else if debug c then Panic POverflow else Ok (n mod 2 ^ ptr c) in
  heap_bytes c size_of t v = usize (sum (allocations size_of t v)) /\
  total_bytes c size_of t v = usize (size_of t + sum (allocations size_of t v)).
Proof. intros H. split; [exact (heap_all c size_of t v H)|exact (total_all c size_of t v H)]. Qed.
Example C59_all_ex :
  let size := fun t => match t with TFlat n => n | TBox _ => 4 | _ => 12 end in
  let t := TVec (TBox (TFlat (2 ^ 31))) in
  let v := VVec 2 [VBox VFlat; VBox VFlat] in
  typed t v /\ heap_bytes rel32 size t v = Ok 8 /\ heap_bytes dbg32 size t v = Panic POverflow /\
  heap_bytes dbg64 size t v = Ok (2 ^ 32 + 8).
Proof. cbv zeta. split; [cbn; split; [vm_compute; congruence|tauto]|]. repeat (split; [vm_compute; reflexivity|]). vm_compute; reflexivity. Qed.
Print Assumptions C59_all.
