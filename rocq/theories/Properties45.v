(** * Slices of any store whatever (C98).  C25-C28 say what slices of law-abiding stores show.  Here the store need not obey any law: it
    may answer as it likes and change its length under way.  What a slice made of it does is still determined, call by call. *)
From Verif Require Import Machine MStorage MTraits MBitSlice SpecCfg PBase PStorage.

(** A slice as the crate hands it out: made from a store that says it has [n] bits, cut further, and written through, in any order.
    Positions are u64, block indices usize. *)
Definition range_ok (r : range) : Prop := forall l, l < 2 ^ 64 -> fst (into_range r 0 l) < 2 ^ 64 /\ snd (into_range r 0 l) < 2 ^ 64.
Inductive slice_of {T} (c : cfg) (M : bitvecmut T) (n : N) : slice T -> Prop :=
| so_new : forall t r sl, bv_bit_len (bm_bv M) t = Ok n -> range_ok r -> slice_new (bm_bv M) t r = Ok sl -> slice_of c M n sl
| so_cut : forall sl r sl', slice_of c M n sl -> range_ok r -> slice_slice c sl r = Ok sl' -> slice_of c M n sl'
| so_bit : forall sl p b sl', slice_of c M n sl -> slice_set_bit c M sl p b = Ok sl' -> slice_of c M n sl'
| so_bits : forall sl p k v sl', slice_of c M n sl -> slice_set_bits c M sl p k v = Ok sl' -> slice_of c M n sl'
| so_block : forall sl j v sl', slice_of c M n sl -> slice_set_block c M sl j v = Ok sl' -> slice_of c M n sl'.
Definition then_ {T} (sl : slice T) (r : res T) : res (slice T) :=
  match r with Ok d => Ok {| sl_data := d; sl_start := sl_start sl; sl_len := sl_len sl |} | Panic p => Panic p | OutOfFuel => OutOfFuel end.

(** ** Proofs *)
Lemma set_bits_frame {T} c (M : bitvecmut T) sl p k v sl' : slice_set_bits c M sl p k v = Ok sl' -> sl_start sl' = sl_start sl /\ sl_len sl' = sl_len sl.
Proof.
  unfold slice_set_bits, checked_add, expect. destruct (p + k <? 2 ^ 64); cbn [bind]; [|discriminate]. unfold assert_. destruct (p + k <=? sl_len sl); cbn [bind]; [|discriminate].
  destruct (wadd c 64 (sl_start sl) p) as [q| |]; cbn [bind]; try discriminate. destruct (bm_set_bits M (sl_data sl) q k v) as [d| |]; cbn [bind]; try discriminate. intros [= <-]. now split.
Qed.
(** No slice reaches past the end its store had when it was made. *)
Theorem C98_inside : forall T c (M : bitvecmut T) n sl, n < 2 ^ 64 -> slice_of c M n sl -> sl_start sl < 2 ^ 64 /\ (sl_len sl = 0 \/ sl_start sl + sl_len sl <= n).
Proof.
  intros T c M n sl Hn H. induction H as [t r sl E Hr H|sl r sl' H IH Hr E|sl p b sl' H IH E|sl p k v sl' H IH E|sl j v sl' H IH E].
  - unfold slice_new in H. rewrite E in H. cbn [bind] in H. specialize (Hr n Hn). destruct (into_range r 0 n) as [x y]. cbn [fst snd] in Hr. revert H. unfold assert_.
    destruct (y <=? n) eqn:Ey; cbn [bind]; [|discriminate]. intros [= <-]. cbn [sl_start sl_len]. unfold saturating_sub. lia.
  - unfold slice_slice in E. assert (Hl : sl_len sl < 2 ^ 64) by lia. specialize (Hr (sl_len sl) Hl). destruct (into_range r 0 (sl_len sl)) as [x y]. cbn [fst snd] in Hr. revert E. unfold assert_.
    destruct (y <=? sl_len sl) eqn:Ey; cbn [bind]; [|discriminate]. unfold wadd, wrap. destruct (sl_start sl + x <? 2 ^ 64) eqn:E; cbn [bind].
    + intros [= <-]. cbn [sl_start sl_len]. unfold saturating_sub. lia.
    + destruct (debug c); cbn [bind]; [discriminate|]. intros [= <-]. cbn [sl_start sl_len]. unfold saturating_sub.
      split; [apply N.mod_lt; vm_compute; discriminate|]. left. lia.
  - revert E. unfold slice_set_bit, assert_. destruct (p <? sl_len sl); cbn [bind]; [|discriminate]. destruct (wadd c 64 (sl_start sl) p) as [q| |]; cbn [bind]; try discriminate.
    destruct (bm_set_bit M (sl_data sl) q b) as [d| |]; cbn [bind]; try discriminate. intros [= <-]. exact IH.
  - destruct (set_bits_frame _ _ _ _ _ _ _ E) as [-> ->]. exact IH.
  - unfold slice_set_block in E. destruct (mul_nbits c (bv_nb (bm_bv M)) j) as [m| |]; cbn [bind] in E; try discriminate. destruct (set_bits_frame _ _ _ _ _ _ _ E) as [-> ->]. exact IH.
Qed.
(** One bit: the call the store gets, or a panic before the store gets any. *)
Theorem C98_bit : forall T c (M : bitvecmut T) n sl i b, n < 2 ^ 64 -> slice_of c M n sl ->
  slice_get_bit c (bm_bv M) sl i = (if i <? sl_len sl then bv_get_bit (bm_bv M) (sl_data sl) (sl_start sl + i) else Panic PAssert) /\
  slice_set_bit c M sl i b = (if i <? sl_len sl then then_ sl (bm_set_bit M (sl_data sl) (sl_start sl + i) b) else Panic PAssert).
Proof.
  intros T c M n sl i b Hn H. destruct (C98_inside T c M n sl Hn H) as [Hs Hl]. unfold slice_get_bit, slice_set_bit, assert_. destruct (i <? sl_len sl) eqn:E; [|now split]. cbn [bind].
  rewrite wadd_ok by lia. cbn [bind]. split; [reflexivity|]. destruct (bm_set_bit M _ _ b); reflexivity.
Qed.
(** A span of bits *)
Theorem C98_bits : forall T c (M : bitvecmut T) n sl p k v, n < 2 ^ 64 -> slice_of c M n sl ->
  slice_get_bits c (bm_bv M) sl p k = (if p + k <=? sl_len sl then bv_get_bits (bm_bv M) (sl_data sl) (sl_start sl + p) k
    else if p + k <? 2 ^ 64 then Panic PAssert else Panic PExpect) /\
  slice_set_bits c M sl p k v = (if p + k <=? sl_len sl then then_ sl (bm_set_bits M (sl_data sl) (sl_start sl + p) k v)
    else if p + k <? 2 ^ 64 then Panic PAssert else Panic PExpect).
Proof.
  intros T c M n sl p k v Hn H. destruct (C98_inside T c M n sl Hn H) as [Hs Hl]. unfold slice_get_bits, slice_set_bits, checked_add, expect, assert_.
  destruct (p + k <? 2 ^ 64) eqn:E0; cbn [bind].
  - destruct (p + k <=? sl_len sl) eqn:E; cbn [bind]; [|now split]. rewrite wadd_ok by lia. cbn [bind]. split; [reflexivity|]. destruct (bm_set_bits M _ _ k v); reflexivity.
  - destruct (p + k <=? sl_len sl) eqn:E; [lia|now split].
Qed.
(** Block [j] is the span of one block's bits at the position [j * nb], which is computed modulo 2^64 in every build: [j] does not count
    beyond [2 ^ 64 / nb]. *)
Theorem C98_block : forall T c (M : bitvecmut T) sl j v, wf_cfg c -> wf_nb (bv_nb (bm_bv M)) -> j < 2 ^ ptr c ->
  let nb := bv_nb (bm_bv M) in
  slice_get_block c (bm_bv M) sl j = slice_get_bits c (bm_bv M) sl (nb * (j mod (2 ^ 64 / nb))) nb /\
  slice_set_block c M sl j v = slice_set_bits c M sl (nb * (j mod (2 ^ 64 / nb))) nb v.
Proof.
  intros T c M sl j v Hc Hnb Hj nb. fold nb in Hnb. unfold slice_get_block, slice_set_block. fold nb.
  assert (E : mul_nbits c nb j = Ok (nb * (j mod (2 ^ 64 / nb)))); [|rewrite E; now split].
  unfold mul_nbits. rewrite lg_nbits_ok by assumption. cbn [bind]. destruct (log2_nb nb Hnb) as [E1 E2]. rewrite wshl_ok by lia. rewrite N.shiftl_mul_pow2, <- E1. f_equal.
  clear - Hnb. rewrite (N.mul_comm nb). destruct Hnb as [-> |[-> |[-> | ->]]];
    match goal with |- _ mod 2 ^ 64 = j mod (2 ^ 64 / ?m) * _ => change (2 ^ 64) with (2 ^ 64 / m * m) at 1 end; apply N.mul_mod_distr_r; vm_compute; discriminate.
Qed.
(** Making and cutting.  A range that starts after its end gives an empty slice, even one that starts beyond the store; if its start
    then overflows, that is a panic with overflow checks and passes unnoticed without. *)
Theorem C98_new : forall T (M : bitvecmut T) t n r x y, bv_bit_len (bm_bv M) t = Ok n -> into_range r 0 n = (x, y) ->
  slice_new (bm_bv M) t r = (if y <=? n then Ok {| sl_data := t; sl_start := x; sl_len := y - x |} else Panic PAssert).
Proof.
  intros T M t n r x y E Er. unfold slice_new. rewrite E. cbn [bind]. rewrite Er. unfold assert_. destruct (y <=? n); cbn [bind]; reflexivity.
Qed.
Theorem C98_cut : forall T c (M : bitvecmut T) n sl r x y, n < 2 ^ 64 -> slice_of c M n sl -> range_ok r -> into_range r 0 (sl_len sl) = (x, y) ->
  slice_slice c sl r =
    if sl_len sl <? y then Panic PAssert
    else if x <=? y then Ok {| sl_data := sl_data sl; sl_start := sl_start sl + x; sl_len := y - x |}
    else if sl_start sl + x <? 2 ^ 64 then Ok {| sl_data := sl_data sl; sl_start := sl_start sl + x; sl_len := 0 |}
    else if debug c then Panic POverflow
    else Ok {| sl_data := sl_data sl; sl_start := sl_start sl + x - 2 ^ 64; sl_len := 0 |}.
Proof.
  intros T c M n sl r x y Hn H Hr Er. destruct (C98_inside T c M n sl Hn H) as [Hs Hl]. assert (Hln : sl_len sl < 2 ^ 64) by lia. specialize (Hr _ Hln). rewrite Er in Hr. cbn [fst snd] in Hr.
  unfold slice_slice. rewrite Er. unfold assert_. destruct (sl_len sl <? y) eqn:Ey.
  { destruct (y <=? sl_len sl) eqn:E; [lia|reflexivity]. }
  destruct (y <=? sl_len sl) eqn:E; [|lia]. cbn [bind]. unfold saturating_sub. destruct (x <=? y) eqn:Ex.
  { rewrite wadd_ok by lia. reflexivity. }
  assert (y - x = 0) as -> by lia. unfold wadd, wrap. destruct (sl_start sl + x <? 2 ^ 64) eqn:Eo; cbn [bind]; [reflexivity|]. destruct (debug c); cbn [bind]; [reflexivity|].
  f_equal. f_equal. symmetry. apply (N.mod_unique _ _ 1); lia.
Qed.

(** A store that obeys nothing: it says it has [2 ^ 63 + 20] bits, answers by position, and every write turns it into another. *)
Definition odd_store : bitvecmut (N * list N) := {|
  bm_bv := {| bv_nb := 8; bv_bit_len := fun t => Ok (fst t); bv_block_len := fun _ => Panic PIndex; bv_get_bit := fun t i => Ok (N.even (i + fst t));
    bv_get_block := fun _ _ => Panic PIndex; bv_get_bits := fun t p k => Ok (p + k) |};
  bm_set_bit := fun t i b => Ok (fst t / 2, i :: snd t);
  bm_set_block := fun _ _ _ => Panic PIndex;
  bm_set_bits := fun t p k v => if v =? 0 then Panic PDebug else Ok (3, p :: k :: v :: snd t) |}.
Example C98_ex : exists sl sl2 sl3,
  slice_new (bm_bv odd_store) (2 ^ 63 + 20, []) (RangeFrom (2 ^ 63 - 4)) = Ok sl /\ slice_of rel32 odd_store (2 ^ 63 + 20) sl /\
  slice_slice rel32 sl (Range 2 22) = Ok sl2 /\ slice_of rel32 odd_store (2 ^ 63 + 20) sl2 /\
  slice_set_bit rel32 odd_store sl2 19 true = Ok sl3 /\ slice_of rel32 odd_store (2 ^ 63 + 20) sl3 /\
  sl3 = {| sl_data := (2 ^ 62 + 10, [2 ^ 63 + 17]); sl_start := 2 ^ 63 - 2; sl_len := 20 |} /\
  slice_get_bit rel32 (bm_bv odd_store) sl3 5 = Ok false /\ slice_get_bit rel32 (bm_bv odd_store) sl3 20 = Panic PAssert /\
  slice_set_bits rel32 odd_store sl3 4 16 0 = Panic PDebug /\ slice_set_bits rel32 odd_store sl3 4 17 0 = Panic PAssert /\
  slice_get_bits rel32 (bm_bv odd_store) sl3 (2 ^ 64 - 1) 1 = Panic PExpect /\
  slice_get_block rel32 (bm_bv odd_store) sl3 1 = Ok (2 ^ 63 + 14) /\ slice_get_block rel64 (bm_bv odd_store) sl3 (2 ^ 61 + 1) = Ok (2 ^ 63 + 14) /\
  slice_slice rel32 sl3 (Range (2 ^ 64 - 1) 7) = Ok {| sl_data := (2 ^ 62 + 10, [2 ^ 63 + 17]); sl_start := 2 ^ 63 - 3; sl_len := 0 |} /\
  slice_slice dbg32 sl3 (Range (2 ^ 64 - 1) 7) = Panic POverflow.
Proof.
  assert (R : forall a b, a < 2 ^ 64 -> b < 2 ^ 64 -> range_ok (Range a b)) by (intros a b Ha Hb l Hl; now split).
  assert (S1 : forall sl, slice_new (bm_bv odd_store) (2 ^ 63 + 20, []) (RangeFrom (2 ^ 63 - 4)) = Ok sl -> slice_of rel32 odd_store (2 ^ 63 + 20) sl).
  { intros sl E. apply (so_new rel32 odd_store _ (2 ^ 63 + 20, []) (RangeFrom (2 ^ 63 - 4))); [reflexivity| |exact E]. intros l Hl. split; [vm_compute; reflexivity|exact Hl]. }
  do 3 eexists. split; [vm_compute; reflexivity|]. split; [apply S1; vm_compute; reflexivity|]. split; [vm_compute; reflexivity|].
  assert (S2 : slice_of rel32 odd_store (2 ^ 63 + 20) {| sl_data := (2 ^ 63 + 20, []); sl_start := 2 ^ 63 - 2; sl_len := 20 |}).
  { eapply (so_cut rel32 odd_store _ _ (Range 2 22)); [apply S1; vm_compute; reflexivity|apply R; vm_compute; reflexivity|vm_compute; reflexivity]. }
  split; [exact S2|]. split; [vm_compute; reflexivity|]. split; [eapply (so_bit rel32 odd_store _ _ 19 true); [exact S2|vm_compute; reflexivity]|].
  repeat (split; [vm_compute; reflexivity|]). vm_compute. reflexivity.
Qed.

Print Assumptions C98_inside.
Print Assumptions C98_bit.
Print Assumptions C98_bits.
Print Assumptions C98_block.
Print Assumptions C98_new.
Print Assumptions C98_cut.
