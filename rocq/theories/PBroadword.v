(** * Proofs about the broadword operations: a word as a list of bytes. *)
From Verif Require Import Machine MStorage MRank MBroadword SpecBits SpecRank PBase PStorage PBits PRank.

(** ** Words and lanes *)
Fixpoint word (bs : list N) : N := match bs with [] => 0 | b :: t => b + 256 * word t end.
Definition byte (b : N) : Prop := b < 256.
Fixpoint zip (f : N -> N -> N) (xs ys : list N) : list N :=
  match xs, ys with x :: xs, y :: ys => f x y :: zip f xs ys | _, _ => [] end.

Lemma testbit_byte b w i : byte b -> N.testbit (b + 256 * w) i = if i <? 8 then N.testbit b i else N.testbit w (i - 8).
Proof.
  intros Hb. unfold byte in Hb. change 256 with (2 ^ 8) in *. rewrite N.mul_comm, <- N.shiftl_mul_pow2, <- N.lor_0_r with (a := b).
  assert (E : b + N.shiftl w 8 = N.lor b (N.shiftl w 8)).
  { rewrite <- N.lxor_lor, N.add_nocarry_lxor; auto;
      apply N.bits_inj; intros j; rewrite N.land_spec, N.bits_0;
      (destruct (N.lt_ge_cases j 8) as [H|H];
        [rewrite (N.shiftl_spec_low w 8 j H); apply andb_false_r|rewrite (testbit_small b 8 j Hb H); reflexivity]). }
  rewrite N.lor_0_r, E, N.lor_spec. destruct (i <? 8) eqn:E1.
  - rewrite N.shiftl_spec_low by lia. apply orb_false_r.
  - rewrite (testbit_small b 8 i) by lia. rewrite N.shiftl_spec_high' by lia. reflexivity.
Qed.
Lemma byte_bitop (op : N -> N -> N) (bop : bool -> bool -> bool) a b u v :
  (forall x y i, N.testbit (op x y) i = bop (N.testbit x i) (N.testbit y i)) -> bop false false = false ->
  byte a -> byte b -> op (a + 256 * u) (b + 256 * v) = op a b + 256 * op u v /\ byte (op a b).
Proof.
  intros Hop Hf Ha Hb. assert (Hab : byte (op a b)).
  { unfold byte. change 256 with (2 ^ 8). apply bits_lt. intros i Hi. rewrite Hop.
    rewrite (testbit_small a 8 i Ha Hi), (testbit_small b 8 i Hb Hi). exact Hf. }
  split; [|exact Hab]. apply N.bits_inj. intros i. rewrite Hop, !testbit_byte by auto. rewrite !Hop. destruct (i <? 8); reflexivity.
Qed.
Lemma word_bitop (op : N -> N -> N) (bop : bool -> bool -> bool) xs ys :
  (forall x y i, N.testbit (op x y) i = bop (N.testbit x i) (N.testbit y i)) -> bop false false = false ->
  length xs = length ys -> Forall byte xs -> Forall byte ys ->
  op (word xs) (word ys) = word (zip op xs ys) /\ Forall byte (zip op xs ys).
Proof.
  intros Hop Hf. revert ys. induction xs as [|x xs IH]; intros [|y ys] Hl Hx Hy; try discriminate; cbn [word zip].
  - split; [|constructor]. apply N.bits_inj. intros i. rewrite Hop, N.bits_0. exact Hf.
  - inversion Hx; subst. inversion Hy; subst. destruct (IH ys) as [E HF]; auto.
    destruct (byte_bitop op bop x y (word xs) (word ys)) as [E1 Hb]; auto. rewrite E1, E. split; [reflexivity|]. now constructor.
Qed.
Definition word_land := fun xs ys => word_bitop N.land andb xs ys N.land_spec eq_refl.
Definition word_lor := fun xs ys => word_bitop N.lor orb xs ys N.lor_spec eq_refl.
Definition word_lxor := fun xs ys => word_bitop N.lxor xorb xs ys N.lxor_spec eq_refl.
Definition word_ldiff := fun xs ys => word_bitop N.ldiff (fun a b => a && negb b) xs ys N.ldiff_spec eq_refl.

Lemma word_lt bs : Forall byte bs -> word bs < 256 ^ N.of_nat (length bs).
Proof.
  induction 1 as [|b bs Hb HF IH]; [cbn; lia|]. cbn [word length]. rewrite Nnat.Nat2N.inj_succ, N.pow_succ_r'. unfold byte in Hb. lia.
Qed.
Lemma word_lt64 bs : length bs = 8%nat -> Forall byte bs -> word bs < 2 ^ 64.
Proof. intros H HF. pose proof (word_lt bs HF) as E. rewrite H in E. exact E. Qed.

Lemma zip_length f xs ys : length xs = length ys -> length (zip f xs ys) = length xs.
Proof. revert ys. induction xs as [|x xs IH]; intros [|y ys] H; try discriminate; cbn; auto. Qed.

(** Lane-wise subtraction and addition. *)
Lemma word_sub xs ys : Forall2 (fun x y => y <= x) xs ys -> word ys <= word xs /\ word xs - word ys = word (zip N.sub xs ys).
Proof. induction 1 as [|x y xs ys H HF [IH1 IH2]]; cbn [word zip]; [split; [lia|reflexivity]|]. rewrite <- IH2. lia. Qed.
Lemma word_add xs ys : length xs = length ys -> word xs + word ys = word (zip N.add xs ys).
Proof.
  revert ys. induction xs as [|x xs IH]; intros [|y ys] H; try discriminate; cbn [word zip]; [reflexivity|].
  rewrite <- IH by (cbn in H; lia). lia.
Qed.
(** Shifting right within the lanes. *)
Lemma word_shr k xs : Forall (fun x => (2 ^ k | x)) xs -> N.shiftr (word xs) k = word (map (fun x => N.shiftr x k) xs).
Proof.
  intros H. rewrite N.shiftr_div_pow2.
  assert (E : word xs = 2 ^ k * word (map (fun x => N.shiftr x k) xs)).
  { induction H as [|x xs [q Hq] HF IH]; cbn [word map]; [lia|]. rewrite N.shiftr_div_pow2.
    replace (x / 2 ^ k) with q by (rewrite Hq; symmetry; apply N.div_mul; pose proof (pow2_pos k); lia). rewrite IH, Hq. lia. }
  rewrite E, N.mul_comm. apply N.div_mul. pose proof (pow2_pos k). lia.
Qed.

(** Every 64-bit word is made of eight bytes. *)
Fixpoint bytes_of (n : nat) (x : N) : list N :=
  match n with O => [] | Datatypes.S n => x mod 256 :: bytes_of n (x / 256) end.
Lemma bytes_of_length n x : length (bytes_of n x) = n.
Proof. revert x. induction n; intros; cbn; auto. Qed.
Lemma bytes_of_byte n x : Forall byte (bytes_of n x).
Proof. revert x. induction n; intros x; cbn; constructor; auto. apply N.mod_lt. lia. Qed.
Lemma word_bytes_of n x : x < 256 ^ N.of_nat n -> word (bytes_of n x) = x.
Proof.
  revert x. induction n as [|n IH]; intros x Hx; cbn [bytes_of word]; [cbn in Hx; lia|].
  rewrite Nnat.Nat2N.inj_succ, N.pow_succ_r' in Hx. rewrite IH.
  - pose proof (N.div_mod x 256 ltac:(lia)). lia.
  - apply N.div_lt_upper_bound; lia.
Qed.
Lemma word8 x : x < 2 ^ 64 -> exists b0 b1 b2 b3 b4 b5 b6 b7,
  Forall byte [b0; b1; b2; b3; b4; b5; b6; b7] /\ x = word [b0; b1; b2; b3; b4; b5; b6; b7].
Proof.
  intros Hx. pose proof (bytes_of_byte 8 x) as HB. pose proof (word_bytes_of 8 x Hx) as E.
  pose proof (bytes_of_length 8 x) as HL. destruct (bytes_of 8 x) as [|b0 [|b1 [|b2 [|b3 [|b4 [|b5 [|b6 [|b7 [|]]]]]]]]]; try discriminate HL.
  exists b0, b1, b2, b3, b4, b5, b6, b7. auto.
Qed.

(** The [i]-th lane. *)
Definition lane (x i : N) : N := N.land (N.shiftr x (8 * i)) 0xFF.
Lemma lane_word bs i : Forall byte bs -> lane (word bs) i = match nthN bs i with Some b => b | None => 0 end.
Proof.
  intros H. revert i. induction H as [|b bs Hb HF IH]; intros i; cbn [word].
  - unfold lane. rewrite N.shiftr_0_l. reflexivity.
  - rewrite nthN_cons. destruct (i =? 0) eqn:E.
    + assert (i = 0) as -> by lia. unfold lane. rewrite N.mul_0_r, N.shiftr_0_r. change 0xFF with (N.ones 8). rewrite N.land_ones.
      change (2 ^ 8) with 256. rewrite N.mul_comm, N.mod_add by lia. now apply N.mod_small.
    + rewrite <- IH. unfold lane. f_equal. replace (8 * i) with (8 + 8 * (i - 1)) by lia. rewrite <- N.shiftr_shiftr. f_equal.
      rewrite N.shiftr_div_pow2. change (2 ^ 8) with 256. rewrite N.mul_comm, N.div_add, N.div_small by (auto; lia). lia.
Qed.

(** ** Deciding facts about bytes by enumeration *)
Definition all_bytes : list N := map N.of_nat (seq 0 256).
Lemma all_bytes_in b : byte b -> In b all_bytes.
Proof. intros H. unfold all_bytes. apply in_map_iff. exists (N.to_nat b). unfold byte in H. split; [lia|]. apply in_seq. lia. Qed.
Lemma by_bytes (P : N -> bool) : forallb P all_bytes = true -> forall b, byte b -> P b = true.
Proof. intros H b Hb. rewrite forallb_forall in H. apply H. now apply all_bytes_in. Qed.
Lemma by_bytes2 (P : N -> N -> bool) : forallb (fun a => forallb (P a) all_bytes) all_bytes = true ->
  forall a b, byte a -> byte b -> P a b = true.
Proof.
  intros H a b Ha Hb. apply (by_bytes (P a)); [|exact Hb].
  apply (by_bytes (fun a => forallb (P a) all_bytes)); assumption.
Qed.

(** ** Lane comparisons *)
Definition b_land a b u v Ha Hb := proj1 (byte_bitop N.land andb a b u v N.land_spec eq_refl Ha Hb).
Definition b_lor a b u v Ha Hb := proj1 (byte_bitop N.lor orb a b u v N.lor_spec eq_refl Ha Hb).
Definition b_lxor a b u v Ha Hb := proj1 (byte_bitop N.lxor xorb a b u v N.lxor_spec eq_refl Ha Hb).
Definition b_ldiff a b u v Ha Hb := proj1 (byte_bitop N.ldiff (fun p q => p && negb q) a b u v N.ldiff_spec eq_refl Ha Hb).
Lemma byte_land a b : byte a -> byte b -> byte (N.land a b).
Proof. intros Ha Hb. exact (proj2 (byte_bitop N.land andb a b 0 0 N.land_spec eq_refl Ha Hb)). Qed.
Lemma byte_lor a b : byte a -> byte b -> byte (N.lor a b).
Proof. intros Ha Hb. exact (proj2 (byte_bitop N.lor orb a b 0 0 N.lor_spec eq_refl Ha Hb)). Qed.
Lemma byte_lxor a b : byte a -> byte b -> byte (N.lxor a b).
Proof. intros Ha Hb. exact (proj2 (byte_bitop N.lxor xorb a b 0 0 N.lxor_spec eq_refl Ha Hb)). Qed.
Lemma byte_ldiff a b : byte a -> byte b -> byte (N.ldiff a b).
Proof. intros Ha Hb. exact (proj2 (byte_bitop N.ldiff (fun p q => p && negb q) a b 0 0 N.ldiff_spec eq_refl Ha Hb)). Qed.
Lemma byte_sub a b : byte a -> byte (a - b). Proof. unfold byte. lia. Qed.
Lemma byte_128 : byte 128. Proof. reflexivity. Qed.
Lemma byte_1 : byte 1. Proof. reflexivity. Qed.
#[local] Hint Resolve byte_land byte_lor byte_lxor byte_ldiff byte_sub byte_128 byte_1 : byte.

Lemma lane_borrow x y : byte x -> byte y -> N.ldiff x 128 <= N.lor y 128.
Proof.
  intros Hx Hy. apply N.leb_le. revert x y Hx Hy. apply by_bytes2. vm_compute. reflexivity.
Qed.
Lemma lane_borrow1 x : byte x -> 1 <= N.lor x 128.
Proof. intros Hx. apply N.leb_le. revert x Hx. apply by_bytes. vm_compute. reflexivity. Qed.

Definition le_lane x y := N.land (N.lxor (N.lxor (N.lor y 128 - N.ldiff x 128) x) y) 128.
Definition u_le_lane x y := N.land (N.lxor (N.lor (N.lor y 128 - N.ldiff x 128) (N.lxor x y)) (N.ldiff x y)) 128.
Definition nz_lane x := N.land (N.lor (N.lor x 128 - 1) x) 128.

Lemma le8_formula xs ys : length xs = length ys -> Forall byte xs -> Forall byte ys ->
  let H := word (map (fun _ => 128) xs) in
  N.ldiff (word xs) H <= N.lor (word ys) H /\
  N.land (N.lxor (N.lxor (N.lor (word ys) H - N.ldiff (word xs) H) (word xs)) (word ys)) H = word (zip le_lane xs ys) /\
  N.land (N.lxor (N.lor (N.lor (word ys) H - N.ldiff (word xs) H) (N.lxor (word xs) (word ys)))
                 (N.ldiff (word xs) (word ys))) H = word (zip u_le_lane xs ys).
Proof.
  revert ys. induction xs as [|x xs IH]; intros [|y ys] Hl Hx Hy; try discriminate; cbn [word zip map].
  - repeat split. cbn. lia.
  - inversion Hx as [|? ? Hx0 Hxs]; subst. inversion Hy as [|? ? Hy0 Hys]; subst. injection Hl as Hl.
    destruct (IH ys Hl Hxs Hys) as (IH1 & IH2 & IH3). set (H := word (map (fun _ => 128) xs)) in *.
    rewrite b_lor, b_ldiff, b_lxor, b_ldiff by auto with byte. pose proof (lane_borrow x y Hx0 Hy0) as HB.
    replace (N.lor y 128 + 256 * N.lor (word ys) H - (N.ldiff x 128 + 256 * N.ldiff (word xs) H))
      with (N.lor y 128 - N.ldiff x 128 + 256 * (N.lor (word ys) H - N.ldiff (word xs) H)) by lia.
    split; [lia|]. split.
    + rewrite b_lxor, b_lxor, b_land, IH2 by auto with byte. reflexivity.
    + rewrite b_lor, b_lxor, b_land, IH3 by auto 6 with byte. reflexivity.
Qed.
Lemma nz8_formula xs : Forall byte xs ->
  let H := word (map (fun _ => 128) xs) in let L := word (map (fun _ => 1) xs) in
  L <= N.lor (word xs) H /\
  N.land (N.lor (N.lor (word xs) H - L) (word xs)) H = word (map nz_lane xs).
Proof.
  induction 1 as [|x xs Hx HF [IH1 IH2]]; cbn [word map]; [split; [cbn; lia|reflexivity]|].
  set (H := word (map (fun _ => 128) xs)) in *. set (L := word (map (fun _ => 1) xs)) in *.
  rewrite b_lor by auto with byte. pose proof (lane_borrow1 x Hx) as HB.
  replace (N.lor x 128 + 256 * N.lor (word xs) H - (1 + 256 * L))
    with (N.lor x 128 - 1 + 256 * (N.lor (word xs) H - L)) by lia.
  split; [lia|]. rewrite b_lor, b_land, IH2 by auto with byte. reflexivity.
Qed.

Lemma zip_byte f xs ys : (forall x y, byte x -> byte y -> byte (f x y)) -> Forall byte xs -> Forall byte ys -> Forall byte (zip f xs ys).
Proof.
  intros Hf Hx. revert ys. induction Hx as [|x xs H0 HF IH]; intros ys Hy; [constructor|].
  destruct Hy as [|y ys Hy0 Hys]; cbn; constructor; auto.
Qed.
Lemma le_lane_byte x y : byte x -> byte y -> byte (le_lane x y).
Proof. unfold le_lane. auto 6 with byte. Qed.
Lemma u_le_lane_byte x y : byte x -> byte y -> byte (u_le_lane x y).
Proof. unfold u_le_lane. auto 7 with byte. Qed.
Lemma nz_lane_byte x : byte x -> byte (nz_lane x).
Proof. unfold nz_lane. auto 6 with byte. Qed.

Lemma land_wnot x y : x < 2 ^ 64 -> N.land x (wnot 64 y) = N.ldiff x y.
Proof.
  intros Hx. apply N.bits_inj. intros i. unfold wnot. rewrite N.land_spec, N.ldiff_spec, testbit_lnot.
  destruct (i <? 64) eqn:E; [reflexivity|]. now rewrite (testbit_small x 64 i) by (auto; lia).
Qed.
Lemma H8_word (xs : list N) : length xs = 8%nat -> H8 = word (map (fun _ => 128) xs).
Proof. destruct xs as [|? [|? [|? [|? [|? [|? [|? [|? [|]]]]]]]]]; try discriminate. reflexivity. Qed.
Lemma L8_word (xs : list N) : length xs = 8%nat -> L8 = word (map (fun _ => 1) xs).
Proof. destruct xs as [|? [|? [|? [|? [|? [|? [|? [|? [|]]]]]]]]]; try discriminate. reflexivity. Qed.

Lemma le8_word c xs ys : length xs = 8%nat -> length ys = 8%nat -> Forall byte xs -> Forall byte ys ->
  le8 c (word xs) (word ys) = Ok (word (zip le_lane xs ys)).
Proof.
  intros Lx Ly Hx Hy. unfold le8. rewrite land_wnot by now apply word_lt64. rewrite (H8_word xs Lx).
  destruct (le8_formula xs ys ltac:(congruence) Hx Hy) as (E1 & E2 & _). rewrite wsub_ok by exact E1. cbn [bind]. now rewrite E2.
Qed.
Lemma u_le8_word c xs ys : length xs = 8%nat -> length ys = 8%nat -> Forall byte xs -> Forall byte ys ->
  u_le8 c (word xs) (word ys) = Ok (word (zip u_le_lane xs ys)).
Proof.
  intros Lx Ly Hx Hy. unfold u_le8. rewrite !land_wnot by now apply word_lt64. rewrite (H8_word xs Lx).
  destruct (le8_formula xs ys ltac:(congruence) Hx Hy) as (E1 & _ & E2). rewrite wsub_ok by exact E1. cbn [bind]. now rewrite E2.
Qed.
Lemma u_nz8_word c xs : length xs = 8%nat -> Forall byte xs -> u_nz8 c (word xs) = Ok (word (map nz_lane xs)).
Proof.
  intros Lx Hx. unfold u_nz8. rewrite (H8_word xs Lx), (L8_word xs Lx).
  destruct (nz8_formula xs Hx) as (E1 & E2). rewrite wsub_ok by exact E1. cbn [bind]. now rewrite E2.
Qed.
Lemma nthN_zip f xs ys i : nthN (zip f xs ys) i =
  match nthN xs i, nthN ys i with Some x, Some y => Some (f x y) | _, _ => None end.
Proof.
  revert ys i. induction xs as [|x xs IH]; intros ys i; cbn [zip].
  - rewrite !nthN_nil. reflexivity.
  - destruct ys as [|y ys]; [rewrite !nthN_nil; destruct (nthN (x :: xs) i); reflexivity|].
    rewrite !nthN_cons. destruct (i =? 0); [reflexivity|apply IH].
Qed.

(** What the lanes compute, by enumeration. *)
Definition signed8 (b : N) : Z := if b <? 128 then Z.of_N b else (Z.of_N b - 256)%Z.
Lemma u_le_lane_ok x y : byte x -> byte y -> u_le_lane x y = if x <=? y then 128 else 0.
Proof. intros Hx Hy. apply N.eqb_eq. revert x y Hx Hy. apply by_bytes2. vm_compute. reflexivity. Qed.
Lemma nz_lane_ok x : byte x -> nz_lane x = if x =? 0 then 0 else 128.
Proof. intros Hx. apply N.eqb_eq. revert x Hx. apply by_bytes. vm_compute. reflexivity. Qed.
Lemma le_lane_ok x y : byte x -> byte y -> le_lane x y =
  if eqb (x <? 128) (y <? 128) then (if (signed8 x <=? signed8 y)%Z then 128 else 0)
  else (if x mod 128 <=? y mod 128 then 0 else 128).
Proof. intros Hx Hy. apply N.eqb_eq. revert x y Hx Hy. apply by_bytes2. vm_compute. reflexivity. Qed.

Lemma lane_byte x i : byte (lane x i).
Proof. unfold lane, byte. change 0xFF with (N.ones 8). rewrite N.land_ones. apply N.mod_lt. lia. Qed.
Lemma lane_zip f xs ys i : length xs = 8%nat -> length ys = 8%nat -> Forall byte xs -> Forall byte ys ->
  (forall x y, byte x -> byte y -> byte (f x y)) -> i < 8 ->
  lane (word (zip f xs ys)) i = f (lane (word xs) i) (lane (word ys) i).
Proof.
  intros Lx Ly Hx Hy Hf Hi. rewrite !lane_word by auto using zip_byte. rewrite nthN_zip.
  destruct (nthN_Some xs i) as [x ->]; [unfold lengthN; lia|]. destruct (nthN_Some ys i) as [y ->]; [unfold lengthN; lia|]. reflexivity.
Qed.
Lemma lane_map f xs i : length xs = 8%nat -> Forall byte xs -> (forall x, byte x -> byte (f x)) -> i < 8 ->
  lane (word (map f xs)) i = f (lane (word xs) i).
Proof.
  intros Lx Hx Hf Hi. rewrite !lane_word; auto.
  - rewrite nthN_map. destruct (nthN_Some xs i) as [x ->]; [unfold lengthN; lia|]. reflexivity.
  - apply Forall_map. eapply Forall_impl; [|exact Hx]. auto.
Qed.
Lemma as_word x : x < 2 ^ 64 -> exists bs, length bs = 8%nat /\ Forall byte bs /\ x = word bs.
Proof.
  intros H. exists (bytes_of 8 x). split; [apply bytes_of_length|]. split; [apply bytes_of_byte|]. symmetry. now apply word_bytes_of.
Qed.

(** ** Population count *)
Lemma word_landc m xs : byte m -> Forall byte xs ->
  N.land (word xs) (word (map (fun _ => m) xs)) = word (map (fun b => N.land b m) xs) /\
  Forall byte (map (fun b => N.land b m) xs).
Proof.
  intros Hm. induction 1 as [|x xs Hx HF [IH1 IH2]]; cbn [word map]; [split; [reflexivity|constructor]|].
  rewrite b_land, IH1 by auto. split; [reflexivity|]. constructor; auto with byte.
Qed.
Definition p1 b := b - N.shiftr (N.land b 0xAA) 1.
Definition p2 b := N.land b 0x33 + N.shiftr (N.land b 0xCC) 2.
Definition p3 b := N.land (b + N.shiftr b 4) 0x0F.

Lemma word_map_sub (f g : N -> N) xs : (forall x, byte x -> g x <= f x) -> Forall byte xs ->
  word (map g xs) <= word (map f xs) /\ word (map f xs) - word (map g xs) = word (map (fun x => f x - g x) xs).
Proof.
  intros H. induction 1 as [|x xs Hx HF [IH1 IH2]]; cbn [word map]; [split; [lia|reflexivity]|].
  pose proof (H x Hx). rewrite <- IH2. lia.
Qed.
Lemma word_map_add (f g : N -> N) xs : word (map f xs) + word (map g xs) = word (map (fun x => f x + g x) xs).
Proof. induction xs as [|x xs IH]; cbn [word map]; [reflexivity|]. rewrite <- IH. lia. Qed.
Lemma word_map_shr k (f : N -> N) xs : (forall x, byte x -> f x = 2 ^ k * N.shiftr (f x) k) -> Forall byte xs ->
  N.shiftr (word (map f xs)) k = word (map (fun x => N.shiftr (f x) k) xs).
Proof.
  intros H HF. rewrite word_shr; [now rewrite map_map|]. apply Forall_map. eapply Forall_impl; [|exact HF].
  intros x Hx. exists (N.shiftr (f x) k). rewrite N.mul_comm. auto.
Qed.
Lemma map_byte f xs : (forall x, byte x -> byte (f x)) -> Forall byte xs -> Forall byte (map f xs).
Proof. intros H HF. apply Forall_map. eapply Forall_impl; [|exact HF]. auto. Qed.

Lemma stage1 xs : Forall byte xs ->
  N.shiftr (N.land (word xs) (word (map (fun _ => 0xAA) xs))) 1 <= word xs /\
  word xs - N.shiftr (N.land (word xs) (word (map (fun _ => 0xAA) xs))) 1 = word (map p1 xs).
Proof.
  intros H. rewrite (proj1 (word_landc 0xAA xs eq_refl H)).
  rewrite (word_map_shr 1 (fun b => N.land b 0xAA)); auto.
  - pose proof (word_map_sub (fun x => x) (fun x => N.shiftr (N.land x 170) 1) xs) as E. rewrite map_id in E. apply E; auto.
    intros x Hx. apply N.leb_le. revert x Hx. apply by_bytes. vm_compute. reflexivity.
  - intros x Hx. apply N.eqb_eq. revert x Hx. apply by_bytes. vm_compute. reflexivity.
Qed.
Lemma stage2 xs : Forall byte xs -> 
  N.land (word xs) (word (map (fun _ => 0x33) xs)) + N.land (N.shiftr (word xs) 2) (word (map (fun _ => 0x33) xs)) = word (map p2 xs).
Proof.
  intros H. 
  assert (E : N.land (N.shiftr (word xs) 2) (word (map (fun _ => 0x33) xs)) = N.shiftr (N.land (word xs) (word (map (fun _ => 0xCC) xs))) 2).
  { rewrite N.shiftr_land. f_equal. symmetry. apply (word_map_shr 2 (fun _ => 0xCC)); auto. }
  rewrite E. rewrite (proj1 (word_landc 0x33 xs eq_refl H)), (proj1 (word_landc 0xCC xs eq_refl H)).
  rewrite (word_map_shr 2 (fun b => N.land b 0xCC)); auto.
  - apply word_map_add.
  - intros x Hx. apply N.eqb_eq. revert x Hx. apply by_bytes. vm_compute. reflexivity.
Qed.
Definition small2 b := exists lo hi, b = lo + 16 * hi /\ lo <= 4 /\ hi <= 4.
Lemma stage3 xs : Forall small2 xs ->
  N.land (word xs + N.shiftr (word xs) 4) (word (map (fun _ => 0x0F) xs)) = word (map p3 xs).
Proof.
  rewrite N.shiftr_div_pow2. change (2 ^ 4) with 16.
  induction 1 as [|x xs (lo & hi & Ex & Hlo & Hhi) HF IH]; cbn [word map]; [reflexivity|].
  set (w := word xs) in *. set (m := word (map (fun _ => 15) xs)) in *.
  assert (E : x + 256 * w + (x + 256 * w) / 16 = (x + hi + 16 * (w mod 16)) + 256 * (w + w / 16)).
  { assert ((x + 256 * w) / 16 = hi + 16 * w).
    { rewrite Ex. symmetry. apply (N.div_unique _ _ _ lo); lia. }
    pose proof (N.div_mod w 16 ltac:(lia)). lia. }
  assert (Hw4 : w mod 16 <= 4).
  { subst w. destruct HF as [|y ys (lo' & hi' & Ey & Hlo' & Hhi')]; [cbn; lia|]. cbn [word]. rewrite Ey.
    replace (lo' + 16 * hi' + 256 * word ys) with (lo' + (hi' + 16 * word ys) * 16) by lia.
    rewrite N.mod_add, N.mod_small by lia. exact Hlo'. }
  rewrite E, b_land, IH; [|unfold byte; lia|reflexivity]. f_equal.
  unfold p3. change 15 with (N.ones 4). rewrite !N.land_ones. change (2 ^ 4) with 16.
  rewrite N.mul_comm, N.mod_add by lia. f_equal. f_equal. rewrite N.shiftr_div_pow2. change (2 ^ 4) with 16.
  rewrite Ex. apply (N.div_unique _ _ _ lo); lia.
Qed.
Lemma p_small x : byte x -> small2 (p2 (p1 x)).
Proof.
  intros Hx. exists (p2 (p1 x) mod 16), (p2 (p1 x) / 16).
  assert (H : (p2 (p1 x) mod 16 <=? 4) && (p2 (p1 x) / 16 <=? 4) = true).
  { revert x Hx. apply by_bytes. vm_compute. reflexivity. }
  pose proof (N.div_mod (p2 (p1 x)) 16 ltac:(lia)). lia.
Qed.
Lemma p1_byte x : byte x -> byte (p1 x). Proof. unfold p1. auto with byte. Qed.
Lemma p_count x : byte x -> p3 (p2 (p1 x)) = count_ones x.
Proof. intros Hx. apply N.eqb_eq. revert x Hx. apply by_bytes. vm_compute. reflexivity. Qed.
Lemma count_byte x : byte x -> count_ones x <= 8.
Proof. intros Hx. apply N.leb_le. revert x Hx. apply by_bytes. vm_compute. reflexivity. Qed.
Lemma p2_byte x : byte x -> byte (p2 x).
Proof. intros Hx. apply N.ltb_lt. revert x Hx. apply by_bytes. vm_compute. reflexivity. Qed.

Lemma masks (xs : list N) : length xs = 8%nat ->
  0xAAAAAAAAAAAAAAAA = word (map (fun _ => 0xAA) xs) /\ 0x3333333333333333 = word (map (fun _ => 0x33) xs) /\
  0x0F0F0F0F0F0F0F0F = word (map (fun _ => 0x0F) xs).
Proof. destruct xs as [|? [|? [|? [|? [|? [|? [|? [|? [|]]]]]]]]]; try discriminate. repeat split. Qed.

(** The first three steps, shared by [count_ones] and [select1_raw]. *)
Lemma sideways {A} c xs (k : N -> res A) : length xs = 8%nat -> Forall byte xs ->
  (t <- wshr c 64 (N.land (word xs) 0xAAAAAAAAAAAAAAAA) 1 ;;
   s <- wsub c 64 (word xs) t ;;
   t <- wshr c 64 s 2 ;;
   s <- wadd c 64 (N.land s 0x3333333333333333) (N.land t 0x3333333333333333) ;;
   t <- wshr c 64 s 4 ;;
   t <- wadd c 64 s t ;;
   k (N.land t 0x0F0F0F0F0F0F0F0F)) = k (word (map count_ones xs)).
Proof.
  intros Hl HF. destruct (masks xs Hl) as (M1 & M2 & M3). rewrite wshr_ok by lia. cbn [bind].
  rewrite M1. destruct (stage1 xs HF) as [S1 S1']. rewrite wsub_ok by exact S1. rewrite S1'. cbn [bind].
  set (ys := map p1 xs) in *. assert (HF1 : Forall byte ys) by (apply map_byte; auto using p1_byte).
  assert (Hl1 : length ys = 8%nat) by (unfold ys; now rewrite map_length).
  rewrite wshr_ok by lia. cbn [bind]. rewrite (proj1 (proj2 (masks ys Hl1))).
  set (zs := map p2 ys) in *. assert (HF2 : Forall byte zs) by (apply map_byte; auto using p2_byte).
  assert (Hl2 : length zs = 8%nat) by (unfold zs; now rewrite map_length).
  pose proof (stage2 ys HF1) as S2. fold zs in S2. pose proof (word_lt64 zs Hl2 HF2).
  rewrite wadd_ok by (rewrite S2; assumption). rewrite S2. cbn [bind].
  rewrite wshr_ok by lia. cbn [bind].
  assert (HS : Forall small2 zs).
  { unfold zs, ys. rewrite map_map. apply Forall_map. eapply Forall_impl; [|exact HF]. apply p_small. }
  assert (Hsum : word zs + N.shiftr (word zs) 4 < 2 ^ 64).
  { assert (word zs <= word (map (fun _ => 0x44) zs)).
    { clear - HS. induction HS as [|z zs (lo & hi & E & H1 & H2) HF IH]; cbn [word map]; lia. }
    assert (word (map (fun _ => 0x44) zs) < 2 ^ 63).
    { clear - Hl2. destruct zs as [|? [|? [|? [|? [|? [|? [|? [|? [|]]]]]]]]]; try discriminate. vm_compute. reflexivity. }
    rewrite N.shiftr_div_pow2. pose proof (N.div_le_upper_bound (word zs) (2 ^ 4) (word zs) ltac:(lia) ltac:(lia)). lia. }
  rewrite wadd_ok by exact Hsum. cbn [bind]. rewrite (proj2 (proj2 (masks zs Hl2))), stage3 by exact HS.
  f_equal. f_equal. unfold zs, ys. rewrite !map_map. apply map_ext_Forall. eapply Forall_impl; [|exact HF]. apply p_count.
Qed.

(** Multiplying by [L8]: sums of the lower lanes. *)
Lemma mul_L8 b0 b1 b2 b3 b4 b5 b6 b7 : b0 + b1 + b2 + b3 + b4 + b5 + b6 + b7 < 256 ->
  wrapping_mul 64 (word [b0; b1; b2; b3; b4; b5; b6; b7]) L8 =
  word [b0; b0 + b1; b0 + b1 + b2; b0 + b1 + b2 + b3; b0 + b1 + b2 + b3 + b4; b0 + b1 + b2 + b3 + b4 + b5;
        b0 + b1 + b2 + b3 + b4 + b5 + b6; b0 + b1 + b2 + b3 + b4 + b5 + b6 + b7].
Proof.
  intros H. unfold wrapping_mul, L8. symmetry.
  apply (N.mod_unique _ _ (word [b1 + b2 + b3 + b4 + b5 + b6 + b7; b2 + b3 + b4 + b5 + b6 + b7;
    b3 + b4 + b5 + b6 + b7; b4 + b5 + b6 + b7; b5 + b6 + b7; b6 + b7; b7])); cbn [word]; lia.
Qed.
Lemma shr56 b0 b1 b2 b3 b4 b5 b6 b7 : Forall byte [b0; b1; b2; b3; b4; b5; b6; b7] ->
  N.shiftr (word [b0; b1; b2; b3; b4; b5; b6; b7]) 56 = b7.
Proof.
  intros H. repeat match goal with H : Forall _ (_ :: _) |- _ => inversion H; subst; clear H end. unfold byte in *.
  rewrite N.shiftr_div_pow2. symmetry. apply (N.div_unique _ _ _ (word [b0; b1; b2; b3; b4; b5; b6])); cbn [word]; lia.
Qed.

Lemma int_of_app l l' : int_of (l ++ l') = int_of l + 2 ^ lengthN l * int_of l'.
Proof. induction l as [|b l IH]; cbn [int_of app]; [change (2 ^ lengthN (@nil bool)) with 1; lia|]. rewrite IH, lengthN_cons, N.pow_add_r. change (2 ^ 1) with 2. lia. Qed.
Lemma count_ones_cons b w : byte b -> count_ones (b + 256 * w) = count_ones b + count_ones w.
Proof.
  intros Hb. assert (Hw : exists l, w = int_of l).
  { exists (bits_of (N.size w) w). rewrite int_of_bits_of, N.mod_small; [reflexivity|]. apply N.size_gt. }
  destruct Hw as [l ->]. assert (E : b = int_of (bits_of 8 b)) by (rewrite int_of_bits_of, N.mod_small by exact Hb; reflexivity).
  rewrite E. change 256 with (2 ^ 8). rewrite <- (lengthN_bits_of 8 b) at 2. rewrite <- int_of_app, !count_ones_int_of. apply count_app.
Qed.
Lemma bw_count_ones_ok c x : wf_cfg c -> x < 2 ^ 64 -> bw_count_ones c x = Ok (count_ones x).
Proof.
  intros Hc Hx. destruct (word8 x Hx) as (b0 & b1 & b2 & b3 & b4 & b5 & b6 & b7 & HF & ->).
  unfold bw_count_ones. rewrite (sideways c _ (fun s => r <- wshr c 64 (wrapping_mul 64 s L8) 56 ;; Ok (as_usize c r))) by auto.
  cbn [map].
  repeat match goal with H : Forall _ (_ :: _) |- _ => inversion H; subst; clear H end.
  repeat match goal with H : byte ?b |- _ => lazymatch goal with _ : count_ones b <= 8 |- _ => fail | _ => pose proof (count_byte b H) end end.
  rewrite mul_L8 by lia. rewrite wshr_ok by lia. cbn [bind]. rewrite shr56 by (repeat constructor; unfold byte; lia).
  cbn [word]. rewrite !count_ones_cons by assumption. change (count_ones 0) with 0.
  rewrite as_usize_small by (pose proof (wf_ptr c Hc); lia). f_equal. lia.
Qed.
Lemma broadword_rank1_ok c x p : wf_cfg c -> x < 2 ^ 64 -> p < 64 ->
  broadword_rank1 c x p = Ok (rank_of true (bits_of 64 x) p).
Proof.
  intros Hc Hx Hp. pose proof (wf_ptr c Hc) as Hptr. unfold broadword_rank1. rewrite debug_assert_true by lia. cbn [bind].
  rewrite as_usize_small by lia. rewrite wadd_ok by lia. cbn [bind].
  assert (H64 : wf_nb 64) by (right; right; right; reflexivity).
  rewrite low_mask_ok by (auto; lia). cbn [bind].
  rewrite bw_count_ones_ok; auto.
  - assert (E : x = int_of (bits_of 64 x)) by (rewrite int_of_bits_of, N.mod_small by exact Hx; reflexivity).
    rewrite E at 1. now rewrite land_ones_int_of, count_ones_int_of.
  - rewrite N.land_ones. eapply N.le_lt_trans; [apply N.mod_le|exact Hx]. pose proof (pow2_pos (p + 1)). lia.
Qed.
