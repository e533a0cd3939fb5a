(** * What every encoder writes for every value (C84): for each code a table of rows gives, for a value, the bits that reach the sink and
    what comes after them: success, an error of the code's own, a panic, or no end at all.  The rows cover every [u64], both kinds of
    build and every parameter, the ones that make no sense included. *)
From Verif Require Import Machine MStorage MTraits MStream MCoding SpecBits SpecCfg SpecStream PBase PBits PStream PCoding PCoding2 PCoding4 PIntVector Properties29 Properties30.

(** Encoding [v] puts the bits [w], one by one and in order, into any sink, as long as the sink takes them, and then comes out as [out];
    [OutOfFuel]: the call never returns. *)
Definition emits (C : code) (v : N) (w : list bool) (out : res (ioR unit)) : Prop :=
  exists n0, forall fuel, (n0 <= fuel)%nat -> writes (fun S snk => encode C snk fuel v) w out.
Definition etable := N -> list bool -> res (ioR unit) -> Prop.
Definition edescribes (T : etable) (C : code) : Prop :=
  (forall v w out, v < 2 ^ 64 -> T v w out -> emits C v w out) /\ (forall v, v < 2 ^ 64 -> exists w out, T v w out).
Definition done : res (ioR unit) := Ok (IOk tt).

(** ** The tables *)
Inductive unary_writes : etable :=
| uw_value : forall v, unary_writes v (repeatN false v ++ [true]) done.

(** [Lift0] writes the successor in the inner code; the largest [u64] has none. *)
Inductive lift0_writes (T : etable) : etable :=
| lw_value : forall v w out, v < 2 ^ 64 - 1 -> T (v + 1) w out -> lift0_writes T v w out
| lw_max : lift0_writes T (2 ^ 64 - 1) [] (Ok (IErr InvalidData)).

(** [Elias]: the position [n] of the highest one in the header code, then the [n] bits below it, low end first.  Whatever the header
    code does other than succeed is passed on. *)
Inductive elias_writes (T : etable) : etable :=
| ew_zero : elias_writes T 0 [] (Panic PAssert)
| ew_value : forall v n h w, v = 2 ^ n + int_of h -> lengthN h = n -> T n w done -> elias_writes T v (w ++ h) done
| ew_pass : forall v n r w out, v = 2 ^ n + r -> r < 2 ^ n -> T n w out -> out <> done -> elias_writes T v w out.

(** Omega: a zero bit for 1 and, like it, for 0. *)
Inductive omega_writes : etable :=
| ow_zero : omega_writes 0 [false] done
| ow_value : forall v g, omega_groups v g -> omega_writes v (g ++ [false]) done.

Inductive fibonacci_writes : etable :=
| fw_zero : fibonacci_writes 0 [] (Panic PAssert)
| fw_value : forall v z, fib_sum 1 1 z = v -> (forall i, ~ (nthN z i = Some true /\ nthN z (i + 1) = Some true)) -> last z false = true ->
    v < fib_max -> fibonacci_writes v (z ++ [true]) done
| fw_large : forall v, fib_max <= v -> fibonacci_writes v [] (Ok (IErr InvalidData)).

(** Comma: the base is 2^k - 1 for [k] the parameter, or without overflow checks the parameter modulo 64; the width of a digit is the
    parameter itself.  Base 0 cannot be divided by and base 1 never gets a value down to zero; both still write 0. *)
Inductive comma_writes (c : cfg) (n : N) : etable :=
| cw_wide : forall v, debug c = true -> 64 <= n -> comma_writes c n v [] (Panic POverflow)
| cw_value : forall v ds, (debug c = true -> n < 64) -> Forall (fun d => d < comma_top n) ds -> hd 1 ds <> 0 ->
    fold_left (fun a d => a * comma_top n + d) ds 0 = v ->
    comma_writes c n v (flat_map (bits_of n) ds ++ bits_of n (comma_top n)) done
| cw_base_0 : forall v, (debug c = true -> n < 64) -> n mod 64 = 0 -> 0 < v -> comma_writes c n v [] (Panic PDiv)
| cw_base_1 : forall v, (debug c = true -> n < 64) -> n mod 64 = 1 -> 0 < v -> comma_writes c n v [] OutOfFuel.

(** ** Proofs *)
Lemma writes_done {m : forall S, sink S -> io S unit} {w} : (forall S (snk : sink S) s, m S snk s = write_all snk w s) -> writes m w done.
Proof. intros H S snk s. rewrite H. destruct (write_all snk w s) as [[[[]|e] s']|p|]; reflexivity. Qed.
Lemma writes_none {m : forall S, sink S -> io S unit} {out} : (forall S (snk : sink S) s, m S snk s = (o <- out ;; Ok (o, s))) -> writes m [] out.
Proof. intros H S snk s. rewrite H. reflexivity. Qed.
Lemma emits_done C v w : encodes C v w -> emits C v w done.
Proof. intros (n0 & H). exists n0. intros fuel Hf. apply writes_done. intros S snk s. now apply H. Qed.

Theorem C84_unary : forall c, edescribes unary_writes (unary c).
Proof.
  intros c. split.
  - intros v w out Hv T. destruct T as [v]. exists (N.to_nat (v + 1)). intros fuel Hf. apply writes_done. intros S snk s.
    change (unary_encode c snk fuel v s = write_all snk (unary_word v) s). apply unary_encode_ok. lia.
  - intros v Hv. do 2 eexists. constructor.
Qed.

Theorem C84_lift0 : forall c T C, edescribes T C -> edescribes (lift0_writes T) (lift0 c C).
Proof.
  intros c T C [H1 H2]. split.
  - intros v w out Hv R. destruct R as [v w out Hm R|].
    + destruct (H1 (v + 1) w out ltac:(lia) R) as (n0 & H). exists n0. intros fuel Hf S snk s. cbn [encode lift0]. unfold lift0_encode, checked_add.
      destruct (v + 1 <? 2 ^ 64) eqn:E; [|apply N.ltb_ge in E; lia]. exact (H fuel Hf S snk s).
    + exists 0%nat. intros fuel _. apply writes_none. intros S snk s. reflexivity.
  - intros v Hv. destruct (N.eq_dec v (2 ^ 64 - 1)) as [->|Hm].
    + do 2 eexists. apply lw_max.
    + destruct (H2 (v + 1) ltac:(lia)) as (w & out & R). exists w, out. constructor; [lia|exact R].
Qed.

Lemma elias_split v n r : v = 2 ^ n + r -> r < 2 ^ n -> N.log2 v = n /\ v <> 0.
Proof.
  intros -> Hr. pose proof (pow2_pos n). split; [|lia]. apply N.log2_unique; [lia|]. rewrite N.pow_succ_r'. lia.
Qed.
Lemma elias_bits n h : lengthN h = n -> bits_of n (2 ^ n + int_of h) = h.
Proof.
  intros <-. transitivity (bits_of (lengthN h) (int_of h)); [|apply bits_of_int_of]. rewrite <- (PIntVector.bits_of_mod (lengthN h) (2 ^ lengthN h + int_of h)). f_equal.
  pose proof (pow2_pos (lengthN h)). pose proof (PBase.int_of_lt h). replace (2 ^ lengthN h + int_of h) with (int_of h + 1 * 2 ^ lengthN h) by lia.
  rewrite N.mod_add by lia. now apply N.mod_small.
Qed.
Lemma elias_emits c H v w out : v <> 0 -> v < 2 ^ 64 -> emits H (N.log2 v) w out ->
  emits (elias c H) v (match out with Ok (IOk _) => w ++ bits_of (N.log2 v) v | _ => w end) out.
Proof.
  intros Hv0 Hv (n0 & HH). pose proof (log2_lt v 64 Hv0 Hv) as Hk. set (k := N.log2 v) in *.
  assert (E : forall fuel S (snk : sink S) s, elias_encode c H snk fuel v s = try_ (encode H snk fuel k) (fun _ => write_int c snk 64 k v) s).
  { intros fuel S snk s. unfold elias_encode. unfold leading_zeros. rewrite size_log2 by exact Hv0. fold k.
    rewrite (try_lift _ tt). 2:{ apply assert_true. destruct (v =? 0) eqn:E; [lia|reflexivity]. }
    rewrite (try_lift _ 63) by (now rewrite wsub_ok by lia).
    rewrite (try_lift _ k) by (rewrite wsub_ok by lia; f_equal; lia). reflexivity. }
  exists n0. intros fuel Hf S snk s. cbn [encode elias]. rewrite E. unfold try_. rewrite (HH fuel Hf S snk s). destruct out as [[[]|e]|p|].
  - rewrite Properties29.write_all_app. destruct (write_all snk w s) as [[[[]|e] s']|p|]; cbn [bind]; try reflexivity. rewrite write_int_ok by lia.
    destruct (write_all snk _ s') as [[[[]|e] s2]|p|]; reflexivity.
  - destruct (write_all snk w s) as [[[[]|e'] s']|p|]; reflexivity.
  - destruct (write_all snk w s) as [[[[]|e'] s']|p'|]; reflexivity.
  - destruct (write_all snk w s) as [[[[]|e'] s']|p'|]; reflexivity.
Qed.

Theorem C84_elias : forall c T C, edescribes T C -> edescribes (elias_writes T) (elias c C).
Proof.
  intros c T C [H1 H2]. split.
  - intros v w out Hv R. destruct R as [|v n h w Ev Hh R|v n r w out Ev Hr R Ho].
    + exists 0%nat. intros fuel _. apply writes_none. intros S snk s. reflexivity.
    + pose proof (PBase.int_of_lt h) as Hl. rewrite Hh in Hl. destruct (elias_split v n _ Ev Hl) as [El E0]. pose proof (log2_lt v 64 E0 Hv) as Hk.
      assert (n < 2 ^ 64) by (rewrite <- El; change (2 ^ 64) with 18446744073709551616; lia).
      pose proof (H1 n w done ltac:(assumption) R) as He. rewrite <- El in He. pose proof (elias_emits c C v w done E0 Hv He) as K. cbv beta iota delta [done] in K.
      rewrite El, Ev, (elias_bits n h Hh), <- Ev in K. exact K.
    + destruct (elias_split v n r Ev Hr) as [El E0]. pose proof (log2_lt v 64 E0 Hv) as Hk.
      assert (n < 2 ^ 64) by (rewrite <- El; change (2 ^ 64) with 18446744073709551616; lia).
      pose proof (H1 n w out ltac:(assumption) R) as He. rewrite <- El in He. pose proof (elias_emits c C v w out E0 Hv He) as K.
      destruct out as [[[]|e]|p|]; [exfalso; apply Ho; reflexivity|exact K|exact K|exact K].
  - intros v Hv. destruct (N.eq_dec v 0) as [->|E0]; [do 2 eexists; apply ew_zero|]. pose proof (log2_lt v 64 E0 Hv) as Hk.
    destruct (N.log2_spec v ltac:(lia)) as [La Lb]. set (n := N.log2 v) in *. rewrite N.pow_succ_r' in Lb.
    destruct (H2 n ltac:(change (2 ^ 64) with 18446744073709551616; lia)) as (w & out & R).
    assert (Hcase : out = done \/ out <> done) by (destruct out as [[[]|e]|p|]; [left; reflexivity|right; discriminate|right; discriminate|right; discriminate]).
    destruct Hcase as [->|Ho].
    + exists (w ++ bits_of n (v - 2 ^ n)), done. apply (ew_value T v n); [|apply lengthN_bits_of|exact R]. rewrite int_of_bits_of, N.mod_small by lia. lia.
    + exists w, out. apply (ew_pass T v n (v - 2 ^ n)); auto; lia.
Qed.

Theorem C84_omega : forall c, wf_cfg c -> edescribes omega_writes (omega c).
Proof.
  intros c Hc. split.
  - intros v w out Hv R. destruct R as [|v g R].
    + exists 1%nat. intros [|fuel] Hf; [lia|]. apply writes_done. intros S snk s. cbn [encode omega]. unfold omega_encode.
      rewrite (try_lift _ []) by reflexivity. unfold try_ at 1. cbn [omega_write ret bind write_all]. unfold try_.
      destruct (write_bit snk false s) as [[[[]|e] s']|p|]; reflexivity.
    + apply emits_done. apply (cw_encodes _ _ _ (omega_codeword c v _ Hc Hv (ex_intro _ g (conj R eq_refl)))).
  - intros v Hv. destruct (N.eq_dec v 0) as [->|E0]; [do 2 eexists; apply ow_zero|].
    destruct (omega_groups_exists v E0) as (g & Hg). do 2 eexists. apply (ow_value v g Hg).
Qed.

Theorem C84_fibonacci : forall c, edescribes fibonacci_writes (fibonacci c).
Proof.
  intros c. split.
  - intros v w out Hv R. destruct R as [|v z Hs Hz Hl Hv'|v Hv'].
    + exists 0%nat. intros fuel _. apply writes_none. intros S snk s. reflexivity.
    + apply emits_done. assert (1 <= v).
      { destruct z as [|b z]; [discriminate|]. rewrite <- Hs. change (fib_sum 1 1 (b :: z)) with (fsum 0 (b :: z)). pose proof (fsum_last 0 (b :: z) Hl) as K. revert K. generalize (fsum 0 (b :: z)). intros m K.
        pose proof (fibp_pos (0 + length (b :: z) - 1)). lia. }
      apply (cw_encodes (fibonacci c) v). apply fib_codeword; [assumption|assumption|]. exists z. split; [exact Hs|]. split; [exact Hz|]. split; [exact Hl|reflexivity].
    + exists 93%nat. intros fuel Hf. apply writes_none. intros S snk s. now apply fib_encode_big.
  - intros v Hv. destruct (N.eq_dec v 0) as [->|E0]; [do 2 eexists; apply fw_zero|]. destruct (v <? fib_max) eqn:E.
    + destruct (fib_word_exists v ltac:(lia) ltac:(lia)) as (w & z & Hs & Hz & Hl & ->). exists (z ++ [true]), done. apply fw_value; [exact Hs|exact Hz|exact Hl|lia].
    + do 2 eexists. apply fw_large. lia.
Qed.

Lemma digits_pos b ds r : Forall (fun d => d < b) ds -> r <= fold_left (fun a d => a * b + d) ds r.
Proof.
  intros H. revert r. induction H as [|d ds Hd H IH]; intros r; cbn [fold_left]; [lia|]. etransitivity; [|apply IH]. nia.
Qed.
Lemma comma_stack_digits b ds : Forall (fun d => d < b) ds -> hd 1 ds <> 0 -> forall fuel acc, (length ds < fuel)%nat ->
  loop_fuel fuel (fun st : N * list N =>
        let (value, stack) := st in
        if 0 <? value then
          (d <- wmod value b ;; v <- wdiv value b ;; Ok (Continue (v, d :: stack)))%res
        else Ok (Return stack)) (fold_left (fun a d => a * b + d) ds 0, acc) = Ok (ds ++ acc).
Proof.
  induction ds as [|x ds IH] using rev_ind; intros HF Hh fuel acc Hf.
  - destruct fuel as [|fuel]; [cbn [length] in Hf; lia|]. reflexivity.
  - assert (Hpos : 0 < fold_left (fun a d => a * b + d) (ds ++ [x]) 0).
    { destruct (ds ++ [x]) as [|d l] eqn:E; [destruct ds; discriminate|]. cbn [hd fold_left] in *. inversion HF as [|? ? Hd HF']; subst.
      pose proof (digits_pos b l (0 * b + d) HF'). lia. }
    apply Forall_app in HF. destruct HF as [HF Hx]. inversion Hx as [|? ? Hxb _]; subst.
    rewrite fold_left_app in *. cbn [fold_left] in *. set (V := fold_left (fun a d => a * b + d) ds 0) in *. clearbody V.
    rewrite app_length in Hf. cbn [length] in Hf. destruct fuel as [|fuel]; [lia|]. cbn [loop_fuel]. destruct (0 <? V * b + x) eqn:E; [|lia].
    rewrite wmod_ok, wdiv_ok by lia. cbn [bind].
    assert ((V * b + x) mod b = x) as -> by (rewrite N.add_comm, N.mod_add by lia; now apply N.mod_small).
    assert ((V * b + x) / b = V) as -> by (rewrite N.add_comm, N.div_add by lia; rewrite N.div_small by lia; lia).
    rewrite <- app_assoc. cbn [app]. apply IH; [exact HF| |lia]. destruct ds as [|d ds]; [cbn; lia|exact Hh].
Qed.
Lemma digits_exist b v : 2 <= b -> exists ds, Forall (fun d => d < b) ds /\ hd 1 ds <> 0 /\ fold_left (fun a d => a * b + d) ds 0 = v.
Proof.
  intros Hb. induction v as [v IH] using (well_founded_induction N.lt_wf_0). destruct (N.eq_dec v 0) as [->|H0].
  - exists []. split; [constructor|]. split; [cbn; lia|reflexivity].
  - assert (Hlt : v / b < v) by (apply N.div_lt; lia). destruct (IH _ Hlt) as (ds & HF & Hh & Hv).
    pose proof (N.div_mod v b ltac:(lia)) as Hd. exists (ds ++ [v mod b]). split; [|split].
    + apply Forall_app. split; [exact HF|]. constructor; [apply N.mod_lt; lia|constructor].
    + destruct ds as [|d ds]; [|exact Hh]. cbn [fold_left] in Hv. cbn [app hd]. lia.
    + rewrite fold_left_app, Hv. cbn [fold_left]. lia.
Qed.
Lemma comma_write_any c n {S} (snk : sink S) ds s : comma_write c n snk ds s = write_all snk (flat_map (bits_of n) ds) s.
Proof.
  revert s. induction ds as [|d ds IH]; intros s; [reflexivity|]. cbn [comma_write flat_map]. rewrite Properties29.write_all_app.
  unfold try_. rewrite write_int_ok by lia. destruct (write_all snk (bits_of n d) s) as [[[u|e] s']| |]; cbn [bind]; auto.
Qed.

Theorem C84_comma : forall c n, edescribes (comma_writes c n) (comma c n).
Proof.
  intros c n. split.
  - intros v w out Hv R. destruct R as [v Hd Hn|v ds HW HF Hh Ev|v HW Hn H0|v HW Hn H0].
    + exists 0%nat. intros fuel _. apply writes_none. intros S snk s. cbn [encode comma]. unfold comma_encode, try_, lift, comma_base, wshl. rewrite Hd.
      destruct (n <? 64) eqn:E; [lia|]. reflexivity.
    + apply emits_done. exists (length ds + 1)%nat. intros fuel Hf S snk s. cbn [encode comma]. unfold comma_encode. rewrite (try_lift _ _ _ _ (comma_base_any c n HW)).
      rewrite (try_lift _ ds). 2:{ unfold comma_stack. rewrite <- Ev, comma_stack_digits by (auto; lia). now rewrite app_nil_r. }
      rewrite Properties29.write_all_app. unfold try_. rewrite comma_write_any. destruct (write_all snk _ s) as [[[u|e] s']| |]; cbn [bind]; auto.
      rewrite write_int_ok by lia. destruct (write_all snk _ s') as [[[[]|e] s2]| |]; reflexivity.
    + exists 1%nat. intros fuel Hf. apply writes_none. intros S snk s. cbn [encode comma]. unfold comma_encode. rewrite (try_lift _ _ _ _ (comma_base_any c n HW)).
      unfold comma_top. rewrite Hn. destruct fuel as [|fuel]; [lia|]. unfold try_, lift, comma_stack. cbn [loop_fuel]. destruct (0 <? v) eqn:E; [|lia]. reflexivity.
    + exists 0%nat. intros fuel _. apply writes_none. intros S snk s. cbn [encode comma]. unfold comma_encode. rewrite (try_lift _ _ _ _ (comma_base_any c n HW)).
      unfold comma_top. rewrite Hn. change (2 ^ 1 - 1) with 1. unfold try_ at 1, lift.
      replace (comma_stack fuel 1 v) with (@OutOfFuel (list N)); [reflexivity|]. unfold comma_stack.
      generalize (@nil N). induction fuel as [|fuel IH]; intros acc; [reflexivity|]. cbn [loop_fuel]. destruct (0 <? v) eqn:E; [|lia].
      rewrite wmod_ok, wdiv_ok by lia. cbn [bind]. rewrite N.mod_1_r, N.div_1_r. apply IH.
  - intros v Hv. destruct (debug c && (64 <=? n)) eqn:E.
    + apply andb_prop in E. destruct E as [E1 E2]. exists [], (Panic POverflow). constructor; [exact E1|lia].
    + assert (HW : debug c = true -> n < 64) by (intros Hd; rewrite Hd in E; cbn [andb] in E; lia).
      destruct (N.eq_dec v 0) as [->|H0].
      { exists (flat_map (bits_of n) [] ++ bits_of n (comma_top n)), done. apply cw_value; [exact HW|constructor|cbn; lia|reflexivity]. }
      destruct (N.eq_dec (n mod 64) 0) as [E0|E0]; [do 2 eexists; apply cw_base_0; auto; lia|].
      destruct (N.eq_dec (n mod 64) 1) as [E1|E1]; [do 2 eexists; apply cw_base_1; auto; lia|].
      assert (Hb : 2 <= comma_top n).
      { unfold comma_top. assert (2 ^ 2 <= 2 ^ (n mod 64)) by (apply N.pow_le_mono_r; lia). change (2 ^ 2) with 4 in *. lia. }
      destruct (digits_exist (comma_top n) v Hb) as (ds & HF & Hh & Ev). exists (flat_map (bits_of n) ds ++ bits_of n (comma_top n)), done. now apply cw_value.
Qed.

(** Every code the crate can put together has such a table. *)
Theorem C84_every_code : forall c C, wf_cfg c -> any_code c C -> exists T, edescribes T C.
Proof.
  intros c C Hc H. induction H as [| | |n|C H (T & IH)|C H (T & IH)].
  - exists unary_writes. apply C84_unary.
  - exists omega_writes. now apply C84_omega.
  - exists fibonacci_writes. apply C84_fibonacci.
  - exists (comma_writes c n). apply C84_comma.
  - exists (lift0_writes T). now apply C84_lift0.
  - exists (elias_writes T). now apply C84_elias.
Qed.
(** Two rows for one value say the same. *)
Theorem C84_rows_agree : forall T C v w out w' out', edescribes T C -> v < 2 ^ 64 -> T v w out -> T v w' out' -> out = out' /\ (forall x, out = Ok x -> w = w').
Proof.
  intros T C v w out w' out' [H _] Hv R R'. destruct (H v w out Hv R) as (n0 & K). destruct (H v w' out' Hv R') as (n1 & K').
  pose proof (K (n0 + n1)%nat ltac:(lia) _ deque_sink []) as A. pose proof (K' (n0 + n1)%nat ltac:(lia) _ deque_sink []) as A'. cbv beta in A, A'. rewrite A' in A. clear A'. rewrite !write_all_deque in A. cbn [bind app] in A.
  destruct out as [x|p|], out' as [x'|p'|]; cbn [bind] in A; try discriminate A; split; try congruence.
Qed.
(** Gamma and Delta by name *)
Theorem C84_gamma : forall c, edescribes (elias_writes unary_writes) (gamma c).
Proof. intros c. apply C84_elias, C84_unary. Qed.
Theorem C84_delta : forall c, edescribes (elias_writes (lift0_writes (elias_writes unary_writes))) (delta c).
Proof. intros c. apply C84_elias, C84_lift0, C84_gamma. Qed.

(** Comma writes what it reads back, for every parameter and every value it writes at all: also the parameters from 64 on of a build
    without overflow checks.  (With digits of no bits everything reads back as 0, which is then the only value written.) *)
Theorem C84_comma_reads_back : forall c n v w rest o, v < 2 ^ 64 -> comma_writes c n v w done -> comma_table c n o (w ++ rest) (value v) (Some rest).
Proof.
  intros c n v w rest o Hv R. inversion R as [|? ds HW HF Hh Ev| |]; subst v0 w; try discriminate.
  assert (Hk : comma_top n < 2 ^ n /\ comma_top n < 2 ^ 64).
  { unfold comma_top. pose proof (pow2_pos (n mod 64)). assert (2 ^ (n mod 64) <= 2 ^ n) by (apply N.pow_le_mono_r; [lia|apply N.mod_le; lia]).
    pose proof (N.mod_lt n 64 ltac:(lia)). assert (2 ^ (n mod 64) <= 2 ^ 64) by (apply N.pow_le_mono_r; lia). lia. }
  destruct Hk as [Hk1 Hk2].
  assert (Hd : forall d, d <= comma_top n -> int_of (bits_of n d) mod 2 ^ 64 = d).
  { intros d Hd. rewrite int_of_bits_of. rewrite (N.mod_small d) by lia. apply N.mod_small. lia. }
  assert (Ec : flat_map (bits_of n) ds = concat (map (bits_of n) ds)) by apply flat_map_concat_map.
  assert (Evv : comma_value n (map (bits_of n) ds) = v).
  { rewrite <- Ev. unfold comma_value. clear - HF Hd. generalize 0. induction HF as [|d ds Hdd HF IH]; intros a; [reflexivity|]. cbn [map fold_left].
    rewrite Hd by lia. apply IH. }
  rewrite Ec, <- app_assoc. rewrite <- (N.mod_small v (2 ^ 64)) by exact Hv. rewrite <- Evv. apply ct_value.
  - unfold comma_digits. apply Forall_map. apply Forall_impl with (2 := HF). intros d Hdd. split; [apply lengthN_bits_of|]. rewrite Hd by lia. lia.
  - intros Hdb. split; [now apply HW|]. now rewrite Evv.
  - apply lengthN_bits_of.
  - apply Hd. lia.
Qed.
Theorem C84_comma_round_trip : forall c n v w rest o, v < 2 ^ 64 -> comma_writes c n v w done -> answers (comma c n) o (w ++ rest) (value v) (Some rest).
Proof. intros c n v w rest o Hv R. apply (proj1 (C83_comma c n)). now apply C84_comma_reads_back. Qed.
(** An encoder that does not succeed has written nothing: no code of the crate leaves part of a word behind when it refuses a value,
    panics or runs on for ever, whatever it is put together from. *)
Definition clean (T : etable) : Prop := forall v w out, T v w out -> out <> done -> w = [].
Theorem C84_fails_clean : forall c C v, wf_cfg c -> any_code c C -> v < 2 ^ 64 -> exists w out, emits C v w out /\ (out <> done -> w = []).
Proof.
  intros c C v Hc H Hv. assert (G : exists T, edescribes T C /\ clean T).
  { clear v Hv. induction H as [| | |n|C H (T & IH & IC)|C H (T & IH & IC)].
    - exists unary_writes. split; [apply C84_unary|]. intros v w out R Ho. destruct R. now destruct Ho.
    - exists omega_writes. split; [now apply C84_omega|]. intros v w out R Ho. destruct R; now destruct Ho.
    - exists fibonacci_writes. split; [apply C84_fibonacci|]. intros v w out R Ho. destruct R; try reflexivity; now destruct Ho.
    - exists (comma_writes c n). split; [apply C84_comma|]. intros v w out R Ho. destruct R; try reflexivity; now destruct Ho.
    - exists (lift0_writes T). split; [now apply C84_lift0|]. intros v w out R Ho. destruct R as [v w out Hm R|]; [now apply (IC _ _ _ R)|reflexivity].
    - exists (elias_writes T). split; [now apply C84_elias|]. intros v w out R Ho. destruct R as [|v n h w Ev Hh R|v n r w out Ev Hr R _]; [reflexivity|now destruct Ho|now apply (IC _ _ _ R)]. }
  destruct G as (T & [G1 G2] & HC). destruct (G2 v Hv) as (w & out & R). exists w, out. split; [now apply G1|]. now apply (HC v).
Qed.

Example C84_ex :
  comma_writes rel64 70 100 (bits_of 70 1 ++ bits_of 70 37 ++ bits_of 70 63) done /\
  encode (comma rel64 70) deque_sink 20 100 [] = Ok (IOk tt, bits_of 70 1 ++ bits_of 70 37 ++ bits_of 70 63) /\
  decode (comma rel64 70) deque_source 300 (bits_of 70 1 ++ bits_of 70 37 ++ bits_of 70 63 ++ [true]) = Ok (IOk (Some 100), [true]) /\
  encode (comma dbg64 70) deque_sink 20 100 [] = Panic POverflow /\
  encode (comma rel64 64) deque_sink 20 5 [] = Panic PDiv /\
  encode (comma rel64 1) deque_sink 20 0 [] = Ok (IOk tt, [true]) /\
  encode (elias dbg64 (fibonacci dbg64)) deque_sink 100 1 [] = Panic PAssert /\
  encode (lift0 dbg64 (gamma dbg64)) deque_sink 100 (2 ^ 64 - 1) [] = Ok (IErr InvalidData, []) /\
  encode (delta dbg32) deque_sink 100 13 [] = Ok (IOk tt, delta_word 13) /\
  elias_writes (lift0_writes (elias_writes unary_writes)) 13 (([false; false; true] ++ [false; false]) ++ [true; false; true]) done.
Proof.
  split.
  { apply (cw_value rel64 70 100 [1; 37]); [discriminate|repeat constructor|cbn; lia|reflexivity]. }
  do 8 (split; [vm_compute; reflexivity|]).
  apply (ew_value _ 13 3); [reflexivity|reflexivity|]. apply lw_value; [reflexivity|]. apply (ew_value _ 4 2); [reflexivity|reflexivity|]. apply uw_value.
Qed.

Print Assumptions C84_unary.
Print Assumptions C84_lift0.
Print Assumptions C84_elias.
Print Assumptions C84_omega.
Print Assumptions C84_fibonacci.
Print Assumptions C84_comma.
Print Assumptions C84_every_code.
Print Assumptions C84_rows_agree.
Print Assumptions C84_gamma.
Print Assumptions C84_delta.
Print Assumptions C84_comma_reads_back.
Print Assumptions C84_comma_round_trip.
Print Assumptions C84_fails_clean.
