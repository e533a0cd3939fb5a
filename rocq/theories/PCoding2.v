(** * Proofs about the codes: comma and Fibonacci. *)
From Verif Require Import Machine MStorage MTraits MStream MCoding SpecBits SpecCfg SpecStream PBase PBits PDefaults PStream PCoding.

(** ** Comma *)
Section Comma.
  Context (c : cfg) (n : N).
  Hypothesis Hn : 2 <= n <= 63.
  Let base := 2 ^ n - 1.
  Lemma base_ge : 3 <= base /\ base < 2 ^ 63.
  Proof.
    assert (2 ^ 2 <= 2 ^ n) by (apply N.pow_le_mono_r; lia). assert (2 ^ n <= 2 ^ 63) by (apply N.pow_le_mono_r; lia).
    unfold base. change (2 ^ 2) with 4 in *. lia.
  Qed.
  Lemma comma_base_ok : comma_base c n = Ok base.
  Proof.
    unfold comma_base. assert (2 ^ n < 2 ^ 64) by (apply N.pow_lt_mono_r; lia). rewrite wshl_ok by lia. cbn [bind]. rewrite N.shiftl_1_l, N.mod_small by lia.
    pose proof (pow2_pos n). now rewrite wsub_ok by lia.
  Qed.
  Lemma comma_stack_ok v : exists ds, Forall (fun d => d < base) ds /\ hd 1 ds <> 0 /\
    fold_left (fun a d => a * base + d) ds 0 = v /\ exists n0, forall fuel acc, (n0 <= fuel)%nat ->
    loop_fuel fuel (fun st : N * list N =>
        let (value, stack) := st in
        if 0 <? value then
          (d <- wmod value base ;; v <- wdiv value base ;; Ok (Continue (v, d :: stack)))%res
        else Ok (Return stack)) (v, acc) = Ok (ds ++ acc).
  Proof.
    pose proof base_ge as [Hb _]. clearbody base.
    induction v as [v IH] using (well_founded_induction N.lt_wf_0). destruct (N.eq_dec v 0) as [->|H0].
    - exists []. split; [constructor|]. split; [cbn; lia|]. split; [reflexivity|]. exists 1%nat. intros [|fuel] acc Hf; [lia|reflexivity].
    - assert (Hlt : v / base < v) by (apply N.div_lt; lia). destruct (IH _ Hlt) as (ds & HF & Hh & Hv & n0 & HL).
      pose proof (N.div_mod v base ltac:(lia)) as Hd. exists (ds ++ [v mod base]). split; [|split; [|split]].
      + apply Forall_app. split; [exact HF|]. constructor; [apply N.mod_lt; lia|constructor].
      + destruct ds as [|d ds]; [|exact Hh]. cbn [fold_left] in Hv. cbn [app hd]. lia.
      + rewrite fold_left_app, Hv. cbn [fold_left]. lia.
      + exists (Datatypes.S n0). intros [|fuel] acc Hf; [lia|]. cbn [loop_fuel]. destruct (0 <? v) eqn:E; [|lia].
        rewrite wmod_ok, wdiv_ok by lia. cbn [bind]. rewrite HL by lia. now rewrite <- app_assoc.
  Qed.
  Lemma comma_write_ok {S} (snk : sink S) ds s : comma_write c n snk ds s = write_all snk (flat_map (bits_of n) ds) s.
  Proof.
    revert s. induction ds as [|d ds IH]; intros s; [reflexivity|]. cbn [comma_write flat_map]. rewrite write_all_app.
    unfold try_. rewrite write_int_ok by lia. destruct (write_all snk (bits_of n d) s) as [[[u|e] s']| |]; cbn [bind]; auto.
  Qed.
  Lemma comma_encode_ok v : exists w, comma_word n v w /\ encodes (comma c n) v w.
  Proof.
    destruct (comma_stack_ok v) as (ds & HF & Hh & Hv & n0 & HL). exists (flat_map (bits_of n) ds ++ bits_of n base). split.
    - exists ds. auto.
    - exists n0. intros fuel Hf S snk s. cbn. unfold comma_encode. rewrite (try_lift _ base) by apply comma_base_ok.
      rewrite (try_lift _ ds) by (unfold comma_stack; rewrite HL by exact Hf; now rewrite app_nil_r).
      rewrite write_all_app. unfold try_. rewrite comma_write_ok. destruct (write_all snk _ s) as [[[u|e] s']| |]; cbn [bind]; auto.
      rewrite write_int_ok by lia. destruct (write_all snk _ s') as [[[[]|e] s2]| |]; reflexivity.
  Qed.

  Definition comma_body {S} (src : source S) (st : N * bool) : io S (flow (N * bool) (option N)) :=
        let '(result, consumed) := st in
        try_ (read_int c src 64 n) (fun o : option N =>
        match o with
        | Some digit =>
            if digit =? base then ret (Return (Some result))
            else
              try_ (lift (wmul c 64 result base)) (fun m =>
              try_ (lift (wadd c 64 m digit)) (fun r =>
              ret (Continue (r, true))))
        | None => if consumed then fail UnexpectedEof else ret (Return None)
        end).
  Lemma comma_decode_eq {S} (src : source S) fuel s : comma_decode c n src fuel s = loop_io fuel (comma_body src) (0, false) s.
  Proof. unfold comma_decode. rewrite (try_lift _ base) by apply comma_base_ok. reflexivity. Qed.
  Lemma fold_ge ds r : r <= fold_left (fun a d => a * base + d) ds r.
  Proof.
    pose proof base_ge as [Hb _]. clearbody base. revert r. induction ds as [|d ds IH]; intros r; cbn [fold_left]; [lia|].
    etransitivity; [|apply IH]. nia.
  Qed.
  Lemma digit_bits d : d < 2 ^ n -> int_of (bits_of n d) mod 2 ^ 64 = d.
  Proof.
    intros Hd. rewrite int_of_bits_of, (N.mod_small d) by exact Hd. apply N.mod_small. assert (2 ^ n < 2 ^ 64) by (apply N.pow_lt_mono_r; lia). lia.
  Qed.
  Lemma comma_loop {S} (src : source S) ds : forall fuel r (b : bool) s s', Forall (fun d => d < base) ds ->
    fold_left (fun a d => a * base + d) ds r < 2 ^ 64 -> (length ds <= fuel)%nat -> reads src s (flat_map (bits_of n) ds) s' ->
    loop_io fuel (comma_body src) (r, b) s =
    loop_io (fuel - length ds) (comma_body src) (fold_left (fun a d => a * base + d) ds r, b || negb (lengthN ds =? 0)) s'.
  Proof.
    induction ds as [|d ds IH]; intros fuel r b s s' HF Hr Hf H.
    - apply reads_nil_inv in H. subst s'. cbn [fold_left length]. rewrite Nat.sub_0_r. cbn. now rewrite orb_false_r.
    - inversion HF as [|? ? Hd HF']; subst. cbn [flat_map] in H. apply reads_app in H. destruct H as (s1 & H1 & H2).
      cbn [fold_left] in Hr. pose proof (fold_ge ds (r * base + d)) as Hge.
      destruct fuel as [|fuel]; [cbn [length] in Hf; lia|]. cbn [loop_io].
      assert (Eb : comma_body src (r, b) s = Ok (IOk (Continue (r * base + d, true)), s1)).
      { unfold comma_body.
        rewrite (try_ok _ _ _ _ _ (read_int_ok c src 64 ltac:(lia) n (bits_of n d) s s1 (lengthN_bits_of n d) H1)).
        rewrite digit_bits by (unfold base in Hd; lia). destruct (d =? base) eqn:E; [lia|].
        rewrite (try_lift _ (r * base)) by (apply wmul_ok; lia). rewrite (try_lift _ (r * base + d)) by (apply wadd_ok; lia). reflexivity. }
      rewrite (try_ok _ _ _ _ _ Eb). rewrite (IH fuel _ true s1 s') by (auto; cbn [length] in Hf; lia).
      cbn [fold_left length Nat.sub]. f_equal. f_equal. rewrite lengthN_cons. destruct (lengthN ds + 1 =? 0) eqn:E; [lia|].
      cbn [negb]. now rewrite orb_true_r.
  Qed.
  Lemma comma_decode_ok v w : v < 2 ^ 64 -> comma_word n v w -> decodes (comma c n) w v.
  Proof.
    intros Hv (ds & HF & Hh & Ev & ->). fold base in HF, Ev |- *. exists (Datatypes.S (length ds)). intros fuel Hf S src s s' H. cbn. rewrite comma_decode_eq.
    apply reads_app in H. destruct H as (s1 & H1 & H2). rewrite (comma_loop src ds fuel 0 false s s1) by (auto; lia). rewrite Ev.
    destruct (fuel - length ds)%nat as [|m] eqn:Em; [lia|]. cbn [loop_io].
    assert (Eb : forall b, comma_body src (v, b) s1 = Ok (IOk (Return (Some v)), s')).
    { intros b. unfold comma_body. rewrite (try_ok _ _ _ _ _ (read_int_ok c src 64 ltac:(lia) n (bits_of n base) s1 s' (lengthN_bits_of n base) H2)).
      pose proof (pow2_pos n). rewrite digit_bits by (unfold base; lia). rewrite N.eqb_refl. reflexivity. }
    rewrite (try_ok _ _ _ _ _ (Eb _)). reflexivity.
  Qed.
  Lemma prefix_digits ds p : proper_prefix p (flat_map (bits_of n) ds) ->
    exists ds1 d ds2 q, ds = ds1 ++ d :: ds2 /\ p = flat_map (bits_of n) ds1 ++ q /\ proper_prefix q (bits_of n d).
  Proof.
    revert p. induction ds as [|d ds IH]; intros p H.
    - destruct H as (q & Hq & E). destruct p, q; try discriminate; congruence.
    - cbn [flat_map] in H. apply prefix_app in H. destruct H as [H|(q & -> & H)].
      + exists [], d, ds, p. auto.
      + destruct (IH q H) as (ds1 & d' & ds2 & q' & -> & -> & Hq'). exists (d :: ds1), d', ds2, q'. cbn [flat_map app].
        rewrite app_assoc. auto.
  Qed.
  Lemma fold_prefix ds1 ds2 r : fold_left (fun a d => a * base + d) ds1 r <= fold_left (fun a d => a * base + d) (ds1 ++ ds2) r.
  Proof. rewrite fold_left_app. apply fold_ge. Qed.
  Lemma comma_truncates v w : v < 2 ^ 64 -> comma_word n v w -> truncates (comma c n) w.
  Proof.
    intros Hv (ds & HF & Hh & Ev & ->). fold base in HF, Ev |- *. exists (Datatypes.S (length ds)). intros fuel Hf S src s p s' o s'' Hp Hr Ho. cbn. rewrite comma_decode_eq.
    assert (exists ds1 ds2 q, ds = ds1 ++ ds2 /\ p = flat_map (bits_of n) ds1 ++ q /\ lengthN q < n) as (ds1 & ds2 & q & Eds & -> & Hq).
    { apply prefix_app in Hp. destruct Hp as [Hp|(q & -> & Hq)].
      - apply prefix_digits in Hp. destruct Hp as (ds1 & d & ds2 & q & -> & -> & Hq). exists ds1, (d :: ds2), q. split; [reflexivity|]. split; [reflexivity|].
        apply prefix_length in Hq. now rewrite lengthN_bits_of in Hq.
      - exists ds, [], q. rewrite app_nil_r. split; [reflexivity|]. split; [reflexivity|]. apply prefix_length in Hq. now rewrite lengthN_bits_of in Hq. }
    apply reads_app in Hr. destruct Hr as (s1 & H1 & H2).
    assert (Hle : (length ds1 <= length ds)%nat) by (rewrite Eds, app_length; lia).
    pose proof (fold_prefix ds1 ds2 0) as Hfp. rewrite <- Eds, Ev in Hfp.
    assert (HF1 : Forall (fun d => d < base) ds1) by (rewrite Eds in HF; now apply Forall_app in HF).
    rewrite (comma_loop src ds1 fuel 0 false s s1) by (auto; lia).
    destruct (fuel - length ds1)%nat as [|m] eqn:Em; [lia|]. cbn [loop_io]. unfold try_ at 1. unfold comma_body at 1. unfold try_ at 1.
    rewrite (read_int_stop c src 64 ltac:(lia) n q s1 s' o s'' Hq H2 Ho). cbn [bind]. unfold stopped.
    destruct o as [a|e]; [|reflexivity].
    destruct ds1 as [|d1 ds1]; [destruct q; reflexivity|].
    assert (Hd : exists b t, bits_of n d1 = b :: t).
    { pose proof (lengthN_bits_of n d1) as El. destruct (bits_of n d1) as [|b t]; [rewrite lengthN_nil in El; lia|eauto]. }
    destruct Hd as (b & t & Eb). cbn [flat_map]. rewrite Eb. cbn [app]. rewrite lengthN_cons. destruct (lengthN ds1 + 1 =? 0) eqn:E; [lia|]. destruct q; reflexivity.
  Qed.
End Comma.
Lemma comma_unique c n v w w' : 2 <= n <= 63 -> v < 2 ^ 64 -> comma_word n v w -> encodes (comma c n) v w' -> w = w'.
Proof.
  intros Hn Hv Hw [n1 H1]. destruct (comma_encode_ok c n Hn v) as (w2 & Hw2 & [n2 H2]).
  assert (E2 : w2 = w').
  { pose proof (H1 (n1 + n2)%nat ltac:(lia) _ deque_sink []) as A1. pose proof (H2 (n1 + n2)%nat ltac:(lia) _ deque_sink []) as A2.
    rewrite write_all_deque in A1, A2. rewrite A1 in A2. cbn [app] in A2. now injection A2. }
  subst w2. clear H1 H2. destruct Hw as (ds & HF & Hh & Ev & ->), Hw2 as (ds2 & HF2 & Hh2 & Ev2 & ->). do 2 f_equal.
  assert (G : forall base, 3 <= base -> forall a b, Forall (fun d => d < base) a -> Forall (fun d => d < base) b -> hd 1 a <> 0 -> hd 1 b <> 0 ->
    fold_left (fun a d => a * base + d) a 0 = fold_left (fun a d => a * base + d) b 0 -> a = b).
  { clear. intros base Hb a. induction a as [|x a IH] using rev_ind; intros b Ha Hb' H1 H2 E.
    - destruct b as [|y b]; [reflexivity|]. cbn [fold_left hd] in *. exfalso.
      assert (G : forall l r, r <= fold_left (fun a d => a * base + d) l r).
      { induction l as [|d l IHl]; intros r; cbn [fold_left]; [lia|]. etransitivity; [|apply IHl]. nia. }
      pose proof (G b (0 * base + y)). lia.
    - destruct b as [|y b] using rev_ind.
      + exfalso. assert (G : forall l r, r <= fold_left (fun a d => a * base + d) l r).
        { induction l as [|d l IHl]; intros r; cbn [fold_left]; [lia|]. etransitivity; [|apply IHl]. nia. }
        destruct a as [|z a]; cbn [app hd fold_left] in *; [lia|]. pose proof (G (a ++ [x]) (0 * base + z)). lia.
      + clear IHb. rewrite !fold_left_app in E. cbn [fold_left] in E. apply Forall_app in Ha. apply Forall_app in Hb'.
        destruct Ha as [Ha Hx], Hb' as [Hb' Hy]. inversion Hx; inversion Hy; subst.
        set (A := fold_left (fun a d => a * base + d) a 0) in *. set (B := fold_left (fun a d => a * base + d) b 0) in *.
        assert (A = B /\ x = y) as [EA ->].
        { clearbody A B. assert (A = B) by (destruct (N.lt_trichotomy A B) as [|[|]]; nia). subst. lia. }
        f_equal. destruct a as [|z a], b as [|z' b].
        * reflexivity.
        * exfalso. cbn [app hd] in H2. cbn [fold_left] in A, B. assert (G : forall l r, r <= fold_left (fun a d => a * base + d) l r).
          { induction l as [|d l IHl]; intros r; cbn [fold_left]; [lia|]. etransitivity; [|apply IHl]. nia. }
          pose proof (G b (0 * base + z')). subst A B. lia.
        * exfalso. cbn [app hd] in H1. cbn [fold_left] in A, B. assert (G : forall l r, r <= fold_left (fun a d => a * base + d) l r).
          { induction l as [|d l IHl]; intros r; cbn [fold_left]; [lia|]. etransitivity; [|apply IHl]. nia. }
          pose proof (G a (0 * base + z)). subst A B. lia.
        * apply IH; auto. }
  pose proof (base_ge n Hn) as [Hb _]. apply (G (2 ^ n - 1)); auto. congruence.
Qed.
Lemma comma_codeword c n v w : 2 <= n <= 63 -> v < 2 ^ 64 -> comma_word n v w -> codeword (comma c n) v w.
Proof.
  intros Hn Hv Hw. destruct (comma_encode_ok c n Hn v) as (w' & Hw' & HE). pose proof (comma_unique c n v w w' Hn Hv Hw HE). subst w'. split; auto.
  - destruct Hw as (ds & _ & _ & _ & ->). intros E. apply app_eq_nil in E. destruct E as [_ E].
    pose proof (lengthN_bits_of n (2 ^ n - 1)) as El. rewrite E, lengthN_nil in El. lia.
  - now apply comma_decode_ok.
Qed.

(** ** Fibonacci *)
Fixpoint fibp (k : nat) : fib :=
  match k with
  | O => fib_new
  | Datatypes.S k' => let f := fibp k' in {| fi_1 := fi f; fi := fi_1 f + fi f |}
  end.
Lemma fibp_pos k : 1 <= fi_1 (fibp k) <= fi (fibp k).
Proof. induction k as [|k IH]; cbn [fibp fi fi_1 fib_new]; lia. Qed.
Lemma fibp_mono j k : (j <= k)%nat -> fi (fibp j) <= fi (fibp k).
Proof. induction 1 as [|k H IH]; [lia|]. pose proof (fibp_pos k). cbn [fibp fi]. lia. Qed.
Lemma fibp_91 : fi (fibp 91) = fib_max. Proof. vm_compute. reflexivity. Qed.
Lemma fibp_92 : 2 ^ 64 <= fi (fibp 92). Proof. vm_compute. congruence. Qed.
Lemma fibp_small k : (k <= 91)%nat -> fi (fibp k) < 2 ^ 64.
Proof. intros H. pose proof (fibp_mono k 91 H) as E. rewrite fibp_91 in E. unfold fib_max in E. lia. Qed.
Lemma fib_next_ok k : (k < 91)%nat -> fib_next (fibp k) = IOk (fibp (Datatypes.S k)).
Proof.
  intros H. pose proof (fibp_small (Datatypes.S k) ltac:(lia)) as E. unfold fib_next, checked_add. cbn [fibp fi] in *.
  destruct (fi_1 (fibp k) + fi (fibp k) <? 2 ^ 64) eqn:E1; [reflexivity|lia].
Qed.
Lemma fib_next_91 : fib_next (fibp 91) = IErr InvalidData. Proof. vm_compute. reflexivity. Qed.
Global Opaque fibp.
Lemma fibp_S k : fibp (Datatypes.S k) = {| fi_1 := fi (fibp k); fi := fi_1 (fibp k) + fi (fibp k) |}.
Proof. reflexivity. Qed.
Lemma fibp_0 : fibp 0 = fib_new. Proof. reflexivity. Qed.

Lemma fib_search_from {S} d : forall k fuel v s, (k + d = 91)%nat -> v < fib_max -> (d < fuel)%nat ->
  (k = 0%nat \/ fi_1 (fibp k) <= v) -> 1 <= v ->
  exists k', (1 <= k' <= 91)%nat /\ fi_1 (fibp k') <= v < fi (fibp k') /\
  loop_io fuel (fun f => if fi f <=? v then try_ (lift_io (fib_next f)) (fun f' => ret (Continue f')) else ret (Return f)) (fibp k) s
    = Ok (IOk (fibp k'), s : S).
Proof.
  induction d as [|d IH]; intros k fuel v s Hk Hv Hf Hlo H1; (destruct fuel as [|fuel]; [lia|]); cbn [loop_io].
  - assert (k = 91%nat) as -> by lia. rewrite fibp_91. destruct (fib_max <=? v) eqn:E; [lia|].
    exists 91%nat. split; [lia|]. rewrite fibp_91. split; [|reflexivity]. destruct Hlo; [lia|]. lia.
  - destruct (fi (fibp k) <=? v) eqn:E.
    + destruct (IH (Datatypes.S k) fuel v s) as (k' & Hk' & Hv' & EL); auto; try lia.
      { right. rewrite fibp_S. cbn [fi_1]. lia. }
      exists k'. split; [exact Hk'|]. split; [exact Hv'|]. rewrite <- EL. unfold try_ at 1 2, lift_io. rewrite fib_next_ok by lia. reflexivity.
    + exists k. split; [|split; [|reflexivity]].
      * split; [|lia]. destruct k; [|lia]. change (fi (fibp 0)) with 1 in E. lia.
      * destruct Hlo as [->|Hlo]; [change (fi_1 (fibp 0)) with 1; lia|lia].
Qed.
Lemma fib_search_big {S} d : forall k fuel v s, (k + d = 91)%nat -> fib_max <= v -> (d < fuel)%nat ->
  loop_io fuel (fun f => if fi f <=? v then try_ (lift_io (fib_next f)) (fun f' => ret (Continue f')) else ret (Return f)) (fibp k) s
    = Ok (IErr InvalidData, s : S).
Proof.
  induction d as [|d IH]; intros k fuel v s Hk Hv Hf; (destruct fuel as [|fuel]; [lia|]); cbn [loop_io].
  - assert (k = 91%nat) as -> by lia. rewrite fibp_91. destruct (fib_max <=? v) eqn:E; [|lia].
    unfold try_ at 1 2, lift_io. rewrite fib_next_91. reflexivity.
  - pose proof (fibp_mono k 91 ltac:(lia)) as Hm. rewrite fibp_91 in Hm. destruct (fi (fibp k) <=? v) eqn:E; [|lia].
    rewrite <- (IH (Datatypes.S k) fuel v s) by (auto; lia). unfold try_ at 1 2, lift_io. rewrite fib_next_ok by lia. reflexivity.
Qed.

Definition no_adjacent (z : list bool) : Prop := forall i, ~ (nthN z i = Some true /\ nthN z (i + 1) = Some true).
Lemma no_adjacent_nil : no_adjacent [].
Proof. intros i [H _]. now rewrite nthN_nil in H. Qed.
Lemma last_nthN z : last z false = match nthN z (lengthN z - 1) with Some b => b | None => false end.
Proof.
  destruct z as [|x z] using rev_ind; [reflexivity|]. rewrite last_last, lengthN_app, lengthN_cons, lengthN_nil.
  rewrite nthN_app_r by lia. replace (lengthN z + (0 + 1) - 1 - lengthN z) with 0 by lia. reflexivity.
Qed.
Lemma no_adjacent_snoc z b : no_adjacent z -> (b = true -> last z false = false) -> no_adjacent (z ++ [b]).
Proof.
  intros Hz Hb i [H1 H2]. rewrite nthN_app in H1, H2. destruct (i + 1 <? lengthN z) eqn:E2.
  - destruct (i <? lengthN z) eqn:E1; [|lia]. apply (Hz i). auto.
  - rewrite nthN_cons in H2. destruct (i + 1 - lengthN z =? 0) eqn:E3; [|rewrite nthN_nil in H2; discriminate]. injection H2 as ->.
    destruct (i <? lengthN z) eqn:E1; [|lia]. specialize (Hb eq_refl). rewrite last_nthN in Hb.
    replace (lengthN z - 1) with i in Hb by lia. rewrite H1 in Hb. discriminate.
Qed.
Lemma no_adjacent_tail x z : no_adjacent (x :: z) -> no_adjacent z.
Proof.
  intros H i [H1 H2]. apply (H (i + 1)). rewrite !nthN_cons. destruct (i + 1 =? 0) eqn:E1; [lia|]. destruct (i + 1 + 1 =? 0) eqn:E2; [lia|].
  replace (i + 1 - 1) with i by lia. replace (i + 1 + 1 - 1) with (i + 1) by lia. auto.
Qed.
Lemma no_adjacent_head z : no_adjacent (true :: true :: z) -> False.
Proof. intros H. apply (H 0). split; reflexivity. Qed.

Definition fsum (k : nat) (z : list bool) : N := fib_sum (fi_1 (fibp k)) (fi (fibp k)) z.
Lemma fsum_cons k x z : fsum k (x :: z) = (if x then fi (fibp k) else 0) + fsum (Datatypes.S k) z.
Proof. unfold fsum. cbn [fib_sum]. rewrite fibp_S. cbn [fi fi_1]. reflexivity. Qed.
Lemma fsum_nil k : fsum k [] = 0. Proof. reflexivity. Qed.
Lemma fsum_app k z z' : fsum k (z ++ z') = fsum k z + fsum (k + length z) z'.
Proof.
  revert k. induction z as [|x z IH]; intros k; cbn [app length].
  - rewrite fsum_nil, Nat.add_0_r. lia.
  - rewrite !fsum_cons, IH. replace (Datatypes.S k + length z)%nat with (k + Datatypes.S (length z))%nat by lia. lia.
Qed.

Section Fib.
  Context (c : cfg).
  Definition stack_body := (fun st : fib * N * list bool =>
        let '(f, value, stack) := st in
        if 1 <? fi f then
          (vs <- (if fi_1 f <=? value then
                   v <- wsub c 64 value (fi_1 f) ;; Ok (v, true :: stack)
                 else Ok (value, false :: stack)) ;;
           f' <- fib_prev c f ;;
           Ok (Continue (f', fst vs, snd vs)))%res
        else Ok (Return stack)).
  Lemma fib_stack_ok k : forall v, v < fi (fibp k) -> exists z, length z = k /\ fsum 0 z = v /\ no_adjacent z /\
    (v < fi_1 (fibp k) -> last z false = false) /\ (1 <= v -> fi_1 (fibp k) <= v -> last z false = true) /\
    forall fuel acc, (k < fuel)%nat -> loop_fuel fuel stack_body (fibp k, v, acc) = Ok (z ++ acc).
  Proof.
    induction k as [|k IH]; intros v Hv.
    - change (fi (fibp 0)) with 1 in Hv. assert (v = 0) as -> by lia. exists []. split; [reflexivity|]. split; [reflexivity|].
      split; [apply no_adjacent_nil|]. split; [reflexivity|]. split; [lia|]. intros [|fuel] acc Hf; [lia|]. reflexivity.
    - pose proof (fibp_pos k) as Hp. rewrite fibp_S in *. cbn [fi fi_1] in *.
      set (b := fi (fibp k) <=? v). set (v' := if b then v - fi (fibp k) else v).
      assert (Hv' : v' < fi (fibp k)) by (unfold v', b; destruct (fi (fibp k) <=? v) eqn:E; lia).
      destruct (IH v' Hv') as (z & Hl & Hs & Hz & Hlo & Hhi & HL). exists (z ++ [b]).
      assert (Elen : length (z ++ [b]) = Datatypes.S k) by (rewrite app_length; cbn [length]; lia).
      split; [exact Elen|]. split; [|split; [|split; [|split]]].
      + rewrite fsum_app, fsum_cons, fsum_nil, Hs, Hl. unfold v', b. cbn [Nat.add]. destruct (fi (fibp k) <=? v) eqn:E; lia.
      + apply no_adjacent_snoc; [exact Hz|]. intros Hb. apply Hlo. unfold v'. rewrite Hb. unfold b in Hb. lia.
      + intros H. rewrite last_last. unfold b. lia.
      + intros _ H. rewrite last_last. unfold b. lia.
      + intros [|fuel] acc Hf; [lia|]. cbn [loop_fuel]. unfold stack_body at 1. cbn [fi fi_1].
        destruct (1 <? fi_1 (fibp k) + fi (fibp k)) eqn:E1; [|lia].
        assert (Ep : fib_prev c {| fi_1 := fi (fibp k); fi := fi_1 (fibp k) + fi (fibp k) |} = Ok (fibp k)).
        { unfold fib_prev. cbn [fi fi_1]. rewrite wsub_ok by lia. cbn [bind]. replace (fi_1 (fibp k) + fi (fibp k) - fi (fibp k)) with (fi_1 (fibp k)) by lia.
          destruct (fibp k); reflexivity. }
        rewrite Ep. fold b. unfold v', b in HL |- *. destruct (fi (fibp k) <=? v) eqn:E.
        * rewrite wsub_ok by lia. cbn [bind fst snd]. rewrite HL by lia. now rewrite <- app_assoc.
        * cbn [bind fst snd]. rewrite HL by lia. now rewrite <- app_assoc.
  Qed.
  Lemma write_stack_ok {S} (snk : sink S) st s : write_stack snk st s = write_all snk st s.
  Proof.
    revert s. induction st as [|b st IH]; intros s; [reflexivity|]. cbn [write_stack write_all]. unfold try_.
    destruct (write_bit snk b s) as [[[u|e] s']| |]; cbn [bind]; auto.
  Qed.
  Lemma fib_encode_ok v : 1 <= v -> v < fib_max -> exists w, fib_word v w /\ encodes (fibonacci c) v w.
  Proof.
    intros H1 Hv.
    destruct (@fib_search_from unit 91 0 93 v tt eq_refl Hv ltac:(lia) (or_introl eq_refl) H1) as (k & Hk & Hlohi & _).
    destruct (fib_stack_ok k v ltac:(lia)) as (z & Hl & Hs & Hz & _ & Hlast & HL). exists (z ++ [true]). split.
    - exists z. split; [exact Hs|]. split; [exact Hz|]. split; [apply Hlast; lia|reflexivity].
    - exists 93%nat. intros fuel Hf S snk s. cbn. unfold fib_encode. rewrite (try_lift _ tt).
      2:{ apply assert_true. destruct (v =? 0) eqn:E; [lia|reflexivity]. }
      destruct (@fib_search_from S 91 0 fuel v s eq_refl Hv ltac:(lia) (or_introl eq_refl) H1) as (k' & Hk' & Hlohi' & ES).
      assert (k' = k) as ->.
      { assert (G : forall i j, (i < j)%nat -> fi (fibp i) <= fi_1 (fibp j)).
        { intros i j Hij. destruct j; [lia|]. rewrite fibp_S. cbn [fi_1]. apply fibp_mono. lia. }
        destruct (Nat.lt_trichotomy k' k) as [Hlt|[->|Hlt]]; [|reflexivity|]; pose proof (G _ _ Hlt); lia. }
      unfold fib_search. rewrite fibp_0 in ES. rewrite (try_ok _ _ _ _ _ ES).
      rewrite (try_lift _ (z ++ [true])) by (apply HL; lia). apply write_stack_ok.
  Qed.
  Lemma fib_encode_big v fuel S (snk : sink S) s : fib_max <= v -> (92 < fuel)%nat -> fib_encode c snk fuel v s = Ok (IErr InvalidData, s).
  Proof.
    intros Hv Hf. unfold fib_encode. rewrite (try_lift _ tt).
    2:{ apply assert_true. unfold fib_max in Hv. destruct (v =? 0) eqn:E; [lia|reflexivity]. }
    pose proof (@fib_search_big S 91 0 fuel v s eq_refl Hv ltac:(lia)) as E. rewrite fibp_0 in E. unfold fib_search. now rewrite (try_err _ _ _ _ _ E).
  Qed.

  Definition fib_body {S} (src : source S) (st : N * fib * bool) : io S (flow (N * fib * bool) (option N)) :=
        let '(result, f, previous) := st in
        try_ (read_bit src) (fun ob : option bool =>
        match ob with
        | Some bit =>
            if bit && previous then ret (Return (Some result))
            else
              try_ (lift (if bit then wadd c 64 result (fi f) else Ok result)) (fun r =>
              try_ (lift_io (fib_next f)) (fun f' =>
              ret (Continue (r, f', bit))))
        | None => if result =? 0 then ret (Return None) else fail UnexpectedEof
        end).
  Lemma fib_loop {S} (src : source S) z : forall k fuel r (b : bool) s s', no_adjacent (b :: z) -> r + fsum k z < 2 ^ 64 ->
    (k + length z <= 91)%nat -> (length z <= fuel)%nat -> reads src s z s' ->
    loop_io fuel (fib_body src) (r, fibp k, b) s =
    loop_io (fuel - length z) (fib_body src) (r + fsum k z, fibp (k + length z), last z b) s'.
  Proof.
    induction z as [|x z IH]; intros k fuel r b s s' Hz Hr Hk Hf H.
    - apply reads_nil_inv in H. subst s'. rewrite fsum_nil. cbn [length last]. now rewrite N.add_0_r, Nat.add_0_r, Nat.sub_0_r.
    - apply reads_inv in H. destruct H as (s1 & E & H). cbn [length] in *. destruct fuel as [|fuel]; [lia|]. rewrite fsum_cons in *.
      cbn [loop_io Nat.sub].
      assert (Eb : fib_body src (r, fibp k, b) s = Ok (IOk (Continue (r + (if x then fi (fibp k) else 0), fibp (Datatypes.S k), x)), s1)).
      { unfold fib_body. rewrite (try_ok _ _ _ _ _ E). destruct (x && b) eqn:Ex.
        { apply andb_true_iff in Ex. destruct Ex as [-> ->]. now apply no_adjacent_head in Hz. }
        rewrite (try_lift _ (r + (if x then fi (fibp k) else 0))).
        2:{ destruct x; [apply wadd_ok; lia|f_equal; lia]. }
        unfold try_, lift_io. rewrite fib_next_ok by lia. reflexivity. }
      rewrite (try_ok _ _ _ _ _ Eb). rewrite (IH (Datatypes.S k) fuel _ x s1 s') by (eauto using no_adjacent_tail; lia).
      replace (Datatypes.S k + length z)%nat with (k + Datatypes.S (length z))%nat by lia.
      replace (r + (if x then fi (fibp k) else 0) + fsum (Datatypes.S k) z) with (r + ((if x then fi (fibp k) else 0) + fsum (Datatypes.S k) z)) by lia.
      f_equal. f_equal. destruct z as [|y z]; [reflexivity|].
      cbn [last]. clear. revert y. induction z as [|w z IH]; intros y; [reflexivity|]. cbn [last]. apply IH.
  Qed.
  Lemma fsum_last k z : last z false = true -> fi (fibp (k + length z - 1)) <= fsum k z.
  Proof.
    destruct z as [|x z] using rev_ind; [discriminate|]. rewrite last_last. intros ->. clear IHz. rewrite fsum_app, fsum_cons, app_length. cbn [length].
    replace (k + (length z + 1) - 1)%nat with (k + length z)%nat by lia. lia.
  Qed.
  Lemma fib_length z : last z false = true -> fsum 0 z < fib_max -> (length z <= 91)%nat.
  Proof.
    intros Hz Hs. pose proof (fsum_last 0 z Hz) as H. destruct (Nat.le_gt_cases (length z) 91) as [|Hgt]; [assumption|].
    pose proof (fibp_mono 91 (0 + length z - 1) ltac:(lia)) as Hm. rewrite fibp_91 in Hm. lia.
  Qed.
  Lemma no_adjacent_false z : no_adjacent z -> no_adjacent (false :: z).
  Proof.
    intros H i [H1 H2]. rewrite nthN_cons in H1, H2. destruct (i =? 0) eqn:E; [discriminate|]. destruct (i + 1 =? 0) eqn:E2; [lia|].
    apply (H (i - 1)). replace (i - 1 + 1) with (i + 1 - 1) by lia. auto.
  Qed.
  Lemma last_default z (b b' : bool) : z <> [] -> last z b = last z b'.
  Proof. induction z as [|x z IH]; [congruence|]. intros _. destruct z as [|y z]; [reflexivity|]. apply IH. discriminate. Qed.
  Lemma fib_decode_ok v w : v < fib_max -> fib_word v w -> decodes (fibonacci c) w v.
  Proof.
    intros Hv (z & Hs & Hz & Hl & ->). fold (no_adjacent z) in Hz. change (fsum 0 z = v) in Hs.
    pose proof (fib_length z Hl ltac:(lia)) as Hlen. exists (Datatypes.S (length z)). intros fuel Hf S src s s' H.
    apply reads_app in H. destruct H as (s1 & H1 & H2). cbn. unfold fib_decode.
    change (loop_io fuel (fib_body src) (0, fibp 0, false) s = Ok (IOk (Some v), s')).
    unfold fib_max in Hv. rewrite (fib_loop src z 0 fuel 0 false s s1) by (auto using no_adjacent_false; lia). rewrite Hl.
    destruct (fuel - length z)%nat as [|m] eqn:Em; [lia|]. cbn [loop_io]. apply reads_inv in H2. destruct H2 as (s2 & E & H2).
    apply reads_nil_inv in H2. subst s2. unfold try_ at 1. unfold fib_body at 1. unfold try_ at 1. rewrite E. cbn [bind andb ret].
    rewrite Hs. reflexivity.
  Qed.
  (** Stopping early: as long as no one was read, the answer is [None]. *)
  Lemma fsum_0 k z : fsum k z = 0 <-> existsb (fun b => b) z = false.
  Proof.
    revert k. induction z as [|x z IH]; intros k; [cbn; tauto|]. rewrite fsum_cons. cbn [existsb]. pose proof (fibp_pos k). destruct x; cbn [orb].
    - split; [lia|discriminate].
    - rewrite N.add_0_l. apply IH.
  Qed.
  Lemma no_adjacent_prefix z z' : no_adjacent (z ++ z') -> no_adjacent z.
  Proof.
    intros H i [H1 H2]. apply (H i). pose proof (nthN_lt _ _ _ H1). pose proof (nthN_lt _ _ _ H2). rewrite !nthN_app_l by lia. auto.
  Qed.
  Lemma fib_decode_stop v w : v < fib_max -> fib_word v w ->
    exists n0, forall fuel, (n0 <= fuel)%nat -> forall S (src : source S) s p s' o s'',
    proper_prefix p w -> reads src s p s' -> stops src s' o s'' ->
    decode (fibonacci c) src fuel s =
      Ok (if existsb (fun b => b) p then stopped o p else match o with IErr e => IErr e | IOk _ => IOk None end, s'').
  Proof.
    intros Hv (z & Hs & Hz & Hl & ->). fold (no_adjacent z) in Hz. change (fsum 0 z = v) in Hs.
    pose proof (fib_length z Hl ltac:(lia)) as Hlen. exists (Datatypes.S (length z)). intros fuel Hf S src s p s' o s'' Hp H [E Ho].
    assert (exists q, z = p ++ q) as (q & ->).
    { apply prefix_app in Hp. destruct Hp as [(q & _ & ->)|(q & -> & Hq)]; [eauto|]. apply prefix_1 in Hq. subst q. exists []. now rewrite !app_nil_r. }
    cbn. unfold fib_decode. change (loop_io fuel (fib_body src) (0, fibp 0, false) s = 
      Ok (if existsb (fun b => b) p then stopped o p else match o with IErr e => IErr e | IOk _ => IOk None end, s'')).
    rewrite fsum_app in Hs. rewrite app_length in *. unfold fib_max in Hv.
    rewrite (fib_loop src p 0 fuel 0 false s s') by (eauto using no_adjacent_false, no_adjacent_prefix; lia).
    destruct (fuel - length p)%nat as [|m] eqn:Em; [lia|]. cbn [loop_io]. unfold try_ at 1. unfold fib_body at 1. unfold try_ at 1. rewrite E. cbn [bind].
    pose proof (fsum_0 0 p) as H0. rewrite N.add_0_l. destruct o as [[b|]|e]; [contradiction| |].
    - destruct (existsb (fun b => b) p) eqn:Ee.
      + destruct (fsum 0 p =? 0) eqn:E0; [apply N.eqb_eq in E0; destruct H0 as [H0 _]; specialize (H0 E0); discriminate|].
        destruct p; [discriminate|]. reflexivity.
      + destruct H0 as [_ H0]. rewrite (H0 eq_refl). reflexivity.
    - destruct (existsb (fun b => b) p); reflexivity.
  Qed.
End Fib.
(** Zeckendorf: the sum determines the digits. *)
Lemma fsum_bound z : no_adjacent z -> fsum 0 z < fi (fibp (length z)) /\ (last z false = false -> fsum 0 z < fi_1 (fibp (length z))).
Proof.
  induction z as [|x z IH] using rev_ind; intros H.
  - rewrite fsum_nil. change (fibp (@length bool [])) with fib_new. cbn. lia.
  - destruct (IH (no_adjacent_prefix _ _ H)) as [H1 H2]. rewrite last_last, app_length, fsum_app, fsum_cons, fsum_nil. cbn [length Nat.add].
    rewrite Nat.add_1_r, fibp_S. cbn [fi fi_1]. pose proof (fibp_pos (length z)) as Hp. destruct x; [|lia]. split; [|discriminate].
    assert (last z false = false) as E; [|specialize (H2 E); lia].
    destruct z as [|y z _] using rev_ind; [reflexivity|]. rewrite last_last. destruct y; [|reflexivity]. exfalso.
    apply (H (lengthN z)). rewrite <- app_assoc. cbn [app]. split; rewrite nthN_app_r by lia; [replace (lengthN z - lengthN z) with 0 by lia|replace (lengthN z + 1 - lengthN z) with 1 by lia]; reflexivity.
Qed.
Lemma fsum_inj z : forall z', length z = length z' -> no_adjacent z -> no_adjacent z' -> fsum 0 z = fsum 0 z' -> z = z'.
Proof.
  induction z as [|x z IH] using rev_ind; intros z' Hl Hz Hz' Hs; (destruct z' as [|x' z' _] using rev_ind); try (rewrite app_length in Hl; cbn in Hl; lia).
  - reflexivity.
  - rewrite !app_length in Hl. cbn [length] in Hl. assert (El : length z = length z') by lia.
    apply no_adjacent_prefix in Hz, Hz'. destruct (fsum_bound z Hz) as [Hb _]. destruct (fsum_bound z' Hz') as [Hb' _].
    rewrite !fsum_app, !fsum_cons, !fsum_nil in Hs. cbn [Nat.add] in Hs. rewrite <- El in *.
    assert (x = x') as -> by (destruct x, x'; lia || reflexivity). f_equal. apply IH; auto. lia.
Qed.
Lemma fib_unique v w w' : fib_word v w -> fib_word v w' -> w = w'.
Proof.
  intros (z & Hs & Hz & Hl & ->) (z' & Hs' & Hz' & Hl' & ->). fold (no_adjacent z) in Hz. fold (no_adjacent z') in Hz'.
  change (fsum 0 z = v) in Hs. change (fsum 0 z' = v) in Hs'. f_equal.
  pose proof (fsum_last 0 z Hl) as H. pose proof (fsum_last 0 z' Hl') as H'. destruct (fsum_bound z Hz) as [Hb _]. destruct (fsum_bound z' Hz') as [Hb' _].
  assert (Hn : z <> [] /\ z' <> []) by (split; intros ->; discriminate).
  apply fsum_inj; auto; [|congruence].
  destruct Hn as [Hn Hn']. destruct (Nat.lt_trichotomy (length z) (length z')) as [Hlt|[->|Hlt]]; [|reflexivity|].
  - pose proof (fibp_mono (length z) (0 + length z' - 1) ltac:(lia)). lia.
  - pose proof (fibp_mono (length z') (0 + length z - 1) ltac:(lia)). lia.
Qed.
Lemma fib_codeword c v w : 1 <= v -> v < fib_max -> fib_word v w -> codeword (fibonacci c) v w.
Proof.
  intros H1 Hv Hw. split.
  - destruct Hw as (z & _ & _ & _ & ->). destruct z; discriminate.
  - destruct (fib_encode_ok c v H1 Hv) as (w' & Hw' & He). now rewrite (fib_unique v w w' Hw Hw').
  - now apply fib_decode_ok.
Qed.
Lemma fib_word_exists v : 1 <= v -> v < fib_max -> exists w, fib_word v w.
Proof. intros H1 Hv. destruct (fib_encode_ok dbg64 v H1 Hv) as (w & Hw & _). eauto. Qed.
