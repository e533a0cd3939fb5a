(** * What the omega and comma decoders accept, in every build and on every target (C76). *)
From Verif Require Import Machine MStorage MTraits MStream MCoding SpecBits SpecCfg SpecStream PBase PBits PStream PCoding PCoding2 PCoding3 PCoding4.

(** The values the omega decoder goes through, and the bits it reads on the way: a one, then as many bits as the value
    so far says as a [usize]; the new value is these bits (the last 64 of them) under a one shifted by the value so far
    as a [u32], modulo 64 without overflow checks. *)
Inductive omega_runs (c : cfg) : N -> list bool -> N -> Prop :=
| or_nil : forall r, omega_runs c r [] r
| or_cons : forall r p h v, lengthN p = r mod 2 ^ ptr c -> (debug c = true -> r mod 2 ^ 32 < 64) ->
    omega_runs c (N.lor (int_of (rev p) mod 2 ^ 64) (2 ^ ((r mod 2 ^ 32) mod 64))) h v -> omega_runs c r (true :: p ++ h) v.

Lemma wshl_one c k : wshl c 64 1 k = if k <? 64 then Ok (2 ^ k) else if debug c then Panic POverflow else Ok (2 ^ (k mod 64)).
Proof.
  unfold wshl. destruct (k <? 64) eqn:E.
  - rewrite N.shiftl_1_l, N.mod_small by (apply N.pow_lt_mono_r; lia). reflexivity.
  - destruct (debug c); [reflexivity|]. pose proof (N.mod_lt k 64 ltac:(lia)).
    rewrite N.shiftl_1_l, N.mod_small by (apply N.pow_lt_mono_r; lia). reflexivity.
Qed.
Lemma deque_int_be c n l : read_int_be c deque_source 64 n l =
  if n <=? lengthN l then Ok (IOk (Some (int_of (rev (firstnN n l)) mod 2 ^ 64)), skipnN n l)
  else Ok (if l then IOk None else IErr UnexpectedEof, []).
Proof.
  pose proof (reads_deque l []) as Hr. rewrite app_nil_r in Hr. destruct (n <=? lengthN l) eqn:E.
  - rewrite <- (firstn_skipnN n l) at 1. apply (read_int_be_ok c deque_source 64 ltac:(lia) n).
    + rewrite lengthN_firstnN. lia. + apply reads_deque.
  - rewrite (read_int_be_stop c deque_source 64 ltac:(lia) n l l [] (IOk None) [] ltac:(lia) Hr (conj eq_refl I)).
    unfold stopped. now destruct l.
Qed.
Lemma deque_int c n l : read_int c deque_source 64 n l =
  if n <=? lengthN l then Ok (IOk (Some (int_of (firstnN n l) mod 2 ^ 64)), skipnN n l)
  else Ok (if l then IOk None else IErr UnexpectedEof, []).
Proof.
  pose proof (reads_deque l []) as Hr. rewrite app_nil_r in Hr. destruct (n <=? lengthN l) eqn:E.
  - rewrite <- (firstn_skipnN n l) at 1. apply (read_int_ok c deque_source 64 ltac:(lia) n).
    + rewrite lengthN_firstnN. lia. + apply reads_deque.
  - rewrite (read_int_stop c deque_source 64 ltac:(lia) n l l [] (IOk None) [] ltac:(lia) Hr (conj eq_refl I)).
    unfold stopped. now destruct l.
Qed.
Lemma firstnN_app {A} n (p q : list A) : lengthN p = n -> firstnN n (p ++ q) = p /\ skipnN n (p ++ q) = q.
Proof.
  intros H. unfold firstnN, skipnN, lengthN in *. replace (N.to_nat n) with (length p) by lia.
  rewrite firstn_app, skipn_app, Nat.sub_diag, firstn_all, skipn_all. cbn. now rewrite app_nil_r.
Qed.

Theorem C76_omega_exact : forall c l v q, wf_cfg c ->
  (exists fuel, decode (omega c) deque_source fuel l = Ok (IOk (Some v), q)) <->
  (exists h, l = h ++ false :: q /\ omega_runs c 1 h v).
Proof.
  intros c l v q Hc. cbn [decode omega].
  assert (K : forall r l, (exists fuel, loop_io fuel (omega_body c deque_source) r l = Ok (IOk (Some v), q)) <->
    (exists h, l = h ++ false :: q /\ omega_runs c r h v)); [|exact (K 1 l)].
  clear l. intros r l. split.
  - intros [fuel E]. revert r l E. induction fuel as [|fuel IH]; intros r l E; [discriminate|].
    cbn [loop_io] in E. unfold omega_body at 1 in E. unfold try_ in E. destruct l as [|b l]; cbn [read_bit deque_source bind] in E.
    { destruct (r =? 1); discriminate. }
    destruct b; cbn [negb] in E.
    2:{ unfold ret in E. cbn [bind] in E. injection E as <- <-. exists []. split; [reflexivity|constructor]. }
    rewrite deque_int_be in E. unfold as_usize in E. destruct (r mod 2 ^ ptr c <=? lengthN l) eqn:El.
    2:{ destruct l; cbn [bind] in E; unfold fail in E; cbn [bind] in E; discriminate. }
    cbn [bind] in E. unfold lift in E. rewrite wshl_one in E.
    set (p := firstnN (r mod 2 ^ ptr c) l) in *. set (m := r mod 2 ^ 32) in *.
    assert (exists x, (if m <? 64 then Ok (2 ^ m) else if debug c then Panic POverflow else Ok (2 ^ (m mod 64))) = Ok x /\
      x = 2 ^ (m mod 64) /\ (debug c = true -> m < 64)) as (x & Ex & Hx & Hm).
    { destruct (m <? 64) eqn:Em.
      - exists (2 ^ m). split; [reflexivity|]. rewrite (N.mod_small m) by lia. split; [reflexivity|lia].
      - destruct (debug c); [cbn [bind] in E; discriminate|]. eexists. split; [reflexivity|]. split; [reflexivity|discriminate]. }
    rewrite Ex in E. cbn [bind] in E. unfold ret in E. cbn [bind] in E. destruct (IH _ _ E) as (h & Eh & HR).
    exists (true :: p ++ h). split.
    + cbn [app]. rewrite <- app_assoc, <- Eh. unfold p. now rewrite firstn_skipnN.
    + constructor; [unfold p; rewrite lengthN_firstnN; lia|exact Hm|]. fold m. rewrite <- Hx. exact HR.
  - intros (h & -> & HR). induction HR as [r|r p h v Hl Hm HR IH].
    + exists 1%nat. reflexivity.
    + destruct IH as [fuel IH]. exists (S fuel). cbn [loop_io]. unfold omega_body at 1. unfold try_.
      cbn [read_bit deque_source bind app negb]. rewrite deque_int_be. unfold as_usize.
      rewrite <- app_assoc. destruct (firstnN_app (r mod 2 ^ ptr c) p (h ++ false :: q) Hl) as [E1 E2]. rewrite E1, E2.
      destruct (r mod 2 ^ ptr c <=? lengthN (p ++ h ++ false :: q)) eqn:El; [|rewrite lengthN_app in El; lia].
      cbn [bind]. unfold lift. rewrite wshl_one. set (m := r mod 2 ^ 32) in *.
      assert (Ex : (if m <? 64 then Ok (2 ^ m) else if debug c then Panic POverflow else Ok (2 ^ (m mod 64))) = Ok (2 ^ (m mod 64))).
      { destruct (m <? 64) eqn:Em; [now rewrite (N.mod_small m) by lia|]. destruct (debug c); [specialize (Hm eq_refl); lia|reflexivity]. }
      rewrite Ex. cbn [bind]. unfold ret. cbn [bind]. exact IH.
Qed.

(** The number the digits make up in base [2 ^ n - 1], most significant first. *)
Definition comma_number (n : N) (ds : list N) : N := fold_left (fun a d => a * (2 ^ n - 1) + d) ds 0.
Lemma fold_mod b ds r : fold_left (fun a d => a * b + d) ds (r mod 2 ^ 64) mod 2 ^ 64 = fold_left (fun a d => a * b + d) ds r mod 2 ^ 64.
Proof.
  revert r. induction ds as [|d ds IH]; intros r; cbn [fold_left]; [apply N.mod_mod; lia|].
  rewrite <- IH, <- (IH (r * b + d)). f_equal. f_equal.
  rewrite <- N.add_mod_idemp_l, N.mul_mod_idemp_l, N.add_mod_idemp_l by lia. reflexivity.
Qed.
Lemma fold_grows b ds r : 1 <= b -> r <= fold_left (fun a d => a * b + d) ds r.
Proof.
  intros Hb. revert r. induction ds as [|d ds IH]; intros r; cbn [fold_left]; [lia|]. etransitivity; [|apply IH]. nia.
Qed.
Theorem C76_comma_exact : forall c n l v q, n <= 63 ->
  (exists fuel, decode (comma c n) deque_source fuel l = Ok (IOk (Some v), q)) <->
  (exists ds, Forall (fun d => d < 2 ^ n - 1) ds /\ l = flat_map (bits_of n) ds ++ repeatN true n ++ q /\
     (debug c = true -> comma_number n ds < 2 ^ 64) /\ v = comma_number n ds mod 2 ^ 64).
Proof.
  intros c n l v q Hn. cbn [decode comma].
  set (base := 2 ^ n - 1). pose proof (pow2_pos n) as Hp.
  assert (H64 : 2 ^ n < 2 ^ 64) by (apply N.pow_lt_mono_r; lia).
  assert (Hones : bits_of n base = repeatN true n).
  { apply nthN_ext. intros i. rewrite nthN_bits_of, nthN_repeatN. destruct (i <? n) eqn:Ei; [|reflexivity].
    f_equal. unfold base. rewrite <- N.pred_sub, <- N.ones_equiv. apply N.ones_spec_low. lia. }
  assert (Eq : forall fuel s, comma_decode c n deque_source fuel s = loop_io fuel (comma_body c n deque_source) (0, false) s).
  { intros fuel s. unfold comma_decode. rewrite (try_lift _ base); [reflexivity|]. unfold comma_base.
    rewrite wshl_ok by lia. cbn [bind]. rewrite N.shiftl_1_l, N.mod_small by lia. now rewrite wsub_ok by lia. }
  assert (K : forall l r b, r < 2 ^ 64 ->
    (exists fuel, loop_io fuel (comma_body c n deque_source) (r, b) l = Ok (IOk (Some v), q)) <->
    (exists ds, Forall (fun d => d < base) ds /\ l = flat_map (bits_of n) ds ++ bits_of n base ++ q /\
     (debug c = true -> fold_left (fun a d => a * base + d) ds r < 2 ^ 64) /\
     v = fold_left (fun a d => a * base + d) ds r mod 2 ^ 64)).
  2:{ rewrite <- Hones. destruct (K l 0 false ltac:(lia)) as [K1 K2]. split.
      - intros [fuel E]. rewrite Eq in E. apply K1. now exists fuel.
      - intros H. destruct (K2 H) as [fuel E]. exists fuel. now rewrite Eq. }
  clear l. intros l r b Hr. split.
  - intros [fuel E]. revert r b Hr l E. induction fuel as [|fuel IH]; intros r b Hr l E; [discriminate|].
    cbn [loop_io] in E. unfold comma_body at 1 in E. unfold try_ in E. rewrite deque_int in E.
    destruct (n <=? lengthN l) eqn:El.
    2:{ destruct l; cbn [bind] in E; destruct b; unfold fail, ret in E; cbn [bind] in E; discriminate. }
    set (p := firstnN n l) in *. assert (Hlp : lengthN p = n) by (unfold p; rewrite lengthN_firstnN; lia).
    assert (Hpl : l = p ++ skipnN n l) by (symmetry; apply firstn_skipnN).
    assert (Hbp : bits_of n (int_of p) = p) by (rewrite <- Hlp at 1; apply bits_of_int_of).
    assert (Hip : int_of p < 2 ^ n) by (rewrite <- Hbp, int_of_bits_of; apply N.mod_lt; lia).
    cbn [bind] in E. rewrite (N.mod_small (int_of p)) in E by lia. fold base in E.
    destruct (int_of p =? base) eqn:Eb.
    + unfold ret in E. cbn [bind] in E. injection E as <- <-. exists []. split; [constructor|]. cbn [flat_map app fold_left].
      split; [|split; [auto|now rewrite N.mod_small]]. rewrite Hpl at 1. f_equal. rewrite <- Hbp. f_equal. lia.
    + assert (Hi : int_of p < base) by (unfold base in *; lia). unfold lift, wmul, wadd, wrap in E.
      assert (exists x, (bind (if r * base <? 2 ^ 64 then Ok (r * base) else if debug c then Panic POverflow else Ok ((r * base) mod 2 ^ 64))
        (fun m => if m + int_of p <? 2 ^ 64 then Ok (m + int_of p) else if debug c then Panic POverflow else Ok ((m + int_of p) mod 2 ^ 64))) = Ok x /\
        x = (r * base + int_of p) mod 2 ^ 64 /\ (debug c = true -> r * base + int_of p < 2 ^ 64) /\
        loop_io fuel (comma_body c n deque_source) (x, true) (skipnN n l) = Ok (IOk (Some v), q)) as (x & _ & Hx & Hd & E2).
      { set (y := int_of p) in *. clearbody y. destruct (r * base <? 2 ^ 64) eqn:Em; cbn [bind] in E |- *.
        - destruct (r * base + y <? 2 ^ 64) eqn:Ea; cbn [bind] in E |- *.
          + exists (r * base + y). split; [reflexivity|]. split; [symmetry; apply N.mod_small; lia|]. split; [lia|exact E].
          + destruct (debug c); cbn [bind] in E |- *; [discriminate|]. eexists. split; [reflexivity|]. split; [reflexivity|]. split; [discriminate|exact E].
        - destruct (debug c); cbn [bind] in E |- *; [discriminate|].
          destruct ((r * base) mod 2 ^ 64 + y <? 2 ^ 64) eqn:Ea; cbn [bind] in E |- *.
          + eexists. split; [reflexivity|]. split; [|split; [discriminate|exact E]].
            rewrite <- N.add_mod_idemp_l by lia. symmetry. apply N.mod_small. lia.
          + eexists. split; [reflexivity|]. split; [|split; [discriminate|exact E]]. rewrite N.add_mod_idemp_l by lia. reflexivity. }
      assert (Hx64 : x < 2 ^ 64) by (rewrite Hx; apply N.mod_lt; lia).
      destruct (IH x true Hx64 _ E2) as (ds & HF & Eds & Hov & Hv).
      exists (int_of p :: ds). split; [now constructor|]. cbn [flat_map fold_left]. rewrite Hbp, <- app_assoc.
      split; [rewrite <- Eds; exact Hpl|]. split.
      * intros HD. specialize (Hd HD). specialize (Hov HD). rewrite Hx, N.mod_small in Hov by lia. exact Hov.
      * rewrite Hv, Hx. apply fold_mod.
  - intros (ds & HF & -> & Hov & Hv). revert r b Hr Hov Hv. induction ds as [|d ds IH]; intros r b Hr Hov Hv; cbn [flat_map fold_left app] in *.
    + exists 1%nat. cbn [loop_io]. unfold comma_body, try_. rewrite deque_int.
      destruct (firstnN_app n (bits_of n base) q (lengthN_bits_of n base)) as [E1 E2]. rewrite E1, E2.
      destruct (n <=? lengthN (bits_of n base ++ q)) eqn:El; [|rewrite lengthN_app, lengthN_bits_of in El; lia].
      cbn [bind]. rewrite int_of_bits_of, (N.mod_small base (2 ^ n)), (N.mod_small base) by (unfold base; lia).
      fold base. rewrite N.eqb_refl. unfold ret. cbn [bind]. rewrite N.mod_small in Hv by assumption. now rewrite Hv.
    + apply Forall_cons_iff in HF. destruct HF as [Hd HF].
      assert (Hb1 : 1 <= base) by lia. pose proof (fold_grows base ds (r * base + d) Hb1) as Hg.
      assert (Hx64 : (r * base + d) mod 2 ^ 64 < 2 ^ 64) by (apply N.mod_lt; lia).
      destruct (IH HF ((r * base + d) mod 2 ^ 64) true Hx64) as [fuel E].
      { intros HD. specialize (Hov HD). rewrite N.mod_small by lia. exact Hov. }
      { now rewrite fold_mod. }
      exists (S fuel). cbn [loop_io]. unfold comma_body at 1. unfold try_. rewrite deque_int, <- app_assoc.
      set (rest := flat_map (bits_of n) ds ++ bits_of n base ++ q) in *.
      destruct (firstnN_app n (bits_of n d) rest (lengthN_bits_of n d)) as [E1 E2]. rewrite E1, E2.
      destruct (n <=? lengthN (bits_of n d ++ rest)) eqn:El; [|rewrite lengthN_app, lengthN_bits_of in El; lia].
      cbn [bind]. rewrite int_of_bits_of, (N.mod_small d (2 ^ n)), (N.mod_small d) by (unfold base in *; lia).
      fold base. destruct (d =? base) eqn:Eb; [lia|]. unfold lift, wmul, wadd, wrap.
      destruct (r * base <? 2 ^ 64) eqn:Em; cbn [bind].
      * destruct (r * base + d <? 2 ^ 64) eqn:Ea; cbn [bind].
        -- rewrite N.mod_small in E by lia. unfold ret. cbn [bind]. exact E.
        -- destruct (debug c); [specialize (Hov eq_refl); lia|]. cbn [bind]. unfold ret. cbn [bind]. exact E.
      * destruct (debug c); [specialize (Hov eq_refl); lia|]. cbn [bind].
        destruct ((r * base) mod 2 ^ 64 + d <? 2 ^ 64) eqn:Ea; cbn [bind]; unfold ret; cbn [bind].
        -- rewrite <- N.add_mod_idemp_l, (N.mod_small (_ + d)) in E by lia. exact E.
        -- rewrite N.add_mod_idemp_l by lia. exact E.
Qed.
(** Without overflow checks a group of 64 bits that spells 18 decodes to 19, the leading one being shifted by 64 mod 64;
    a comma number of 2^64 and more wraps, and panics with overflow checks. *)
Example C76_omega_exact_ex :
  omega_runs rel64 1 ([true; false] ++ [true; true; false] ++ (true :: repeatN false 6) ++ true :: repeatN false 59 ++ [true; false; false; true; false]) 19 /\
  decode (omega rel64) deque_source 10 (([true; false] ++ [true; true; false] ++ (true :: repeatN false 6) ++
    true :: repeatN false 59 ++ [true; false; false; true; false]) ++ [false; true]) = Ok (IOk (Some 19), [true]).
Proof.
  split; [|vm_compute; reflexivity].
  assert (H4 : omega_runs rel64 64 (true :: (repeatN false 59 ++ [true; false; false; true; false]) ++ []) 19).
  { apply or_cons; [vm_compute; reflexivity|discriminate|]. apply or_nil. }
  assert (H3 : omega_runs rel64 6 (true :: repeatN false 6 ++ (true :: (repeatN false 59 ++ [true; false; false; true; false]) ++ [])) 19).
  { apply or_cons; [vm_compute; reflexivity|discriminate|]. exact H4. }
  assert (H2 : omega_runs rel64 2 (true :: [true; false] ++ (true :: repeatN false 6 ++ (true :: (repeatN false 59 ++ [true; false; false; true; false]) ++ []))) 19).
  { apply or_cons; [vm_compute; reflexivity|discriminate|]. exact H3. }
  exact (or_cons rel64 1 [false] _ 19 eq_refl ltac:(discriminate) H2).
Qed.
Example C76_comma_exact_ex :
  comma_number 33 [2 ^ 32; 5] = 2 ^ 65 - 2 ^ 32 + 5 /\
  decode (comma rel64 33) deque_source 10 (flat_map (bits_of 33) [2 ^ 32; 5] ++ repeatN true 33 ++ [false]) =
    Ok (IOk (Some (2 ^ 64 - 2 ^ 32 + 5)), [false]) /\
  panics (decode (comma dbg64 33) deque_source 10 (flat_map (bits_of 33) [2 ^ 32; 5] ++ repeatN true 33 ++ [false])) /\
  decode (comma dbg64 0) deque_source 10 [false] = Ok (IOk (Some 0), [false]).
Proof. repeat (split; [vm_compute; first [reflexivity|eexists; reflexivity]|]). vm_compute. reflexivity. Qed.
(** Parameters from 64 on: with overflow checks [1 << n] panics; without, the base is [2 ^ (n mod 64) - 1], a digit is
    the low 64 bits of [n] bits, and any group of [n] bits ends the number whose low 64 bits are the base. *)
Theorem C76_comma_wide : forall c n l v q, 64 <= n ->
  let base := 2 ^ (n mod 64) - 1 in
  (exists fuel, decode (comma c n) deque_source fuel l = Ok (IOk (Some v), q)) <->
  debug c = false /\
  exists gs e, Forall (fun g => lengthN g = n /\ int_of g mod 2 ^ 64 <> base) gs /\ lengthN e = n /\ int_of e mod 2 ^ 64 = base /\
    l = concat gs ++ e ++ q /\ v = fold_left (fun a g => a * base + int_of g mod 2 ^ 64) gs 0 mod 2 ^ 64.
Proof.
  intros c n l v q Hn base. cbn [decode comma]. pose proof (N.mod_lt n 64 ltac:(lia)) as Hm64.
  assert (Hb64 : 2 ^ (n mod 64) < 2 ^ 64) by (apply N.pow_lt_mono_r; lia). pose proof (pow2_pos (n mod 64)) as Hp.
  destruct (debug c) eqn:D.
  { split; [|intros [H _]; discriminate]. intros [fuel E]. exfalso. unfold comma_decode, try_, lift, comma_base in E. rewrite wshl_one in E.
    destruct (n <? 64) eqn:E1; [lia|]. rewrite D in E. discriminate. }
  set (step := fun a g => a * base + int_of g mod 2 ^ 64).
  set (B := fun st : N * bool => let '(result, consumed) := st in
        try_ (read_int c deque_source 64 n) (fun o : option N =>
        match o with
        | Some digit =>
            if digit =? base then ret (Return (Some result))
            else try_ (lift (wmul c 64 result base)) (fun m => try_ (lift (wadd c 64 m digit)) (fun r => ret (Continue (r, true))))
        | None => if consumed : bool then fail UnexpectedEof else ret (Return None)
        end)).
  assert (Eq : forall fuel s, comma_decode c n deque_source fuel s = loop_io fuel B (0, false) s).
  { intros fuel s. unfold comma_decode. rewrite (try_lift _ base); [reflexivity|]. unfold comma_base.
    rewrite wshl_one. destruct (n <? 64) eqn:E1; [lia|]. rewrite D. cbn [bind]. now rewrite wsub_ok by lia. }
  assert (Hstep : forall r d, r < 2 ^ 64 -> d < 2 ^ 64 -> forall s, try_ (lift (wmul c 64 r base)) (fun m => try_ (lift (wadd c 64 m d)) (fun r => ret (Continue (r, true)))) s
      = @ret (list bool) (flow (N * bool) (option N)) (Continue ((r * base + d) mod 2 ^ 64, true)) s).
  { intros r d Hr Hd s. unfold try_, lift, wmul, wadd, wrap. rewrite D.
    assert (M1 : forall x, (if x <? 2 ^ 64 then Ok x else Ok (x mod 2 ^ 64)) = Ok (x mod 2 ^ 64)).
    { intros x. destruct (x <? 2 ^ 64) eqn:E1; [now rewrite N.mod_small by lia|reflexivity]. }
    rewrite M1. cbn [bind]. rewrite M1. cbn [bind]. unfold ret. now rewrite N.add_mod_idemp_l by lia. }
  assert (K : forall l r b, r < 2 ^ 64 ->
    (exists fuel, loop_io fuel B (r, b) l = Ok (IOk (Some v), q)) <->
    (exists gs e, Forall (fun g => lengthN g = n /\ int_of g mod 2 ^ 64 <> base) gs /\ lengthN e = n /\ int_of e mod 2 ^ 64 = base /\
       l = concat gs ++ e ++ q /\ v = fold_left step gs r mod 2 ^ 64)).
  2:{ destruct (K l 0 false ltac:(lia)) as [K1 K2]. split.
      - intros [fuel E]. rewrite Eq in E. split; [reflexivity|]. apply K1. now exists fuel.
      - intros [_ H]. destruct (K2 H) as [fuel E]. exists fuel. now rewrite Eq. }
  assert (Fm : forall gs r, fold_left step gs (r mod 2 ^ 64) mod 2 ^ 64 = fold_left step gs r mod 2 ^ 64).
  { induction gs as [|g gs IH]; intros r; cbn [fold_left]; [apply N.mod_mod; lia|]. rewrite <- IH, <- (IH (step r g)). f_equal. f_equal.
    unfold step. rewrite <- N.add_mod_idemp_l, N.mul_mod_idemp_l, N.add_mod_idemp_l by lia. reflexivity. }
  clear l. intros l r b Hr. split.
  - intros [fuel E]. revert r b Hr l E. induction fuel as [|fuel IH]; intros r b Hr l E; [discriminate|].
    cbn [loop_io] in E. unfold B at 1 in E. unfold try_ at 1 2 in E. rewrite deque_int in E.
    destruct (n <=? lengthN l) eqn:El.
    2:{ destruct l; cbn [bind] in E; destruct b; unfold fail, ret in E; cbn [bind] in E; discriminate. }
    cbn [bind] in E. set (p := firstnN n l) in *. assert (Hlp : lengthN p = n) by (unfold p; rewrite lengthN_firstnN; lia).
    assert (Hpl : l = p ++ skipnN n l) by (symmetry; apply firstn_skipnN).
    destruct (int_of p mod 2 ^ 64 =? base) eqn:Eb.
    + unfold ret in E. cbn [bind] in E. injection E as <- <-. exists [], p. split; [constructor|]. split; [exact Hlp|]. split; [now apply N.eqb_eq|].
      cbn [concat app fold_left]. split; [exact Hpl|now rewrite N.mod_small].
    + assert (Hd : int_of p mod 2 ^ 64 < 2 ^ 64) by (apply N.mod_lt; lia).
      rewrite (Hstep r _ Hr Hd) in E. unfold ret in E. cbn [bind] in E.
      destruct (IH _ true ltac:(apply N.mod_lt; lia) _ E) as (gs & e & HF & He & Ee & El2 & Ev).
      exists (p :: gs), e. split; [constructor; [split; [exact Hlp|now apply N.eqb_neq]|exact HF]|]. split; [exact He|]. split; [exact Ee|].
      cbn [concat fold_left]. rewrite <- app_assoc, <- El2. split; [exact Hpl|]. rewrite Ev. apply Fm.
  - intros (gs & e & HF & He & Ee & -> & Ev). revert r b Hr Ev. induction HF as [|g gs [Hg Hne] HF IH]; intros r b Hr Ev; cbn [concat fold_left app] in *.
    + exists 1%nat. cbn [loop_io]. unfold B. unfold try_ at 1 2. rewrite deque_int. destruct (firstnN_app n e q He) as [E1 E2]. rewrite E1, E2.
      destruct (n <=? lengthN (e ++ q)) eqn:El; [|rewrite lengthN_app in El; lia]. cbn [bind]. apply N.eqb_eq in Ee. rewrite Ee. unfold ret. cbn [bind].
      rewrite N.mod_small in Ev by assumption. now rewrite Ev.
    + destruct (IH (step r g mod 2 ^ 64) true ltac:(apply N.mod_lt; lia)) as [fuel E]; [now rewrite Fm|].
      exists (S fuel). cbn [loop_io]. unfold B at 1. unfold try_ at 1 2. rewrite deque_int, <- app_assoc. set (rest := concat gs ++ e ++ q) in *.
      destruct (firstnN_app n g rest Hg) as [E1 E2]. rewrite E1, E2.
      destruct (n <=? lengthN (g ++ rest)) eqn:El; [|rewrite lengthN_app in El; lia]. cbn [bind]. apply N.eqb_neq in Hne. rewrite Hne.
      rewrite (Hstep r (int_of g mod 2 ^ 64) Hr) by (apply N.mod_lt; lia). unfold ret. cbn [bind]. exact E.
Qed.
Example C76_comma_wide_ex :
  decode (comma rel64 67) deque_source 10 (bits_of 67 5 ++ bits_of 67 (2 ^ 65 + 4) ++ bits_of 67 (2 ^ 66 + 7) ++ [true]) = Ok (IOk (Some 39), [true]) /\
  panics (decode (comma dbg64 67) deque_source 10 (bits_of 67 5 ++ bits_of 67 (2 ^ 65 + 4) ++ bits_of 67 (2 ^ 66 + 7) ++ [true])).
Proof. split; [vm_compute; reflexivity|]. vm_compute. eexists. reflexivity. Qed.
Print Assumptions C76_omega_exact.
Print Assumptions C76_comma_exact.
Print Assumptions C76_comma_wide.
