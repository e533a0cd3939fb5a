(** * The length of an iterator that [nth] moved past its end (C22). *)
From Verif Require Import Machine MStorage MTraits MVectorBase MBitVector MIntVector SpecBits SpecCfg SpecOps PBase PStorage PBits PBlocks PVectorBase PVectorBase2 PIter PBitVector PRun PIntVector PIntRun.

(** What the arguments of [nth] sum up to, and by how much they exceed the items still there. *)
Fixpoint skips (calls : list itop) : N :=
  match calls with [] => 0 | op :: t => (match op with ItNth n => n | _ => 0 end) + skips t end.
Fixpoint excess {A} (xs : list A) (calls : list itop) : N :=
  match calls with
  | [] => 0
  | op :: t => (match op with ItNth n => n - lengthN xs | _ => 0 end) +
      match spec_itstep xs op with Some (ys, _) => excess ys t | None => 0 end
  end.

Lemma it_next_pos c nb it o it' : it_next c nb it = Ok (o, it') -> it_start it < 2 ^ 64 - 1 \/ it_limit it < 2 ^ 64 ->
  it_limit it' = it_limit it /\ it_start it' = (if it_start it <? it_limit it then it_start it + 1 else it_start it).
Proof.
  unfold it_next. intros E H. destruct (it_start it <? it_limit it) eqn:E1; [|injection E as _ <-; auto].
  destruct (wmul c 64 (it_bits it) (it_start it)); try discriminate. cbn [bind] in E.
  destruct (vb_get_bits c nb _ _ _ _); try discriminate. cbn [bind] in E. rewrite wadd_ok in E by lia. cbn [bind] in E. injection E as _ <-. auto.
Qed.
Lemma it_next_back_pos c nb it o it' : it_next_back c nb it = Ok (o, it') ->
  it_start it' = it_start it /\ it_limit it' = (if it_start it <? it_limit it then it_limit it - 1 else it_limit it).
Proof.
  unfold it_next_back. intros E. destruct (it_start it <? it_limit it) eqn:E1; [|injection E as _ <-; auto].
  rewrite wsub_ok in E by lia. cbn [bind] in E. destruct (wmul c 64 (it_bits it) _); try discriminate. cbn [bind] in E.
  destruct (vb_get_bits c nb _ _ _ _); try discriminate. cbn [bind] in E. injection E as _ <-. auto.
Qed.
Lemma It_rep_length c nb k it xs : It_rep c nb k it xs -> lengthN xs = it_limit it - it_start it.
Proof.
  intros [(all & _ & _ & H1 & H2 & ->)|(-> & _ & H1 & _)].
  - unfold sub. rewrite lengthN_firstnN, lengthN_skipnN. lia.
  - rewrite lengthN_nil. lia.
Qed.

Section Over.
  Context {A : Type} (c : cfg) (nb : N).
  Context (next next_back : vbiter -> res (option A * vbiter)) (nth : vbiter -> N -> res (option A * vbiter)).
  Context (R : vbiter -> list A -> Prop).
  Hypothesis Hlen : forall it xs, R it xs -> lengthN xs = it_limit it - it_start it.
  Hypothesis H1 : forall it xs, R it xs -> exists it', next it = Ok (hd_error xs, it') /\ R it' (tl xs) /\ exists o, it_next c nb it = Ok (o, it').
  Hypothesis H2 : forall it xs, R it xs -> exists it', next_back it = Ok (hd_error (rev xs), it') /\ R it' (removelast xs) /\ exists o, it_next_back c nb it = Ok (o, it').
  Hypothesis H3 : forall it xs n, R it xs -> n < 2 ^ 64 -> exists it', nth it n = Ok (nthN xs n, it') /\ R it' (tl (skipnN n xs)) /\ exists o, it_nth c nb it n = Ok (o, it').
  Lemma over_run L calls : forall it xs, R it xs -> it_limit it <= L -> N.max (it_start it) L + skips calls < 2 ^ 64 ->
    exists it', snd (run (it_step next next_back nth) it calls) = Ok it' /\ it_start it' - it_limit it' = (it_start it - it_limit it) + excess xs calls /\
      it_limit it' < 2 ^ 64 /\ it_start it' < 2 ^ 64 /\ exists rest, snd (spec_run spec_itstep xs calls) = Some rest /\ R it' rest.
  Proof.
    induction calls as [|op calls IH]; intros it xs HR Hlim Hsk.
    - cbn. cbn [skips] in Hsk. exists it. split; [reflexivity|]. split; [lia|]. split; [lia|]. split; [lia|]. eauto.
    - cbn [skips] in Hsk. pose proof (Hlen it xs HR) as Hl.
      assert (Hstep : exists it' o ys, it_step next next_back nth it op = Ok (it', o) /\ spec_itstep xs op = Some (ys, o) /\ R it' ys /\
        it_limit it' <= L /\ N.max (it_start it') L <= N.max (it_start it) L + (match op with ItNth n => n | _ => 0 end) /\
        it_start it' - it_limit it' = (it_start it - it_limit it) + (match op with ItNth n => n - lengthN xs | _ => 0 end)).
      { unfold it_step, spec_itstep. destruct op as [| |n].
        - destruct (H1 it xs HR) as (it' & E & HR' & o & E'). exists it'. rewrite E. do 2 eexists. split; [reflexivity|]. split; [reflexivity|]. split; [exact HR'|].
          destruct (it_next_pos c nb it o it' E' ltac:(lia)) as [-> ->]. destruct (it_start it <? it_limit it) eqn:Es; lia.
        - destruct (H2 it xs HR) as (it' & E & HR' & o & E'). exists it'. rewrite E. do 2 eexists. split; [reflexivity|]. split; [reflexivity|]. split; [exact HR'|].
          destruct (it_next_back_pos c nb it o it' E') as [-> ->]. destruct (it_start it <? it_limit it) eqn:Es; lia.
        - destruct (H3 it xs n HR ltac:(lia)) as (it' & E & HR' & o & E'). exists it'. rewrite E. do 2 eexists. split; [reflexivity|]. split; [reflexivity|]. split; [exact HR'|].
          unfold it_nth, checked_add in E'. destruct (it_start it + n <? 2 ^ 64) eqn:Ea; [|lia].
          destruct (it_next_pos c nb _ o it' E' ltac:(right; cbn; lia)) as [-> ->]. cbn [it_start it_limit]. destruct (it_start it + n <? it_limit it) eqn:Es; lia. }
      destruct Hstep as (it' & o & ys & E & Es & HR' & HL & HM & HE). cbn [run spec_run excess]. rewrite E, Es.
      destruct (IH it' ys HR' HL ltac:(lia)) as (it2 & E2 & HE2 & Hb1 & Hb2 & rest & Er & HRr).
      exists it2. destruct (run _ it' calls) as [outs r]. cbn [snd] in *. split; [exact E2|]. split; [lia|]. split; [exact Hb1|]. split; [exact Hb2|].
      exists rest. destruct (spec_run spec_itstep ys calls). cbn [snd] in *. auto.
  Qed.
End Over.

(** After any calls, [len] and [size_hint] answer the number of remaining items less the excess,
    modulo 2^64 on 64-bit targets; with overflow checks they panic if there is an excess. *)
Definition len_answers (c : cfg) (it : vbiter) (rest : N) (over : N) : Prop :=
  if over =? 0 then it_len c it = Ok (rest mod 2 ^ ptr c) /\ it_count c it = Ok (rest mod 2 ^ ptr c) /\
    it_size_hint c it = Ok (if rest <? 2 ^ ptr c then (rest, Some rest) else (0, None))
  else if debug c then panics (it_len c it) /\ panics (it_count c it) /\ panics (it_size_hint c it)
  else it_len c it = Ok ((2 ^ 64 - over) mod 2 ^ ptr c) /\ it_count c it = Ok ((2 ^ 64 - over) mod 2 ^ ptr c) /\
    it_size_hint c it = Ok (if 2 ^ 64 - over <? 2 ^ ptr c then (2 ^ 64 - over, Some (2 ^ 64 - over)) else (0, None)).
Lemma len_over c it rest : wf_cfg c -> it_start it < 2 ^ 64 -> it_limit it < 2 ^ 64 -> rest = it_limit it - it_start it ->
  len_answers c it rest (it_start it - it_limit it).
Proof.
  intros Hc Hs Hl ->. unfold len_answers. pose proof (wf_ptr c Hc) as Hp.
  assert (E : forall d, wsub c 64 (it_limit it) (it_start it) = Ok d -> d < 2 ^ 64 ->
    it_len c it = Ok (d mod 2 ^ ptr c) /\ it_count c it = Ok (d mod 2 ^ ptr c) /\ it_size_hint c it = Ok (if d <? 2 ^ ptr c then (d, Some d) else (0, None))).
  { intros d Ed Hd. unfold it_count, it_size_hint, it_len, as_usize, to_usize. rewrite Ed. cbn [bind]. split; [reflexivity|]. split; [reflexivity|].
    destruct (ptr c =? 32) eqn:E32.
    - destruct (d <? 2 ^ ptr c); reflexivity.
    - assert (E64 : ptr c = 64) by (destruct Hc; lia). rewrite E64. rewrite (N.mod_small d) by lia. destruct (d <? 2 ^ 64) eqn:Ed2; [reflexivity|lia]. }
  destruct (it_start it - it_limit it =? 0) eqn:E0.
  - apply E; [apply wsub_ok; lia|lia].
  - destruct (debug c) eqn:Ed.
    + assert (Ew : wsub c 64 (it_limit it) (it_start it) = Panic POverflow) by (unfold wsub; destruct (it_start it <=? it_limit it) eqn:E1; [lia|]; now rewrite Ed).
      unfold it_count, it_size_hint, it_len. rewrite Ew. cbn [bind]. split; [|split]; [eexists; reflexivity..|]. destruct (ptr c =? 32); eexists; reflexivity.
    + apply E; [|lia]. unfold wsub. destruct (it_start it <=? it_limit it) eqn:E1; [lia|]. rewrite Ed. f_equal.
      replace (it_limit it + 2 ^ 64 - it_start it) with (2 ^ 64 - (it_start it - it_limit it)) by lia. apply N.mod_small. lia.
Qed.

Theorem C22_int_len_exact : forall c nb k t ops v xs calls,
  wf_cfg c -> wf_nb nb -> 1 <= k <= nb ->
  iprogram_ok c nb k t ops -> iv_ends c nb k t ops v -> snd (spec_iprogram c nb k t ops) = Some xs ->
  lengthN xs + skips calls < 2 ^ 64 ->
  exists it rest,
    snd (run (it_step (it_next c nb) (it_next_back c nb) (it_nth c nb)) (iv_iter v) calls) = Ok it /\
    snd (spec_run spec_itstep xs calls) = Some rest /\
    len_answers c it (lengthN rest) (excess xs calls).
Proof.
  intros c nb k t ops v xs calls Hc Hnb Hk O E S Hsk.
  destruct (iv_ends_R c nb k Hc Hnb Hk t ops v O E) as [l [S' HR]]. rewrite S in S'. injection S' as <-.
  destruct HR as [Ek HI]. pose proof (Irep_len c nb k Hc Hnb Hk (iv_base v) xs HI) as Hlen.
  destruct (over_run c nb (it_next c nb) (it_next_back c nb) (it_nth c nb) (It_rep c nb k)) with (L := lengthN xs) (calls := calls) (it := iv_iter v) (xs := xs)
    as (it & E1 & HE & Hb1 & Hb2 & rest & Er & HRr).
  - apply It_rep_length.
  - intros it ys Hy. destruct (iv_it_next c nb k it ys) as [it' [? [? _]]]; eauto 7.
  - intros it ys Hy. destruct (iv_it_next_back c nb k it ys) as [it' [? [? _]]]; eauto 7.
  - intros it ys n Hy Hn. destruct (iv_it_nth c nb k it ys n) as [it' [? [? _]]]; eauto 7.
  - left. unfold iv_iter. rewrite Ek. now apply it_new_ok.
  - unfold iv_iter, it_new. cbn. lia.
  - unfold iv_iter, it_new. cbn [it_start]. lia.
  - exists it, rest. split; [exact E1|]. split; [exact Er|].
    replace (excess xs calls) with (it_start it - it_limit it) by (rewrite HE; unfold iv_iter, it_new; cbn [it_start it_limit]; lia).
    apply len_over; auto. now apply (It_rep_length c nb k).
Qed.
Theorem C22_bit_len_exact : forall c nb t ops v l calls,
  wf_cfg c -> wf_nb nb ->
  bprogram_ok c nb t ops -> bvec_ends c nb t ops v -> snd (spec_bprogram c nb t ops) = Some l ->
  lengthN l + skips calls < 2 ^ 64 ->
  exists it rest,
    snd (run (it_step (bit_next c nb) (bit_next_back c nb) (bit_nth c nb)) (bvec_iter v) calls) = Ok it /\
    snd (spec_run spec_itstep l calls) = Some rest /\
    len_answers c it (lengthN rest) (excess l calls).
Proof.
  intros c nb t ops v l calls Hc Hnb O E S Hsk.
  destruct (bvec_ends_R c nb t ops v Hc Hnb O E) as [l0 [S' HR]]. rewrite S in S'. injection S' as <-.
  assert (Hlen : vb_len v = lengthN l) by (pose proof (bvec_bit_len_ok c nb Hc Hnb v l HR) as Hb; injection Hb; auto).
  assert (Hof : forall m it' (o : option bool), (r <- m ;; Ok (to_bit r)) = Ok (o, it') -> exists o', m = Ok (o', it')).
  { intros [[o' it2]| |] it' o Eo; try discriminate. cbn in Eo. injection Eo as _ <-. eauto. }
  destruct (over_run c nb (bit_next c nb) (bit_next_back c nb) (bit_nth c nb) (Bit_it c nb)) with (L := lengthN l) (calls := calls) (it := bvec_iter v) (xs := l)
    as (it & E1 & HE & Hb1 & Hb2 & rest & Er & HRr).
  - intros it ys Hy. rewrite <- (It_rep_length c nb 1 it (map N.b2n ys) Hy). now rewrite lengthN_map.
  - intros it ys Hy. destruct (bit_next_ok c nb Hc Hnb it ys Hy) as [it' [Ea [Hb _]]]. exists it'. split; [exact Ea|]. split; [exact Hb|]. exact (Hof _ _ _ Ea).
  - intros it ys Hy. destruct (bit_next_back_ok c nb Hc Hnb it ys Hy) as [it' [Ea [Hb _]]]. exists it'. split; [exact Ea|]. split; [exact Hb|]. exact (Hof _ _ _ Ea).
  - intros it ys n Hy Hn. destruct (bit_nth_ok c nb Hc Hnb it ys n Hy Hn) as [it' [Ea [Hb _]]]. exists it'. split; [exact Ea|]. split; [exact Hb|]. exact (Hof _ _ _ Ea).
  - left. now apply (bvec_iter_ok c nb Hc Hnb).
  - unfold bvec_iter, it_new. cbn. lia.
  - unfold bvec_iter, it_new. cbn [it_start]. lia.
  - exists it, rest. split; [exact E1|]. split; [exact Er|].
    replace (excess l calls) with (it_start it - it_limit it) by (rewrite HE; unfold bvec_iter, it_new; cbn [it_start it_limit]; lia).
    apply len_over; auto. rewrite <- (It_rep_length c nb 1 it (map N.b2n rest) HRr). now rewrite lengthN_map.
Qed.
Example C22_len_exact_ex : exists v it,
  snd (iv_program rel64 8 5 100 INew [IPush 17; IPush 30; IPush 3; IPush 4; IPush 5]) = Ok v /\
  excess [17; 30; 3; 4; 5] [ItNext; ItNth 1; ItNth 7; ItNextBack; ItNth 2] = 7 /\
  run (it_step (it_next rel64 8) (it_next_back rel64 8) (it_nth rel64 8)) (iv_iter v) [ItNext; ItNth 1; ItNth 7; ItNextBack; ItNth 2] =
  ([Some 17; Some 3; None; None; None], Ok it) /\ it_len rel64 it = Ok (2 ^ 64 - 7).
Proof. do 2 eexists. repeat (split; [vm_compute; reflexivity|]). vm_compute. reflexivity. Qed.

Definition skip_ok (c : cfg) (op : itop) : Prop := match op with ItNth n => n < 2 ^ ptr c | _ => True end.
(** Without a limit on the skips.  The front end of the iterator is a position [a] of the vector and
    its back end a position [b]; skipping may carry [a] past [b], and a skip that would carry it to 2^64
    or beyond puts it at [b] instead.  [overshoot] is by how much [a] has passed [b] in the end. *)
Fixpoint overshoot (a b : N) (calls : list itop) : N :=
  let forth a := if a <? b then a + 1 else a in
  match calls with
  | [] => a - b
  | ItNext :: t => overshoot (forth a) b t
  | ItNextBack :: t => overshoot a (if a <? b then b - 1 else b) t
  | ItNth n :: t => overshoot (forth (if a + n <? 2 ^ 64 then a + n else b)) b t
  end.
Section Always.
  Context {A : Type} (c : cfg) (nb : N).
  Context (next next_back : vbiter -> res (option A * vbiter)) (nth : vbiter -> N -> res (option A * vbiter)).
  Context (R : vbiter -> list A -> Prop).
  Hypothesis H1 : forall it xs, R it xs -> exists it', next it = Ok (hd_error xs, it') /\ R it' (tl xs) /\ exists o, it_next c nb it = Ok (o, it').
  Hypothesis H2 : forall it xs, R it xs -> exists it', next_back it = Ok (hd_error (rev xs), it') /\ R it' (removelast xs) /\ exists o, it_next_back c nb it = Ok (o, it').
  Hypothesis H3 : forall it xs n, R it xs -> n < 2 ^ 64 -> exists it', nth it n = Ok (nthN xs n, it') /\ R it' (tl (skipnN n xs)) /\ exists o, it_nth c nb it n = Ok (o, it').
  Hypothesis Hc : wf_cfg c.
  Lemma over_always calls : forall it xs, R it xs -> it_limit it < 2 ^ 64 -> it_start it < 2 ^ 64 -> Forall (skip_ok c) calls ->
    exists it', snd (run (it_step next next_back nth) it calls) = Ok it' /\ it_start it' - it_limit it' = overshoot (it_start it) (it_limit it) calls /\
      it_limit it' < 2 ^ 64 /\ it_start it' < 2 ^ 64 /\ exists rest, snd (spec_run spec_itstep xs calls) = Some rest /\ R it' rest.
  Proof.
    induction calls as [|op calls IH]; intros it xs HR Hlim Hst Hok.
    - cbn. exists it. split; [reflexivity|]. split; [reflexivity|]. split; [lia|]. split; [lia|]. eauto.
    - inversion Hok as [|? ? Hop Hok']; subst.
      assert (Hstep : exists it' o ys, it_step next next_back nth it op = Ok (it', o) /\ spec_itstep xs op = Some (ys, o) /\ R it' ys /\
        it_limit it' < 2 ^ 64 /\ it_start it' < 2 ^ 64 /\
        overshoot (it_start it') (it_limit it') calls = overshoot (it_start it) (it_limit it) (op :: calls)).
      { unfold it_step, spec_itstep. destruct op as [| |n].
        - destruct (H1 it xs HR) as (it' & E & HR' & o & E'). exists it'. rewrite E. do 2 eexists. split; [reflexivity|]. split; [reflexivity|]. split; [exact HR'|].
          cbn [overshoot]. destruct (it_next_pos c nb it o it' E' ltac:(lia)) as [-> ->].
          split; [lia|]. split; [|reflexivity]. destruct (it_start it <? it_limit it) eqn:Es; lia.
        - destruct (H2 it xs HR) as (it' & E & HR' & o & E'). exists it'. rewrite E. do 2 eexists. split; [reflexivity|]. split; [reflexivity|]. split; [exact HR'|].
          cbn [overshoot]. destruct (it_next_back_pos c nb it o it' E') as [-> ->].
          split; [|split; [lia|reflexivity]]. destruct (it_start it <? it_limit it) eqn:Es; lia.
        - assert (Hn : n < 2 ^ 64) by (unfold skip_ok in Hop; destruct Hc as [Hp|Hp]; rewrite Hp in Hop; lia).
          destruct (H3 it xs n HR Hn) as (it' & E & HR' & o & E'). exists it'. rewrite E. do 2 eexists. split; [reflexivity|]. split; [reflexivity|]. split; [exact HR'|].
          cbn [overshoot]. unfold it_nth, checked_add in E'. destruct (it_start it + n <? 2 ^ 64) eqn:Ea;
            (destruct (it_next_pos c nb _ o it' E' ltac:(right; cbn; lia)) as [-> ->]; cbn [it_start it_limit];
             split; [lia|]; split; [|reflexivity]).
          + destruct (it_start it + n <? it_limit it) eqn:Es; lia.
          + destruct (it_limit it <? it_limit it) eqn:Es; lia. }
      destruct Hstep as (it' & o & ys & E & Es & HR' & HL & HM & HE). cbn [run spec_run]. rewrite E, Es.
      destruct (IH it' ys HR' HL HM Hok') as (it2 & E2 & HE2 & Hb1 & Hb2 & rest & Er & HRr).
      exists it2. destruct (run _ it' calls) as [outs r]. cbn [snd] in *. split; [exact E2|]. split; [congruence|]. split; [exact Hb1|]. split; [exact Hb2|].
      exists rest. destruct (spec_run spec_itstep ys calls). cbn [snd] in *. auto.
  Qed.
End Always.
Theorem C22_int_len_always : forall c nb k t ops v xs calls,
  wf_cfg c -> wf_nb nb -> 1 <= k <= nb ->
  iprogram_ok c nb k t ops -> iv_ends c nb k t ops v -> snd (spec_iprogram c nb k t ops) = Some xs ->
  Forall (skip_ok c) calls ->
  exists it rest,
    snd (run (it_step (it_next c nb) (it_next_back c nb) (it_nth c nb)) (iv_iter v) calls) = Ok it /\
    snd (spec_run spec_itstep xs calls) = Some rest /\
    len_answers c it (lengthN rest) (overshoot 0 (lengthN xs) calls).
Proof.
  intros c nb k t ops v xs calls Hc Hnb Hk O E S Hok.
  destruct (iv_ends_R c nb k Hc Hnb Hk t ops v O E) as [l [S' HR]]. rewrite S in S'. injection S' as <-.
  destruct HR as [Ek HI]. pose proof (Irep_len c nb k Hc Hnb Hk (iv_base v) xs HI) as Hlen.
  pose proof (Irep_63 c nb k Hc Hnb Hk (iv_base v) xs HI) as Hlt.
  destruct (over_always c nb (it_next c nb) (it_next_back c nb) (it_nth c nb) (It_rep c nb k)) with (calls := calls) (it := iv_iter v) (xs := xs)
    as (it & E1 & HE & Hb1 & Hb2 & rest & Er & HRr).
  - intros it ys Hy. destruct (iv_it_next c nb k it ys) as [it' [? [? _]]]; eauto 7.
  - intros it ys Hy. destruct (iv_it_next_back c nb k it ys) as [it' [? [? _]]]; eauto 7.
  - intros it ys n Hy Hn. destruct (iv_it_nth c nb k it ys n) as [it' [? [? _]]]; eauto 7.
  - exact Hc.
  - left. unfold iv_iter. rewrite Ek. now apply it_new_ok.
  - unfold iv_iter, it_new. cbn [it_limit]. nia.
  - unfold iv_iter, it_new. cbn [it_start]. lia.
  - exact Hok.
  - exists it, rest. split; [exact E1|]. split; [exact Er|].
    replace (overshoot 0 (lengthN xs) calls) with (it_start it - it_limit it) by (rewrite HE; unfold iv_iter, it_new; cbn [it_start it_limit]; now rewrite Hlen).
    apply len_over; auto. now apply (It_rep_length c nb k).
Qed.
Theorem C22_bit_len_always : forall c nb t ops v l calls,
  wf_cfg c -> wf_nb nb ->
  bprogram_ok c nb t ops -> bvec_ends c nb t ops v -> snd (spec_bprogram c nb t ops) = Some l ->
  Forall (skip_ok c) calls ->
  exists it rest,
    snd (run (it_step (bit_next c nb) (bit_next_back c nb) (bit_nth c nb)) (bvec_iter v) calls) = Ok it /\
    snd (spec_run spec_itstep l calls) = Some rest /\
    len_answers c it (lengthN rest) (overshoot 0 (lengthN l) calls).
Proof.
  intros c nb t ops v l calls Hc Hnb O E S Hok.
  destruct (bvec_ends_R c nb t ops v Hc Hnb O E) as [l0 [S' HR]]. rewrite S in S'. injection S' as <-.
  assert (Hlen : vb_len v = lengthN l) by (pose proof (bvec_bit_len_ok c nb Hc Hnb v l HR) as Hb; injection Hb; auto).
  assert (Hof : forall m it' (o : option bool), (r <- m ;; Ok (to_bit r)) = Ok (o, it') -> exists o', m = Ok (o', it')).
  { intros [[o' it2]| |] it' o Eo; try discriminate. cbn in Eo. injection Eo as _ <-. eauto. }
  destruct (over_always c nb (bit_next c nb) (bit_next_back c nb) (bit_nth c nb) (Bit_it c nb)) with (calls := calls) (it := bvec_iter v) (xs := l)
    as (it & E1 & HE & Hb1 & Hb2 & rest & Er & HRr).
  - intros it ys Hy. destruct (bit_next_ok c nb Hc Hnb it ys Hy) as [it' [Ea [Hb _]]]. exists it'. split; [exact Ea|]. split; [exact Hb|]. exact (Hof _ _ _ Ea).
  - intros it ys Hy. destruct (bit_next_back_ok c nb Hc Hnb it ys Hy) as [it' [Ea [Hb _]]]. exists it'. split; [exact Ea|]. split; [exact Hb|]. exact (Hof _ _ _ Ea).
  - intros it ys n Hy Hn. destruct (bit_nth_ok c nb Hc Hnb it ys n Hy Hn) as [it' [Ea [Hb _]]]. exists it'. split; [exact Ea|]. split; [exact Hb|]. exact (Hof _ _ _ Ea).
  - exact Hc.
  - left. now apply (bvec_iter_ok c nb Hc Hnb).
  - pose proof (fits_lt64 c nb (lengthN l) (wf_nb_pos nb Hnb) (R_bv_fits c nb v l HR)) as Hf. unfold bvec_iter, it_new. cbn [it_limit]. lia.
  - unfold bvec_iter, it_new. cbn [it_start]. lia.
  - exact Hok.
  - exists it, rest. split; [exact E1|]. split; [exact Er|].
    replace (overshoot 0 (lengthN l) calls) with (it_start it - it_limit it) by (rewrite HE; unfold bvec_iter, it_new; cbn [it_start it_limit]; now rewrite Hlen).
    apply len_over; auto. rewrite <- (It_rep_length c nb 1 it (map N.b2n rest) HRr). now rewrite lengthN_map.
Qed.
(** Two skips of 2^63 after the end: the second would pass 2^64, so the iterator is at its end again. *)
Example C22_len_always_ex : exists v it it',
  let calls := [ItNext; ItNth (2 ^ 63); ItNextBack] in
  snd (iv_program rel64 8 5 100 INew [IPush 17; IPush 30; IPush 3]) = Ok v /\
  overshoot 0 3 calls = 2 ^ 63 - 2 /\ overshoot 0 3 (calls ++ [ItNth (2 ^ 63)]) = 0 /\
  snd (run (it_step (it_next rel64 8) (it_next_back rel64 8) (it_nth rel64 8)) (iv_iter v) calls) = Ok it /\
  it_len rel64 it = Ok (2 ^ 63 + 2) /\
  snd (run (it_step (it_next rel64 8) (it_next_back rel64 8) (it_nth rel64 8)) (iv_iter v) (calls ++ [ItNth (2 ^ 63)])) = Ok it' /\
  it_len rel64 it' = Ok 0.
Proof. do 3 eexists. cbv zeta. repeat (split; [vm_compute; reflexivity|]). vm_compute. reflexivity. Qed.
Print Assumptions C22_int_len_exact.
Print Assumptions C22_bit_len_exact.
Print Assumptions C22_int_len_always.
Print Assumptions C22_bit_len_always.
