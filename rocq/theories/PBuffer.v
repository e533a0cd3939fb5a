(** * [BitBuffer] against a list of bits with a cursor. *)
From Verif Require Export SpecBuffer SpecStream MStream SpecLaws PBase PStorage PBits PBlocks PDefaults PStream PRun PSlice.

Lemma mutblocks_setblock {T} c (M : bitvecmut T) R : lawful_mutblocks c M R -> lawful_setblock c M R.
Proof. intros H. split; [apply (lmk_set_block _ _ _ H)|]. intros t l i v H1 H2 H3 _. exact (lmk_set_block_oob _ _ _ H t l i v H1 H2 H3). Qed.
Lemma vecbool_setblock c : wf_cfg c -> lawful_setblock c (vecbool_bitvecmut c) (R_bools c).
Proof.
  intros Hc. split; cbn.
  - intros t l i v H1 H2 _. now apply vb8_set_block_ok.
  - intros t l i v H1 H2 H3 H4. now apply (vb8_set_block_oob c Hc t l).
Qed.

(** ** Reading *)
Section Read.
  Context {T : Type} (c : cfg) (B : bitvec T) (R : T -> list bool -> Prop).
  Hypothesis Hc : wf_cfg c.
  Hypothesis LB : lawful_bits c B R.
  Hypothesis LK : lawful_blocks c B R.
  Let Hnb : wf_nb (bv_nb B) := lb_nb _ _ _ LB.
  Let nb_range := wf_nb_range (bv_nb B) Hnb.

  Lemma bb_get_bit_ok t p l i b : R t l -> nthN l i = Some b -> bb_get_bit c B {| bb_data := t; bb_pos := p |} i = Ok b.
  Proof.
    intros HR Hi. unfold bb_get_bit. apply def_get_bit with (l := l); auto.
    - exact (lb_bit_len _ _ _ LB t l HR). - exact (lb_fits _ _ _ LB t l HR).
    - intros j Hj. exact (lk_get_block _ _ _ LK t l j HR Hj).
  Qed.
  Lemma bb_read_ok t l p b : R t l -> nthN l p = Some b ->
    bb_read_bit c B {| bb_data := t; bb_pos := p |} = Ok (IOk (Some b), {| bb_data := t; bb_pos := p + 1 |}).
  Proof.
    intros HR Hp. pose proof (nthN_lt _ _ _ Hp) as Hlt. pose proof (base_63 c B R Hc LB t l HR) as H63.
    unfold bb_read_bit, bb_bit_len. cbn [bb_data bb_pos]. rewrite (lb_bit_len _ _ _ LB t l HR). cbn [bind].
    destruct (p <? lengthN l) eqn:E; [|lia]. rewrite (bb_get_bit_ok t p l p b HR Hp). cbn [bind]. rewrite wadd_ok by lia. reflexivity.
  Qed.
  Lemma bb_read_end t l p : R t l -> lengthN l <= p ->
    bb_read_bit c B {| bb_data := t; bb_pos := p |} = Ok (IOk None, {| bb_data := t; bb_pos := p |}).
  Proof.
    intros HR Hp. unfold bb_read_bit, bb_bit_len. cbn [bb_data bb_pos]. rewrite (lb_bit_len _ _ _ LB t l HR). cbn [bind].
    destruct (p <? lengthN l) eqn:E; [lia|reflexivity].
  Qed.
  Lemma bb_reads t l : R t l -> forall w p, p + lengthN w <= lengthN l -> sub p (lengthN w) l = w ->
    reads (bb_source c B) {| bb_data := t; bb_pos := p |} w {| bb_data := t; bb_pos := p + lengthN w |}.
  Proof.
    intros HR. induction w as [|b w IH]; intros p Hp Hs.
    - rewrite lengthN_nil, N.add_0_r. constructor.
    - rewrite lengthN_cons in *.
      assert (Hb : nthN l p = Some b).
      { assert (E : nthN (sub p (lengthN w + 1) l) 0 = Some b) by (now rewrite Hs). rewrite nthN_sub in E.
        destruct (0 <? lengthN w + 1) eqn:E1; [|lia]. now rewrite N.add_0_r in E. }
      econstructor; [exact (bb_read_ok t l p b HR Hb)|].
      replace (p + (lengthN w + 1)) with (p + 1 + lengthN w) by lia. apply IH; [lia|].
      apply nthN_ext. intros i. rewrite nthN_sub. assert (E : nthN (sub p (lengthN w + 1) l) (i + 1) = nthN (b :: w) (i + 1)) by (now rewrite Hs).
      rewrite nthN_sub, nthN_cons in E. destruct (i + 1 =? 0) eqn:E0; [lia|]. replace (i + 1 - 1) with i in E by lia. rewrite <- E.
      destruct (i + 1 <? lengthN w + 1) eqn:E1, (i <? lengthN w) eqn:E2; try lia; [|reflexivity]. f_equal. lia.
  Qed.
  Lemma bb_reads_all t l : R t l ->
    reads (bb_source c B) (bb_from t) l {| bb_data := t; bb_pos := lengthN l |} /\
    stops (bb_source c B) {| bb_data := t; bb_pos := lengthN l |} (IOk None) {| bb_data := t; bb_pos := lengthN l |}.
  Proof.
    intros HR. split.
    - apply (bb_reads t l HR l 0); [lia|]. apply nthN_ext. intros i. rewrite nthN_sub, N.add_0_l. destruct (i <? lengthN l) eqn:E; [reflexivity|].
      symmetry. apply nthN_None. lia.
    - split; [|exact I]. apply (bb_read_end t l); [exact HR|lia].
  Qed.
End Read.

(** ** Programs *)
Section Program.
  Context {T : Type} (c : cfg) (P : bitvecpush T) (R : T -> list bool -> Prop) (roomb : N -> bool).
  Let M := bp_bm P.
  Let B := bm_bv M.
  Hypothesis Hc : wf_cfg c.
  Hypothesis LB : lawful_bits c B R.
  Hypothesis LK : lawful_blocks c B R.
  Hypothesis LS : lawful_setblock c M R.
  Hypothesis LP : lawful_push c P R (fun n => roomb n = true).
  Let Hnb : wf_nb (bv_nb B) := lb_nb _ _ _ LB.
  Let nb_range := wf_nb_range (bv_nb B) Hnb.

  Definition R_buf (bb : bitbuf T) (f : list bool * N) : Prop :=
    R (bb_data bb) (fst f) /\ bb_pos bb = snd f /\ snd f <= lengthN (fst f).

  Lemma buf_set_block bb l i v p : bb_pos bb = p -> R (bb_data bb) l -> i * bv_nb B < lengthN l -> v < 2 ^ bv_nb B ->
    exists bb', bb_set_block M bb i v = Ok bb' /\ bb_pos bb' = p /\ R (bb_data bb') (set_block_of (bv_nb B) i v l).
  Proof.
    intros Hp HR Hi Hv. unfold bb_set_block. destruct (ls_set_block _ _ _ LS _ l i v HR Hi Hv) as (d & E & Hd). rewrite E. cbn [bind].
    eexists. split; [reflexivity|]. auto.
  Qed.
  Lemma buf_fits bb l : R (bb_data bb) l -> fits c (bv_nb B) (lengthN l).
  Proof. intros HR. exact (lb_fits _ _ _ LB _ l HR). Qed.
  Lemma buf_len bb l : R (bb_data bb) l -> bb_bit_len B bb = Ok (lengthN l).
  Proof. intros HR. exact (lb_bit_len _ _ _ LB _ l HR). Qed.
  Lemma buf_block bb l i : R (bb_data bb) l -> i * bv_nb B < lengthN l -> bb_get_block B bb i = Ok (block_of (bv_nb B) i l).
  Proof. intros HR. exact (lk_get_block _ _ _ LK _ l i HR). Qed.
  Lemma buf_set_bit bb l i b p : bb_pos bb = p -> R (bb_data bb) l -> i < lengthN l ->
    exists bb', bb_set_bit c M bb i b = Ok bb' /\ bb_pos bb' = p /\ R (bb_data bb') (updN l i b).
  Proof.
    intros Hp HR Hi. unfold bb_set_bit. fold B.
    destruct (def_set_bit c (bv_nb B) (bb_bit_len B) (bb_get_block B) (bb_set_block M) bb l
                (fun bb l => bb_pos bb = p /\ R (bb_data bb) l) i b) as (bb' & E & H); eauto using buf_len, buf_fits, buf_block.
    intros bb1 l1 j v [H1 H2] Hl Hj Hv. destruct (buf_set_block bb1 l1 j v p) as (bb2 & E & H); auto; [now rewrite Hl|]. eauto.
  Qed.
  Lemma buf_write fuel bb l p b : (2 <= fuel)%nat -> R_buf bb (l, p) ->
    if p <? lengthN l then exists bb', bb_write_bit c P fuel b bb = Ok (IOk tt, bb') /\ R_buf bb' (updN l p b, p + 1)
    else if roomb (lengthN l + 1) then exists bb', bb_write_bit c P fuel b bb = Ok (IOk tt, bb') /\ R_buf bb' (l ++ [b], p + 1)
    else panics (bb_write_bit c P fuel b bb).
  Proof.
    intros Hf (HR & Hpos & Hle). cbn [fst snd] in *. pose proof (base_63 c B R Hc LB _ l HR) as H63.
    destruct fuel as [|[|fuel]]; [lia|lia|].
    assert (Loop : forall n d l', R d l' -> p < lengthN l' -> loop_fuel (Datatypes.S n) (fun d =>
             bl <- bv_bit_len (bm_bv (bp_bm P)) d ;;
             if bl <=? bb_pos bb then d' <- bp_push_bit P d false ;; Ok (Continue d')
             else Ok (Return d)) d = Ok d).
    { intros n d l' Hd Hl. cbn [loop_fuel]. fold M. fold B. rewrite (lb_bit_len _ _ _ LB d l' Hd). cbn [bind]. destruct (lengthN l' <=? bb_pos bb) eqn:E; [lia|].
      reflexivity. }
    destruct (p <? lengthN l) eqn:E; [|destruct (roomb (lengthN l + 1)) eqn:Er].
    - unfold bb_write_bit. rewrite (Loop _ _ l HR) by lia. cbn [bind]. fold M.
      destruct (buf_set_bit (bb_with bb (bb_data bb)) l p b p) as (bb' & Eb & Hp' & HR'); auto; [lia|]. rewrite Hpos, Eb. cbn [bind].
      rewrite wadd_ok by lia. cbn [bind]. eexists. split; [reflexivity|]. split; [exact HR'|]. split; [reflexivity|]. cbn [fst snd]. rewrite lengthN_updN. lia.
    - destruct (lp_push_bit _ _ _ _ LP (bb_data bb) l false HR Er) as (d & Ed & Hd).
      assert (p = lengthN l) as -> by lia.
      unfold bb_write_bit. cbn [loop_fuel]. fold M. fold B. rewrite (lb_bit_len _ _ _ LB _ l HR). cbn [bind]. destruct (lengthN l <=? bb_pos bb) eqn:E1; [|lia].
      rewrite Ed. cbn [bind].
      specialize (Loop fuel d _ Hd ltac:(rewrite lengthN_app, lengthN_cons, lengthN_nil; lia)). cbn [loop_fuel] in Loop. fold M in Loop. fold B in Loop. rewrite Loop.
      cbn [bind]. rewrite Hpos.
      destruct (buf_set_bit (bb_with bb d) (l ++ [false]) (lengthN l) b (lengthN l)) as (bb' & Eb & Hp' & HR'); auto;
        [rewrite lengthN_app, lengthN_cons, lengthN_nil; lia|]. rewrite Eb. cbn [bind].
      rewrite wadd_ok by lia. cbn [bind]. eexists. split; [reflexivity|]. split; [|split; [reflexivity|]]; cbn [fst snd].
      + replace (l ++ [b]) with (updN (l ++ [false]) (lengthN l) b); [exact HR'|]. apply nthN_ext. intros i.
        rewrite nthN_updN, !nthN_app, !nthN_cons, lengthN_app, lengthN_cons, lengthN_nil.
        destruct (i =? lengthN l) eqn:Ei; cbn [andb].
        * destruct (lengthN l <? lengthN l + (0 + 1)) eqn:E2; [|lia]. destruct (i <? lengthN l) eqn:E3; [lia|]. destruct (i - lengthN l =? 0) eqn:E4; [|lia]. reflexivity.
        * destruct (i <? lengthN l) eqn:E3; [reflexivity|]. destruct (i - lengthN l =? 0) eqn:E4; [lia|reflexivity].
      + rewrite lengthN_app, lengthN_cons, lengthN_nil. lia.
    - unfold bb_write_bit. cbn [loop_fuel]. fold M. fold B. rewrite (lb_bit_len _ _ _ LB _ l HR). cbn [bind]. destruct (lengthN l <=? bb_pos bb) eqn:E1; [|lia].
      destruct (lp_push_bit_full _ _ _ _ LP (bb_data bb) l false HR) as (q & Eq); [congruence|]. rewrite Eq. cbn [bind]. eexists. reflexivity.
  Qed.
  Lemma bb_step_sim f op : fop_ok c P f op -> exists n0, forall fuel bb, (n0 <= fuel)%nat -> R_buf bb f ->
    matches R_buf (bb_step c P fuel bb op) (spec_fstep P roomb f op).
  Proof.
    destruct f as [l p]. intros Hok. exists 2%nat. intros fuel bb Hf H. pose proof H as (HR & Hpos & Hle). cbn [fst snd] in HR, Hpos, Hle.
    pose proof (base_63 c B R Hc LB _ l HR) as H63.
    destruct op; cbn [bb_step spec_fstep fop_ok] in *; fold M; fold B; fold M in Hok; fold B in Hok.
    - (* read *)
      destruct bb as [t q]. cbn [bb_data bb_pos] in *. subst q. destruct (nthN l p) as [b|] eqn:Eb.
      + rewrite (bb_read_ok c B R Hc LB LK t l p b HR Eb). cbn [io_out bind fst snd io_map matches]. eexists. split; [reflexivity|].
        split; [exact HR|]. split; [reflexivity|]. apply nthN_lt in Eb. cbn [fst snd]. lia.
      + apply nthN_None in Eb. rewrite (bb_read_end c B R LB t l p HR Eb). cbn [io_out bind fst snd io_map matches]. eexists. split; [reflexivity|]. exact H.
    - (* write *)
      pose proof (buf_write fuel bb l p b Hf H) as K. destruct (p <? lengthN l); [|destruct (roomb (lengthN l + 1))].
      + destruct K as (bb' & E & K). rewrite E. cbn. eauto.
      + destruct K as (bb' & E & K). rewrite E. cbn. eauto.
      + destruct K as (q & E). rewrite E. cbn. eexists. reflexivity.
    - (* seek *)
      unfold bb_seek. rewrite (lb_bit_len _ _ _ LB _ l HR). cbn [bind]. destruct (p0 <=? lengthN l) eqn:E; cbn; (eexists; split; [reflexivity|]).
      + split; [exact HR|]. split; [reflexivity|]. cbn. lia.
      + exact H.
    - unfold bb_position. rewrite Hpos. cbn. eauto.
    - cbn [bb_bitvecmut bm_bv bb_bitvec bv_bit_len]. fold B. rewrite (buf_len bb l HR). cbn. eauto.
    - cbn [bb_bitvecmut bm_bv bb_bitvec bv_block_len]. fold B. rewrite (lk_block_len _ _ _ LK _ l HR). cbn. eauto.
    - (* get_bit *)
      cbn [bb_bitvecmut bm_bv bb_bitvec bv_get_bit]. fold B. destruct (nthN l i) as [b|] eqn:Eb.
      + destruct bb as [t q]. rewrite (bb_get_bit_ok c B R Hc LB LK t q l i b HR Eb). cbn. eauto.
      + apply nthN_None in Eb. unfold bb_get_bit. destruct (def_get_bit_oob c (bv_nb B) (bb_bit_len B) (bb_get_block B) bb l i (buf_len bb l HR) Eb) as (q & E).
        rewrite E. cbn. eexists. reflexivity.
    - (* get_block *)
      cbn [bb_bitvecmut bm_bv bb_bitvec bv_get_block]. fold B. destruct (i * bv_nb B <? lengthN l) eqn:E.
      + rewrite (buf_block bb l i HR) by lia. cbn. unfold block_of. eauto.
      + unfold bb_get_block. destruct (lk_get_block_oob _ _ _ LK _ l i HR ltac:(lia) Hok) as (q & Eq). rewrite Eq. cbn. eexists. reflexivity.
    - (* get_bits *)
      destruct Hok as (Hs & Hn & Hin). cbn [fst] in Hin. cbn [bb_bitvecmut bm_bv bb_bitvec bv_get_bits]. fold B. destruct (s + n <=? lengthN l) eqn:E.
      + destruct (Hin ltac:(lia)) as [Hn1 Hn2]. rewrite (def_get_bits c (bv_nb B) (bb_bit_len B) (bb_get_block B) bb l s n); eauto using buf_len, buf_fits, buf_block; [|lia|tauto].
        cbn. eauto.
      + destruct (def_get_bits_oob c (bv_nb B) (bb_bit_len B) (bb_get_block B) bb l s n) as (q & Eq); auto using buf_len; try lia.
        rewrite Eq. cbn. eexists. reflexivity.
    - (* set_bit *)
      cbn [bb_bitvecmut bm_set_bit]. destruct (i <? lengthN l) eqn:E.
      + destruct (buf_set_bit bb l i b p Hpos HR) as (bb' & Eb & Hp' & HR'); [lia|]. rewrite Eb. cbn. eexists. split; [reflexivity|]. split; [exact HR'|].
        split; [exact Hp'|]. cbn. now rewrite lengthN_updN.
      + unfold bb_set_bit. fold B. destruct (def_set_bit_oob c (bv_nb B) (bb_bit_len B) (bb_get_block B) (bb_set_block M) bb l i b (buf_len bb l HR)) as (q & Eq); [lia|].
        rewrite Eq. cbn. eexists. reflexivity.
    - (* set_block *)
      destruct Hok as (Hi & Hi64 & Hx). cbn [bb_bitvecmut bm_set_block]. destruct (i * bv_nb B <? lengthN l) eqn:E.
      + destruct (buf_set_block bb l i x p Hpos HR) as (bb' & Eb & Hp' & HR'); [lia|exact Hx|]. rewrite Eb. cbn. eexists. split; [reflexivity|]. split; [exact HR'|].
        split; [exact Hp'|]. cbn. rewrite lengthN_set_block_of by lia. exact Hle.
      + unfold bb_set_block. destruct (ls_set_block_oob _ _ _ LS _ l i x HR ltac:(fold B; lia) Hi Hi64) as (q & Eq). rewrite Eq. cbn. eexists. reflexivity.
    - (* set_bits *)
      destruct Hok as ((Hs & Hn & Hin) & Hx). cbn [fst] in Hin. cbn [bb_bitvecmut bm_set_bits]. fold B. destruct (s + n <=? lengthN l) eqn:E.
      + destruct (Hin ltac:(lia)) as [Hn1 Hn2].
        destruct (def_set_bits c (bv_nb B) (bb_bit_len B) (bb_get_block B) (bb_set_block M) bb l (fun bb l => bb_pos bb = p /\ R (bb_data bb) l) s n x) as (bb' & Eb & Hp' & HR');
          eauto using buf_len, buf_fits, buf_block; [|lia|tauto|].
        { intros bb1 l1 j v [H1 H2] Hl Hj Hv. destruct (buf_set_block bb1 l1 j v p) as (bb2 & E2 & K); auto; [now rewrite Hl|]. eauto. }
        rewrite Eb. cbn. eexists. split; [reflexivity|]. split; [exact HR'|]. split; [exact Hp'|]. cbn. rewrite lengthN_put; [exact Hle|]. rewrite lengthN_bits_of. lia.
      + destruct (def_set_bits_oob c (bv_nb B) (bb_bit_len B) (bb_get_block B) (bb_set_block M) bb l s n x) as (q & Eq); auto using buf_len; try lia.
        rewrite Eq. cbn. eexists. reflexivity.
  Qed.
  Lemma bb_program_sim f ops : along (spec_fstep P roomb) (fop_ok c P) f ops ->
    exists n0, forall fuel bb, (n0 <= fuel)%nat -> R_buf bb f ->
    fst (run (bb_step c P fuel) bb ops) = fst (spec_run (spec_fstep P roomb) f ops) /\
    ends R_buf (snd (run (bb_step c P fuel) bb ops)) (snd (spec_run (spec_fstep P roomb) f ops)).
  Proof. apply run_sim. intros l o. apply bb_step_sim. Qed.

  (** Writing a whole word at the end. *)
  Lemma bb_write_all fuel w : (2 <= fuel)%nat -> forall bb l, R_buf bb (l, lengthN l) -> (forall n, n <= lengthN l + lengthN w -> roomb n = true) ->
    exists bb', write_all (bb_sink c P fuel) w bb = Ok (IOk tt, bb') /\ R_buf bb' (l ++ w, lengthN (l ++ w)).
  Proof.
    intros Hf. induction w as [|b w IH]; intros bb l H Hroom.
    - exists bb. rewrite app_nil_r. auto.
    - rewrite lengthN_cons in Hroom. pose proof (buf_write fuel bb l (lengthN l) b Hf H) as K. rewrite Hroom in K by lia.
      destruct (lengthN l <? lengthN l) eqn:E; [lia|]. destruct K as (bb1 & E1 & H1). cbn [write_all bb_sink write_bit]. rewrite E1.
      destruct (IH bb1 (l ++ [b])) as (bb2 & E2 & H2).
      + replace (lengthN (l ++ [b])) with (lengthN l + 1) by (rewrite lengthN_app, lengthN_cons, lengthN_nil; lia). exact H1.
      + rewrite lengthN_app, lengthN_cons, lengthN_nil. intros n Hn. apply Hroom. lia.
      + exists bb2. rewrite <- app_assoc in H2. auto.
  Qed.
End Program.
