(** * C100: bit vectors, integer vectors and other stores saved to a file and loaded again. *)
From Verif Require Import PBase PBits PVectorBase3 PBitVector PIntVector PIO MIO MStream MDevice MSave SpecDevice SpecCfg SpecLaws SpecOps
  PRun PIntRun Properties46.

(** ** Lemmas *)

Lemma try_ok {S A B} (m : io S A) (f : A -> io S B) s a s' : m s = Ok (IOk a, s') -> try_ m f s = f a s'.
Proof. intros H. unfold try_. now rewrite H. Qed.
Lemma try_err {S A B} (m : io S A) (f : A -> io S B) s e s' : m s = Ok (IErr e, s') -> try_ m f s = Ok (IErr e, s').
Proof. intros H. unfold try_. now rewrite H. Qed.
Lemma try_lift {S A B} (m : res A) (f : A -> io S B) (s : S) a : m = Ok a -> try_ (lift m) f s = f a s.
Proof. intros ->. reflexivity. Qed.

(** The blocks [i .. i + k - 1] of [l]. *)
Definition blocks_from (nb : N) (l : list bool) (i k : nat) : list N := map (fun j => block_of nb (N.of_nat j) l) (seq i k).
Lemma blocks_from_pack nb l : blocks_from nb l 0 (N.to_nat (blocks_for nb (lengthN l))) = pack nb l.
Proof. reflexivity. Qed.
Lemma blocks_from_S nb l i k : blocks_from nb l i (S k) = block_of nb (N.of_nat i) l :: blocks_from nb l (S i) k.
Proof. reflexivity. Qed.

Section Store.
  Context {T S : Type} (c : cfg) (t : block_type) (o : byte_order) (R : T -> list bool -> Prop).
  Hypothesis Hc : wf_cfg c.

  Lemma save_from_items (B : bitvec T) (sink : byte_sink S) v l : wf_nb (bv_nb B) -> lawful_blocks c B R -> R v l ->
    forall k i s, N.of_nat (i + k) <= blocks_for (bv_nb B) (lengthN l) ->
    save_from c t o B sink v k i s = write_blocks c sink (map (fun x => (t, o, x)) (blocks_from (bv_nb B) l i k)) s.
  Proof.
    intros Hnb HB HR. pose proof (wf_nb_pos _ Hnb) as Hpos. induction k as [|k IH]; intros i s Hk; [reflexivity|].
    rewrite blocks_from_S. cbn [save_from map write_blocks]. unfold try_ at 1, lift at 1.
    rewrite (lk_get_block c B R HB v l) by (exact HR || (apply blocks_for_lt; [exact Hpos|lia])). cbn [bind].
    unfold try_. destruct (write_block c S t sink o (block_of (bv_nb B) (N.of_nat i) l) s) as [[[u|e] s']|p|]; cbn [bind]; try reflexivity.
    apply IH. lia.
  Qed.
  Lemma save_store_items (B : bitvec T) (sink : byte_sink S) v l s : wf_nb (bv_nb B) -> lawful_blocks c B R -> R v l ->
    save_store c t o B sink v s = write_blocks c sink (map (fun x => (t, o, x)) (pack (bv_nb B) l)) s.
  Proof.
    intros Hnb HB HR. unfold save_store, try_ at 1, lift at 1. rewrite (lk_block_len c B R HB v l HR). cbn [bind].
    rewrite (save_from_items B sink v l Hnb HB HR) by lia. now rewrite blocks_from_pack.
  Qed.

  Lemma load_from_items (M : bitvecmut T) (src : byte_source S) l : let nb := bv_nb (bm_bv M) in
    wf_nb nb -> lawful_mutblocks c M R ->
    forall k i v l' s xs e s', R v l' -> lengthN l' = lengthN l -> (forall j, j < N.of_nat i * nb -> bit_at l' j = bit_at l j) ->
    N.of_nat (i + k) = blocks_for nb (lengthN l) ->
    read_blocks c src (repeat (t, o) k) s = Ok (xs, e, s') -> (exists n, xs = firstn n (blocks_from nb l i k)) ->
    match e with
    | None => exists v', load_from c t o M src v k i s = Ok (IOk v', s') /\ R v' l
    | Some e => load_from c t o M src v k i s = Ok (IErr e, s')
    end.
  Proof.
    intros nb Hnb HM. pose proof (wf_nb_pos _ Hnb) as Hpos. induction k as [|k IH]; intros i v l' s xs e s' HR El Hag Hk Er Hx.
    - cbn [repeat read_blocks] in Er. injection Er as <- <- <-. exists v. split; [reflexivity|].
      replace l with l'; [exact HR|]. apply list_bit_ext; [exact El|]. intros j Hj. apply Hag.
      pose proof (blocks_for_spec nb (lengthN l) Hpos) as Hb. rewrite <- Hk, Nat.add_0_r in Hb. lia.
    - cbn [repeat read_blocks] in Er. cbn [load_from].
      destruct (read_block c S t src o s) as [[[x|e1] s1]|p|] eqn:Erb; cbn [bind] in Er; try discriminate.
      + destruct (read_blocks c src (repeat (t, o) k) s1) as [[[xs2 e2] s2]|p|] eqn:Er2; cbn [bind] in Er; try discriminate.
        injection Er as <- <- <-. destruct Hx as [[|n] Hx]; rewrite blocks_from_S in Hx; cbn [firstn] in Hx; [discriminate|].
        injection Hx as Ex Ex2.
        assert (Hi : N.of_nat i * nb < lengthN l') by (rewrite El; apply blocks_for_lt; [exact Hpos|lia]).
        destruct (lmk_set_block c M R HM v l' (N.of_nat i) x HR Hi) as (v1 & Ev1 & HR1); [rewrite Ex; apply block_of_lt|].
        rewrite (try_ok _ _ _ _ _ Erb), (try_lift _ _ s1 _ Ev1).
        fold nb in HR1. apply (IH (Datatypes.S i) v1 (set_block_of nb (N.of_nat i) x l') s1 xs2 e2 s2).
        * exact HR1.
        * rewrite lengthN_set_block_of by lia. exact El.
        * intros j Hj. rewrite bit_at_set_block_of by lia.
          destruct (N.leb_spec (N.of_nat i * nb) j) as [H1|H1]; cbn [andb]; [|apply Hag; lia].
          destruct (N.ltb_spec j (N.of_nat i * nb + nb)) as [H2|H2]; [|lia].
          rewrite Ex, testbit_block_of. destruct (N.ltb_spec (j - N.of_nat i * nb) nb) as [_|H3]; [|lia]. cbn [andb].
          replace (N.of_nat i * nb + (j - N.of_nat i * nb)) with j by lia.
          destruct (N.ltb_spec j (lengthN l')) as [H3|H3]; cbn [andb]; [reflexivity|]. symmetry. apply bit_at_oob. lia.
        * lia.
        * exact Er2.
        * exists n. exact Ex2.
      + injection Er as <- <- <-. exact (try_err _ _ _ _ _ Erb).
  Qed.
  Lemma load_store_items (M : bitvecmut T) (src : byte_source S) l v l' s xs e s' : let nb := bv_nb (bm_bv M) in
    wf_nb nb -> lawful_blocks c (bm_bv M) R -> lawful_mutblocks c M R -> R v l' -> lengthN l' = lengthN l ->
    read_blocks c src (repeat (t, o) (length (pack nb l))) s = Ok (xs, e, s') -> (exists n, xs = firstn n (pack nb l)) ->
    match e with
    | None => exists v', load_store c t o M src v s = Ok (IOk v', s') /\ R v' l
    | Some e => load_store c t o M src v s = Ok (IErr e, s')
    end.
  Proof.
    intros nb Hnb HB HM HR El Er Hx. unfold load_store. rewrite (try_lift _ _ s _ (lk_block_len c (bm_bv M) R HB v l' HR)).
    rewrite El. fold nb. pose proof (lengthN_pack nb l) as Hp. unfold lengthN at 1 in Hp.
    apply (load_from_items M src l Hnb HM (N.to_nat (blocks_for nb (lengthN l))) 0 v l' s xs e s').
    - exact HR.
    - exact El.
    - intros j Hj. lia.
    - fold nb. lia.
    - replace (N.to_nat (blocks_for nb (lengthN l))) with (length (pack nb l)) by lia. exact Er.
    - exact Hx.
  Qed.
End Store.

Lemma write_blocks_cons {S} c (sink : byte_sink S) t o x rest s :
  write_blocks c sink ((t, o, x) :: rest) s = try_ (write_block c S t sink o x) (fun _ => write_blocks c sink rest) s.
Proof. reflexivity. Qed.
Lemma map_formats (t : block_type) (o : byte_order) (xs : list N) : map fst (map (fun x => (t, o, x)) xs) = repeat (t, o) (length xs).
Proof. induction xs as [|x xs IH]; cbn; [reflexivity|now rewrite IH]. Qed.
Lemma map_values (t : block_type) (o : byte_order) (xs : list N) : map snd (map (fun x => (t, o, x)) xs) = xs.
Proof. induction xs as [|x xs IH]; cbn; [reflexivity|now rewrite IH]. Qed.

(** ** C100 *)

(** Any two stores that hold bits in blocks of the same size, one on the machine that writes, the other, of the same
    length, on the machine that reads. Whatever pieces, interruptions and errors there are:
    - what is loaded without an error is what was saved;
    - without errors of the file everything is saved and loaded;
    - what was not saved completely is not loaded: [UnexpectedEof], or the file's own error. *)
Theorem C100_store (T1 T2 : Type) (c1 c2 : cfg) (B : bitvec T1) (M : bitvecmut T2) (R1 : T1 -> list bool -> Prop) (R2 : T2 -> list bool -> Prop)
    (t : block_type) (o : byte_order) (v1 : T1) (v2 : T2) (l l2 : list bool) (p q : list event) (fuel1 fuel2 : nat) :
  wf_cfg c1 -> wf_cfg c2 -> type_bits c1 t = bv_nb B -> type_bits c2 t = bv_nb (bm_bv M) -> bv_nb B = bv_nb (bm_bv M) ->
  lawful_blocks c1 B R1 -> lawful_blocks c2 (bm_bv M) R2 -> lawful_mutblocks c2 M R2 ->
  R1 v1 l -> R2 v2 l2 -> lengthN l2 = lengthN l -> (length p + 2 <= fuel1)%nat -> (length q + 3 <= fuel2)%nat ->
  exists r f r2 f2, save_store c1 t o B (write_all fuel1 file_write) v1 {| content := []; plan := p |} = Ok (r, f) /\
    load_store c2 t o M (read_exact fuel2 file_read) v2 {| content := content f; plan := q |} = Ok (r2, f2) /\
    (forall v, r2 = IOk v -> R2 v l) /\
    (faultless p -> r = IOk tt) /\ (r = IOk tt -> faultless q -> exists v, r2 = IOk v) /\
    (forall e, r = IErr e -> In (Fault e) p /\ exists e', r2 = IErr e' /\ (e' = UnexpectedEof \/ In (Fault e') q)).
Proof.
  intros Hc1 Hc2 Et1 Et2 Enb HB HB2 HM HR1 HR2 El Hf1 Hf2. set (nb := bv_nb B) in *.
  assert (Hnb : wf_nb nb) by (rewrite <- Et1; unfold wf_nb; destruct (type_bits_cases c1 t Hc1) as [->|[->|[->| ->]]]; tauto).
  set (items := map (fun x => (t, o, x)) (pack nb l)).
  assert (Hcc : Forall (fun i => type_bits c1 (fst (fst i)) = type_bits c2 (fst (fst i))) items).
  { apply Forall_forall. intros i Hi. apply in_map_iff in Hi. destruct Hi as (x & <- & _). cbn [fst]. lia. }
  assert (Hi : Forall (fun i => snd i < 2 ^ type_bits c1 (fst (fst i))) items).
  { apply Forall_forall. intros i Hi. apply in_map_iff in Hi. destruct Hi as (x & <- & Hx). cbn [fst snd]. rewrite Et1.
    pose proof (pack_lt nb l) as Hp. rewrite Forall_forall in Hp. now apply Hp. }
  destruct (C99_crash c1 c2 items p q fuel1 fuel2 Hc1 Hc2 Hcc Hi Hf1 Hf2) as (r & f & m & Ew & Hm & Hr & xs & e & f' & Er & (n & Hn & Hxs) & H1 & H2 & H3).
  unfold items in Er, Hxs, H1, H3, Hr, Hm. rewrite map_formats in Er. rewrite map_values in Hxs, H1, H3. rewrite map_length in Hr, Hm, H1.
  assert (Hload : match e with
    | None => exists v', load_store c2 t o M (read_exact fuel2 file_read) v2 {| content := content f; plan := q |} = Ok (IOk v', f') /\ R2 v' l
    | Some e => load_store c2 t o M (read_exact fuel2 file_read) v2 {| content := content f; plan := q |} = Ok (IErr e, f')
    end).
  { apply (load_store_items c2 t o R2 M (read_exact fuel2 file_read) l v2 l2 _ xs e f'); rewrite <- ?Enb; auto. now exists n. }
  assert (Esave : save_store c1 t o B (write_all fuel1 file_write) v1 {| content := []; plan := p |} = Ok (r, f)).
  { rewrite (save_store_items c1 t o R1 B (write_all fuel1 file_write) v1 l _ Hnb HB HR1). exact Ew. }
  assert (Hp : faultless p -> r = IOk tt).
  { intros Hp. destruct r as [[]|e']; [reflexivity|]. destruct Hr as [_ Hin]. now elim (Hp e'). }
  destruct e as [e|].
  - exists r, f, (IErr e), f'. split; [exact Esave|]. split; [exact Hload|]. split; [discriminate|]. split; [exact Hp|]. split.
    + intros -> Hq. destruct (H1 Hq) as (_ & _ & He). rewrite Hr, Nat.eqb_refl in He. discriminate.
    + intros e' ->. split; [apply Hr|]. exists e. split; [reflexivity|]. now apply H2.
  - destruct Hload as (v' & Ev' & HR'). exists r, f, (IOk v'), f'. split; [exact Esave|]. split; [exact Ev'|].
    split; [intros v [= <-]; exact HR'|]. split; [exact Hp|]. split; [intros; now exists v'|].
    intros e' ->. exfalso. destruct Hr as [Hr _]. specialize (H3 eq_refl). rewrite H3 in Hxs. symmetry in Hxs.
    apply (f_equal (@length N)) in Hxs. rewrite firstn_length in Hxs. lia.
Qed.

(** A bit vector made by any program, saved on one machine and loaded on another that has room for it. *)
Theorem C100_bit_vector (c1 c2 : cfg) (nb : N) (t : block_type) (o : byte_order) (k : bctor) (ops : list bop) (v : vbase) (l : list bool)
    (p q : list event) (fuel1 fuel2 : nat) :
  wf_cfg c1 -> wf_cfg c2 -> wf_nb nb -> type_bits c1 t = nb -> type_bits c2 t = nb ->
  bprogram_ok c1 nb k ops -> bvec_ends c1 nb k ops v -> snd (spec_bprogram c1 nb k ops) = Some l -> fits c2 nb (lengthN l) ->
  (length p + 2 <= fuel1)%nat -> (length q + 3 <= fuel2)%nat ->
  exists r f r2 f2, save_bit_vector c1 nb t o (write_all fuel1 file_write) v {| content := []; plan := p |} = Ok (r, f) /\
    load_bit_vector c2 nb t o (read_exact fuel2 file_read) {| content := content f; plan := q |} = Ok (r2, f2) /\
    (forall v2, r2 = IOk v2 -> v2 = v /\ bvec_eq v2 v = true) /\
    (faultless p -> r = IOk tt) /\ (r = IOk tt -> faultless q -> r2 = IOk v) /\
    (forall e, r = IErr e -> In (Fault e) p /\ exists e', r2 = IErr e' /\ (e' = UnexpectedEof \/ In (Fault e') q)).
Proof.
  intros Hc1 Hc2 Hnb Et1 Et2 Hok Hends Hspec Hfits Hf1 Hf2. pose proof (wf_nb_range nb Hnb) as Hrange. pose proof (wf_nb_pos nb Hnb) as Hpos.
  destruct (bvec_ends_R c1 nb k ops v Hc1 Hnb Hok Hends) as (l' & El' & HR). rewrite Hspec in El'. injection El' as <-.
  assert (H63 : lengthN l <= 2 ^ 63) by now apply (fits_lt64 c2 nb).
  set (items := (U64, o, lengthN l) :: map (fun x => (t, o, x)) (pack nb l)).
  assert (Hcc : Forall (fun i => type_bits c1 (fst (fst i)) = type_bits c2 (fst (fst i))) items).
  { constructor; [reflexivity|]. apply Forall_forall. intros i Hi. apply in_map_iff in Hi. destruct Hi as (x & <- & _). cbn [fst]. lia. }
  assert (Hi : Forall (fun i => snd i < 2 ^ type_bits c1 (fst (fst i))) items).
  { constructor; [cbn [fst snd type_bits]; lia|].
    apply Forall_forall. intros i Hi. apply in_map_iff in Hi. destruct Hi as (x & <- & Hx). cbn [fst snd]. rewrite Et1.
    pose proof (pack_lt nb l) as Hp. rewrite Forall_forall in Hp. now apply Hp. }
  destruct (C99_crash c1 c2 items p q fuel1 fuel2 Hc1 Hc2 Hcc Hi Hf1 Hf2) as (r & f & m & Ew & Hm & Hr & xs & e & f' & Er & (n & Hn & Hxs) & H1 & H2 & H3).
  assert (Esave : save_bit_vector c1 nb t o (write_all fuel1 file_write) v {| content := []; plan := p |} = Ok (r, f)).
  { rewrite <- Ew. unfold items. rewrite write_blocks_cons. unfold save_bit_vector, try_ at 1, lift at 1.
    rewrite (lb_bit_len c1 _ _ (bvec_lawful_bits c1 nb Hc1 Hnb) v l HR : bvec_bit_len v = Ok (lengthN l)). cbn [bind].
    unfold try_. destruct (write_block c1 file U64 (write_all fuel1 file_write) o (lengthN l) {| content := []; plan := p |}) as [[[u|e1] s1]|p1|]; cbn [bind]; try reflexivity.
    apply (save_store_items c1 t o (R_bv c1 nb) (bvec_bitvec c1 nb)); [exact Hnb|apply bvec_lawful_blocks; assumption|exact HR]. }
  assert (Hp : faultless p -> r = IOk tt).
  { intros Hp. destruct r as [[]|e']; [reflexivity|]. destruct Hr as [_ Hin]. now elim (Hp e'). }
  (* the header *)
  unfold items in Er, Hxs, H3. cbn [map fst snd] in Er, Hxs, H3. rewrite map_formats in Er. rewrite map_values in Hxs, H3.
  cbn [read_blocks] in Er.
  assert (Hload : match e with
    | None => exists v', load_bit_vector c2 nb t o (read_exact fuel2 file_read) {| content := content f; plan := q |} = Ok (IOk v', f') /\ R_bv c2 nb v' l
    | Some e => load_bit_vector c2 nb t o (read_exact fuel2 file_read) {| content := content f; plan := q |} = Ok (IErr e, f')
    end).
  { unfold load_bit_vector.
    destruct (read_block c2 file U64 (read_exact fuel2 file_read) o {| content := content f; plan := q |}) as [[[x|e1] s1]|p1|] eqn:Erb; cbn [bind] in Er; try discriminate.
    - destruct (read_blocks c2 (read_exact fuel2 file_read) (repeat (t, o) (length (pack nb l))) s1) as [[[xs2 e2] s2]|p2|] eqn:Er2; cbn [bind] in Er; try discriminate.
      injection Er as Exs <- <-. rewrite <- Exs in Hxs. destruct n as [|n]; cbn [firstn] in Hxs; [discriminate|]. injection Hxs as -> Hxs2.
      destruct (bvec_with_fill_ok c2 nb Hc2 Hnb (lengthN l) false Hfits) as (v0 & Ev0 & HR0).
      rewrite (try_ok _ _ _ _ _ Erb), (try_lift _ _ s1 _ Ev0).
      apply (load_store_items c2 t o (R_bv c2 nb) (bvec_bitvecmut c2 nb) (read_exact fuel2 file_read) l v0 (repeatN false (lengthN l)) s1 xs2 e2 s2).
      + exact Hnb.
      + now apply bvec_lawful_blocks.
      + now apply bvec_lawful_mutblocks.
      + exact HR0.
      + apply lengthN_repeatN.
      + exact Er2.
      + now exists n.
    - injection Er as <- <- <-. exact (try_err _ _ _ _ _ Erb). }
  assert (Hsame : forall v', R_bv c2 nb v' l -> v' = v).
  { intros [n1 b1] [A1 [A2 _]]. destruct v as [n2 b2], HR as [B1 [B2 _]]. cbn [vb_len vb_vec] in *. f_equal; [lia|congruence]. }
  destruct e as [e|].
  - exists r, f, (IErr e), f'. split; [exact Esave|]. split; [exact Hload|]. split; [discriminate|]. split; [exact Hp|]. split.
    + intros -> Hq. destruct (H1 Hq) as (_ & _ & He). rewrite Hr, Nat.eqb_refl in He. discriminate.
    + intros e' ->. split; [apply Hr|]. exists e. split; [reflexivity|]. now apply H2.
  - destruct Hload as (v' & Ev' & HR'). apply Hsame in HR' as ->. exists r, f, (IOk v), f'. split; [exact Esave|]. split; [exact Ev'|].
    split; [intros v2 [= <-]; split; [reflexivity|]; unfold bvec_eq; now apply vb_eq_spec|]. split; [exact Hp|]. split; [reflexivity|].
    intros e' ->. exfalso. destruct Hr as [Hr _]. unfold items in Hr. cbn [length] in Hr. rewrite map_length in Hr. specialize (H3 eq_refl). rewrite H3 in Hxs. symmetry in Hxs.
    apply (f_equal (@length N)) in Hxs. rewrite firstn_length in Hxs. cbn [length] in Hxs. lia.
Qed.

(** The same for an integer vector with elements of [w] bits. *)
Theorem C100_int_vector (c1 c2 : cfg) (nb w : N) (t : block_type) (o : byte_order) (k : ictor) (ops : list iop) (v : intvec) (xs : list N)
    (p q : list event) (fuel1 fuel2 : nat) :
  wf_cfg c1 -> wf_cfg c2 -> wf_nb nb -> 1 <= w <= nb -> type_bits c1 t = nb -> type_bits c2 t = nb ->
  iprogram_ok c1 nb w k ops -> iv_ends c1 nb w k ops v -> snd (spec_iprogram c1 nb w k ops) = Some xs -> fits c2 nb (lengthN xs * w) ->
  (length p + 2 <= fuel1)%nat -> (length q + 3 <= fuel2)%nat ->
  exists r f r2 f2, save_int_vector c1 nb t o (write_all fuel1 file_write) v {| content := []; plan := p |} = Ok (r, f) /\
    load_int_vector c2 nb t o (read_exact fuel2 file_read) {| content := content f; plan := q |} = Ok (r2, f2) /\
    (forall v2, r2 = IOk v2 -> v2 = v /\ iv_eq v2 v = true) /\
    (faultless p -> r = IOk tt) /\ (r = IOk tt -> faultless q -> r2 = IOk v) /\
    (forall e, r = IErr e -> In (Fault e) p /\ exists e', r2 = IErr e' /\ (e' = UnexpectedEof \/ In (Fault e') q)).
Proof.
  intros Hc1 Hc2 Hnb Hw Et1 Et2 Hok Hends Hspec Hfits Hf1 Hf2. pose proof (wf_nb_range nb Hnb) as Hrange. pose proof (wf_nb_pos nb Hnb) as Hpos.
  destruct (iv_ends_R c1 nb w Hc1 Hnb Hw k ops v Hok Hends) as (xs' & El' & HI). rewrite Hspec in El'. injection El' as <-.
  pose proof (R_iv_bits c1 nb w v xs HI) as HR. set (l := bits_of_blocks w xs) in *.
  assert (Hl : lengthN l = lengthN xs * w) by (unfold l; rewrite lengthN_bits_of_blocks; lia).
  assert (H63 : lengthN l <= 2 ^ 63) by (rewrite Hl; now apply (fits_lt64 c2 nb)).
  assert (Hlen : lengthN xs <= 2 ^ 63) by nia.
  assert (Ebits : iv_bits v = w) by apply HI. assert (Elen : iv_len v = lengthN xs) by now apply (R_iv_len c1 nb w Hc1 Hnb Hw).
  set (items := (U64, o, w) :: (U64, o, lengthN xs) :: map (fun x => (t, o, x)) (pack nb l)).
  assert (Hcc : Forall (fun i => type_bits c1 (fst (fst i)) = type_bits c2 (fst (fst i))) items).
  { constructor; [reflexivity|]. constructor; [reflexivity|]. apply Forall_forall. intros i Hi. apply in_map_iff in Hi. destruct Hi as (x & <- & _). cbn [fst]. lia. }
  assert (Hi : Forall (fun i => snd i < 2 ^ type_bits c1 (fst (fst i))) items).
  { constructor; [cbn [fst snd type_bits]; lia|]. constructor; [cbn [fst snd type_bits]; lia|].
    apply Forall_forall. intros i Hi. apply in_map_iff in Hi. destruct Hi as (x & <- & Hx). cbn [fst snd]. rewrite Et1.
    pose proof (pack_lt nb l) as Hp. rewrite Forall_forall in Hp. now apply Hp. }
  destruct (C99_crash c1 c2 items p q fuel1 fuel2 Hc1 Hc2 Hcc Hi Hf1 Hf2) as (r & f & m & Ew & Hm & Hr & ys & e & f' & Er & (n & Hn & Hxs) & H1 & H2 & H3).
  assert (Esave : save_int_vector c1 nb t o (write_all fuel1 file_write) v {| content := []; plan := p |} = Ok (r, f)).
  { rewrite <- Ew. unfold items. rewrite write_blocks_cons. unfold save_int_vector. rewrite Ebits, Elen. unfold try_ at 1 3.
    destruct (write_block c1 file U64 (write_all fuel1 file_write) o w {| content := []; plan := p |}) as [[[u|e1] s1]|p1|]; cbn [bind]; try reflexivity.
    rewrite write_blocks_cons. unfold try_.
    destruct (write_block c1 file U64 (write_all fuel1 file_write) o (lengthN xs) s1) as [[[u2|e2] s2]|p2|]; cbn [bind]; try reflexivity.
    apply (save_store_items c1 t o (R_ivb c1 nb w) (iv_bitvec c1 nb)); [exact Hnb|apply iv_lawful_blocks; assumption|exact HR]. }
  assert (Hp : faultless p -> r = IOk tt).
  { intros Hp. destruct r as [[]|e']; [reflexivity|]. destruct Hr as [_ Hin]. now elim (Hp e'). }
  unfold items in Er, Hxs, H3. cbn [map fst snd] in Er, Hxs, H3. rewrite map_formats in Er. rewrite map_values in Hxs, H3.
  cbn [read_blocks] in Er.
  assert (Hload : match e with
    | None => exists v', load_int_vector c2 nb t o (read_exact fuel2 file_read) {| content := content f; plan := q |} = Ok (IOk v', f') /\ R_ivb c2 nb w v' l
    | Some e => load_int_vector c2 nb t o (read_exact fuel2 file_read) {| content := content f; plan := q |} = Ok (IErr e, f')
    end).
  { assert (Hw64 : forall x, as_usize c2 w = x -> x = w).
    { intros x <-. unfold as_usize. apply N.mod_small. assert (2 ^ 32 <= 2 ^ ptr c2) by (destruct Hc2 as [-> | ->]; vm_compute; congruence). lia. }
    unfold load_int_vector.
    destruct (read_block c2 file U64 (read_exact fuel2 file_read) o {| content := content f; plan := q |}) as [[[x|e1] s1]|p1|] eqn:Erb; cbn [bind] in Er; try discriminate.
    - rewrite (try_ok _ _ _ _ _ Erb).
      destruct (read_block c2 file U64 (read_exact fuel2 file_read) o s1) as [[[y|e3] s3]|p3|] eqn:Erc; cbn [bind] in Er; try discriminate.
      + destruct (read_blocks c2 (read_exact fuel2 file_read) (repeat (t, o) (length (pack nb l))) s3) as [[[xs2 e2] s2]|p2|] eqn:Er2; cbn [bind] in Er; try discriminate.
        injection Er as Exs <- <-. rewrite <- Exs in Hxs. destruct n as [|[|n]]; cbn [firstn] in Hxs; try discriminate. injection Hxs as -> -> Hxs2.
        rewrite (Hw64 _ eq_refl).
        destruct (vb_with_fill_ok c2 nb w Hc2 Hnb Hw (lengthN xs) 0) as (b0 & Eb0 & HV0); [apply N.neq_0_lt_0, N.pow_nonzero; lia|exact Hfits|].
        assert (Ev0 : iv_with_fill c2 nb w (lengthN xs) 0 = Ok {| iv_bits := w; iv_base := b0 |}).
        { unfold iv_with_fill, iv_create. rewrite Eb0. cbn [bind]. rewrite (check_element_bits_ok c2 nb w Hc2 Hnb Hw). reflexivity. }
        rewrite (try_ok _ _ _ _ _ Erc), (try_lift _ _ s3 _ Ev0).
        apply (load_store_items c2 t o (R_ivb c2 nb w) (iv_bitvecmut c2 nb) (read_exact fuel2 file_read) l {| iv_bits := w; iv_base := b0 |}
          (bits_of_blocks w (repeatN 0 (lengthN xs))) s3 xs2 e2 s2).
        * exact Hnb.
        * now apply iv_lawful_blocks.
        * now apply iv_lawful_mutblocks.
        * split; [reflexivity|exact HV0].
        * rewrite lengthN_bits_of_blocks, lengthN_repeatN. lia.
        * exact Er2.
        * now exists n.
      + injection Er as <- <- <-. exact (try_err _ _ _ _ _ Erc).
    - injection Er as <- <- <-. exact (try_err _ _ _ _ _ Erb). }
  assert (Hsame : forall v', R_ivb c2 nb w v' l -> v' = v).
  { intros [k1 [n1 b1]] [A0 [A1 [A2 _]]]. destruct v as [k2 [n2 b2]]. destruct HR as [B0 [B1 [B2 _]]]. cbn [iv_bits iv_base vb_len vb_vec] in *. subst k1 k2.
    f_equal. f_equal; [nia|congruence]. }
  destruct e as [e|].
  - exists r, f, (IErr e), f'. split; [exact Esave|]. split; [exact Hload|]. split; [discriminate|]. split; [exact Hp|]. split.
    + intros -> Hq. destruct (H1 Hq) as (_ & _ & He). rewrite Hr, Nat.eqb_refl in He. discriminate.
    + intros e' ->. split; [apply Hr|]. exists e. split; [reflexivity|]. now apply H2.
  - destruct Hload as (v' & Ev' & HR'). apply Hsame in HR' as ->. exists r, f, (IOk v), f'. split; [exact Esave|]. split; [exact Ev'|].
    split; [intros v2 [= <-]; split; [reflexivity|]; unfold iv_eq; rewrite N.eqb_refl; cbn [andb]; now apply vb_eq_spec|]. split; [exact Hp|]. split; [reflexivity|].
    intros e' ->. exfalso. destruct Hr as [Hr _]. unfold items in Hr. cbn [length] in Hr. rewrite map_length in Hr. specialize (H3 eq_refl). rewrite H3 in Hxs. symmetry in Hxs.
    apply (f_equal (@length N)) in Hxs. rewrite firstn_length in Hxs. cbn [length] in Hxs. lia.
Qed.

(** Ten bits in blocks of 8: saved in pieces, loaded on a 32-bit machine; the same with the disk full before the
    last block; and an integer vector with elements of 5 bits. *)
Example C100_ex :
  exists v, bvec_ends rel64 8 (BWithFill 10 true) [BSetBit 3 false] v /\ bprogram_ok rel64 8 (BWithFill 10 true) [BSetBit 3 false] /\
    vb_vec v = [247; 3] /\
    (exists f, save_bit_vector rel64 8 U8 BigEndian (write_all 20 file_write) v {| content := []; plan := [Piece 2; Interrupt; Piece 3] |} = Ok (IOk tt, f) /\
       content f = [0; 0; 0; 0; 0; 0; 0; 10; 247; 3] /\
       exists f2, load_bit_vector dbg32 8 U8 BigEndian (read_exact 20 file_read) {| content := content f; plan := [Piece 0; Interrupt; Interrupt; Piece 0] |} = Ok (IOk v, f2)) /\
    (exists f, save_bit_vector rel64 8 U8 BigEndian (write_all 20 file_write) v {| content := []; plan := [Piece 2; Piece 99; Piece 0; Fault IoOther] |} = Ok (IErr IoOther, f) /\
       content f = [0; 0; 0; 0; 0; 0; 0; 10; 247] /\
       exists f2, load_bit_vector dbg32 8 U8 BigEndian (read_exact 20 file_read) {| content := content f; plan := [] |} = Ok (IErr UnexpectedEof, f2)) /\
    (exists w f f2, iv_ends dbg64 16 5 (IWithFill 4 19) [] w /\
       save_int_vector dbg64 16 U16 LittleEndian (write_all 20 file_write) w {| content := []; plan := [] |} = Ok (IOk tt, f) /\
       content f = [5; 0; 0; 0; 0; 0; 0; 0; 4; 0; 0; 0; 0; 0; 0; 0; 115; 206; 9; 0] /\
       load_int_vector rel32 16 U16 LittleEndian (read_exact 20 file_read) f = Ok (IOk w, f2)).
Proof.
  eexists. split; [exists 0%nat; intros fuel _; vm_compute; reflexivity|].
  split; [split; [vm_compute; intuition congruence|]; vm_compute; intuition congruence|].
  split; [reflexivity|]. split.
  - eexists. split; [vm_compute; reflexivity|]. split; [reflexivity|]. eexists. vm_compute. reflexivity.
  - split.
    + eexists. split; [vm_compute; reflexivity|]. split; [reflexivity|]. eexists. vm_compute. reflexivity.
    + eexists. eexists. eexists. split; [exists 0%nat; intros fuel _; vm_compute; reflexivity|].
      split; [vm_compute; reflexivity|]. split; [reflexivity|]. vm_compute. reflexivity.
Qed.

Print Assumptions C100_store.
Print Assumptions C100_bit_vector.
Print Assumptions C100_int_vector.
