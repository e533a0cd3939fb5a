(** * Property C120: sorted lists of numbers in a stream, and their intersection.
    [tower_code] (C119) are the codes of the library and of the user under the combinators in any order and to any
    depth, with the values each of them can encode. *)
From Coq Require Import Sorted.
From Verif Require Import Machine MStorage MTraits MRank MSelect MStream MCoding MRice MPosting MVectorBase MBitVector
  SpecBits SpecCfg SpecLaws SpecRank SpecStream PBase PBits PBlocks PRank PSelect PStream PCoding PCoding2 PCoding3 Properties6 Properties68.

(** The differences of a list, and the sums that undo them. *)
Fixpoint gaps (p : N) (xs : list N) : list N := match xs with [] => [] | x :: t => (x - p) :: gaps x t end.
Fixpoint sums (p : N) (ds : list N) : list N := match ds with [] => [] | d :: t => (p + d) :: sums (p + d) t end.
Definition total (ds : list N) : N := fold_right N.add 0 ds.

Lemma sums_gaps xs : forall p, StronglySorted N.le (p :: xs) -> sums p (gaps p xs) = xs.
Proof.
  induction xs as [|x t IH]; intros p H; [reflexivity|]. inversion H as [|? ? H1 H2]; subst. inversion H2; subst. cbn [gaps sums].
  replace (p + (x - p)) with x by lia. f_equal. now apply IH.
Qed.
Lemma total_gaps xs : forall p, StronglySorted N.le (p :: xs) -> p + total (gaps p xs) = last xs p.
Proof.
  induction xs as [|x t IH]; intros p H; [cbn; lia|]. inversion H as [|? ? H1 H2]; subst. inversion H2; subst. cbn [gaps total fold_right].
  specialize (IH x H1). fold (total (gaps x t)). replace (p + (x - p + total (gaps x t))) with (x + total (gaps x t)) by lia. rewrite IH.
  destruct t as [|y t]; [reflexivity|]. change (last (x :: y :: t) p) with (last (y :: t) p). clear. revert y. induction t as [|z t IH]; intros y; [reflexivity|]. exact (IH z).
Qed.
Lemma sorted_0 xs : StronglySorted N.le xs -> StronglySorted N.le (0 :: xs).
Proof. intros H. constructor; [exact H|]. apply Forall_forall. intros. lia. Qed.
Lemma save_gaps {S} C (snk : sink S) fuel xs : forall p s, StronglySorted N.le (p :: xs) -> posting_save C snk fuel p xs s = encode_list C snk fuel (gaps p xs) s.
Proof.
  induction xs as [|x t IH]; intros p s H; [reflexivity|]. inversion H as [|? ? H1 H2]; subst. inversion H2; subst. cbn [posting_save gaps encode_list].
  destruct (x <? p) eqn:E; [lia|]. unfold try_. destruct (encode C snk fuel (x - p) s) as [[[u|e] s']| |]; cbn [bind]; auto.
Qed.

(** ** One element *)
Lemma next_word C d w : codeword C d w -> exists n0, forall fuel, (n0 <= fuel)%nat -> forall S (src : source S) s s' p, reads src s w s' ->
  posting_next C src fuel p s = if p + d <? 2 ^ 64 then Ok (IOk (Some (p + d)), s') else Ok (IErr InvalidData, s').
Proof.
  intros [_ _ [n0 H]]. exists n0. intros fuel Hf S src s s' p Hr. unfold posting_next. rewrite (try_ok _ _ _ _ _ (H fuel Hf S src s s' Hr)).
  unfold checked_add. destruct (p + d <? 2 ^ 64); reflexivity.
Qed.
Lemma next_end C : clean_end C -> exists n0, forall fuel, (n0 <= fuel)%nat -> forall S (src : source S) s s' p, read_bit src s = Ok (IOk None, s') ->
  posting_next C src fuel p s = Ok (IOk None, s').
Proof. intros [n0 H]. exists n0. intros fuel Hf S src s s' p E. unfold posting_next. now rewrite (try_ok _ _ _ _ _ (H fuel Hf S src s s' E)). Qed.

(** The words of a list of differences. *)
Lemma tower_words c b C D ds : wf_cfg c -> tower_code c b C D -> Forall D ds -> exists ws, Forall2 (fun d w => codeword C d w /\ (b = true -> truncates C w)) ds ws.
Proof.
  intros Hc HP HF. induction HF as [|v vs Hv HF [ws IH]]; [exists []; constructor|]. destruct (tower_codeword c b C D v Hc HP Hv) as (w & Hw). exists (w :: ws). now constructor.
Qed.
Lemma words_only C b ds ws : Forall2 (fun d w => codeword C d w /\ (b = true -> truncates C w)) ds ws -> Forall2 (codeword C) ds ws.
Proof. induction 1 as [|d w ds ws [H _] HF IH]; constructor; auto. Qed.

(** ** Loading whatever differences are there *)
Definition load_body {S} C (src : source S) fuel := fun st : N * list N => let (prev, result) := st in
  try_ (posting_next C src fuel prev) (fun o => match o with Some x => ret (Continue (x, result ++ [x])) | None => ret (Return result) end).
Lemma load_words C ds ws : Forall2 (codeword C) ds ws -> clean_end C ->
  exists n0, forall fuel k p acc, (n0 <= fuel)%nat -> (length ds < k)%nat -> forall S (src : source S) s s' s'',
    reads src s (concat ws) s' -> read_bit src s' = Ok (IOk None, s'') ->
    (p + total ds < 2 ^ 64 -> loop_io k (load_body C src fuel) (p, acc) s = Ok (IOk (acc ++ sums p ds), s'')) /\
    (2 ^ 64 <= p + total ds -> p < 2 ^ 64 -> exists t, loop_io k (load_body C src fuel) (p, acc) s = Ok (IErr InvalidData, t)).
Proof.
  intros HF HE. induction HF as [|d w ds ws Hw HF [n1 IH]].
  - destruct (next_end C HE) as [n0 H]. exists n0. intros fuel k p acc Hf Hk S src s s' s'' Hr E. destruct k as [|k]; [cbn in Hk; lia|].
    cbn [loop_io concat total fold_right sums] in *. apply reads_nil_inv in Hr. subst s'. split; [|lia]. intros _. unfold try_, load_body at 1. unfold try_. rewrite (H fuel Hf S src s s'' p E).
    cbn. now rewrite app_nil_r.
  - destruct (next_word C d w Hw) as [n0 H]. exists (n0 + n1)%nat. intros fuel k p acc Hf Hk S src s s' s'' Hr E. destruct k as [|k]; [cbn in Hk; lia|]. cbn [length] in Hk.
    cbn [concat] in Hr. apply reads_app in Hr. destruct Hr as (s1 & Hr1 & Hr2). cbn [loop_io total fold_right sums] in *. fold (total ds).
    pose proof (H fuel ltac:(lia) S src s s1 p Hr1) as HN.
    destruct (IH fuel k (p + d) (acc ++ [p + d]) ltac:(lia) ltac:(lia) S src s1 s' s'' Hr2 E) as [I1 I2].
    destruct (p + d <? 2 ^ 64) eqn:B.
    + assert (Estep : load_body C src fuel (p, acc) s = Ok (IOk (Continue (p + d, acc ++ [p + d])), s1)) by (unfold load_body, try_; rewrite HN; reflexivity).
      unfold try_. rewrite Estep. cbn [bind]. split.
      * intros HB. rewrite I1 by lia. now rewrite <- app_assoc.
      * intros HB _. apply I2; lia.
    + assert (Estep : load_body C src fuel (p, acc) s = Ok (IErr InvalidData, s1)) by (unfold load_body, try_; rewrite HN; reflexivity).
      unfold try_. rewrite Estep. cbn [bind]. split; [lia|]. eauto.
Qed.
(** Any differences of the code's domain give their sums, or an error if these are no u64 values. *)
Theorem C120_loaded : forall c strict C D ds, wf_cfg c -> tower_code c strict C D -> Forall D ds ->
  exists w n0, forall fuel, (n0 <= fuel)%nat ->
    (forall S (snk : sink S) s, encode_list C snk fuel ds s = write_all snk w s) /\
    (forall S (src : source S) s s' s'', reads src s w s' -> read_bit src s' = Ok (IOk None, s'') ->
       (total ds < 2 ^ 64 -> posting_load C src fuel s = Ok (IOk (sums 0 ds), s'')) /\
       (2 ^ 64 <= total ds -> exists t, posting_load C src fuel s = Ok (IErr InvalidData, t))).
Proof.
  intros c strict C D ds Hc HP HF. destruct (tower_words c strict C D ds Hc HP HF) as (ws & Hws). apply words_only in Hws.
  destruct (encode_list_ok C ds ws Hws) as [n1 H1]. destruct (load_words C ds ws Hws (tower_clean c strict C D HP)) as [n2 H2].
  exists (concat ws), (n1 + n2 + length ds + 1)%nat. intros fuel Hf. split; intros.
  - apply H1. lia.
  - destruct (H2 fuel fuel 0 [] ltac:(lia) ltac:(lia) S src s s' s'' H H0) as [I1 I2]. split; [exact I1|]. intros. apply I2; lia.
Qed.

(** ** A sorted list is saved and loaded *)
Theorem C120_saved : forall c strict C D xs, wf_cfg c -> tower_code c strict C D -> StronglySorted N.le xs -> Forall (fun x => x < 2 ^ 64) xs -> Forall D (gaps 0 xs) ->
  exists w n0, forall fuel, (n0 <= fuel)%nat ->
    (forall S (snk : sink S) s, posting_save C snk fuel 0 xs s = write_all snk w s) /\
    (forall S (src : source S) s s' s'', reads src s w s' -> read_bit src s' = Ok (IOk None, s'') ->
       posting_load C src fuel s = Ok (IOk xs, s'')).
Proof.
  intros c strict C D xs Hc HP HS HB HF. destruct (C120_loaded c strict C D (gaps 0 xs) Hc HP HF) as (w & n0 & H). exists w, n0. intros fuel Hf. destruct (H fuel Hf) as [H1 H2].
  pose proof (sorted_0 xs HS) as HS0. split; intros.
  - rewrite save_gaps by exact HS0. apply H1.
  - destruct (H2 S src s s' s'' H0 H3) as [I1 _]. rewrite I1; [now rewrite sums_gaps|].
    pose proof (total_gaps xs 0 HS0) as E. assert (L : last xs 0 < 2 ^ 64).
    { clear -HB. induction HB as [|x l Hx HB IH]; [reflexivity|]. destruct l; [exact Hx|exact IH]. }
    lia.
Qed.

(** ** A list that is not sorted is refused at the first element out of order, after the others have been written *)
Theorem C120_unsorted : forall c strict C D xs x y rest, wf_cfg c -> tower_code c strict C D -> StronglySorted N.le (xs ++ [x]) -> Forall D (gaps 0 (xs ++ [x])) -> y < x ->
  exists w n0, forall fuel, (n0 <= fuel)%nat -> forall S (snk : sink S) s,
    posting_save C snk fuel 0 (xs ++ [x]) s = write_all snk w s /\
    posting_save C snk fuel 0 (xs ++ x :: y :: rest) s =
      match write_all snk w s with Ok (IOk _, s') => Ok (IErr InvalidData, s') | r => r end.
Proof.
  intros c strict C D xs x y rest Hc HP HS HF Hy. destruct (tower_words c strict C D _ Hc HP HF) as (ws & Hws). apply words_only in Hws.
  destruct (encode_list_ok C _ ws Hws) as [n1 H1]. exists (concat ws), n1. intros fuel Hf S snk s. pose proof (sorted_0 _ HS) as HS0.
  assert (E : posting_save C snk fuel 0 (xs ++ [x]) s = write_all snk (concat ws) s) by (rewrite save_gaps by exact HS0; now apply H1).
  split; [exact E|]. rewrite <- E. clear -Hy. generalize 0. revert s. induction xs as [|z t IH]; intros s p; cbn [posting_save app].
  - destruct (x <? p); [reflexivity|]. unfold try_. destruct (encode C snk fuel (x - p) s) as [[[u|e] s']| |]; cbn [bind]; try reflexivity.
    destruct (y <? x) eqn:B; [reflexivity|lia].
  - destruct (z <? p); [reflexivity|]. unfold try_. destruct (encode C snk fuel (z - p) s) as [[[u|e] s']| |]; cbn [bind]; try reflexivity. apply IH.
Qed.

(** ** A file cut short gives the first elements, or an error *)
Lemma load_cut C ds ws : Forall2 (fun d w => codeword C d w /\ (true = true -> truncates C w)) ds ws ->
  exists n0, forall fuel k p acc, (n0 <= fuel)%nat -> (length ds < k)%nat -> forall S (src : source S) s q s' s'',
    proper_prefix q (concat ws) -> reads src s q s' -> read_bit src s' = Ok (IOk None, s'') -> p + total ds < 2 ^ 64 ->
    (exists j, (j < length ds)%nat /\ loop_io k (load_body C src fuel) (p, acc) s = Ok (IOk (acc ++ firstn j (sums p ds)), s'')) \/
    loop_io k (load_body C src fuel) (p, acc) s = Ok (IErr UnexpectedEof, s'').
Proof.
  intros HF. induction HF as [|d w ds ws [Hw Ht] HF [n1 IH]].
  - exists 0%nat. intros fuel k p acc _ _ S src s q s' s'' (r & Hr & E) _ _ _. cbn in E. symmetry in E. apply app_eq_nil in E. tauto.
  - destruct (next_word C d w Hw) as [n0 H]. destruct (Ht eq_refl) as [n2 H2]. exists (n0 + n1 + n2)%nat.
    intros fuel k p acc Hf Hk S src s q s' s'' Hq Hr E HB. destruct k as [|k]; [cbn in Hk; lia|]. cbn [length] in *.
    cbn [concat] in Hq. cbn [loop_io total fold_right sums] in *. fold (total ds) in HB. apply prefix_app in Hq. destruct Hq as [Hq|(q' & -> & Hq)].
    + assert (HN : posting_next C src fuel p s = Ok (match q with [] => IOk None | _ :: _ => IErr UnexpectedEof end, s'')).
      { unfold posting_next, try_. rewrite (H2 fuel ltac:(lia) S src s q s' (IOk None) s'' Hq Hr (conj E I)). destruct q; reflexivity. }
      destruct q as [|b q].
      * left. exists 0%nat. split; [lia|]. unfold try_, load_body at 1. unfold try_. rewrite HN. cbn. now rewrite app_nil_r.
      * right. unfold try_, load_body at 1. unfold try_. rewrite HN. reflexivity.
    + apply reads_app in Hr. destruct Hr as (s1 & Hr1 & Hr2). pose proof (H fuel ltac:(lia) S src s s1 p Hr1) as HN.
      destruct (p + d <? 2 ^ 64) eqn:B; [|lia].
      assert (Estep : load_body C src fuel (p, acc) s = Ok (IOk (Continue (p + d, acc ++ [p + d])), s1)) by (unfold load_body, try_; rewrite HN; reflexivity).
      unfold try_. rewrite Estep. cbn [bind].
      destruct (IH fuel k (p + d) (acc ++ [p + d]) ltac:(lia) ltac:(lia) S src s1 q' s' s'' Hq Hr2 E ltac:(lia)) as [(j & Hj & I1)|I2].
      * left. exists (1 + j)%nat. split; [lia|]. rewrite I1. cbn [firstn plus]. now rewrite <- app_assoc.
      * now right.
Qed.
Theorem C120_cut : forall c C D xs, wf_cfg c -> tower_code c true C D -> StronglySorted N.le xs -> Forall (fun x => x < 2 ^ 64) xs -> Forall D (gaps 0 xs) ->
  exists w n0, forall fuel, (n0 <= fuel)%nat ->
    (forall S (snk : sink S) s, posting_save C snk fuel 0 xs s = write_all snk w s) /\
    (forall S (src : source S) s p s' s'', proper_prefix p w -> reads src s p s' -> read_bit src s' = Ok (IOk None, s'') ->
       (exists j, (j < length xs)%nat /\ posting_load C src fuel s = Ok (IOk (firstn j xs), s'')) \/
       posting_load C src fuel s = Ok (IErr UnexpectedEof, s'')).
Proof.
  intros c C D xs Hc HP HS HB HF. destruct (tower_words c true C D _ Hc HP HF) as (ws & Hws). destruct (encode_list_ok C _ ws (words_only _ _ _ _ Hws)) as [n1 H1].
  destruct (load_cut C _ ws Hws) as [n2 H2]. pose proof (sorted_0 xs HS) as HS0.
  assert (Hl : length (gaps 0 xs) = length xs) by (clear; generalize 0; induction xs as [|x t IH]; intros p; cbn; auto).
  exists (concat ws), (n1 + n2 + length xs + 1)%nat. intros fuel Hf. split; intros.
  - rewrite save_gaps by exact HS0. apply H1. lia.
  - assert (L : last xs 0 < 2 ^ 64).
    { clear -HB. induction HB as [|x l Hx HB IH]; [reflexivity|]. destruct l; [exact Hx|exact IH]. }
    pose proof (total_gaps xs 0 HS0) as E.
    pose proof (H2 fuel fuel 0 [] ltac:(lia) ltac:(lia) S src s p s' s'' H H0 H3 ltac:(lia)) as K. rewrite sums_gaps, Hl in K by exact HS0. exact K.
Qed.

(** ** The intersection of two lists, each in a code and a stream of its own: an element that occurs [m] times in the one and
    [n] times in the other occurs [min m n] times in it, and it is sorted *)
Section Feeds.
  Context {S : Type} (C : code) (src : source S) (fuel : nat).
  Inductive feeds : S -> N -> list N -> Prop :=
  | feeds_nil : forall s p s', posting_next C src fuel p s = Ok (IOk None, s') -> feeds s p []
  | feeds_cons : forall s p x s1 xs, posting_next C src fuel p s = Ok (IOk (Some x), s1) -> feeds s1 x xs -> feeds s p (x :: xs).
  (** What has been looked at and what is still to come. *)
  Definition holds (o : option N) (s : S) (xs : list N) : Prop :=
    match xs with [] => o = None | x :: t => o = Some x /\ feeds s x t end.
  Lemma feeds_next s p xs : feeds s p xs -> exists o s', posting_next C src fuel p s = Ok (IOk o, s') /\ holds o s' xs.
  Proof. intros [s0 p0 s' H|s0 p0 x s1 t H HF]; eexists; eexists; (split; [exact H|]); cbn; auto. Qed.
End Feeds.
Lemma feeds_words C ds ws : Forall2 (codeword C) ds ws -> clean_end C ->
  exists n0, forall fuel p, (n0 <= fuel)%nat -> forall S (src : source S) s s' s'',
    reads src s (concat ws) s' -> read_bit src s' = Ok (IOk None, s'') -> p + total ds < 2 ^ 64 -> feeds C src fuel s p (sums p ds).
Proof.
  intros HF HE. induction HF as [|d w ds ws Hw HF [n1 IH]].
  - destruct (next_end C HE) as [n0 H]. exists n0. intros fuel p Hf S src s s' s'' Hr E _. apply reads_nil_inv in Hr. subst s'. eapply feeds_nil. apply H; eauto.
  - destruct (next_word C d w Hw) as [n0 H]. exists (n0 + n1)%nat. intros fuel p Hf S src s s' s'' Hr E HB. cbn [concat] in Hr. apply reads_app in Hr. destruct Hr as (s1 & Hr1 & Hr2).
    cbn [total fold_right sums] in *. fold (total ds) in HB. eapply feeds_cons.
    + rewrite (H fuel ltac:(lia) S src s s1 p Hr1). destruct (p + d <? 2 ^ 64) eqn:B; [reflexivity|lia].
    + apply (IH fuel (p + d) ltac:(lia) S src s1 s' s'' Hr2 E). lia.
Qed.

Definition times (v : N) (l : list N) : nat := count_occ N.eq_dec l v.
Lemma times_cons v x l : times v (x :: l) = ((if N.eqb x v then 1 else 0) + times v l)%nat.
Proof. unfold times. cbn [count_occ]. destruct (N.eq_dec x v), (N.eqb_spec x v); congruence || reflexivity. Qed.
Lemma times_below v l : Forall (N.lt v) l -> times v l = 0%nat.
Proof. intros H. apply count_occ_not_In. intros HI. rewrite Forall_forall in H. specialize (H v HI). lia. Qed.
Lemma above_le x y l : x <= y -> Forall (N.le y) l -> Forall (N.le x) l.
Proof. intros H HF. eapply Forall_impl; [|exact HF]. intros a Ha. cbn in Ha. lia. Qed.
Lemma above_lt x y l : x < y -> Forall (N.le y) l -> Forall (N.lt x) l.
Proof. intros H HF. eapply Forall_impl; [|exact HF]. intros a Ha. cbn in Ha. lia. Qed.

Definition intersect_body {SA SB} CA CB (a : source SA) (b : source SB) fuel := fun st : option N * option N * list N =>
  let '(x, y, result) := st in
  match x, y with
  | Some u, Some v =>
      if u <? v then try_ (at_a (posting_next CA a fuel u)) (fun x' => ret (Continue (x', y, result)))
      else if v <? u then try_ (at_b (posting_next CB b fuel v)) (fun y' => ret (Continue (x, y', result)))
      else try_ (at_a (posting_next CA a fuel u)) (fun x' => try_ (at_b (posting_next CB b fuel v)) (fun y' => ret (Continue (x', y', result ++ [u]))))
  | _, _ => ret (Return result)
  end.
Lemma intersect_loop {SA SB} CA CB (a : source SA) (b : source SB) fuel : forall k xs ys x y acc sa sb,
  (length xs + length ys < k)%nat -> StronglySorted N.le xs -> StronglySorted N.le ys -> holds CA a fuel x sa xs -> holds CB b fuel y sb ys ->
  exists zs t, loop_io k (intersect_body CA CB a b fuel) (x, y, acc) (sa, sb) = Ok (IOk (acc ++ zs), t) /\
    StronglySorted N.le zs /\ forall v, times v zs = Nat.min (times v xs) (times v ys).
Proof.
  induction k as [|k IH]; intros xs ys x y acc sa sb Hk HX HY Hx Hy; [lia|]. cbn [loop_io].
  destruct xs as [|u xs].
  { cbn in Hx. subst x. exists [], (sa, sb). split; [cbn; now rewrite app_nil_r|]. split; [constructor|]. reflexivity. }
  destruct ys as [|v ys].
  { cbn in Hy, Hx. destruct Hx as [-> Hx]. subst y. exists [], (sa, sb). split; [cbn; now rewrite app_nil_r|]. split; [constructor|]. intros. unfold times at 3. cbn [count_occ]. now rewrite Nat.min_0_r. }
  destruct Hx as [-> Fx]. destruct Hy as [-> Fy]. inversion HX as [|? ? HX1 HX2]; subst. inversion HY as [|? ? HY1 HY2]; subst. cbn [length] in Hk.
  destruct (feeds_next CA a fuel sa u xs Fx) as (ox & sa' & Ex & Kx). destruct (feeds_next CB b fuel sb v ys Fy) as (oy & sb' & Ey & Ky).
  destruct (u <? v) eqn:B1; [|destruct (v <? u) eqn:B2].
  - assert (E : intersect_body CA CB a b fuel (Some u, Some v, acc) (sa, sb) = Ok (IOk (Continue (ox, Some v, acc)), (sa', sb))).
    { unfold intersect_body. rewrite B1. unfold try_, at_a. cbn [fst snd]. rewrite Ex. reflexivity. }
    unfold try_. rewrite E. cbn [bind].
    destruct (IH xs (v :: ys) ox (Some v) acc sa' sb ltac:(cbn [length]; lia) HX1 HY Kx (conj eq_refl Fy)) as (zs & t & El & Hz & Hc). exists zs, t. split; [exact El|]. split; [exact Hz|].
    intros z. rewrite Hc, (times_cons z u). destruct (N.eqb_spec u z) as [->|]; [|reflexivity].
    rewrite (times_below z (v :: ys)); [now rewrite !Nat.min_0_r|]. constructor; [lia|]. apply (above_lt z v); [lia|exact HY2].
  - assert (E : intersect_body CA CB a b fuel (Some u, Some v, acc) (sa, sb) = Ok (IOk (Continue (Some u, oy, acc)), (sa, sb'))).
    { unfold intersect_body. rewrite B1, B2. unfold try_, at_b. cbn [fst snd]. rewrite Ey. reflexivity. }
    unfold try_. rewrite E. cbn [bind].
    destruct (IH (u :: xs) ys (Some u) oy acc sa sb' ltac:(cbn [length]; lia) HX HY1 (conj eq_refl Fx) Ky) as (zs & t & El & Hz & Hc). exists zs, t. split; [exact El|]. split; [exact Hz|].
    intros z. rewrite Hc, (times_cons z v). destruct (N.eqb_spec v z) as [->|]; [|reflexivity].
    rewrite (times_below z (u :: xs)); [now rewrite !Nat.min_0_l|]. constructor; [lia|]. apply (above_lt z u); [lia|exact HX2].
  - assert (v = u) as -> by lia.
    assert (E : intersect_body CA CB a b fuel (Some u, Some u, acc) (sa, sb) = Ok (IOk (Continue (ox, oy, acc ++ [u])), (sa', sb'))).
    { unfold intersect_body. rewrite B1. unfold try_, at_a, at_b. cbn [fst snd]. rewrite Ex. cbn [bind fst snd]. rewrite Ey. reflexivity. }
    unfold try_. rewrite E. cbn [bind].
    destruct (IH xs ys ox oy (acc ++ [u]) sa' sb' ltac:(lia) HX1 HY1 Kx Ky) as (zs & t & El & Hz & Hc). exists (u :: zs), t.
    split; [rewrite El; now rewrite <- app_assoc|]. split.
    + constructor; [exact Hz|]. apply Forall_forall. intros z Hin. apply (count_occ_In N.eq_dec) in Hin. fold (times z zs) in Hin. rewrite Hc in Hin.
      assert (Hi : In z xs) by (apply (count_occ_In N.eq_dec); fold (times z xs); lia). rewrite Forall_forall in HX2. now apply HX2.
    + intros z. rewrite !times_cons, Hc. destruct (u =? z); lia.
Qed.
Theorem C120_intersection : forall c ca cb CA CB DA DB xs ys, wf_cfg c -> tower_code c ca CA DA -> tower_code c cb CB DB ->
  StronglySorted N.le xs -> StronglySorted N.le ys -> Forall (fun x => x < 2 ^ 64) xs -> Forall (fun y => y < 2 ^ 64) ys ->
  Forall DA (gaps 0 xs) -> Forall DB (gaps 0 ys) ->
  exists wa wb n0, forall fuel, (n0 <= fuel)%nat ->
    (forall S (snk : sink S) s, posting_save CA snk fuel 0 xs s = write_all snk wa s) /\
    (forall S (snk : sink S) s, posting_save CB snk fuel 0 ys s = write_all snk wb s) /\
    (forall SA SB (a : source SA) (b : source SB) sa sa' sa'' sb sb' sb'',
       reads a sa wa sa' -> read_bit a sa' = Ok (IOk None, sa'') -> reads b sb wb sb' -> read_bit b sb' = Ok (IOk None, sb'') ->
       exists zs t, posting_intersect CA CB a b fuel (sa, sb) = Ok (IOk zs, t) /\
         StronglySorted N.le zs /\ forall v, count_occ N.eq_dec zs v = Nat.min (count_occ N.eq_dec xs v) (count_occ N.eq_dec ys v)).
Proof.
  intros c ca cb CA CB DA DB xs ys Hc PA PB SX SY BX BY FX FY.
  destruct (tower_words c ca CA DA _ Hc PA FX) as (wa & WA). apply words_only in WA. destruct (tower_words c cb CB DB _ Hc PB FY) as (wb & WB). apply words_only in WB.
  destruct (encode_list_ok CA _ wa WA) as [n1 H1]. destruct (encode_list_ok CB _ wb WB) as [n2 H2].
  destruct (feeds_words CA _ wa WA (tower_clean _ _ _ _ PA)) as [n3 H3]. destruct (feeds_words CB _ wb WB (tower_clean _ _ _ _ PB)) as [n4 H4].
  assert (L : forall l, StronglySorted N.le l -> Forall (fun x => x < 2 ^ 64) l -> 0 + total (gaps 0 l) < 2 ^ 64).
  { intros l Hl HB. rewrite (total_gaps l 0 (sorted_0 l Hl)). clear -HB. induction HB as [|x l Hx HB IH]; [reflexivity|]. destruct l; [exact Hx|exact IH]. }
  exists (concat wa), (concat wb), (n1 + n2 + n3 + n4 + length xs + length ys + 1)%nat. intros fuel Hf. split; [|split].
  - intros. rewrite save_gaps by now apply sorted_0. apply H1. lia.
  - intros. rewrite save_gaps by now apply sorted_0. apply H2. lia.
  - intros SA SB a b sa sa' sa'' sb sb' sb'' Ra Ea Rb Eb.
    pose proof (H3 fuel 0 ltac:(lia) SA a sa sa' sa'' Ra Ea (L xs SX BX)) as Fa. pose proof (H4 fuel 0 ltac:(lia) SB b sb sb' sb'' Rb Eb (L ys SY BY)) as Fb.
    rewrite sums_gaps in Fa by now apply sorted_0. rewrite sums_gaps in Fb by now apply sorted_0.
    destruct (feeds_next CA a fuel sa 0 xs Fa) as (ox & ta & Ex & Kx). destruct (feeds_next CB b fuel sb 0 ys Fb) as (oy & tb & Ey & Ky).
    destruct (intersect_loop CA CB a b fuel fuel xs ys ox oy [] ta tb ltac:(lia) SX SY Kx Ky) as (zs & t & El & Hz & Hcn).
    exists zs, t. split; [|split; [exact Hz|exact Hcn]]. unfold posting_intersect.
    assert (E1 : at_a (SB := SB) (posting_next CA a fuel 0) (sa, sb) = Ok (IOk ox, (ta, sb))) by (unfold at_a; cbn [fst snd]; now rewrite Ex).
    assert (E2 : at_b (SA := SA) (posting_next CB b fuel 0) (ta, sb) = Ok (IOk oy, (ta, tb))) by (unfold at_b; cbn [fst snd]; now rewrite Ey).
    rewrite (try_ok _ _ _ _ _ E1), (try_ok _ _ _ _ _ E2). exact El.
Qed.

(** ** In unary, the stream is itself a structure for random access: select finds the elements and counts those up to a bound *)
Definition posting_bits (p : N) (xs : list N) : list bool := concat (map unary_word (gaps p xs)).
Definition upto (v : N) (xs : list N) : N := lengthN (filter (fun x => x <=? v) xs).

Lemma count_false_repeatN n : count false (repeatN false n) = n.
Proof. unfold repeatN. rewrite <- (N2Nat.id n) at 2. induction (N.to_nat n) as [|m IH]; [reflexivity|]. cbn [repeat count]. rewrite IH. cbn [eqb]. lia. Qed.
Lemma lengthN_unary_word d : lengthN (unary_word d) = d + 1.
Proof. unfold unary_word. rewrite lengthN_app, lengthN_repeatN, lengthN_cons, lengthN_nil. lia. Qed.
Lemma firstnN_app_more {A} (l m : list A) n : firstnN (lengthN l + n) (l ++ m) = l ++ firstnN n m.
Proof. unfold firstnN, lengthN. rewrite N2Nat.inj_add, Nat2N.id. apply firstn_app_2. Qed.
Lemma firstnN_zeros n k l : n <= k -> firstnN n (repeatN false k ++ l) = repeatN false n.
Proof.
  intros H. apply nthN_ext. intros i. rewrite nthN_firstnN, nthN_app, lengthN_repeatN, !nthN_repeatN.
  destruct (i <? n) eqn:E1, (i <? k) eqn:E2; try lia; reflexivity.
Qed.
Lemma posting_ones xs : forall p i x, StronglySorted N.le (p :: xs) -> nthN xs i = Some x -> is_select true (posting_bits p xs) i (x - p + i).
Proof.
  induction xs as [|y t IH]; intros p i x HS H; [discriminate|]. inversion HS as [|? ? H1 H2]; subst. inversion H2 as [|? ? Hpy Hpt]; subst.
  unfold posting_bits. cbn [gaps map concat]. fold (posting_bits y t). rewrite nthN_cons in H. destruct (i =? 0) eqn:E.
  - injection H as <-. replace i with 0 by lia. rewrite N.add_0_r. unfold unary_word. split.
    + rewrite <- app_assoc, nthN_app, lengthN_repeatN. destruct (y - p <? y - p) eqn:B; [lia|]. now rewrite N.sub_diag.
    + rewrite <- app_assoc, firstnN_zeros by lia. apply count_repeatN_other.
  - destruct (IH y (i - 1) x H1 H) as [I1 I2].
    assert (Hyx : y <= x).
    { inversion H1 as [|? ? _ HF]; subst. rewrite Forall_forall in HF. apply HF. rewrite nthN_nth_error in H. eapply nth_error_In. exact H. }
    replace (x - p + i) with (lengthN (unary_word (y - p)) + (x - y + (i - 1))) by (rewrite lengthN_unary_word; lia). split.
    + rewrite nthN_app_r by lia. now replace (lengthN (unary_word (y - p)) + (x - y + (i - 1)) - lengthN (unary_word (y - p))) with (x - y + (i - 1)) by lia.
    + rewrite firstnN_app_more, count_app, I2. unfold unary_word. rewrite count_app, count_repeatN_other. cbn [count eqb]. lia.
Qed.
Lemma posting_zeros xs : forall p v, StronglySorted N.le (p :: xs) -> p <= v < last xs p -> is_select false (posting_bits p xs) (v - p) (v - p + upto v xs).
Proof.
  induction xs as [|y t IH]; intros p v HS Hv; [cbn in Hv; lia|]. inversion HS as [|? ? H1 H2]; subst. inversion H2 as [|? ? Hpy Hpt]; subst.
  inversion H1 as [|? ? _ HF]; subst. unfold posting_bits. cbn [gaps map concat]. fold (posting_bits y t). unfold upto. cbn [filter].
  destruct (y <=? v) eqn:E.
  - assert (Hl : v < last t y).
    { destruct t as [|z t]; [cbn in Hv; lia|]. destruct Hv as [_ Hv]. change (last (y :: z :: t) p) with (last (z :: t) p) in Hv. clear -Hv. revert z Hv. induction t as [|a t IH]; intros z Hv; [exact Hv|]. exact (IH a Hv). }
    assert (Hyv : y <= v) by now apply N.leb_le.
    destruct (IH y v H1 (conj Hyv Hl)) as [I1 I2]. rewrite lengthN_cons. fold (upto v t).
    replace (v - p + (upto v t + 1)) with (lengthN (unary_word (y - p)) + (v - y + upto v t)) by (rewrite lengthN_unary_word; lia). split.
    + rewrite nthN_app_r by lia. now replace (lengthN (unary_word (y - p)) + (v - y + upto v t) - lengthN (unary_word (y - p))) with (v - y + upto v t) by lia.
    + rewrite firstnN_app_more, count_app, I2. unfold unary_word. rewrite count_app, count_false_repeatN. cbn [count eqb]. lia.
  - assert (Eu : filter (fun x => x <=? v) t = []).
    { clear -HF E. induction HF as [|z t Hz HF IH]; [reflexivity|]. cbn [filter]. destruct (z <=? v) eqn:B; [lia|exact IH]. }
    rewrite Eu, lengthN_nil, N.add_0_r. unfold unary_word. split.
    + rewrite <- app_assoc, nthN_app, lengthN_repeatN, nthN_repeatN. destruct (v - p <? y - p) eqn:B; [reflexivity|lia].
    + rewrite <- app_assoc, firstnN_zeros by lia. apply count_false_repeatN.
Qed.
Lemma posting_count p xs : count true (posting_bits p xs) = lengthN xs.
Proof.
  revert p. induction xs as [|y t IH]; intros p; [reflexivity|]. unfold posting_bits. cbn [gaps map concat]. fold (posting_bits y t).
  unfold unary_word. rewrite !count_app, IH, count_repeatN_other, lengthN_cons. cbn [count eqb]. lia.
Qed.
Theorem C120_unary : forall c xs, wf_cfg c -> StronglySorted N.le xs -> Forall (fun x => x < 2 ^ 64) xs -> exists w,
  (exists n0, forall fuel, (n0 <= fuel)%nat -> forall S (snk : sink S) s, posting_save (unary c) snk fuel 0 xs s = write_all snk w s) /\
  lengthN w = last xs 0 + lengthN xs /\
  forall T (K : bitrank T) (Rel : T -> list bool -> Prop) t fuel, lawful_rank K Rel -> Rel t w -> (64 < fuel)%nat ->
    (forall i, i < 2 ^ 64 - 1 -> bss_select1 c K fuel t i = Ok (match nthN xs i with Some x => Some (x + i) | None => None end)) /\
    (forall v, v < last xs 0 -> bss_select0 c K fuel t v = Ok (Some (v + lengthN (filter (fun x => x <=? v) xs)))).
Proof.
  intros c xs Hc HS HB. exists (posting_bits 0 xs). pose proof (sorted_0 xs HS) as HS0.
  assert (L : last xs 0 < 2 ^ 64) by (clear -HB; induction HB as [|x l Hx HB IH]; [reflexivity|]; destruct l; [exact Hx|exact IH]).
  assert (HG : Forall (fun d => d < 2 ^ 64) (gaps 0 xs)).
  { clear -HB. generalize 0. induction HB as [|x l Hx HB IH]; intros p; cbn [gaps]; constructor; [lia|apply IH]. }
  split; [|split].
  - assert (HW : Forall2 (codeword (unary c)) (gaps 0 xs) (map unary_word (gaps 0 xs))).
    { clear -HG. induction HG as [|d ds Hd HG IH]; cbn [map]; constructor; [now apply unary_codeword|exact IH]. }
    destruct (encode_list_ok _ _ _ HW) as [n0 H]. exists n0. intros. rewrite save_gaps by exact HS0. now apply H.
  - pose proof (total_gaps xs 0 HS0) as E. rewrite <- E, N.add_0_l. clear. unfold posting_bits. generalize 0.
    induction xs as [|x t IH]; intros q; [reflexivity|]. cbn [gaps map concat total fold_right]. fold (total (gaps x t)). rewrite lengthN_app, IH, lengthN_unary_word, lengthN_cons. lia.
  - intros T K Rel t fuel HK HR Hf. split.
    + intros i Hi. destruct (C35_select T c K Rel t _ i true fuel HK HR Hi Hf) as [(o & E & A1 & A2) _]. cbn iota in E. rewrite E. f_equal.
      destruct (nthN xs i) as [x|] eqn:Ex.
      * apply A1. pose proof (posting_ones xs 0 i x HS0 Ex) as P. now rewrite N.sub_0_r in P.
      * apply A2. rewrite posting_count. now apply nthN_None.
    + intros v Hv. destruct (C35_select T c K Rel t _ v false fuel HK HR ltac:(lia) Hf) as [(o & E & A1 & A2) _]. cbn iota in E. rewrite E. f_equal.
      apply A1. pose proof (posting_zeros xs 0 v HS0 (conj (N.le_0_l v) Hv)) as P. now rewrite N.sub_0_r in P.
Qed.

Example C120_ex :
  let C := lift0 dbg64 (gamma dbg64) in let U := unary rel32 in
  let xs := [2; 2; 7; 1000; 2 ^ 63] in let ys := [0; 2; 7; 7; 8; 1000; 1001] in
  exists wa wb, posting_save C deque_sink 70 0 xs [] = Ok (IOk tt, wa) /\ lengthN wa = 153 /\ posting_save U deque_sink 2000 0 ys [] = Ok (IOk tt, wb) /\
    posting_load C deque_source 70 wa = Ok (IOk xs, []) /\
    posting_load C deque_source 70 (firstn 10 wa) = Ok (IErr UnexpectedEof, []) /\
    posting_load C deque_source 70 (firstn 4 wa) = Ok (IOk [2; 2], []) /\
    posting_save C deque_sink 70 0 [2; 2; 1; 5] [] = Ok (IErr InvalidData, firstn 4 wa) /\
    posting_load C deque_source 70 (wa ++ wa) = Ok (IErr InvalidData, []) /\
    (exists t, posting_intersect C U deque_source deque_source 2000 (wa, wb) = Ok (IOk [2; 7; 1000], t)).
Proof.
  cbv zeta. eexists. eexists. do 8 (split; [vm_compute; reflexivity|]). eexists. vm_compute. reflexivity.
Qed.
(** The hypotheses are met: by the codes and lists of the example, and by a rank structure for a list in unary, here in a
    single u64. *)
Example C120_ex_ok :
  let xs := [2; 2; 7; 1000; 2 ^ 63] in
  (exists D, tower_code dbg64 true (lift0 dbg64 (gamma dbg64)) D /\ Forall D (gaps 0 xs) /\ Forall (fun x => x < 2 ^ 64) xs) /\
  (exists D, tower_code rel32 true (unary rel32) D /\ Forall D (gaps 0 [0; 2; 7; 7; 8; 1000; 1001])) /\
  StronglySorted N.le xs /\ StronglySorted N.le [0; 2; 7; 7; 8; 1000; 1001] /\
  (let ys := [2; 2; 7; 40; 59] in let x := 2 ^ 2 + 2 ^ 3 + 2 ^ 9 + 2 ^ 43 + 2 ^ 63 in
   posting_save (unary dbg64) deque_sink 100 0 ys [] = Ok (IOk tt, bits_of 64 x) /\
   lawful_rank (prim_bitrank dbg64 64) (fun x l => x < 2 ^ 64 /\ l = bits_of 64 x) /\ x < 2 ^ 64 /\
   bss_select1 dbg64 (prim_bitrank dbg64 64) 70 x 3 = Ok (Some (40 + 3)) /\ bss_select1 dbg64 (prim_bitrank dbg64 64) 70 x 5 = Ok None /\
   bss_select0 dbg64 (prim_bitrank dbg64 64) 70 x 7 = Ok (Some (7 + 3)) /\ bss_select0 dbg64 (prim_bitrank dbg64 64) 70 x 6 = Ok (Some (6 + 2))).
Proof.
  cbv zeta. split; [|split; [|split; [|split]]].
  - eexists. split; [apply tc_lift0, tc_lib, pr_gamma|]. split; repeat constructor; vm_compute; congruence || reflexivity.
  - eexists. split; [apply tc_lib, pr_unary|]. repeat constructor; vm_compute; congruence || reflexivity.
  - repeat constructor; vm_compute; congruence.
  - repeat constructor; vm_compute; congruence.
  - split; [vm_compute; reflexivity|]. split.
    + apply (C35_rank_structures _ dbg64 _ _ wf_dbg64 (blocks_lawful_bits dbg64 64 wf_dbg64 wf64) (blocks_lawful_blocks dbg64 64 wf64)). exact wf64.
    + do 4 (split; [vm_compute; reflexivity|]). vm_compute. reflexivity.
Qed.

Print Assumptions C120_loaded.
Print Assumptions C120_saved.
Print Assumptions C120_unsorted.
Print Assumptions C120_cut.
Print Assumptions C120_intersection.
Print Assumptions C120_unary.
