(** * Proofs about [SpaceUsage]. *)
From Verif Require Import PBase MSpace SpecSpace.

Lemma sum_app a b : sum (a ++ b) = sum a + sum b.
Proof. induction a as [|x a IH]; cbn [sum app]; [reflexivity|rewrite IH; lia]. Qed.

(** Induction over types, with the hypothesis for the components of tuples. *)
Fixpoint ty_rect' (P : ty -> Prop)
  (Hflat : forall n, P (TFlat n)) (Href : forall t, P (TRef t)) (Hslice : forall t, P (TSlice t))
  (Hbs : forall t, P (TBitSlice t)) (Htup : forall ts, Forall P ts -> P (TTuple ts))
  (Hvec : forall t, P t -> P (TVec t)) (Hbox : forall t, P t -> P (TBox t))
  (Hvb : forall t, P t -> P (TVectorBase t)) (Hbv : forall t, P t -> P (TBitVector t)) (Hiv : forall t, P t -> P (TIntVector t))
  (Hj : forall t, P t -> P (TJacobson t)) (Hr : forall t, P t -> P (TRank9 t)) (Hb : forall t, P t -> P (TBinSearch t))
  (t : ty) {struct t} : P t :=
  let rec := ty_rect' P Hflat Href Hslice Hbs Htup Hvec Hbox Hvb Hbv Hiv Hj Hr Hb in
  match t with
  | TFlat n => Hflat n | TRef t => Href t | TSlice t => Hslice t | TBitSlice t => Hbs t
  | TTuple ts => Htup ts ((fix go ts : Forall P ts := match ts with
                            | [] => Forall_nil P | t :: r => Forall_cons t (rec t) (go r) end) ts)
  | TVec t => Hvec t (rec t) | TBox t => Hbox t (rec t)
  | TVectorBase t => Hvb t (rec t) | TBitVector t => Hbv t (rec t) | TIntVector t => Hiv t (rec t)
  | TJacobson t => Hj t (rec t) | TRank9 t => Hr t (rec t) | TBinSearch t => Hb t (rec t)
  end.

Section Space.
  Variables (c : cfg) (size_of : ty -> N).
  Let A := allocations size_of.
  Let H := heap_bytes c size_of.

  Lemma stack_only_allocs t : is_stack_only t = true -> forall v, typed t v -> A t v = [].
  Proof.
    induction t as [n|t|t|t|ts IH|t IH|t IH|t IH|t IH|t IH|t IH|t IH|t IH] using ty_rect'; intros E v; cbn in E; try discriminate;
      try (destruct v; cbn; intros; (reflexivity || contradiction)).
    - destruct v as [|vs| |]; cbn; try contradiction. revert vs E. induction ts as [|t ts IHt]; intros vs E Ht.
      + destruct vs; reflexivity.
      + inversion IH as [|? ? I1 I2]; subst. apply andb_prop in E. destruct E as [E1 E2].
        destruct vs as [|v vs]; [contradiction|]. destruct Ht as [T1 T2].
        fold A. rewrite (I1 E1 v T1). cbn [app]. now apply IHt.
    - cbn. now apply IH.
  Qed.

  (** Without any assumption on sizes: a stack-only type reports no heap. *)
  Lemma stack_only_heap t : is_stack_only t = true -> forall v, typed t v -> H t v = Ok 0.
  Proof.
    induction t as [n|t|t|t|ts IH|t IH|t IH|t IH|t IH|t IH|t IH|t IH|t IH] using ty_rect'; intros E v; cbn in E; try discriminate;
      try (destruct v; cbn; intros; (reflexivity || contradiction)).
    - destruct v as [|vs| |]; cbn; try contradiction. revert vs E. induction ts as [|t ts IHt]; intros vs E Ht.
      + destruct vs; reflexivity.
      + inversion IH as [|? ? I1 I2]; subst. apply andb_prop in E. destruct E as [E1 E2].
        destruct vs as [|v vs]; [contradiction|]. destruct Ht as [T1 T2].
        fold H. rewrite (I1 E1 v T1). cbn [bind]. rewrite wadd_ok by (apply N.neq_0_lt_0, N.pow_nonzero; lia). cbn [bind].
        now apply IHt.
    - cbn. now apply IH.
  Qed.

  Lemma vec_heap_ok e so heap cap vs (al : val -> list N) :
    Forall (fun v => sum (al v) < 2 ^ ptr c -> heap v = Ok (sum (al v))) vs ->
    (so = true -> Forall (fun v => al v = []) vs) ->
    cap * size_of e + sum (flat_map al vs) < 2 ^ ptr c ->
    vec_heap_bytes c size_of e so heap cap vs = Ok (cap * size_of e + sum (flat_map al vs)).
  Proof.
    intros Hh Hs Hlt. unfold vec_heap_bytes, stack_bytes. rewrite wmul_ok by lia. cbn [bind].
    destruct so.
    - replace (flat_map al vs) with (@nil N); [cbn [sum]; f_equal; lia|].
      specialize (Hs eq_refl). clear - Hs. induction Hs as [|v vs E _ IH]; cbn [flat_map]; [reflexivity|now rewrite E, <- IH].
    - clear Hs. revert Hlt. generalize (cap * size_of e). induction Hh as [|v vs Hv _ IH]; intros r Hlt; cbn [flat_map sum] in *.
      + f_equal; lia.
      + rewrite sum_app in *. rewrite Hv by lia. cbn [bind]. rewrite wadd_ok by lia. cbn [bind].
        rewrite IH by lia. f_equal; lia.
  Qed.

  Lemma flat_all al vs : Forall (fun v => v = VFlat) vs -> al VFlat = [] -> flat_map al vs = ([] : list N).
  Proof. intros Hf E. induction Hf as [|v vs -> _ IH]; cbn [flat_map]; [reflexivity|now rewrite E, IH]. Qed.

  Lemma heap_allocs t : forall v, typed t v -> sum (A t v) < 2 ^ ptr c -> H t v = Ok (sum (A t v)).
  Proof.
    assert (Hblocks : forall b cap vs, (exists n, b = TFlat n) -> lengthN vs <= cap -> Forall (fun v => v = VFlat) vs ->
      sum [cap * size_of b] < 2 ^ ptr c ->
      vec_heap_bytes c size_of b (is_stack_only b) (heap_bytes c size_of b) cap vs = Ok (sum [cap * size_of b])).
    { intros b cap vs [n ->] _ Hf Hlt. cbn [sum] in *.
      rewrite (vec_heap_ok _ _ _ cap vs (fun _ => [])).
      - f_equal. rewrite flat_all by auto. cbn [sum]. lia.
      - apply Forall_forall. intros v _ _. reflexivity.
      - intros _. apply Forall_forall. reflexivity.
      - rewrite flat_all by auto. cbn [sum]. lia. }
    assert (Hu : forall e cap vs, cap * size_of e < 2 ^ ptr c ->
      vec_heap_bytes c size_of e true (fun _ => Ok 0) cap vs = Ok (cap * size_of e)).
    { intros e cap vs Hlt. unfold vec_heap_bytes, stack_bytes. rewrite wmul_ok by lia. reflexivity. }
    induction t as [n|t|t|t|ts IH|t IH|t IH|t IH|t IH|t IH|t IH|t IH|t IH] using ty_rect'; intros v;
      try (destruct v; cbn; intros; (reflexivity || contradiction)).
    - destruct v as [|vs| |]; cbn; try contradiction. fold A. fold H.
      cut (forall r,
        (fix go ts vs := match ts, vs with
           | [], [] => True
           | t :: ts', v :: vs' => typed t v /\ go ts' vs'
           | _, _ => False
           end) ts vs ->
        r + sum ((fix go ts vs := match ts, vs with
         | t :: ts', v :: vs' => A t v ++ go ts' vs'
         | _, _ => []
         end) ts vs) < 2 ^ ptr c ->
        (fix go ts vs result := match ts, vs with
           | t :: ts', v :: vs' => h <- H t v ;; r <- wadd c (ptr c) result h ;; go ts' vs' r
           | _, _ => Ok result
           end) ts vs r = Ok (r + sum ((fix go ts vs := match ts, vs with
         | t :: ts', v :: vs' => A t v ++ go ts' vs'
         | _, _ => []
         end) ts vs))).
      { intros X. exact (X 0). }
      revert vs. induction ts as [|t ts IHt]; intros vs r Ht Hlt.
      + destruct vs; cbn [sum]; f_equal; lia.
      + inversion IH as [|? ? I1 I2]; subst. destruct vs as [|v vs]; [contradiction|]. destruct Ht as [T1 T2].
        rewrite sum_app in *. rewrite (I1 v T1) by lia. cbn [bind]. rewrite wadd_ok by lia. cbn [bind].
        rewrite (IHt I2 vs (r + sum (A t v)) T2) by lia. f_equal. lia.
    - destruct v as [| |cap vs|]; cbn; try contradiction. fold A. fold H. intros [_ Ht] Hlt.
      assert (Hf : Forall (typed t) vs) by (clear - Ht; induction vs; [constructor|destruct Ht; constructor; auto]).
      apply vec_heap_ok.
      + eapply Forall_impl; [|exact Hf]. intros v Hv. now apply IH.
      + intros E. eapply Forall_impl; [|exact Hf]. intros v Hv. now apply stack_only_allocs.
      + exact Hlt.
    - destruct v as [| | |v]; cbn; try contradiction. fold A. fold H. intros Ht Hlt.
      rewrite (IH v Ht) by lia. cbn [bind]. unfold stack_bytes. apply wadd_ok. lia.
    - destruct v as [| |cap vs|]; cbn; try contradiction. intros [H1 [H2 H3]] Hlt. now apply Hblocks.
    - destruct v as [| |cap vs|]; cbn; try contradiction. intros [H1 [H2 H3]] Hlt. now apply Hblocks.
    - destruct v as [| |cap vs|]; cbn; try contradiction. intros [H1 [H2 H3]] Hlt. now apply Hblocks.
    - destruct v as [|[|[| |cl l|] [|[| |cs sm|] [|st [|]]]]| |]; cbn [typed]; try contradiction. intros [_ [_ Ht]].
      unfold A, H in *. cbn [allocations heap_bytes sum]. intros Hlt.
      rewrite (Hu TU64 cl l), (Hu TU64 cs sm) by lia. cbn [bind]. rewrite wadd_ok by lia. cbn [bind].
      rewrite (IH st Ht) by lia. cbn [bind]. rewrite wadd_ok by lia. f_equal; lia.
    - destruct v as [|[|st [|[| |cap cells|] [|]]]| |]; cbn [typed]; try contradiction; try (destruct st; contradiction). intros [Ht _].
      unfold A, H in *. cbn [allocations heap_bytes sum]. intros Hlt.
      change (TFlat 16) with TCell in *. rewrite (IH st Ht) by lia. cbn [bind]. rewrite (Hu TCell cap cells) by lia. cbn [bind]. rewrite wadd_ok by lia. f_equal; lia.
    - cbn. now apply IH.
  Qed.

  (** For sums that need not fit: the wrapping is that of the exact sum. *)
  Let W := wrap c (ptr c).
  Lemma W_add a b : bind (W a) (fun x => bind (W b) (fun y => wadd c (ptr c) x y)) = W (a + b).
  Proof.
    unfold W, wadd, wrap. pose proof (N.pow_nonzero 2 (ptr c) ltac:(discriminate)) as Hp. set (M := 2 ^ ptr c) in *.
    destruct (a <? M) eqn:Ea, (b <? M) eqn:Eb, (debug c) eqn:D, (a + b <? M) eqn:Eab; cbn [bind]; try lia; try reflexivity;
      try (rewrite Eab; reflexivity).
    - pose proof (N.mod_lt b M Hp). destruct (a + b mod M <? M) eqn:E1; f_equal; [|apply N.add_mod_idemp_r, Hp].
      rewrite <- N.add_mod_idemp_r by exact Hp. symmetry. apply N.mod_small. lia.
    - pose proof (N.mod_lt a M Hp). destruct (a mod M + b <? M) eqn:E1; f_equal; [|apply N.add_mod_idemp_l, Hp].
      rewrite <- N.add_mod_idemp_l by exact Hp. symmetry. apply N.mod_small. lia.
    - pose proof (N.mod_lt a M Hp). destruct (a mod M + b mod M <? M) eqn:E1; f_equal.
      + rewrite N.add_mod by exact Hp. symmetry. apply N.mod_small. lia.
      + symmetry. apply N.add_mod, Hp.
  Qed.
  Lemma W_add_any b (r : N) : bind (W b) (fun y => wadd c (ptr c) r y) = W (r + b).
  Proof.
    unfold W, wadd, wrap. pose proof (N.pow_nonzero 2 (ptr c) ltac:(discriminate)) as Hp. set (M := 2 ^ ptr c) in *.
    destruct (b <? M) eqn:Eb; cbn [bind]; [reflexivity|]. destruct (r + b <? M) eqn:Eab; [lia|]. destruct (debug c); cbn [bind]; [reflexivity|].
    destruct (r + b mod M <? M) eqn:E1; f_equal; [|apply N.add_mod_idemp_r, Hp].
    rewrite <- N.add_mod_idemp_r by exact Hp. symmetry. apply N.mod_small. lia.
  Qed.
  Lemma W_seq {B} a b (f : N -> res B) : bind (W a) (fun x => bind (W b) (fun y => bind (wadd c (ptr c) x y) f)) = bind (W (a + b)) f.
  Proof. rewrite <- W_add. destruct (W a); cbn [bind]; [|reflexivity|reflexivity]. destruct (W b); reflexivity. Qed.

  Lemma vec_heap_all e so heap cap vs (al : val -> list N) :
    Forall (fun v => heap v = W (sum (al v))) vs ->
    (so = true -> Forall (fun v => al v = []) vs) ->
    vec_heap_bytes c size_of e so heap cap vs = W (cap * size_of e + sum (flat_map al vs)).
  Proof.
    intros Hh Hs. unfold vec_heap_bytes, stack_bytes. change (wmul c (ptr c) cap (size_of e)) with (W (cap * size_of e)).
    destruct so.
    - replace (flat_map al vs) with (@nil N).
      + cbn [sum]. rewrite N.add_0_r. now destruct (W (cap * size_of e)).
      + specialize (Hs eq_refl). clear - Hs. induction Hs as [|v vs E _ IH]; cbn [flat_map]; [reflexivity|now rewrite E, <- IH].
    - clear Hs. generalize (cap * size_of e). induction Hh as [|v vs Hv _ IH]; intros r; cbn [flat_map sum].
      + rewrite N.add_0_r. now destruct (W r).
      + rewrite sum_app, N.add_assoc, <- IH, <- W_seq. rewrite Hv. reflexivity.
  Qed.
  Lemma heap_all t : forall v, typed t v -> H t v = W (sum (A t v)).
  Proof.
    assert (W0 : W 0 = Ok 0) by (unfold W, wrap; pose proof (N.pow_nonzero 2 (ptr c)); destruct (0 <? 2 ^ ptr c) eqn:E; [reflexivity|lia]).
    assert (Hblocks : forall b cap vs, (exists n, b = TFlat n) -> lengthN vs <= cap -> Forall (fun v => v = VFlat) vs ->
      vec_heap_bytes c size_of b (is_stack_only b) (heap_bytes c size_of b) cap vs = W (sum [cap * size_of b])).
    { intros b cap vs [n ->] _ Hf. cbn [sum].
      rewrite (vec_heap_all _ _ _ cap vs (fun _ => [])).
      - f_equal. rewrite flat_all by auto. reflexivity.
      - apply Forall_forall. intros v _. symmetry. exact W0.
      - intros _. apply Forall_forall. reflexivity. }
    assert (Hu : forall e cap vs, vec_heap_bytes c size_of e true (fun _ => Ok 0) cap vs = W (cap * size_of e)).
    { intros e cap vs. unfold vec_heap_bytes, stack_bytes. change (wmul c (ptr c) cap (size_of e)) with (W (cap * size_of e)).
      now destruct (W (cap * size_of e)). }
    induction t as [n|t|t|t|ts IH|t IH|t IH|t IH|t IH|t IH|t IH|t IH|t IH] using ty_rect'; intros v;
      try (destruct v; cbn; intros; (symmetry; exact W0) || contradiction).
    - destruct v as [|vs| |]; cbn; try contradiction. fold A. fold H.
      cut (forall r,
        (fix go ts vs := match ts, vs with
           | [], [] => True
           | t :: ts', v :: vs' => typed t v /\ go ts' vs'
           | _, _ => False
           end) ts vs ->
        bind (W r) ((fix go ts vs result := match ts, vs with
           | t :: ts', v :: vs' => h <- H t v ;; r <- wadd c (ptr c) result h ;; go ts' vs' r
           | _, _ => Ok result
           end) ts vs) = W (r + sum ((fix go ts vs := match ts, vs with
         | t :: ts', v :: vs' => A t v ++ go ts' vs'
         | _, _ => []
         end) ts vs))).
      { intros X Ht. specialize (X 0 Ht). rewrite W0 in X. exact X. }
      revert vs. induction ts as [|t ts IHt]; intros vs r Ht.
      + destruct vs; [|contradiction]. cbn [sum]. rewrite N.add_0_r. now destruct (W r).
      + inversion IH as [|? ? I1 I2]; subst. destruct vs as [|v vs]; [contradiction|]. destruct Ht as [T1 T2].
        rewrite sum_app, N.add_assoc, <- (IHt I2 vs (r + sum (A t v)) T2), <- W_seq. rewrite <- (I1 v T1). reflexivity.
    - destruct v as [| |cap vs|]; cbn; try contradiction. fold A. fold H. intros [_ Ht].
      assert (Hf : Forall (typed t) vs) by (clear - Ht; induction vs; [constructor|destruct Ht; constructor; auto]).
      apply vec_heap_all.
      + eapply Forall_impl; [|exact Hf]. intros v Hv. now apply IH.
      + intros E. eapply Forall_impl; [|exact Hf]. intros v Hv. now apply stack_only_allocs.
    - destruct v as [| | |v]; cbn; try contradiction. fold A. fold H. intros Ht.
      rewrite (IH v Ht). apply W_add_any.
    - destruct v as [| |cap vs|]; cbn; try contradiction. intros [H1 [H2 H3]]. now apply Hblocks.
    - destruct v as [| |cap vs|]; cbn; try contradiction. intros [H1 [H2 H3]]. now apply Hblocks.
    - destruct v as [| |cap vs|]; cbn; try contradiction. intros [H1 [H2 H3]]. now apply Hblocks.
    - destruct v as [|[|[| |cl l|] [|[| |cs sm|] [|st [|]]]]| |]; cbn [typed]; try contradiction. intros [_ [_ Ht]].
      unfold A, H in *. cbn [allocations heap_bytes sum].
      rewrite (Hu TU64 cl l), (Hu TU64 cs sm), (IH st Ht), W_seq, W_add. f_equal. lia.
    - destruct v as [|[|st [|[| |cap cells|] [|]]]| |]; cbn [typed]; try contradiction; try (destruct st; contradiction). intros [Ht _].
      unfold A, H in *. cbn [allocations heap_bytes sum].
      change (TFlat 16) with TCell in *. rewrite (IH st Ht), (Hu TCell cap cells), W_add. f_equal. lia.
    - cbn. now apply IH.
  Qed.
  Lemma total_all t v : typed t v -> total_bytes c size_of t v = W (size_of t + sum (A t v)).
  Proof. intros Ht. unfold total_bytes, stack_bytes. change (heap_bytes c size_of t v) with (H t v). rewrite (heap_all t v Ht). apply W_add_any. Qed.
End Space.
