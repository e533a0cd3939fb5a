(** * Property C117, both ends: the adaptors driven by [next] and [next_back] in any order
    (over src/internal/vector_base.rs:349-427, src/bit_vec/bit_vector.rs:257-292, src/int_vec/int_vector.rs:363-399).

    The laws [steps], [backs] and [counts] of [Properties64] hold of one relation here, so that calls at both ends may be
    mixed: [C117_both_ends] says what such a mix returns. *)
From Verif Require Import SpecCfg SpecOps PIntRun Properties4 MAdaptors Properties64.

(** [nth] up to one beyond the last item; [next] as long as there is an item. *)
Definition hops {T A} (nth : T -> N -> res (option A * T)) (R : T -> list A -> Prop) : Prop :=
  forall s l n, R s l -> n <= lengthN l -> exists s', nth s n = Ok (nthN l n, s') /\ R s' (skipnN (n + 1) l).
Definition steps_in {T A} (next : T -> res (option A * T)) (R : T -> list A -> Prop) : Prop :=
  forall s l, R s l -> l <> [] -> exists s', next s = Ok (hd_error l, s') /\ R s' (tl l).

(** A list of calls, [true] for [next] and [false] for [next_back], and what each returned. *)
Fixpoint run_ends {T A} (next next_back : T -> res (option A * T)) (ds : list bool) (s : T) : res (list (option A)) :=
  match ds with
  | [] => Ok []
  | d :: ds => r <- (if d : bool then next s else next_back s) ;; o <- run_ends next next_back ds (snd r) ;; Ok (fst r :: o)
  end.
(** The same on a list: number [i] of the calls at the front is item [i], number [j] of those at the back is the item [j]
    from the end, and once the two have met it is [None]. *)
Fixpoint deal {A} (l : list A) (ds : list bool) (i j : N) : list (option A) :=
  match ds with
  | [] => []
  | true :: ds => (if i + j <? lengthN l then nthN l i :: deal l ds (i + 1) j else None :: deal l ds i j)
  | false :: ds => (if i + j <? lengthN l then nthN l (lengthN l - 1 - j) :: deal l ds i (j + 1) else None :: deal l ds i j)
  end.
Lemma mid {A} (l : list A) i j : i + j < lengthN l -> let m := firstnN (lengthN l - i - j) (skipnN i l) in
  m <> [] /\ hd_error m = nthN l i /\ tl m = firstnN (lengthN l - (i + 1) - j) (skipnN (i + 1) l) /\
  hd_error (rev m) = nthN l (lengthN l - 1 - j) /\ removelast m = firstnN (lengthN l - i - (j + 1)) (skipnN i l).
Proof.
  intros H m. set (k := lengthN l - i - j) in *.
  assert (L : lengthN m = k) by (unfold m; rewrite lengthN_firstnN, lengthN_skipnN; lia).
  assert (Nm : forall n, nthN m n = if n <? k then nthN l (i + n) else None) by (intros n; unfold m; now rewrite nthN_firstnN, nthN_skipnN).
  split; [|split; [|split]].
  - intros E. rewrite E, lengthN_nil in L. lia.
  - rewrite <- (skipnN_0 m), hd_skipnN, Nm. destruct (0 <? k) eqn:E; [|lia]. f_equal. lia.
  - change (tl m) with (tl (skipnN 0 m)). rewrite tl_skipnN. apply nthN_ext. intros n.
    rewrite nthN_skipnN, Nm, nthN_firstnN, nthN_skipnN. destruct (0 + 1 + n <? k) eqn:E, (n <? lengthN l - (i + 1) - j) eqn:E'; try lia; [|reflexivity].
    f_equal. lia.
  - destruct (app_snoc_inv m) as [a [x E]]; [intros E; rewrite E, lengthN_nil in L; lia|].
    assert (La : lengthN a = k - 1) by (rewrite E, lengthN_app in L; rewrite lengthN_cons, lengthN_nil in L; lia).
    split.
    + rewrite E, rev_app_distr. cbn [rev app hd_error]. pose proof (Nm (k - 1)) as X. rewrite E, nthN_app, La, N.ltb_irrefl, N.sub_diag in X.
      rewrite nthN_cons, N.eqb_refl in X. rewrite X. destruct (k - 1 <? k) eqn:E1; [|lia]. f_equal. lia.
    + rewrite E, removelast_snoc. apply nthN_ext. intros n. rewrite nthN_firstnN, nthN_skipnN.
      destruct (n <? lengthN l - i - (j + 1)) eqn:E1.
      * pose proof (Nm n) as X. rewrite E, nthN_app, La in X. destruct (n <? k - 1) eqn:E2; [|lia]. destruct (n <? k) eqn:E3; [exact X|lia].
      * apply nthN_None. lia.
Qed.
Theorem C117_both_ends : forall T A (next next_back : T -> res (option A * T)) (R : T -> list A -> Prop) s l ds,
  R s l -> backs next_back R ->
  steps next R \/ (steps_in next R /\ lengthN ds <= lengthN l) ->
  run_ends next next_back ds s = Ok (deal l ds 0 0).
Proof.
  intros T A next nb R s l ds Hs Hb Hn.
  assert (G : forall ds s i j, i + j <= lengthN l -> R s (firstnN (lengthN l - i - j) (skipnN i l)) ->
    steps next R \/ (steps_in next R /\ lengthN ds + i + j <= lengthN l) -> run_ends next nb ds s = Ok (deal l ds i j)).
  { clear ds s Hs Hn. intros ds. induction ds as [|d ds IH]; intros s i j Hij Hs Hn; [reflexivity|]. cbn [run_ends deal]. rewrite lengthN_cons in Hn.
    destruct (i + j <? lengthN l) eqn:E.
    - destruct (mid l i j ltac:(lia)) as (M0 & M1 & M2 & M3 & M4). destruct d.
      + assert (X : exists s', next s = Ok (nthN l i, s') /\ R s' (firstnN (lengthN l - (i + 1) - j) (skipnN (i + 1) l))).
        { rewrite <- M1, <- M2. destruct Hn as [Hn|[Hn _]]; [exact (Hn _ _ Hs)|exact (Hn _ _ Hs M0)]. }
        destruct X as (s' & E1 & H1). rewrite E1. cbn [bind fst snd]. rewrite (IH s' (i + 1) j); [reflexivity|lia|exact H1|].
        destruct Hn as [Hn|[Hn Hl]]; [now left|right; split; [exact Hn|lia]].
      + destruct (Hb _ _ Hs) as (s' & E1 & H1). rewrite M3 in E1. rewrite M4 in H1. rewrite E1. cbn [bind fst snd].
        rewrite (IH s' i (j + 1)); [reflexivity|lia|exact H1|]. destruct Hn as [Hn|[Hn Hl]]; [now left|right; split; [exact Hn|lia]].
    - assert (Z : firstnN (lengthN l - i - j) (skipnN i l) = []) by (replace (lengthN l - i - j) with 0 by lia; apply firstnN_0).
      destruct Hn as [Hn|[_ Hn]]; [|lia].
      assert (X : exists s', (if d then next s else nb s) = Ok (None, s') /\ R s' (firstnN (lengthN l - i - j) (skipnN i l))).
      { rewrite Z in Hs. destruct d; [destruct (Hn _ _ Hs) as (s' & E1 & H1)|destruct (Hb _ _ Hs) as (s' & E1 & H1)]; exists s'; rewrite Z; split; auto. }
      destruct X as (s' & E1 & H1). rewrite E1. cbn [bind fst snd]. rewrite (IH s' i j Hij H1 (or_introl Hn)). now destruct d. }
  apply G.
  - lia.
  - rewrite N.sub_0_r, N.sub_0_r, skipnN_0, firstnN_all by lia. exact Hs.
  - destruct Hn as [Hn|[Hn Hl]]; [now left|right; split; [exact Hn|lia]].
Qed.

(** The iterators of the crate: one relation for all five calls. *)
Theorem C117_int_ends : forall c nb k t ops v xs,
  wf_cfg c -> wf_nb nb -> 1 <= k <= nb ->
  iprogram_ok c nb k t ops -> iv_ends c nb k t ops v -> snd (spec_iprogram c nb k t ops) = Some xs -> lengthN xs < 2 ^ ptr c ->
  exists R : vbiter -> list N -> Prop, R (iv_iter v) xs /\ steps (it_next c nb) R /\ backs (it_next_back c nb) R /\
    counts (it_len c) R /\ counts (default_len (it_size_hint c)) R /\ hops (it_nth c nb) R /\ (forall s l, R s l -> lengthN l < 2 ^ ptr c).
Proof.
  intros c nb k t ops v xs Hc Hnb Hk O E S Hx. pose proof (wf_ptr c Hc).
  assert (Hp : 2 ^ ptr c <= 2 ^ 64) by (destruct Hc as [F|F]; rewrite F; vm_compute; congruence).
  destruct (iv_ends_R c nb k Hc Hnb Hk t ops v O E) as [l [S' HR]]. rewrite S in S'. injection S' as <-.
  assert (H0 : It_exact c nb k (iv_iter v) xs).
  { destruct HR as [Ek HI]. unfold iv_iter. rewrite Ek. now apply it_new_ok. }
  exists (fun it ys => It_exact c nb k it ys /\ lengthN ys < 2 ^ ptr c).
  split; [split; assumption|]. split; [|split; [|split; [|split; [|split]]]].
  - intros it ys [Hy Hl]. destruct (iv_it_next c nb k it ys) as [it' [E1 [_ E2]]]; auto; [now left|].
    exists it'. split; [exact E1|]. split; [auto|]. destruct ys; cbn [tl]; rewrite ?lengthN_cons in *; lia.
  - intros it ys [Hy Hl]. destruct (iv_it_next_back c nb k it ys) as [it' [E1 [_ E2]]]; auto; [now left|].
    exists it'. split; [exact E1|]. split; [auto|].
    destruct ys as [|y ys]; [cbn; rewrite lengthN_nil in *; lia|].
    destruct (app_snoc_inv (y :: ys)) as [l' [x F]]; [discriminate|]. rewrite F, removelast_snoc.
    rewrite F, lengthN_app in Hl. lia.
  - intros it ys [Hy Hl]. rewrite (it_len_ok c nb k Hc Hnb Hk it ys Hy). now rewrite as_usize_small.
  - intros it ys [Hy Hl]. unfold default_len. rewrite (it_size_hint_ok c nb k Hc Hnb Hk it ys Hy).
    rewrite to_usize_small by assumption. cbn [bind fst snd]. rewrite N.eqb_refl. reflexivity.
  - intros it ys n [Hy Hl] Hn. destruct (iv_it_nth c nb k it ys n Hc Hnb Hk) as [it' [E1 [_ E2]]]; [now left|lia|].
    exists it'. split; [exact E1|]. rewrite <- tl_skipnN. split; [auto|]. rewrite tl_skipnN, lengthN_skipnN. lia.
  - intros it ys [_ Hl]. exact Hl.
Qed.
Theorem C117_bit_ends : forall c nb t ops v l,
  wf_cfg c -> wf_nb nb ->
  bprogram_ok c nb t ops -> bvec_ends c nb t ops v -> snd (spec_bprogram c nb t ops) = Some l -> lengthN l < 2 ^ ptr c ->
  exists R : vbiter -> list bool -> Prop, R (bvec_iter v) l /\ steps (bit_next c nb) R /\ backs (bit_next_back c nb) R /\
    counts (it_len c) R /\ counts (default_len (it_size_hint c)) R /\ hops (bit_nth c nb) R /\ (forall s l, R s l -> lengthN l < 2 ^ ptr c).
Proof.
  intros c nb t ops v l Hc Hnb O E S Hx. pose proof (wf_ptr c Hc).
  assert (Hk : 1 <= 1 <= nb) by (destruct Hnb as [F|[F|[F|F]]]; rewrite F; lia).
  assert (Hp : 2 ^ ptr c <= 2 ^ 64) by (destruct Hc as [F|F]; rewrite F; vm_compute; congruence).
  destruct (bvec_ends_R c nb t ops v Hc Hnb O E) as [l0 [S' HR]]. rewrite S in S'. injection S' as <-.
  pose proof (bvec_iter_ok c nb Hc Hnb v l HR) as H0.
  exists (fun it ys => Bit_it_exact c nb it ys /\ lengthN ys < 2 ^ ptr c).
  split; [split; assumption|]. split; [|split; [|split; [|split; [|split]]]].
  - intros it ys [Hy Hl]. destruct (bit_next_ok c nb Hc Hnb it ys) as [it' [E1 [_ E2]]]; [now left|].
    exists it'. split; [exact E1|]. split; [auto|]. destruct ys; cbn [tl]; rewrite ?lengthN_cons in *; lia.
  - intros it ys [Hy Hl]. destruct (bit_next_back_ok c nb Hc Hnb it ys) as [it' [E1 [_ E2]]]; [now left|].
    exists it'. split; [exact E1|]. split; [auto|].
    destruct ys as [|y ys]; [cbn; rewrite lengthN_nil in *; lia|].
    destruct (app_snoc_inv (y :: ys)) as [l' [x F]]; [discriminate|]. rewrite F, removelast_snoc.
    rewrite F, lengthN_app in Hl. lia.
  - intros it ys [Hy Hl]. rewrite (it_len_ok c nb 1 Hc Hnb Hk it _ Hy). rewrite lengthN_map. now rewrite as_usize_small.
  - intros it ys [Hy Hl]. unfold default_len. rewrite (it_size_hint_ok c nb 1 Hc Hnb Hk it _ Hy).
    rewrite lengthN_map, to_usize_small by assumption. cbn [bind fst snd]. rewrite N.eqb_refl. reflexivity.
  - intros it ys n [Hy Hl] Hn. destruct (bit_nth_ok c nb Hc Hnb it ys n) as [it' [E1 [_ E2]]]; [now left|lia|].
    exists it'. split; [exact E1|]. rewrite <- tl_skipnN. split; [auto|]. rewrite tl_skipnN, lengthN_skipnN. lia.
  - intros it ys [_ Hl]. exact Hl.
Qed.

(** [skip] of no more items than there are *)
Theorem C117_skip_ends : forall T A (next next_back : T -> res (option A * T)) nth len R,
  steps next R -> backs next_back R -> counts len R -> hops nth R ->
  exists R' : N * T -> list A -> Prop, (forall s l n, R s l -> n <= lengthN l -> R' (n, s) (skipnN n l)) /\
    steps (skip_next next nth) R' /\ backs (skip_next_back next_back len) R' /\ counts (skip_len len) R'.
Proof.
  intros T A next nb nth len R Hn Hb Hl Hj.
  exists (fun s l => exists l0, R (snd s) l0 /\ fst s <= lengthN l0 /\ l = skipnN (fst s) l0).
  assert (Hsk : counts (skip_len len) (fun s l => exists l0 : list A, R (snd s) l0 /\ fst s <= lengthN l0 /\ l = skipnN (fst s) l0)).
  { intros [n s] l [l0 [Hs [_ ->]]]. cbn [fst snd] in *. unfold skip_len. cbn [fst snd]. rewrite (Hl s l0 Hs). cbn [bind].
    unfold saturating_sub. f_equal. unfold lengthN, skipnN. rewrite skipn_length. lia. }
  split; [|split; [|split]]; auto.
  - intros s l n Hs Hle. now exists l.
  - intros [n s] l [l0 [Hs [Hle ->]]]. cbn [fst snd] in *. unfold skip_next. cbn [fst snd]. destruct (n =? 0) eqn:E0.
    + assert (n = 0) by lia. subst n. destruct (Hn s l0 Hs) as [s' [E H]]. exists (0, s'). rewrite E. cbn [bind fst snd].
      rewrite skipnN_0. split; [reflexivity|]. exists (tl l0). split; [exact H|]. split; [apply N.le_0_l|reflexivity].
    + destruct (Hj s l0 n Hs Hle) as [s' [E H]]. exists (0, s'). rewrite E. cbn [bind fst snd].
      rewrite hd_skipnN. split; [reflexivity|]. exists (skipnN (n + 1) l0). split; [exact H|]. split; [apply N.le_0_l|].
      now rewrite skipnN_0, tl_skipnN.
  - intros [n s] l HR. unfold skip_next_back. rewrite (Hsk _ _ HR). cbn [bind].
    destruct HR as [l0 [Hs [Hle El]]]. cbn [fst snd] in *. destruct (0 <? lengthN l) eqn:E0.
    + assert (Hlt : (N.to_nat n < length l0)%nat).
      { subst l. unfold lengthN, skipnN in E0. rewrite skipn_length in E0. lia. }
      destruct (Hb s l0 Hs) as [s' [E H]]. rewrite E. cbn [bind fst snd]. exists (n, s').
      subst l. unfold skipnN. rewrite hd_rev_skipn by assumption. split; [reflexivity|].
      exists (removelast l0). split; [exact H|]. cbn [fst]. split; [|apply removelast_skipn].
      destruct (app_snoc_inv l0) as [l' [x F]]; [intros F; subst l0; cbn in Hlt; lia|]. rewrite F, removelast_snoc.
      rewrite F, app_length in Hlt. cbn in Hlt. unfold lengthN. lia.
    + assert (l = []) as ->. { destruct l; [reflexivity|]. rewrite lengthN_cons in E0. lia. }
      exists (n, s). split; [reflexivity|]. exists l0. split; [exact Hs|]. split; [exact Hle|exact El].
Qed.

(** [step_by]: [next] as long as there is an item *)
Theorem C117_step_ends : forall c T A (next next_back : T -> res (option A * T)) nth len R step,
  steps next R -> backs next_back R -> counts len R -> hops nth R -> 1 <= step < 2 ^ ptr c ->
  exists R' : N * bool * T -> list A -> Prop, (forall s l, R s l -> exists s', step_by step s = Ok s' /\ R' s' (every step l)) /\
    steps_in (step_next next nth) R' /\ backs (step_next_back len c (default_nth next_back)) R' /\ counts (step_len len) R'.
Proof.
  intros c T A next nb nth len R step Hn Hb Hl Hj Hs.
  exists (fun (s : N * bool * T) (l : list A) => fst (fst s) = step - 1 /\ exists l0, R (snd s) l0 /\
      l = (if snd (fst s) : bool then every step l0 else every step (skipnN (step - 1) l0))).
  destruct (step_back_laws c T A nb len R step Hb Hl Hs) as (B1 & B2 & B3).
  split; [exact B1|]. split; [|split; [exact B2|exact B3]].
  intros [[st first] s] l [E1 [l0 [Hr ->]]] Hne. cbn [fst snd] in *. subst st. unfold step_next. destruct first.
  - destruct (Hn s l0 Hr) as [s' [E H]]. rewrite E. cbn [bind fst snd]. exists (step - 1, false, s').
    destruct l0 as [|a l0]; [now contradiction Hne|].
    rewrite every_cons. split; [reflexivity|]. split; [reflexivity|]. exists l0. split; [exact H|reflexivity].
  - assert (Hlt : step - 1 < lengthN l0).
    { destruct (N.lt_ge_cases (step - 1) (lengthN l0)) as [K|K]; [exact K|]. rewrite skipnN_all in Hne by exact K. now contradiction Hne. }
    destruct (Hj s l0 (step - 1) Hr) as [s' [E H]]; [lia|]. rewrite E. cbn [bind fst snd]. exists (step - 1, false, s').
    rewrite <- hd_skipnN. rewrite <- tl_skipnN in H.
    destruct (skipnN (step - 1) l0) as [|a l1] eqn:El; [now contradiction Hne|].
    rewrite every_cons. split; [reflexivity|]. split; [reflexivity|]. exists l1. split; [exact H|reflexivity].
Qed.

Lemma nth_back_jumps c T A (nb : T -> res (option A * T)) R : backs nb R ->
  forall s l n, R s l -> n < 2 ^ ptr c -> exists s', default_nth nb s n = Ok (nthN (rev l) n, s') /\ R s' (rev (skipnN (n + 1) (rev l))).
Proof.
  intros Hb s l n Hs Hn. apply (C117_nth c T A nb _ (rev_steps _ _ nb R Hb) s (rev l) n); [now rewrite rev_involutive|exact Hn].
Qed.
Theorem C117_take_ends : forall c T A (next next_back : T -> res (option A * T)) len R,
  steps next R -> backs next_back R -> counts len R -> (forall s l, R s l -> lengthN l < 2 ^ ptr c) ->
  exists R' : N * T -> list A -> Prop, (forall s l n, R s l -> R' (n, s) (firstnN n l)) /\
    steps (take_next next) R' /\ backs (take_next_back len (default_nth next_back)) R' /\ counts (take_len len) R'.
Proof.
  intros c T A next nb len R Hn Hb Hl Hlt.
  exists (fun s l => exists l0, R (snd s) l0 /\ l = firstnN (fst s) l0).
  split; [|split; [|split]].
  - intros s l n Hs. now exists l.
  - intros [n s] l [l0 [Hs ->]]. cbn [fst snd] in *. unfold take_next. cbn [fst snd]. destruct (n =? 0) eqn:E0.
    + assert (n = 0) by lia. subst n. exists (0, s). rewrite firstnN_0. split; [reflexivity|].
      exists l0. split; [exact Hs|]. cbn [fst]. now rewrite firstnN_0.
    + destruct (Hn s l0 Hs) as [s' [E H]]. exists (n - 1, s'). rewrite E. cbn [bind fst snd].
      unfold firstnN. replace (N.to_nat n) with (S (N.to_nat (n - 1))) by lia.
      split; [now destruct l0|]. exists (tl l0). split; [exact H|]. cbn [fst].
      destruct l0 as [|a l0]; [cbn; now destruct (N.to_nat (n - 1))|]. reflexivity.
  - intros [n s] l [l0 [Hs ->]]. cbn [fst snd] in *. unfold take_next_back. cbn [fst snd]. destruct (n =? 0) eqn:E0.
    + assert (n = 0) by lia. subst n. exists (0, s). rewrite firstnN_0. split; [reflexivity|].
      exists l0. split; [exact Hs|]. cbn [fst]. now rewrite firstnN_0.
    + rewrite (Hl s l0 Hs). cbn [bind]. pose proof (Hlt s l0 Hs) as Hb'.
      set (k := saturating_sub (lengthN l0) n). assert (Ek : k = lengthN l0 - n) by (unfold k, saturating_sub; lia). clearbody k.
      destruct (nth_back_jumps c T A nb R Hb s l0 k Hs ltac:(lia)) as (s' & E & H). rewrite E. cbn [bind fst snd]. exists (n - 1, s').
      destruct (N.eq_dec (lengthN l0) 0) as [Z|Z].
      * assert (l0 = []) by (destruct l0; [reflexivity|rewrite lengthN_cons in Z; lia]). subst l0.
        cbn [rev] in *. rewrite skipnN_all in H by (rewrite lengthN_nil; lia). rewrite nthN_nil, firstnN_all by (rewrite lengthN_nil; lia).
        split; [reflexivity|]. exists []. split; [exact H|]. rewrite firstnN_all by (rewrite lengthN_nil; lia). reflexivity.
      * destruct (cut_at l0 (N.min n (lengthN l0) - 1) ltac:(lia)) as (a & x & r & Ea & La & Lr).
        assert (Hkr : k = lengthN r) by lia. rewrite Ea, Hkr in E, H |- *. destruct (back_cut a x r) as [B1 B2]. rewrite B1. rewrite B2 in H.
        assert (F : firstnN n (a ++ x :: r) = a ++ [x]).
        { apply nthN_ext. intros i. rewrite nthN_firstnN, !nthN_app, !nthN_cons. destruct (i <? n) eqn:E1.
          - destruct (i <? lengthN a) eqn:E2; [reflexivity|]. destruct (i - lengthN a =? 0) eqn:E3; [reflexivity|]. rewrite nthN_nil. apply nthN_None. lia.
          - destruct (i <? lengthN a) eqn:E2; [lia|]. destruct (i - lengthN a =? 0) eqn:E3; [lia|]. now rewrite nthN_nil. }
        rewrite F, rev_app_distr, removelast_snoc. split; [reflexivity|]. exists a. split; [exact H|]. cbn [fst]. rewrite firstnN_all by lia. reflexivity.
  - intros [n s] l [l0 [Hs ->]]. cbn [fst snd] in *. unfold take_len. cbn [fst snd]. rewrite lengthN_firstnN. destruct (n =? 0) eqn:E0.
    + f_equal. lia.
    + rewrite (Hl s l0 Hs). cbn [bind]. f_equal. apply N.min_comm.
Qed.

Lemma trim_ok T A (nb : T -> res (option A * T)) R : backs nb R -> forall n s l, R s l ->
  exists s', trim nb n s = Ok s' /\ R s' (firstnN (lengthN l - N.of_nat n) l).
Proof.
  intros Hb. induction n as [|n IH]; intros s l Hs; cbn [trim].
  - exists s. split; [reflexivity|]. now rewrite firstnN_all by lia.
  - destruct (Hb s l Hs) as (s1 & E1 & H1). rewrite E1. cbn [bind snd]. destruct (IH s1 _ H1) as (s' & E & H). exists s'. split; [exact E|].
    destruct l as [|y l]; [exact H|]. destruct (app_snoc_inv (y :: l)) as [a [x F]]; [discriminate|]. rewrite F in H |- *. rewrite removelast_snoc in H.
    rewrite lengthN_app, lengthN_cons, lengthN_nil. replace (lengthN a + (0 + 1) - N.of_nat (S n)) with (lengthN a - N.of_nat n) by lia.
    assert (G : firstnN (lengthN a - N.of_nat n) (a ++ [x]) = firstnN (lengthN a - N.of_nat n) a); [|now rewrite G].
    apply nthN_ext. intros i. rewrite !nthN_firstnN, nthN_app. destruct (i <? lengthN a - N.of_nat n) eqn:E2; [|reflexivity].
    destruct (i <? lengthN a) eqn:E3; [reflexivity|lia].
Qed.
Lemma combine_firstnN {A B} (l : list A) (m : list B) : combine l m = combine (firstnN (N.min (lengthN l) (lengthN m)) l) (firstnN (N.min (lengthN l) (lengthN m)) m).
Proof.
  assert (G : forall (l : list A) (m : list B), combine l m = combine (firstn (Nat.min (length l) (length m)) l) (firstn (Nat.min (length l) (length m)) m)).
  { intros l'. induction l' as [|a l' IH]; intros [|b m']; try reflexivity. cbn [length Nat.min firstn combine]. now rewrite <- IH. }
  unfold firstnN, lengthN. replace (N.to_nat (N.min (N.of_nat (length l)) (N.of_nat (length m)))) with (Nat.min (length l) (length m)) by lia. apply G.
Qed.
Lemma combine_snoc {A B} (a : list A) (b : list B) x y : length a = length b -> combine (a ++ [x]) (b ++ [y]) = combine a b ++ [(x, y)].
Proof. revert b. induction a as [|u a IH]; intros [|v b] H; try discriminate; [reflexivity|]. cbn [app combine]. rewrite IH; [reflexivity|]. now injection H. Qed.
Theorem C117_zip_ends : forall T A U B (next next_back : T -> res (option A * T)) (next' next_back' : U -> res (option B * U)) len len' R S,
  steps next R -> steps next' S -> backs next_back R -> backs next_back' S -> counts len R -> counts len' S ->
  exists R' : T * U -> list (A * B) -> Prop, (forall s l t m, R s l -> S t m -> R' (s, t) (combine l m)) /\
    steps (zip_next next next') R' /\ backs (zip_next_back next_back len next_back' len') R' /\ counts (zip_len len len') R'.
Proof.
  intros T A U B next nb next' nb' len len' R S Hn Hn' Hb Hb' Hl Hl'.
  exists (fun s l => exists l0 m0, R (fst s) l0 /\ S (snd s) m0 /\ l = combine l0 m0).
  split; [|split; [|split]].
  - intros s l t m Hs Ht. now exists l, m.
  - intros [s t] l [l0 [m0 [Hs [Ht ->]]]]. cbn [fst snd] in *. destruct (Hn s l0 Hs) as [s' [E H]]. unfold zip_next.
    cbn [fst snd]. rewrite E. cbn [bind fst snd]. destruct l0 as [|a l0]; cbn [hd_error tl combine] in *.
    + exists (s', t). split; [reflexivity|]. exists [], m0. auto.
    + destruct (Hn' t m0 Ht) as [t' [E' H']]. rewrite E'. cbn [bind fst snd]. exists (s', t').
      split; [now destruct m0|]. exists l0, (tl m0). split; [exact H|]. split; [exact H'|].
      destruct m0; [now destruct l0|reflexivity].
  - intros [s t] l [l0 [m0 [Hs [Ht ->]]]]. cbn [fst snd] in *. unfold zip_next_back. cbn [fst snd]. rewrite (Hl s l0 Hs), (Hl' t m0 Ht). cbn [bind].
    destruct (trim_ok T A nb R Hb (N.to_nat (lengthN l0 - lengthN m0)) s l0 Hs) as (s1 & E1 & H1).
    destruct (trim_ok U B nb' S Hb' (N.to_nat (lengthN m0 - lengthN l0)) t m0 Ht) as (t1 & F1 & G1).
    rewrite E1, F1. cbn [bind]. rewrite N2Nat.id in H1, G1. rewrite (combine_firstnN l0 m0). set (n := N.min (lengthN l0) (lengthN m0)) in *.
    replace (lengthN l0 - (lengthN l0 - lengthN m0)) with n in H1 by (unfold n; lia). replace (lengthN m0 - (lengthN m0 - lengthN l0)) with n in G1 by (unfold n; lia).
    assert (LL : length (firstnN n l0) = N.to_nat n) by (apply Nat2N.inj; change (lengthN (firstnN n l0) = N.of_nat (N.to_nat n)); rewrite lengthN_firstnN; unfold n; lia).
    assert (LM : length (firstnN n m0) = N.to_nat n) by (apply Nat2N.inj; change (lengthN (firstnN n m0) = N.of_nat (N.to_nat n)); rewrite lengthN_firstnN; unfold n; lia).
    set (l := firstnN n l0) in *. set (m := firstnN n m0) in *. clearbody l m.
    destruct (Hb s1 l H1) as (s2 & E2 & H2). destruct (Hb' t1 m G1) as (t2 & F2 & G2). rewrite E2, F2. cbn [bind fst snd].
    assert (LE : length l = length m) by congruence. clear LL LM. exists (s2, t2).
    destruct l as [|x0 l1]; destruct m as [|y0 m1]; try discriminate LE.
    + split; [reflexivity|]. now exists [], [].
    + destruct (app_snoc_inv (x0 :: l1)) as [a [x X]]; [discriminate|]. destruct (app_snoc_inv (y0 :: m1)) as [b [y Y]]; [discriminate|].
      rewrite X in H2, LE |- *. rewrite Y in G2, LE |- *. rewrite !app_length in LE. cbn [length] in LE.
      rewrite combine_snoc by lia. rewrite !rev_app_distr. cbn [rev app hd_error]. split; [reflexivity|]. rewrite !removelast_snoc in *. exists a, b. auto.
  - intros [s t] l [l0 [m0 [Hs [Ht ->]]]]. cbn [fst snd] in *. unfold zip_len. cbn [fst snd]. rewrite (Hl s l0 Hs), (Hl' t m0 Ht). cbn [bind]. f_equal.
    unfold lengthN. rewrite combine_length. lia.
Qed.

Theorem C117_chain_ends : forall T A U (next next_back : T -> res (option A * T)) (next' next_back' : U -> res (option A * U)) R S,
  steps next R -> steps next' S -> backs next_back R -> backs next_back' S ->
  exists R' : option T * option U -> list A -> Prop,
    (forall s l t m, R s l -> S t m -> R' (Some s, Some t) (l ++ m)) /\
    steps (chain_next next next') R' /\ backs (chain_next_back next_back next_back') R'.
Proof.
  intros T A U next nb next' nb' R S Hn Hn' Hb Hb'.
  exists (fun s l => exists l0 m0, match fst s with Some x => R x l0 | None => l0 = [] end /\
    match snd s with Some x => S x m0 | None => m0 = [] end /\ l = l0 ++ m0).
  split; [|split].
  - intros s l t m Hs Ht. now exists l, m.
  - exact (chain_next_laws T A U next next' R S Hn Hn').
  - intros [s t] l [l0 [m0 [Hs [Ht ->]]]]. cbn [fst snd] in *.
    assert (Hr : forall t l0, match t with Some x => R x l0 | None => l0 = [] end -> exists s',
      match t with
      | None => Ok (None, (None, @None U))
      | Some u => r <- nb u ;; Ok (fst r, (match fst r with Some _ => Some (snd r) | None => None end, None))
      end = Ok (hd_error (rev l0), s') /\
      exists l1 m1, match fst s' with Some x => R x l1 | None => l1 = [] end /\
        match snd s' with Some x => S x m1 | None => m1 = [] end /\ removelast l0 = l1 ++ m1).
    { clear - Hb. intros [u|] l0 Hm.
      - destruct (Hb u l0 Hm) as [u' [E H]]. rewrite E. cbn [bind fst snd]. eexists. split; [reflexivity|].
        exists (removelast l0), []. cbn [fst snd]. split; [|split; [reflexivity|now rewrite app_nil_r]].
        destruct l0 as [|y l0]; [reflexivity|]. destruct (app_snoc_inv (y :: l0)) as [a [x F]]; [discriminate|]. rewrite F in H |- *.
        rewrite rev_app_distr. exact H.
      - subst l0. eexists. split; [reflexivity|]. exists [], []. split; [reflexivity|]. split; reflexivity. }
    unfold chain_next_back. cbn [fst snd]. destruct t as [t|].
    + destruct (Hb' t m0 Ht) as [t' [E H]]. rewrite E. cbn [bind fst snd]. destruct m0 as [|y m0].
      * rewrite app_nil_r. exact (Hr s l0 Hs).
      * destruct (app_snoc_inv (y :: m0)) as [a [x F]]; [discriminate|]. rewrite F in H |- *. rewrite app_assoc, !rev_app_distr, !removelast_snoc in *.
        cbn [rev app hd_error]. exists (s, Some t'). split; [reflexivity|]. exists l0, a. auto.
    + subst m0. rewrite app_nil_r. exact (Hr s l0 Hs).
Qed.

(** [filter] from the back is the loop over [next_back]. *)
Theorem C117_filter_ends : forall T A (next next_back : T -> res (option A * T)) R (p : A -> bool),
  steps next R -> backs next_back R -> exists R' : T -> list A -> Prop, (forall s l, R s l -> R' s (filter p l)) /\
    (forall s l, R' s l -> exists n0 s', (forall fuel, (n0 <= fuel)%nat -> filter_next next p fuel s = Ok (hd_error l, s')) /\ R' s' (tl l)) /\
    (forall s l, R' s l -> exists n0 s', (forall fuel, (n0 <= fuel)%nat -> filter_next next_back p fuel s = Ok (hd_error (rev l), s')) /\
       R' s' (removelast l)).
Proof.
  intros T A next nb R p Hn Hb. exists (fun s l => exists l0, R s l0 /\ l = filter p l0). split; [|split].
  - intros s l Hs. now exists l.
  - exact (filter_next_laws T A next R p Hn).
  - intros s l [l0 [Hs ->]].
    destruct (filter_next_laws T A nb _ p (rev_steps _ _ nb R Hb) s (rev (filter p l0))) as (n0 & s' & E & (l1 & H1 & E1)).
    { exists (rev l0). split; [now rewrite rev_involutive|]. clear. induction l0 as [|a l0 IH]; [reflexivity|]. cbn [filter rev].
      rewrite filter_app, <- IH. cbn [filter]. destruct (p a); [reflexivity|]. now rewrite app_nil_r. }
    exists n0, s'. split; [exact E|]. exists (rev l1). split; [exact H1|].
    rewrite <- (rev_involutive (removelast _)), rev_removelast, E1. clear. induction l1 as [|a l1 IH]; [reflexivity|]. cbn [filter rev].
    rewrite filter_app. cbn [filter]. destruct (p a); cbn [rev]; rewrite IH; [reflexivity|now rewrite app_nil_r].
Qed.

(** ** A pipeline driven from both ends: [v.iter().take(n).zip(w.iter()).rev()] with calls of [next] and [next_back] in any order *)
Theorem C117_ends_pipeline : forall c nb k t ops v xs wt wops w bs n ds,
  wf_cfg c -> wf_nb nb -> 1 <= k <= nb ->
  iprogram_ok c nb k t ops -> iv_ends c nb k t ops v -> snd (spec_iprogram c nb k t ops) = Some xs -> lengthN xs < 2 ^ ptr c ->
  bprogram_ok c nb wt wops -> bvec_ends c nb wt wops w -> snd (spec_bprogram c nb wt wops) = Some bs -> lengthN bs < 2 ^ ptr c ->
  run_ends
    (zip_next_back (take_next_back (it_len c) (default_nth (it_next_back c nb))) (take_len (it_len c)) (bit_next_back c nb) (it_len c))
    (zip_next (take_next (it_next c nb)) (bit_next c nb))
    ds ((n, iv_iter v), bvec_iter w)
  = Ok (deal (rev (combine (firstnN n xs) bs)) ds 0 0).
Proof.
  intros c nb k t ops v xs wt wops w bs n ds Hc Hnb Hk O E S Lx O' E' S' Lb.
  destruct (C117_int_ends c nb k t ops v xs Hc Hnb Hk O E S Lx) as (R & R0 & R1 & R2 & R3 & _ & _ & R5).
  destruct (C117_bit_ends c nb wt wops w bs Hc Hnb O' E' S' Lb) as (Q & Q0 & Q1 & Q2 & Q3 & _).
  destruct (C117_take_ends c _ _ _ _ _ R R1 R2 R3 R5) as (P & P0 & P1 & P2 & P3).
  destruct (C117_zip_ends _ _ _ _ _ _ _ _ _ _ P Q P1 Q1 P2 Q2 P3 Q3) as (Z & Z0 & Z1 & Z2 & _).
  destruct (C117_rev c _ _ _ _ Z Z1 Z2) as (Y & Y0 & Y1 & Y2 & _).
  apply (C117_both_ends _ _ _ _ Y); [|exact Y2|left; exact Y1].
  apply Y0, Z0; [|exact Q0]. apply P0. exact R0.
Qed.
Example C117_ends_ex : exists v w,
  snd (iv_program dbg32 8 5 100 INew (map IPush [10; 11; 12; 13; 14; 15; 16])) = Ok v /\
  snd (bvec_program dbg32 8 100 BNew (map BPushBit [true; false; true; true; false])) = Ok w /\
  run_ends
    (zip_next_back (take_next_back (it_len dbg32) (default_nth (it_next_back dbg32 8))) (take_len (it_len dbg32)) (bit_next_back dbg32 8) (it_len dbg32))
    (zip_next (take_next (it_next dbg32 8)) (bit_next dbg32 8))
    [true; false; true; true; false; true] ((4, iv_iter v), bvec_iter w)
  = Ok [Some (13, true); Some (10, true); Some (12, true); Some (11, false); None; None] /\
  (* [skip(2)] and [step_by(3)] *)
  run_ends (skip_next (it_next dbg32 8) (it_nth dbg32 8)) (skip_next_back (it_next_back dbg32 8) (it_len dbg32)) [false; true; true; false; false; true; true]
    (2, iv_iter v) = Ok [Some 16; Some 12; Some 13; Some 15; Some 14; None; None] /\
  (s <- step_by 3 (iv_iter v) ;;
   run_ends (step_next (it_next dbg32 8) (it_nth dbg32 8)) (step_next_back (it_len dbg32) dbg32 (default_nth (it_next_back dbg32 8))) [true; false; true] s)
    = Ok [Some 10; Some 16; Some 13] /\
  (* [v.iter().chain(v.iter())] and [filter] to the even numbers *)
  run_ends (chain_next (it_next dbg32 8) (it_next dbg32 8)) (chain_next_back (it_next_back dbg32 8) (it_next_back dbg32 8))
    [true; false; false; false; false; false; false; false; false; true] (Some (iv_iter v), Some (iv_iter v))
    = Ok [Some 10; Some 16; Some 15; Some 14; Some 13; Some 12; Some 11; Some 10; Some 16; Some 11] /\
  run_ends (filter_next (it_next dbg32 8) N.even 100) (filter_next (it_next_back dbg32 8) N.even 100) [false; true; false; true; true] (iv_iter v)
    = Ok [Some 16; Some 10; Some 14; Some 12; None].
Proof. do 2 eexists. repeat (split; [vm_compute; reflexivity|]). vm_compute; reflexivity. Qed.

Print Assumptions C117_both_ends.
Print Assumptions C117_int_ends.
Print Assumptions C117_bit_ends.
Print Assumptions C117_skip_ends.
Print Assumptions C117_step_ends.
Print Assumptions C117_take_ends.
Print Assumptions C117_zip_ends.
Print Assumptions C117_chain_ends.
Print Assumptions C117_filter_ends.
Print Assumptions C117_ends_pipeline.
