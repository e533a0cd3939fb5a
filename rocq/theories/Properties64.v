(** * Property C117: the adaptors of the standard library over the iterators of [IntVector] and [BitVector]
    (src/internal/vector_base.rs:349-427, src/bit_vec/bit_vector.rs:257-292, src/int_vec/int_vector.rs:363-399). *)
From Verif Require Import SpecCfg SpecOps PIntRun Properties4 MAdaptors.

(** What is asked of an iterator: there is a relation between its states and the items still to come, under which
    [next] takes the first item, [nth] drops and takes, [next_back] takes the last item, and [len] counts. *)
Definition steps {T A} (next : T -> res (option A * T)) (R : T -> list A -> Prop) : Prop :=
  forall s l, R s l -> exists s', next s = Ok (hd_error l, s') /\ R s' (tl l).
Definition jumps (c : cfg) {T A} (nth : T -> N -> res (option A * T)) (R : T -> list A -> Prop) : Prop :=
  forall s l n, R s l -> n < 2 ^ ptr c -> exists s', nth s n = Ok (nthN l n, s') /\ R s' (skipnN (n + 1) l).
Definition backs {T A} (next_back : T -> res (option A * T)) (R : T -> list A -> Prop) : Prop :=
  forall s l, R s l -> exists s', next_back s = Ok (hd_error (rev l), s') /\ R s' (removelast l).
Definition counts {T A} (len : T -> res N) (R : T -> list A -> Prop) : Prop :=
  forall s l, R s l -> len s = Ok (lengthN l).

(** ** Lists *)
Lemma tl_skipnN {A} n (l : list A) : tl (skipnN n l) = skipnN (n + 1) l.
Proof.
  unfold skipnN. replace (N.to_nat (n + 1)) with (S (N.to_nat n)) by lia. generalize (N.to_nat n) as m.
  intros m. revert l. induction m as [|m IH]; intros [|a l]; try reflexivity. cbn [skipn] in *. now rewrite IH.
Qed.
Lemma hd_skipnN {A} n (l : list A) : hd_error (skipnN n l) = nthN l n.
Proof. apply nthN_skipnN_hd. Qed.
Lemma skipnN_0 {A} (l : list A) : skipnN 0 l = l.
Proof. reflexivity. Qed.
Lemma skipnN_skipnN {A} a b (l : list A) : skipnN a (skipnN b l) = skipnN (b + a) l.
Proof. apply nthN_ext. intros i. rewrite !nthN_skipnN. f_equal. lia. Qed.
Lemma hd_rev_skipn {A} n (l : list A) : (n < length l)%nat -> hd_error (rev (skipn n l)) = hd_error (rev l).
Proof.
  intros H. rewrite <- (firstn_skipn n l) at 2. rewrite rev_app_distr.
  destruct (rev (skipn n l)) as [|x t] eqn:E; [|reflexivity].
  assert (length (rev (skipn n l)) = 0)%nat by now rewrite E. rewrite rev_length, skipn_length in H0. lia.
Qed.
Lemma removelast_skipn {A} n (l : list A) : removelast (skipn n l) = skipn n (removelast l).
Proof.
  revert l. induction n as [|n IH]; intros l; [reflexivity|]. destruct l as [|a l]; [reflexivity|]. cbn [skipn].
  rewrite IH. destruct l as [|b l]; [cbn; now destruct n|]. reflexivity.
Qed.
Lemma rev_removelast {A} (l : list A) : rev (removelast l) = tl (rev l).
Proof.
  destruct l as [|a l]; [reflexivity|]. destruct (app_snoc_inv (a :: l)) as [l' [x ->]]; [discriminate|].
  now rewrite removelast_snoc, rev_app_distr.
Qed.
Lemma removelast_rev {A} (l : list A) : removelast (rev l) = rev (tl l).
Proof. destruct l as [|a l]; [reflexivity|]. cbn [rev tl]. apply removelast_snoc. Qed.

(** Every [step]-th item, beginning with the first. *)
Fixpoint every_nth {A} (fuel : nat) (step : N) (l : list A) : list A :=
  match fuel, l with
  | S f, x :: t => x :: every_nth f step (skipnN (step - 1) t)
  | _, _ => []
  end.
Definition every {A} (step : N) (l : list A) : list A := every_nth (length l) step l.
Lemma every_nth_fuel {A} step f g (l : list A) : (length l <= f)%nat -> (length l <= g)%nat ->
  every_nth f step l = every_nth g step l.
Proof.
  revert g l. induction f as [|f IH]; intros g [|x l] Hf Hg; cbn [length] in *; try lia; destruct g; try reflexivity; try lia.
  cbn [every_nth]. f_equal. apply IH; unfold skipnN; rewrite skipn_length; lia.
Qed.
Lemma every_cons {A} step x (l : list A) : every step (x :: l) = x :: every step (skipnN (step - 1) l).
Proof.
  unfold every. cbn [length every_nth]. f_equal. apply every_nth_fuel; unfold skipnN; rewrite ?skipn_length; lia.
Qed.
Lemma every_cons1 {A} step x (l : list A) : 1 <= step -> every step (x :: l) = x :: every step (skipnN step (x :: l)).
Proof.
  intros H. rewrite every_cons. do 2 f_equal. unfold skipnN.
  replace (N.to_nat step) with (S (N.to_nat (step - 1))) by lia. reflexivity.
Qed.
(** The items of [every]: number [i] is number [step * i] of the list. *)
Lemma nthN_every {A} step (l : list A) i : 1 <= step -> nthN (every step l) i = nthN l (step * i).
Proof.
  intros H. remember (length l) as n eqn:En. assert (Hn : (length l <= n)%nat) by lia. clear En.
  revert l i Hn. induction n as [|n IH]; intros [|x l] i Hn; cbn [length] in Hn; try lia.
  - destruct i; [reflexivity|]. symmetry. apply nthN_None. rewrite lengthN_nil. lia.
  - destruct i; [reflexivity|]. symmetry. apply nthN_None. rewrite lengthN_nil. lia.
  - rewrite every_cons1 by assumption. rewrite nthN_cons. destruct (i =? 0) eqn:E.
    + replace i with 0 by lia. rewrite N.mul_0_r. reflexivity.
    + rewrite IH; [|unfold skipnN; rewrite skipn_length; cbn [length]; lia].
      rewrite nthN_skipnN. f_equal. replace i with (i - 1 + 1) at 2 by lia. lia.
Qed.
Fixpoint numbered {A} (i : N) (l : list A) : list (N * A) :=
  match l with [] => [] | a :: t => (i, a) :: numbered (i + 1) t end.
Lemma nthN_numbered {A} (l : list A) i n : nthN (numbered i l) n = option_map (pair (i + n)) (nthN l n).
Proof.
  revert i n. induction l as [|a l IH]; intros i n; cbn [numbered]; [now rewrite !nthN_nil|].
  rewrite !nthN_cons. destruct (n =? 0) eqn:E; cbn [option_map].
  - do 2 f_equal. lia.
  - rewrite IH. do 2 f_equal. lia.
Qed.
Lemma skipnN_numbered {A} (l : list A) i n : skipnN n (numbered i l) = numbered (i + n) (skipnN n l).
Proof.
  apply nthN_ext. intros k. rewrite nthN_skipnN, !nthN_numbered, nthN_skipnN. do 2 f_equal. lia.
Qed.
Lemma numbered_app {A} (l m : list A) i : numbered i (l ++ m) = numbered i l ++ numbered (i + lengthN l) m.
Proof.
  revert i. induction l as [|a l IH]; intros i; cbn [app numbered].
  - now rewrite lengthN_nil, N.add_0_r.
  - rewrite IH, lengthN_cons. do 3 f_equal. lia.
Qed.

(** ** The iterators of the crate *)
Theorem C117_int_iter : forall c nb k t ops v xs,
  wf_cfg c -> wf_nb nb -> 1 <= k <= nb ->
  iprogram_ok c nb k t ops -> iv_ends c nb k t ops v -> snd (spec_iprogram c nb k t ops) = Some xs ->
  (exists R : vbiter -> list N -> Prop, R (iv_iter v) xs /\
    steps (it_next c nb) R /\ jumps c (it_nth c nb) R /\ backs (it_next_back c nb) R) /\
  (lengthN xs < 2 ^ ptr c -> exists R : vbiter -> list N -> Prop, R (iv_iter v) xs /\
    steps (it_next c nb) R /\ backs (it_next_back c nb) R /\ counts (it_len c) R /\
    counts (default_len (it_size_hint c)) R).
Proof.
  intros c nb k t ops v xs Hc Hnb Hk O E S. pose proof (wf_ptr c Hc).
  assert (Hp : 2 ^ ptr c <= 2 ^ 64) by (destruct Hc as [F|F]; rewrite F; vm_compute; congruence).
  destruct (iv_ends_R c nb k Hc Hnb Hk t ops v O E) as [l [S' HR]]. rewrite S in S'. injection S' as <-.
  assert (H0 : It_exact c nb k (iv_iter v) xs).
  { destruct HR as [Ek HI]. unfold iv_iter. rewrite Ek. now apply it_new_ok. }
  split.
  - exists (It_rep c nb k). split; [now left|]. split; [|split].
    + intros it ys Hy. destruct (iv_it_next c nb k it ys) as [it' [? [? _]]]; eauto.
    + intros it ys n Hy Hn. destruct (iv_it_nth c nb k it ys n) as [it' [E1 [E2 _]]]; eauto; [lia|].
      exists it'. split; [exact E1|]. now rewrite <- tl_skipnN.
    + intros it ys Hy. destruct (iv_it_next_back c nb k it ys) as [it' [? [? _]]]; eauto.
  - intros Hx. exists (fun it ys => It_exact c nb k it ys /\ lengthN ys < 2 ^ ptr c).
    split; [split; assumption|]. split; [|split; [|split]].
    + intros it ys [Hy Hl]. destruct (iv_it_next c nb k it ys) as [it' [E1 [_ E2]]]; auto; [now left|].
      exists it'. split; [exact E1|]. split; [auto|]. destruct ys; cbn [tl]; rewrite ?lengthN_cons in *; lia.
    + intros it ys [Hy Hl]. destruct (iv_it_next_back c nb k it ys) as [it' [E1 [_ E2]]]; auto; [now left|].
      exists it'. split; [exact E1|]. split; [auto|].
      destruct ys as [|y ys]; [cbn; rewrite lengthN_nil in *; lia|].
      destruct (app_snoc_inv (y :: ys)) as [l' [x F]]; [discriminate|]. rewrite F, removelast_snoc.
      rewrite F, lengthN_app in Hl. lia.
    + intros it ys [Hy Hl]. rewrite (it_len_ok c nb k Hc Hnb Hk it ys Hy). now rewrite as_usize_small.
    + intros it ys [Hy Hl]. unfold default_len. rewrite (it_size_hint_ok c nb k Hc Hnb Hk it ys Hy).
      rewrite to_usize_small by assumption. cbn [bind fst snd]. rewrite N.eqb_refl. reflexivity.
Qed.
Theorem C117_bit_iter : forall c nb t ops v l,
  wf_cfg c -> wf_nb nb ->
  bprogram_ok c nb t ops -> bvec_ends c nb t ops v -> snd (spec_bprogram c nb t ops) = Some l ->
  (exists R : vbiter -> list bool -> Prop, R (bvec_iter v) l /\
    steps (bit_next c nb) R /\ jumps c (bit_nth c nb) R /\ backs (bit_next_back c nb) R) /\
  (lengthN l < 2 ^ ptr c -> exists R : vbiter -> list bool -> Prop, R (bvec_iter v) l /\
    steps (bit_next c nb) R /\ backs (bit_next_back c nb) R /\ counts (it_len c) R /\
    counts (default_len (it_size_hint c)) R).
Proof.
  intros c nb t ops v l Hc Hnb O E S. pose proof (wf_ptr c Hc).
  assert (Hk : 1 <= 1 <= nb) by (destruct Hnb as [F|[F|[F|F]]]; rewrite F; lia).
  assert (Hp : 2 ^ ptr c <= 2 ^ 64) by (destruct Hc as [F|F]; rewrite F; vm_compute; congruence).
  destruct (bvec_ends_R c nb t ops v Hc Hnb O E) as [l0 [S' HR]]. rewrite S in S'. injection S' as <-.
  pose proof (bvec_iter_ok c nb Hc Hnb v l HR) as H0.
  split.
  - exists (Bit_it c nb). split; [now left|]. split; [|split].
    + intros it ys Hy. destruct (bit_next_ok c nb Hc Hnb it ys Hy) as [it' [? [? _]]]; eauto.
    + intros it ys n Hy Hn. destruct (bit_nth_ok c nb Hc Hnb it ys n Hy) as [it' [E1 [E2 _]]]; [lia|].
      exists it'. split; [exact E1|]. now rewrite <- tl_skipnN.
    + intros it ys Hy. destruct (bit_next_back_ok c nb Hc Hnb it ys Hy) as [it' [? [? _]]]; eauto.
  - intros Hx. exists (fun it ys => Bit_it_exact c nb it ys /\ lengthN ys < 2 ^ ptr c).
    split; [split; assumption|]. split; [|split; [|split]].
    + intros it ys [Hy Hl]. destruct (bit_next_ok c nb Hc Hnb it ys) as [it' [E1 [_ E2]]]; [now left|].
      exists it'. split; [exact E1|]. split; [auto|]. destruct ys; cbn [tl]; rewrite ?lengthN_cons in *; lia.
    + intros it ys [Hy Hl]. destruct (bit_next_back_ok c nb Hc Hnb it ys) as [it' [E1 [_ E2]]]; [now left|].
      exists it'. split; [exact E1|]. split; [auto|].
      destruct ys as [|y ys]; [cbn; rewrite lengthN_nil in *; lia|].
      destruct (app_snoc_inv (y :: ys)) as [l' [x F]]; [discriminate|]. rewrite F, removelast_snoc.
      rewrite F, lengthN_app in Hl. lia.
    + intros it ys [Hy Hl]. rewrite (it_len_ok c nb 1 Hc Hnb Hk it _ Hy). rewrite lengthN_map. now rewrite as_usize_small.
    + intros it ys [Hy Hl]. unfold default_len. rewrite (it_size_hint_ok c nb 1 Hc Hnb Hk it _ Hy).
      rewrite lengthN_map, to_usize_small by assumption. cbn [bind fst snd]. rewrite N.eqb_refl. reflexivity.
Qed.

(** ** The adaptors *)
Theorem C117_collect : forall T A (next : T -> res (option A * T)) R s l,
  steps next R -> R s l -> exists n0, forall fuel, (n0 <= fuel)%nat -> collect next fuel s = Ok l.
Proof.
  intros T A next R s l Hn Hs. exists (Datatypes.S (length l)). intros fuel Hf. apply (collect_ok _ R); auto.
Qed.
(** The provided [nth], which [map], [filter], [zip] and [chain] amount to. *)
Theorem C117_nth : forall c T A (next : T -> res (option A * T)) R, steps next R -> jumps c (default_nth next) R.
Proof.
  intros c T A next R H1 s l n Hs _. unfold default_nth, skipnN. replace (N.to_nat (n + 1)) with (S (N.to_nat n)) by lia.
  assert (En : nthN l n = hd_error (skipn (N.to_nat n) l)) by (symmetry; apply hd_skipnN). rewrite En. clear En.
  generalize (N.to_nat n) as m. clear n. intros m. revert s l Hs. induction m as [|m IH]; intros s l Hs.
  - destruct (H1 s l Hs) as [s' [E H]]. exists s'. cbn [calls]. rewrite E. cbn [bind]. split; [reflexivity|].
      destruct l; exact H.
  - destruct (H1 s l Hs) as [s' [E H]]. cbn [calls]. rewrite E. cbn [bind fst snd].
      destruct l as [|a l]; cbn [hd_error tl skipn] in *.
    * exists s'. split; [reflexivity|exact H].
    * destruct (IH s' l H) as [s2 [E2 H2]]. exists s2. split; [exact E2|exact H2].
Qed.
Lemma rev_steps T A (next_back : T -> res (option A * T)) R : backs next_back R -> steps next_back (fun s l => R s (rev l)).
Proof.
  intros Hb s l Hs. destruct (Hb s _ Hs) as [s' [E H]]. rewrite rev_involutive in E. exists s'. split; [exact E|].
  now rewrite removelast_rev in H.
Qed.
(** [rev] swaps the ends; its [nth] is the provided [nth_back]. *)
Theorem C117_rev : forall c T A (next next_back : T -> res (option A * T)) R,
  steps next R -> backs next_back R ->
  exists R' : T -> list A -> Prop, (forall s l, R s l -> R' s (rev l)) /\ steps next_back R' /\ backs next R' /\ jumps c (default_nth next_back) R'.
Proof.
  intros c T A next nb R Hn Hb. exists (fun s l => R s (rev l)).
  pose proof (rev_steps _ _ nb R Hb) as H1.
  split; [|split; [|split]]; auto.
  - intros s l Hs. now rewrite rev_involutive.
  - intros s l Hs. destruct (Hn s _ Hs) as [s' [E H]]. exists s'. split; [exact E|]. now rewrite rev_removelast.
  - now apply C117_nth.
Qed.
Theorem C117_skip : forall c T A (next : T -> res (option A * T)) nth R,
  steps next R -> jumps c nth R ->
  exists R' : N * T -> list A -> Prop, (forall s l n, R s l -> n < 2 ^ ptr c -> R' (n, s) (skipnN n l)) /\
    steps (skip_next next nth) R' /\ jumps c (skip_nth nth) R'.
Proof.
  intros c T A next nth R Hn Hj.
  exists (fun s l => fst s < 2 ^ ptr c /\ exists l0, R (snd s) l0 /\ l = skipnN (fst s) l0).
  split; [|split].
  - intros s l n Hs Hb. split; [exact Hb|]. now exists l.
  - intros [n s] l [Hb [l0 [Hs ->]]]. cbn [fst snd] in *. unfold skip_next. cbn [fst snd].
    destruct (n =? 0) eqn:E0.
    + replace n with 0 by lia. destruct (Hn s l0 Hs) as [s' [E H]]. exists (0, s'). rewrite E. cbn [bind fst snd].
      rewrite skipnN_0. split; [reflexivity|]. split; [lia|]. now exists (tl l0).
    + destruct (Hj s l0 n Hs Hb) as [s' [E H]]. exists (0, s'). rewrite E. cbn [bind fst snd].
      rewrite hd_skipnN. split; [reflexivity|]. split; [lia|]. exists (skipnN (n + 1) l0). split; [exact H|].
      now rewrite skipnN_0, tl_skipnN.
  - intros [n s] l m [Hb [l0 [Hs ->]]] Hm. cbn [fst snd] in *. unfold skip_nth. cbn [fst snd].
    destruct (n =? 0) eqn:E0.
    + replace n with 0 by lia. destruct (Hj s l0 m Hs Hm) as [s' [E H]]. exists (0, s'). rewrite E. cbn [bind fst snd].
      rewrite skipnN_0. split; [reflexivity|]. split; [lia|]. now exists (skipnN (m + 1) l0).
    + destruct (Hj s l0 (n - 1) Hs) as [s' [E H]]; [lia|]. rewrite E. cbn [bind fst snd].
      replace (n - 1 + 1) with n in H by lia.
      destruct (nthN l0 (n - 1)) as [a|] eqn:Ea.
      * destruct (Hj s' _ m H Hm) as [s2 [E2 H2]]. rewrite E2. cbn [bind fst snd]. exists (0, s2).
        split; [reflexivity|]. split; [cbn; lia|]. now exists (skipnN (m + 1) (skipnN n l0)).
      * assert (L : lengthN l0 <= n) by (apply nthN_None in Ea; lia). exists (0, s').
        rewrite !(skipnN_all n l0) in * by assumption.
        split; [now destruct m|]. split; [cbn; lia|]. exists []. split; [exact H|].
        cbn [fst]. rewrite skipnN_0. apply skipnN_all. rewrite lengthN_nil. lia.
Qed.
(** From the back [skip] asks for [len]: right as long as that counts, and so not after an [nth] beyond the end (below). *)
Theorem C117_skip_back : forall T A (next_back : T -> res (option A * T)) len R,
  backs next_back R -> counts len R ->
  exists R' : N * T -> list A -> Prop, (forall s l n, R s l -> R' (n, s) (skipnN n l)) /\ backs (skip_next_back next_back len) R' /\
    counts (skip_len len) R'.
Proof.
  intros T A nb len R Hb Hl. exists (fun s l => exists l0, R (snd s) l0 /\ l = skipnN (fst s) l0).
  assert (Hsk : counts (skip_len len) (fun s l => exists l0, R (snd s) l0 /\ l = skipnN (fst s) l0)).
  { intros [n s] l [l0 [Hs ->]]. cbn [fst snd] in *. unfold skip_len. cbn [fst snd]. rewrite (Hl s l0 Hs). cbn [bind].
    unfold saturating_sub. f_equal. unfold lengthN, skipnN. rewrite skipn_length. lia. }
  split; [|split]; auto.
  - intros s l n Hs. now exists l.
  - intros [n s] l HR. unfold skip_next_back. rewrite (Hsk _ _ HR). cbn [bind].
    destruct HR as [l0 [Hs El]]. cbn [fst snd] in *. destruct (0 <? lengthN l) eqn:E0.
    + assert (Hn : (N.to_nat n < length l0)%nat).
      { subst l. unfold lengthN, skipnN in E0. rewrite skipn_length in E0. lia. }
      destruct (Hb s l0 Hs) as [s' [E H]]. rewrite E. cbn [bind fst snd]. exists (n, s').
      subst l. unfold skipnN. rewrite hd_rev_skipn by assumption. split; [reflexivity|].
      exists (removelast l0). split; [exact H|]. cbn [fst]. apply removelast_skipn.
    + assert (l = []) as ->. { destruct l; [reflexivity|]. rewrite lengthN_cons in E0. lia. }
      exists (n, s). split; [reflexivity|]. exists l0. split; [exact Hs|exact El].
Qed.
Theorem C117_take : forall c T A (next : T -> res (option A * T)) nth (R : T -> list A -> Prop),
  exists R' : N * T -> list A -> Prop, (forall s l n, R s l -> n < 2 ^ ptr c -> R' (n, s) (firstnN n l)) /\
    (steps next R -> steps (take_next next) R') /\ (jumps c nth R -> jumps c (take_nth nth) R').
Proof.
  intros c T A next nth R.
  exists (fun s l => fst s < 2 ^ ptr c /\ exists l0, R (snd s) l0 /\ l = firstnN (fst s) l0).
  split; [|split].
  - intros s l n Hs Hb. split; [exact Hb|]. now exists l.
  - intros Hn [n s] l [Hb [l0 [Hs ->]]]. cbn [fst snd] in *. unfold take_next. cbn [fst snd].
    destruct (n =? 0) eqn:E0.
    + replace n with 0 by lia. exists (0, s). rewrite firstnN_0. split; [reflexivity|]. split; [cbn; lia|].
      exists l0. split; [exact Hs|]. now rewrite firstnN_0.
    + destruct (Hn s l0 Hs) as [s' [E H]]. exists (n - 1, s'). rewrite E. cbn [bind fst snd].
      unfold firstnN. replace (N.to_nat n) with (S (N.to_nat (n - 1))) by lia.
      split; [now destruct l0|]. split; [cbn; lia|]. exists (tl l0). split; [exact H|].
      destruct l0 as [|a l0]; [cbn; now destruct (N.to_nat (n - 1))|]. reflexivity.
  - intros Hj [n s] l m [Hb [l0 [Hs ->]]] Hm. cbn [fst snd] in *. unfold take_nth. cbn [fst snd].
    assert (K : forall i, nthN (firstnN n l0) i = if i <? n then nthN l0 i else None) by (intros; apply nthN_firstnN).
    destruct (m <? n) eqn:E1.
    + destruct (Hj s l0 m Hs Hm) as [s' [E H]]. exists (n - (m + 1), s'). rewrite E. cbn [bind fst snd].
      rewrite K, E1. split; [reflexivity|]. split; [cbn; lia|]. exists (skipnN (m + 1) l0). split; [exact H|].
      cbn [fst]. apply nthN_ext. intros i. rewrite nthN_skipnN, K, nthN_firstnN, nthN_skipnN.
      destruct (m + 1 + i <? n) eqn:E2, (i <? n - (m + 1)) eqn:E3; try reflexivity; lia.
    + assert (Z : skipnN (m + 1) (firstnN n l0) = []).
      { apply nthN_ext. intros i. rewrite nthN_skipnN, K. destruct (m + 1 + i <? n) eqn:E2; [lia|]. now destruct i. }
      rewrite K, E1, Z. destruct (n =? 0) eqn:E0.
      * exists (n, s). split; [reflexivity|]. split; [exact Hb|]. exists l0. split; [exact Hs|].
        cbn [fst]. replace n with 0 by lia. now rewrite firstnN_0.
      * destruct (Hj s l0 (n - 1) Hs) as [s' [E H]]; [lia|]. rewrite E. cbn [bind fst snd]. exists (0, s').
        split; [reflexivity|]. split; [cbn; lia|]. exists (skipnN (n - 1 + 1) l0). split; [exact H|].
        cbn [fst]. now rewrite firstnN_0.
Qed.
Lemma step_jump_ok c T A (nth : T -> N -> res (option A * T)) R : jumps c nth R ->
  forall fuel t l n step, R t l -> 1 <= n < 2 ^ ptr c -> 1 <= step < 2 ^ ptr c -> (N.to_nat n + N.to_nat step <= fuel)%nat ->
  exists t', step_jump nth c fuel t n step = Ok (nthN l (n * step - 1), t') /\ R t' (skipnN (n * step) l).
Proof.
  intros Hj. induction fuel as [|fuel IH]; intros t l n step Ht Hn Hs Hf; [lia|].
  cbn [step_jump]. set (M := 2 ^ ptr c) in *. assert (H1 : 1 <= n * step) by nia.
  destruct (n * step <? M) eqn:E.
  - rewrite wsub_ok by lia. cbn [bind]. destruct (Hj t l (n * step - 1) Ht ltac:(fold M; lia)) as [t' [E1 H]].
    exists t'. split; [exact E1|]. now replace (n * step - 1 + 1) with (n * step) in H by lia.
  - assert (Hge : M <= n * step) by lia. clear E.
    pose proof (N.div_mod (M - 1) n ltac:(lia)) as D1. pose proof (N.mod_lt (M - 1) n ltac:(lia)) as L1.
    pose proof (N.div_mod (M - 1) step ltac:(lia)) as D2. pose proof (N.mod_lt (M - 1) step ltac:(lia)) as L2.
    set (dn := (M - 1) / n) in *. set (ds := (M - 1) / step) in *. clearbody dn ds.
    assert (A1 : dn < step) by nia. assert (A2 : ds < n) by nia.
    assert (B1 : 1 <= dn) by nia. assert (B2 : 1 <= ds) by nia.
    assert (C1 : dn * n < M) by (rewrite N.mul_comm; lia). assert (C2 : ds * step < M) by (rewrite N.mul_comm; lia).
    rewrite wmul_ok by (fold M; lia). cbn [bind]. rewrite wmul_ok by (fold M; lia). cbn [bind].
    destruct (ds * step <? dn * n).
    + rewrite wsub_ok by lia. cbn [bind]. rewrite wsub_ok by nia. cbn [bind].
      destruct (Hj t l (dn * n - 1) Ht ltac:(fold M; lia)) as [t1 [E1 K]]. rewrite E1. cbn [bind fst snd].
      replace (dn * n - 1 + 1) with (dn * n) in K by nia.
      destruct (IH t1 _ n (step - dn) K Hn ltac:(lia) ltac:(lia)) as [t' [E2 K2]]. exists t'. rewrite E2.
      assert (X : dn * n + n * (step - dn) = n * step) by nia.
      rewrite nthN_skipnN. rewrite skipnN_skipnN, X in K2. split; [|exact K2]. f_equal. f_equal. f_equal. nia.
    + rewrite wsub_ok by lia. cbn [bind]. rewrite wsub_ok by nia. cbn [bind].
      destruct (Hj t l (ds * step - 1) Ht ltac:(fold M; lia)) as [t1 [E1 K]]. rewrite E1. cbn [bind fst snd].
      replace (ds * step - 1 + 1) with (ds * step) in K by nia.
      destruct (IH t1 _ (n - ds) step K ltac:(lia) Hs ltac:(lia)) as [t' [E2 K2]]. exists t'. rewrite E2.
      assert (X : ds * step + (n - ds) * step = n * step) by nia.
      rewrite nthN_skipnN. rewrite skipnN_skipnN, X in K2. split; [|exact K2]. f_equal. f_equal. f_equal. nia.
Qed.
Lemma step_rest c T A (nth : T -> N -> res (option A * T)) R step : jumps c nth R -> 1 <= step -> step < 2 ^ ptr c ->
  forall t l n, R t l -> n < 2 ^ ptr c ->
  exists t', (step1 <- wadd c (ptr c) (step - 1) 1 ;;
      tn <- (if n =? 2 ^ ptr c - 1 then r <- nth t (step - 1) ;; Ok (snd r, n) else m <- wadd c (ptr c) n 1 ;; Ok (t, m)) ;;
      r <- step_jump nth c (N.to_nat (snd tn) + N.to_nat step1) (fst tn) (snd tn) step1 ;;
      Ok (fst r, (step - 1, false, snd r))) = Ok (nthN l (step * n + (step - 1)), (step - 1, false, t')) /\
    R t' (skipnN (step * n + step) l).
Proof.
  intros Hj H1 Hb t l n Ht Hn. rewrite wadd_ok by lia. cbn [bind]. replace (step - 1 + 1) with step by lia.
  destruct (n =? 2 ^ ptr c - 1) eqn:E.
  - destruct (Hj t l (step - 1) Ht ltac:(lia)) as [t1 [E1 K]]. rewrite E1. cbn [bind fst snd].
    replace (step - 1 + 1) with step in K by lia.
    assert (2 <= 2 ^ ptr c \/ 2 ^ ptr c = 1) as [HM|HM] by lia.
    + destruct (step_jump_ok c T A nth R Hj (N.to_nat n + N.to_nat step) t1 _ n step K ltac:(lia) ltac:(lia) ltac:(lia)) as [t' [E2 K2]].
      rewrite E2. cbn [bind fst snd]. exists t'. rewrite nthN_skipnN. rewrite skipnN_skipnN in K2. split.
      * f_equal. f_equal. f_equal. nia. * now replace (step * n + step) with (step + n * step) by lia.
    + exfalso. lia.
  - rewrite wadd_ok by lia. cbn [bind fst snd].
    destruct (step_jump_ok c T A nth R Hj (N.to_nat (n + 1) + N.to_nat step) t l (n + 1) step Ht ltac:(lia) ltac:(lia) ltac:(lia)) as [t' [E2 K2]].
    rewrite E2. cbn [bind fst snd]. exists t'. split.
    * f_equal. f_equal. f_equal. nia. * now replace (step * n + step) with ((n + 1) * step) by lia.
Qed.
Theorem C117_step_by : forall c T A (next : T -> res (option A * T)) nth R step,
  steps next R -> jumps c nth R -> step < 2 ^ ptr c ->
  (step = 0 -> forall s : T, panics (step_by step s)) /\
  (1 <= step -> exists R' : N * bool * T -> list A -> Prop, (forall s l, R s l -> exists s', step_by step s = Ok s' /\ R' s' (every step l)) /\
     steps (step_next next nth) R' /\ jumps c (step_nth next nth c) R') /\
  (forall (l : list A) i, 1 <= step -> nthN (every step l) i = nthN l (step * i)).
Proof.
  intros c T A next nth R step Hn Hj Hb. split; [|split].
  - intros -> s. eexists. reflexivity.
  - intros H1. exists (fun (s : N * bool * T) (l : list A) => fst (fst s) = step - 1 /\ exists l0, R (snd s) l0 /\
      l = (if snd (fst s) : bool then every step l0 else every step (skipnN (step - 1) l0))).
    split; [|split].
    + intros s l Hs. exists (step - 1, true, s). unfold step_by. destruct (step =? 0) eqn:E; [lia|]. split; [reflexivity|].
      split; [reflexivity|]. now exists l.
    + intros [[st first] s] l [E1 [l0 [Hs ->]]]. cbn [fst snd] in *. subst st. unfold step_next. destruct first.
      * destruct (Hn s l0 Hs) as [s' [E H]]. rewrite E. cbn [bind fst snd]. exists (step - 1, false, s').
        destruct l0 as [|a l0]; [split; [reflexivity|]; split; [reflexivity|]; exists []; split; [exact H|];
          cbn [fst snd]; rewrite skipnN_all by (rewrite lengthN_nil; lia); reflexivity|].
        rewrite every_cons. split; [reflexivity|]. split; [reflexivity|]. exists l0. split; [exact H|reflexivity].
      * destruct (Hj s l0 (step - 1) Hs) as [s' [E H]]; [lia|]. rewrite E. cbn [bind fst snd]. exists (step - 1, false, s').
        rewrite <- hd_skipnN. rewrite <- tl_skipnN in H.
        destruct (skipnN (step - 1) l0) as [|a l1] eqn:El.
        -- split; [reflexivity|]. split; [reflexivity|]. exists []. split; [exact H|].
           cbn [fst snd]. rewrite skipnN_all by (rewrite lengthN_nil; lia). reflexivity.
        -- rewrite every_cons. split; [reflexivity|]. split; [reflexivity|]. exists l1. split; [exact H|reflexivity].
    + intros [[st first] s] l n [E1 [l0 [Hs ->]]] Hnb. cbn [fst snd] in *. subst st. unfold step_nth.
      destruct first.
      * destruct (Hn s l0 Hs) as [s1 [E H]]. rewrite E. cbn [bind fst snd].
        assert (T1 : tl l0 = skipnN 1 l0) by exact (tl_skipnN 0 l0). rewrite T1 in H.
        destruct (n =? 0) eqn:E0.
        -- exists (step - 1, false, s1). assert (n = 0) by lia. subst n. split.
           { f_equal. f_equal. rewrite nthN_every by lia. replace (step * 0) with 0 by lia. rewrite <- hd_skipnN. reflexivity. }
           split; [reflexivity|]. exists (skipnN 1 l0). split; [exact H|]. cbn [fst snd]. apply nthN_ext. intros i.
           rewrite nthN_skipnN, !nthN_every, !nthN_skipnN by lia. f_equal. nia.
        -- destruct (step_rest c T A nth R step Hj H1 Hb s1 (skipnN 1 l0) (n - 1) H ltac:(lia)) as [s2 [E2 H2]].
           rewrite E2. cbn [bind fst snd]. exists (step - 1, false, s2). split.
           { f_equal. f_equal. rewrite nthN_every, nthN_skipnN by lia. f_equal. nia. }
           split; [reflexivity|]. eexists. split; [exact H2|]. cbn [fst snd]. apply nthN_ext. intros i.
           rewrite nthN_skipnN, !nthN_every, !nthN_skipnN by lia. f_equal. nia.
      * destruct (step_rest c T A nth R step Hj H1 Hb s l0 n Hs Hnb) as [s2 [E2 H2]].
        rewrite E2. cbn [bind fst snd]. exists (step - 1, false, s2). split.
        { f_equal. f_equal. rewrite nthN_every, nthN_skipnN by lia. f_equal. nia. }
        split; [reflexivity|]. eexists. split; [exact H2|]. cbn [fst snd]. apply nthN_ext. intros i.
        rewrite nthN_skipnN, !nthN_every, !nthN_skipnN by lia. f_equal. nia.
  - intros l i H1. now apply nthN_every.
Qed.
(** [step_by] from the back, as in [v.iter().step_by(n).rev()]: right as long as the iterator's [len] is (see
    [C117_step_len_refuted]). *)
Lemma every_snoc {A} step (a : list A) x r q : 1 <= step -> lengthN a = step * q -> lengthN r < step ->
  every step (a ++ x :: r) = every step a ++ [x].
Proof.
  intros H1 Ha Hr. assert (Hq : lengthN (every step a) = q).
  { assert (G : forall i, lengthN (every step a) <= i <-> lengthN a <= step * i) by (intros i; rewrite <- !nthN_None, nthN_every by lia; tauto).
    pose proof (proj2 (G q) ltac:(lia)). destruct (N.eq_dec q 0); [lia|].
    assert (~ lengthN (every step a) <= q - 1); [|lia]. intros K. apply G in K. nia. }
  apply nthN_ext. intros i. rewrite nthN_every by lia. rewrite !nthN_app, Hq, nthN_every by lia.
  destruct (step * i <? lengthN a) eqn:E1; destruct (i <? q) eqn:E2; try nia; [reflexivity|].
  rewrite !nthN_cons, nthN_nil. destruct (i - q =? 0) eqn:E3.
  - destruct (step * i - lengthN a =? 0) eqn:E4; [reflexivity|nia].
  - destruct (step * i - lengthN a =? 0) eqn:E4; [nia|]. apply nthN_None. nia.
Qed.
Lemma back_cut {A} (a : list A) x r : nthN (rev (a ++ x :: r)) (lengthN r) = Some x /\ rev (skipnN (lengthN r + 1) (rev (a ++ x :: r))) = a.
Proof.
  rewrite rev_app_distr. cbn [rev]. rewrite <- app_assoc. cbn [app].
  assert (L : lengthN (rev r) = lengthN r) by (unfold lengthN; now rewrite rev_length). split.
  - rewrite nthN_app, L, N.ltb_irrefl, N.sub_diag, nthN_cons. reflexivity.
  - rewrite <- tl_skipnN. rewrite <- (rev_involutive a) at 2. f_equal. rewrite <- L. unfold skipnN, lengthN. rewrite Nat2N.id, skipn_app, skipn_all, Nat.sub_diag. reflexivity.
Qed.
Lemma cut_at {A} (l : list A) i : i < lengthN l -> exists a x r, l = a ++ x :: r /\ lengthN a = i /\ lengthN r = lengthN l - i - 1.
Proof.
  intros H. destruct (nthN_Some l i H) as [x E]. rewrite nthN_nth_error in E. apply nth_error_split in E. destruct E as (a & r & -> & Ea).
  assert (lengthN a = i) by (unfold lengthN; lia). exists a, x, r. split; [reflexivity|]. split; [assumption|]. rewrite lengthN_app, lengthN_cons. lia.
Qed.
Lemma step_back_laws c T A (next_back : T -> res (option A * T)) len R step :
  backs next_back R -> counts len R -> 1 <= step < 2 ^ ptr c ->
  let R' := fun (s : N * bool * T) (l : list A) => fst (fst s) = step - 1 /\ exists l0, R (snd s) l0 /\
      l = (if snd (fst s) : bool then every step l0 else every step (skipnN (step - 1) l0)) in
  (forall s l, R s l -> exists s', step_by step s = Ok s' /\ R' s' (every step l)) /\
    backs (step_next_back len c (default_nth next_back)) R' /\ counts (step_len len) R'.
Proof.
  revert next_back. intros nb Hb Hl [H1 Hs] R'. unfold R'. clear R'.
  split; [|split].
  - intros s l Hr. exists (step - 1, true, s). unfold step_by. destruct (step =? 0) eqn:E; [lia|]. split; [reflexivity|]. split; [reflexivity|]. now exists l.
  - intros [[st first] s] l [E1 [l0 [Hr ->]]]. cbn [fst snd] in *. subst st. unfold step_next_back. rewrite (Hl s l0 Hr). cbn [bind].
    rewrite wadd_ok by lia. cbn [bind]. replace (step - 1 + 1) with step by lia. unfold wmod. destruct (step =? 0) eqn:E0; [lia|]. cbn [bind].
    assert (J : forall n, n < 2 ^ ptr c -> exists s', default_nth nb s n = Ok (nthN (rev l0) n, s') /\ R s' (rev (skipnN (n + 1) (rev l0)))).
    { intros n Hn. apply (C117_nth c T A nb _ (rev_steps _ _ nb R Hb) s (rev l0) n); [now rewrite rev_involutive|exact Hn]. }
    pose proof (N.div_mod (lengthN l0) step ltac:(lia)) as D. pose proof (N.mod_lt (lengthN l0) step ltac:(lia)) as M.
    set (rem := lengthN l0 mod step) in *. set (q := lengthN l0 / step) in *. clearbody rem q.
    destruct first.
    + assert (Hk : exists k, (if rem =? 0 then Ok (step - 1) else wsub c (ptr c) rem 1) = Ok k /\ k < step /\
        (lengthN l0 = 0 \/ exists q', lengthN l0 = step * q' + k + 1)).
      { destruct (rem =? 0) eqn:Er.
        - exists (step - 1). split; [reflexivity|]. split; [lia|]. destruct (N.eq_dec q 0); [left; nia|right; exists (q - 1); nia].
        - exists (rem - 1). rewrite wsub_ok by lia. split; [reflexivity|]. split; [lia|]. right. exists q. lia. }
      destruct Hk as (k & Ek & Hk & Hn). rewrite Ek. cbn [bind]. destruct (J k ltac:(lia)) as (s' & Es & HR). rewrite Es. cbn [bind fst snd].
      exists (step - 1, true, s'). destruct Hn as [Hn|[q' Hn]].
      * assert (l0 = []) by (destruct l0; [reflexivity|rewrite lengthN_cons in Hn; lia]). subst l0.
        split; [cbn [rev]; now rewrite nthN_nil|]. split; [reflexivity|]. exists []. split; [|reflexivity].
        cbn [rev] in HR. rewrite skipnN_all in HR by (rewrite lengthN_nil; lia). exact HR.
      * destruct (cut_at l0 (step * q') ltac:(lia)) as (a & x & r & -> & Ha & Hr'). assert (Hkr : k = lengthN r) by lia. subst k.
        destruct (back_cut a x r) as [B1 B2]. rewrite B1. rewrite B2 in HR. rewrite (every_snoc step a x r q' H1 Ha Hk), rev_app_distr, removelast_snoc.
        split; [reflexivity|]. split; [reflexivity|]. exists a. split; [exact HR|reflexivity].
    + cbn [bind]. destruct (J rem ltac:(lia)) as (s' & Es & HR). rewrite Es. cbn [bind fst snd]. exists (step - 1, false, s').
      destruct (N.eq_dec q 0) as [->|Hq].
      * assert (Hz : skipnN (step - 1) l0 = []) by (apply skipnN_all; lia). rewrite Hz.
        assert (Hlr : lengthN (rev l0) = lengthN l0) by (unfold lengthN; now rewrite rev_length).
        rewrite (proj2 (nthN_None (rev l0) rem)) by lia. rewrite skipnN_all in HR by lia. split; [reflexivity|]. split; [reflexivity|].
        exists []. split; [exact HR|]. cbn [snd fst]. rewrite skipnN_all by (rewrite lengthN_nil; lia). reflexivity.
      * destruct (cut_at l0 (step * q - 1) ltac:(nia)) as (a & x & r & -> & Ha & Hr'). assert (Hkr : rem = lengthN r) by nia. subst rem.
        destruct (back_cut a x r) as [B1 B2]. rewrite B1. rewrite B2 in HR.
        assert (Hsk : skipnN (step - 1) (a ++ x :: r) = skipnN (step - 1) a ++ x :: r).
        { unfold skipnN. rewrite skipn_app. replace (N.to_nat (step - 1) - length a)%nat with O by (unfold lengthN in Ha; nia). reflexivity. }
        rewrite Hsk. rewrite (every_snoc step (skipnN (step - 1) a) x r (q - 1) H1) by (rewrite ?lengthN_skipnN; nia).
        rewrite rev_app_distr, removelast_snoc. split; [reflexivity|]. split; [reflexivity|]. exists a. split; [exact HR|reflexivity].
  - intros [[st first] s] l [E1 [l0 [Hr ->]]]. cbn [fst snd] in *. subst st. unfold step_len. rewrite (Hl s l0 Hr). cbn [bind]. f_equal.
    replace (step - 1 + 1) with step by lia.
    assert (G : forall (m : list A) n, (forall i, n <= i <-> lengthN m <= step * i) -> n = lengthN (every step m)).
    { intros m n Hm. assert (K : forall i, lengthN (every step m) <= i <-> n <= i).
      { intros i. rewrite Hm, <- !nthN_None, nthN_every by lia. tauto. }
      pose proof (proj1 (K _) (N.le_refl _)). pose proof (proj2 (K _) (N.le_refl _)). lia. }
    destruct first; apply G; intros i.
    + destruct (lengthN l0 =? 0) eqn:E0; [assert (lengthN l0 = 0) by lia; rewrite H; lia|].
      pose proof (N.div_mod (lengthN l0 - 1) step ltac:(lia)) as D. pose proof (N.mod_lt (lengthN l0 - 1) step ltac:(lia)) as M.
      set (rem := (lengthN l0 - 1) mod step) in *. set (q := (lengthN l0 - 1) / step) in *. clearbody rem q. split; intros K; nia.
    + rewrite lengthN_skipnN.
      pose proof (N.div_mod (lengthN l0) step ltac:(lia)) as D. pose proof (N.mod_lt (lengthN l0) step ltac:(lia)) as M.
      set (rem := lengthN l0 mod step) in *. set (q := lengthN l0 / step) in *. clearbody rem q. split; intros K; nia.
Qed.
Theorem C117_step_back : forall c T A (next_back : T -> res (option A * T)) len R step,
  backs next_back R -> counts len R -> 1 <= step < 2 ^ ptr c ->
  exists R' : N * bool * T -> list A -> Prop, (forall s l, R s l -> exists s', step_by step s = Ok s' /\ R' s' (every step l)) /\
    backs (step_next_back len c (default_nth next_back)) R' /\ counts (step_len len) R'.
Proof. intros c T A nb len R step Hb Hl Hs. eexists. exact (step_back_laws c T A nb len R step Hb Hl Hs). Qed.
Example C117_step_back_ex : exists v s,
  snd (iv_program dbg32 8 5 100 INew (map IPush [0; 1; 2; 3; 4; 5; 6; 7])) = Ok v /\ step_by 3 (iv_iter v) = Ok s /\
  collect (step_next_back (it_len dbg32) dbg32 (default_nth (it_next_back dbg32 8))) 100 s = Ok [6; 3; 0] /\
  step_len (it_len dbg32) s = Ok 3.
Proof. do 2 eexists. repeat (split; [vm_compute; reflexivity|]). vm_compute; reflexivity. Qed.
Theorem C117_map : forall T A B (next next_back : T -> res (option A * T)) (R : T -> list A -> Prop) (f : A -> B),
  exists R' : T -> list B -> Prop, (forall s l, R s l -> R' s (map f l)) /\
    (steps next R -> steps (map_next next f) R') /\ (backs next_back R -> backs (map_next next_back f) R').
Proof.
  intros T A B next nb R f. exists (fun s l => exists l0, R s l0 /\ l = map f l0). split; [|split].
  - intros s l Hs. now exists l.
  - intros Hn s l [l0 [Hs ->]]. destruct (Hn s l0 Hs) as [s' [E H]]. exists s'. unfold map_next. rewrite E.
    cbn [bind fst snd]. split; [now destruct l0|]. exists (tl l0). split; [exact H|apply map_tl].
  - intros Hn s l [l0 [Hs ->]]. destruct (Hn s l0 Hs) as [s' [E H]]. exists s'. unfold map_next. rewrite E.
    cbn [bind fst snd]. rewrite <- map_rev. split; [now destruct (rev l0)|]. exists (removelast l0). split; [exact H|].
    destruct l0 as [|a l0]; [reflexivity|]. destruct (app_snoc_inv (a :: l0)) as [l' [x ->]]; [discriminate|].
    rewrite map_app. cbn [map]. now rewrite !removelast_snoc.
Qed.
Lemma filter_next_laws T A (next : T -> res (option A * T)) R (p : A -> bool) :
  steps next R -> let R' := fun s l => exists l0 : list A, R s l0 /\ l = filter p l0 in
    forall s l, R' s l -> exists n0 s', (forall fuel, (n0 <= fuel)%nat -> filter_next next p fuel s = Ok (hd_error l, s')) /\
      R' s' (tl l).
Proof.
  intros Hn R'. unfold R'. clear R'.
  - intros s l [l0 [Hs ->]]. revert s Hs. induction l0 as [|a l0 IH]; intros s Hs.
    + destruct (Hn s [] Hs) as [s' [E H]]. exists 1%nat, s'. split; [|now exists []].
      intros [|f] Hf; [lia|]. cbn [filter_next]. now rewrite E.
    + destruct (Hn s _ Hs) as [s' [E H]]. cbn [hd_error tl filter] in *. destruct (p a) eqn:Ep.
      * exists 1%nat, s'. split; [|now exists l0]. intros [|f] Hf; [lia|]. cbn [filter_next]. rewrite E.
        cbn [bind fst]. rewrite Ep. reflexivity.
      * destruct (IH s' H) as [n0 [s2 [E2 H2]]]. exists (S n0), s2. split; [|exact H2].
        intros [|f] Hf; [lia|]. cbn [filter_next]. rewrite E. cbn [bind fst snd]. rewrite Ep. apply E2. lia.
Qed.
Theorem C117_filter : forall T A (next : T -> res (option A * T)) R (p : A -> bool),
  steps next R -> exists R' : T -> list A -> Prop, (forall s l, R s l -> R' s (filter p l)) /\
    forall s l, R' s l -> exists n0 s', (forall fuel, (n0 <= fuel)%nat -> filter_next next p fuel s = Ok (hd_error l, s')) /\
      R' s' (tl l).
Proof.
  intros T A next R p Hn. exists (fun s l => exists l0, R s l0 /\ l = filter p l0). split; [|exact (filter_next_laws T A next R p Hn)].
  intros s l Hs. now exists l.
Qed.
Theorem C117_enumerate : forall c T A (next : T -> res (option A * T)) next_back len R,
  steps next R -> exists R' : N * T -> list (N * A) -> Prop, (forall s l i, R s l -> i + lengthN l < 2 ^ ptr c -> R' (i, s) (numbered i l)) /\
    steps (enum_next next c) R' /\
    (forall nth, jumps c nth R -> jumps c (enum_nth nth c) R') /\
    (backs next_back R -> counts len R -> backs (enum_next_back next_back len c) R').
Proof.
  intros c T A next nb len R Hn.
  exists (fun s l => exists l0, R (snd s) l0 /\ fst s + lengthN l0 < 2 ^ ptr c /\ l = numbered (fst s) l0).
  split; [|split; [|split]].
  - intros s l i Hs Hb. now exists l.
  - intros [i s] l [l0 [Hs [Hb ->]]]. cbn [fst snd] in *. destruct (Hn s l0 Hs) as [s' [E H]]. unfold enum_next.
    cbn [fst snd]. rewrite E. cbn [bind fst snd]. destruct l0 as [|a l0]; cbn [hd_error numbered tl] in *.
    + exists (i, s'). split; [reflexivity|]. now exists [].
    + rewrite lengthN_cons in Hb. rewrite wadd_ok by lia. cbn [bind]. exists (i + 1, s'). split; [reflexivity|].
      exists l0. split; [exact H|]. split; [cbn; lia|reflexivity].
  - intros nth Hj [i s] l n [l0 [Hs [Hb ->]]] Hp. cbn [fst snd] in *. destruct (Hj s l0 n Hs Hp) as [s' [E H]].
    unfold enum_nth. cbn [fst snd]. rewrite E. cbn [bind fst snd]. rewrite nthN_numbered, skipnN_numbered.
    destruct (nthN l0 n) as [a|] eqn:En.
    + apply nthN_lt in En. rewrite wadd_ok by lia. cbn [bind]. rewrite wadd_ok by lia. cbn [bind].
      exists (i + n + 1, s'). split; [reflexivity|]. exists (skipnN (n + 1) l0). split; [exact H|]. cbn [fst snd].
      split; [rewrite lengthN_skipnN; lia|]. f_equal. lia.
    + apply nthN_None in En. exists (i, s'). split; [reflexivity|]. exists (skipnN (n + 1) l0). split; [exact H|].
      cbn [fst snd]. rewrite skipnN_all by lia. split; [rewrite lengthN_nil; lia|reflexivity].
  - intros Hk Hl [i s] l [l0 [Hs [Hb ->]]]. cbn [fst snd] in *. destruct (Hk s l0 Hs) as [s' [E H]].
    unfold enum_next_back. cbn [fst snd]. rewrite E. cbn [bind fst snd].
    destruct l0 as [|a l0]; [exists (i, s'); split; [reflexivity|]; now exists []|].
    destruct (app_snoc_inv (a :: l0)) as [l' [x F]]; [discriminate|]. rewrite F in *. clear a l0 F.
    rewrite removelast_snoc in H. rewrite lengthN_app in Hb. change (lengthN [x]) with 1 in Hb.
    rewrite rev_app_distr. cbn [rev app hd_error]. rewrite (Hl s' l' H). cbn [bind]. rewrite wadd_ok by lia. cbn [bind].
    exists (i, s'). rewrite numbered_app. cbn [numbered]. rewrite rev_app_distr. split; [reflexivity|].
    exists l'. rewrite removelast_snoc. split; [exact H|]. split; [cbn; lia|reflexivity].
Qed.
Theorem C117_zip : forall T A U B (next : T -> res (option A * T)) (next' : U -> res (option B * U)) R S,
  steps next R -> steps next' S ->
  exists R' : T * U -> list (A * B) -> Prop, (forall s l t m, R s l -> S t m -> R' (s, t) (combine l m)) /\ steps (zip_next next next') R'.
Proof.
  intros T A U B next next' R S Hn Hn'. exists (fun s l => exists l0 m0, R (fst s) l0 /\ S (snd s) m0 /\ l = combine l0 m0).
  split.
  - intros s l t m Hs Ht. now exists l, m.
  - intros [s t] l [l0 [m0 [Hs [Ht ->]]]]. cbn [fst snd] in *. destruct (Hn s l0 Hs) as [s' [E H]]. unfold zip_next.
    cbn [fst snd]. rewrite E. cbn [bind fst snd]. destruct l0 as [|a l0]; cbn [hd_error tl combine] in *.
    + exists (s', t). split; [reflexivity|]. exists [], m0. auto.
    + destruct (Hn' t m0 Ht) as [t' [E' H']]. rewrite E'. cbn [bind fst snd]. exists (s', t').
      split; [now destruct m0|]. exists l0, (tl m0). split; [exact H|]. split; [exact H'|].
      destruct m0; [now destruct l0|reflexivity].
Qed.
Lemma chain_next_laws T A U (next : T -> res (option A * T)) (next' : U -> res (option A * U)) (R : T -> list A -> Prop) (S : U -> list A -> Prop) :
  steps next R -> steps next' S ->
  steps (chain_next next next') (fun s l => exists l0 m0, match fst s with Some x => R x l0 | None => l0 = [] end /\
    match snd s with Some x => S x m0 | None => m0 = [] end /\ l = l0 ++ m0).
Proof.
  intros Hn Hn'.
  - intros [s t] l [l0 [m0 [Hs [Ht ->]]]]. cbn [fst snd] in *.
    assert (Hr : forall t m0, match t with Some x => S x m0 | None => m0 = [] end -> exists s',
      match t with
      | None => Ok (None, (@None T, None))
      | Some u => r <- next' u ;; Ok (fst r, (None, match fst r with Some _ => Some (snd r) | None => None end))
      end = Ok (hd_error m0, s') /\
      exists l1 m1, match fst s' with Some x => R x l1 | None => l1 = [] end /\
        match snd s' with Some x => S x m1 | None => m1 = [] end /\ tl m0 = l1 ++ m1).
    { clear - Hn'. intros [u|] m0 Hm.
      - destruct (Hn' u m0 Hm) as [u' [E H]]. rewrite E. cbn [bind fst snd]. eexists. split; [reflexivity|].
        exists [], (tl m0). cbn [fst snd]. split; [reflexivity|]. split; [|reflexivity]. destruct m0; [reflexivity|exact H].
      - subst m0. eexists. split; [reflexivity|]. exists [], []. split; [reflexivity|]. split; reflexivity. }
    unfold chain_next. cbn [fst snd]. destruct s as [s|].
    + destruct (Hn s l0 Hs) as [s' [E H]]. rewrite E. cbn [bind fst snd]. destruct l0 as [|a l0]; cbn [hd_error tl app] in *.
      * exact (Hr t m0 Ht).
      * exists (Some s', t). split; [reflexivity|]. exists l0, m0. auto.
    + subst l0. exact (Hr t m0 Ht).
Qed.
Theorem C117_chain : forall T A U (next : T -> res (option A * T)) (next' : U -> res (option A * U)) R S,
  steps next R -> steps next' S ->
  exists R' : option T * option U -> list A -> Prop,
    (forall s l t m, R s l -> S t m -> R' (Some s, Some t) (l ++ m)) /\ steps (chain_next next next') R'.
Proof.
  intros T A U next next' R S Hn Hn'. eexists. split; [|exact (chain_next_laws T A U next next' R S Hn Hn')].
  intros s l t m Hs Ht. now exists l, m.
Qed.

(** [v.iter().step_by(2).step_by(3)] on fourteen elements, and [nth] of the first; on a 32-bit target the product of
    [2^16] and [2^16 + 1] takes two calls. *)
Example C117_step_nth_ex : exists v s,
  snd (iv_program dbg32 8 5 100 INew (map IPush [0; 1; 2; 3; 4; 5; 6; 7; 8; 9; 10; 11; 12; 13])) = Ok v /\
  step_by 2 (iv_iter v) = Ok s /\
  (s2 <- step_by 3 s ;;
   collect (step_next (step_next (it_next dbg32 8) (it_nth dbg32 8)) (step_nth (it_next dbg32 8) (it_nth dbg32 8) dbg32)) 100 s2)
    = Ok [0; 6; 12] /\
  (r <- step_nth (it_next dbg32 8) (it_nth dbg32 8) dbg32 s 5 ;; Ok (fst r)) = Ok (Some 10) /\
  (r <- step_jump (fun (t : list N) n => Ok (Some n, n :: t)) dbg32 30 [] 65536 65537 ;; Ok r) = Ok (Some 65536, [65536; 4294967294]).
Proof. do 2 eexists. repeat (split; [vm_compute; reflexivity|]). vm_compute; reflexivity. Qed.

(** ** A pipeline: [v.iter().rev().skip(a).step_by(b).take(m).enumerate().zip(w.iter())] *)
Theorem C117_pipeline : forall c nb k t ops v xs wt wops w bs a b m,
  wf_cfg c -> wf_nb nb -> 1 <= k <= nb ->
  iprogram_ok c nb k t ops -> iv_ends c nb k t ops v -> snd (spec_iprogram c nb k t ops) = Some xs ->
  bprogram_ok c nb wt wops -> bvec_ends c nb wt wops w -> snd (spec_bprogram c nb wt wops) = Some bs ->
  a < 2 ^ ptr c -> 1 <= b < 2 ^ ptr c -> m < 2 ^ ptr c ->
  exists s, step_by b (a, iv_iter v) = Ok s /\
  exists n0, forall fuel, (n0 <= fuel)%nat ->
    collect (zip_next (enum_next (take_next (step_next
        (skip_next (it_next_back c nb) (default_nth (it_next_back c nb)))
        (skip_nth (default_nth (it_next_back c nb))))) c) (bit_next c nb))
      fuel ((0, (m, s)), bvec_iter w) =
    Ok (combine (numbered 0 (firstnN m (every b (skipnN a (rev xs))))) bs).
Proof.
  intros c nb k t ops v xs wt wops w bs a b m Hc Hnb Hk O E S Ow Ew Sw Ha Hb Hm.
  destruct (C117_int_iter c nb k t ops v xs Hc Hnb Hk O E S) as [[R [H0 [H1 [_ H2]]]] _].
  destruct (C117_bit_iter c nb wt wops w bs Hc Hnb Ow Ew Sw) as [[Q [Q0 [Q1 _]]] _].
  destruct (C117_rev c _ _ _ _ R H1 H2) as [R1 [A1 [B1 [_ C1]]]].
  destruct (C117_skip c _ _ _ _ R1 B1 C1) as [R2 [A2 [B2 C2]]].
  destruct (C117_step_by c _ _ _ _ R2 b B2 C2) as [_ [H _]]; [lia|].
  destruct (H (proj1 Hb)) as [R3 [A3 [B3 _]]]. clear H.
  destruct (A3 (a, iv_iter v) (skipnN a (rev xs))) as [s [Es Hs]]; [apply A2; auto|].
  exists s. split; [exact Es|].
  destruct (C117_take c _ _ (step_next (skip_next (it_next_back c nb) (default_nth (it_next_back c nb)))
        (skip_nth (default_nth (it_next_back c nb)))) (fun _ _ => OutOfFuel) R3) as [R4 [A4 [B4 _]]].
  specialize (B4 B3).
  destruct (C117_enumerate c _ _ _ (fun _ => OutOfFuel) (fun _ => OutOfFuel) R4 B4) as [R5 [A5 [B5 _]]].
  destruct (C117_zip _ _ _ _ _ _ R5 Q B5 Q1) as [R6 [A6 B6]].
  eapply C117_collect; [exact B6|]. apply A6; [|exact Q0]. apply A5.
  - apply A4; assumption.
  - cbn [N.add]. unfold lengthN, firstnN. rewrite firstn_length. lia.
Qed.
Definition C117_v : list iop := map IPush [3; 1; 4; 1; 5; 9; 2; 6].
Definition C117_w : list bop := map BPushBit [true; false; true].
Example C117_ex : exists v w s,
  snd (iv_program dbg32 8 5 100 INew C117_v) = Ok v /\ snd (bvec_program dbg32 8 100 BNew C117_w) = Ok w /\
  step_by 2 (1, iv_iter v) = Ok s /\
  collect (zip_next (enum_next (take_next (step_next
        (skip_next (it_next_back dbg32 8) (default_nth (it_next_back dbg32 8)))
        (skip_nth (default_nth (it_next_back dbg32 8))))) dbg32) (bit_next dbg32 8))
      100 ((0, (5, s)), bvec_iter w) = Ok [((0, 2), true); ((1, 5), false); ((2, 4), true)].
Proof. do 3 eexists. repeat (split; [vm_compute; reflexivity|]). vm_compute; reflexivity. Qed.

(** [v.iter().skip(5).rev()], [v.iter().enumerate().rev()], [v.iter().chain(v.iter().rev())] and a filtered and mapped
    iterator *)
Example C117_ex2 : exists v,
  snd (iv_program dbg32 8 5 100 INew C117_v) = Ok v /\
  collect (skip_next_back (it_next_back dbg32 8) (default_len (it_size_hint dbg32))) 100 (5, iv_iter v) = Ok [6; 2; 9] /\
  collect (enum_next_back (it_next_back dbg32 8) (it_len dbg32) dbg32) 100 (0, iv_iter v) =
    Ok [(7, 6); (6, 2); (5, 9); (4, 5); (3, 1); (2, 4); (1, 1); (0, 3)] /\
  collect (chain_next (it_next dbg32 8) (it_next_back dbg32 8)) 100 (Some (iv_iter v), Some (iv_iter v)) =
    Ok [3; 1; 4; 1; 5; 9; 2; 6; 6; 2; 9; 5; 1; 4; 1; 3] /\
  collect (filter_next (map_next (it_next dbg32 8) (N.mul 3)) N.even 100) 100 (iv_iter v) = Ok [12; 6; 18] /\
  take_nth (it_nth dbg32 8) (4, iv_iter v) 4 =
    Ok (None, (0, {| it_start := 4; it_limit := 8; it_bits := 5; it_data := iv_base v |})).
Proof. eexists. repeat (split; [vm_compute; reflexivity|]). vm_compute; reflexivity. Qed.

(** ** What goes wrong: [nth] leaves the iterator beyond its end, and then [len] is wrong. *)
(** [let mut it = v.iter().skip(10); it.next(); it.next_back()] on three elements: the first call returns [None], the
    second panics with overflow checks. *)
Theorem C117_skip_back_refuted : exists v s,
  snd (iv_program dbg64 8 5 100 INew (map IPush [3; 1; 4])) = Ok v /\
  skip_next (it_next dbg64 8) (it_nth dbg64 8) (10, iv_iter v) = Ok (None, s) /\
  panics (skip_next_back (it_next_back dbg64 8) (default_len (it_size_hint dbg64)) s).
Proof. do 2 eexists. repeat (split; [vm_compute; reflexivity|]). eexists. vm_compute. reflexivity. Qed.
(** [v.iter().step_by(2)] run to its end: [len] (and [size_hint]) then panics with overflow checks and is nearly
    2^63 without. *)
Theorem C117_step_len_refuted : exists v s1 s2 s3,
  snd (iv_program rel64 8 5 100 INew (map IPush [3; 1; 4])) = Ok v /\
  step_by 2 (iv_iter v) = Ok s1 /\
  step_next (it_next rel64 8) (it_nth rel64 8) s1 = Ok (Some 3, s2) /\
  (r <- step_next (it_next rel64 8) (it_nth rel64 8) s2 ;;
   step_next (it_next rel64 8) (it_nth rel64 8) (snd r)) = Ok (None, s3) /\
  step_len (default_len (it_size_hint rel64)) s2 = Ok 1 /\
  step_len (default_len (it_size_hint rel64)) s3 = Ok (2 ^ 63 - 1) /\
  panics (step_len (default_len (it_size_hint dbg64)) s3).
Proof. do 4 eexists. repeat (split; [vm_compute; reflexivity|]). eexists. vm_compute. reflexivity. Qed.

Print Assumptions C117_int_iter.
Print Assumptions C117_bit_iter.
Print Assumptions C117_collect.
Print Assumptions C117_nth.
Print Assumptions C117_rev.
Print Assumptions C117_skip.
Print Assumptions C117_skip_back.
Print Assumptions C117_take.
Print Assumptions C117_step_by.
Print Assumptions C117_step_back.
Print Assumptions C117_map.
Print Assumptions C117_filter.
Print Assumptions C117_enumerate.
Print Assumptions C117_zip.
Print Assumptions C117_chain.
Print Assumptions C117_pipeline.
Print Assumptions C117_skip_back_refuted.
Print Assumptions C117_step_len_refuted.
