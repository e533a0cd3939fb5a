From Verif Require Import Machine SpecBits SpecOps SpecLaws PBase MStorage MTraits MVectorBase MBitVector MIntVector MBitSlice MStream MPanic SpecPanic.
From Verif Require Import PRun PIntRun.
From Verif Require Import SpecOps.

(** ** The methods are those of the model *)

Lemma pfor_for {S L} (body : N -> L -> pm S L) (f : N -> S * L -> res (S * L)) n : forall i l s,
  (forall i l s, forget (body i l s) = f i (s, l)) ->
  forget (pfor n i body l s) = for_loop n i f (s, l).
Proof.
  induction n as [|n IH]; intros i l s H; [reflexivity|]. cbn [pfor for_loop]. rewrite <- H. unfold pbind.
  destruct (body i l s) as [[l'|p|] s']; cbn; [|reflexivity..]. now apply IH.
Qed.
Lemma pfor_for1 {S} (body : N -> unit -> pm S unit) (f : N -> S -> res S) n : forall i s,
  (forall i s, state (body i tt s) = f i s) ->
  state (pfor n i body tt s) = for_loop n i f s.
Proof.
  induction n as [|n IH]; intros i s H; [reflexivity|]. cbn [pfor for_loop]. rewrite <- H. unfold pbind.
  destruct (body i tt s) as [[[]|p|] s']; cbn; [|reflexivity..]. now apply IH.
Qed.
Lemma pwhile_loop {S} (body : pm S bool) (f : S -> res (flow S S)) fuel : forall s,
  (forall s, f s = match body s with (Ok true, s') => Ok (Continue s') | (Ok false, s') => Ok (Return s')
                   | (Panic p, _) => Panic p | (OutOfFuel, _) => OutOfFuel end) ->
  state (pwhile fuel body s) = loop_fuel fuel f s.
Proof.
  induction fuel as [|n IH]; intros s H; [reflexivity|]. cbn [pwhile loop_fuel]. rewrite H. unfold pbind.
  destruct (body s) as [[[|]|p|] s']; cbn; auto.
Qed.
Lemma state_forget {S A} (r : res A * S) : state r = (x <- forget r ;; Ok (fst x)).
Proof. now destruct r as [[]]. Qed.

Lemma state_bind {S A} (m : pm S unit) (k : unit -> pm S A) s :
  state (pbind m k s) = (s' <- state (m s) ;; state (k tt s')).
Proof. unfold pbind. now destruct (m s) as [[[]|p|] s']. Qed.
Lemma state_look {S A B} (f : S -> res A) (k : A -> pm S B) s : state (pbind (look f) k s) = (a <- f s ;; state (k a s)).
Proof. unfold pbind, look. now destruct (f s). Qed.
Lemma state_pure {S A B} (r : res A) (k : A -> pm S B) s : state (pbind (pure r) k s) = (a <- r ;; state (k a s)).
Proof. unfold pbind, pure. now destruct r. Qed.

Ltac pstep := match goal with
  | |- ?x = ?x => reflexivity
  | |- context [match ?r with Ok _ => _ | Panic _ => _ | OutOfFuel => _ end] =>
      lazymatch r with
      | context [match _ with _ => _ end] => fail
      | _ => destruct r eqn:?
      end
  | |- context [let (_, _) := ?r in _] => lazymatch r with context [match _ with _ => _ end] => fail | _ => destruct r eqn:? end
  | |- context [if ?b then _ else _] => lazymatch b with context [match _ with _ => _ end] => fail | _ => destruct b eqn:? end
  end.
Ltac pm_cbn := unfold pbind, pret, pure, look, store, atomic, within, state, forget, bind;
  cbn [fst snd vb_len vb_vec put_vec put_len iv_bits iv_base].
Ltac psolve := unfold in_vec, in_base, put_vec, put_len, put_base; pm_cbn; repeat (pstep; pm_cbn); try reflexivity.

Section Same.
  Context {T : Type} (c : cfg) (nb : N).
  Variables (bit_len block_len : T -> res N) (get_block : T -> N -> res N).
  Variables (set_bit : N -> bool -> pm T unit) (set_bit' : T -> N -> bool -> res T).
  Variables (set_block : N -> N -> pm T unit) (set_block' : T -> N -> N -> res T).
  Variables (push_bit : bool -> pm T unit) (push_bit' : T -> bool -> res T).
  Hypothesis Hsb : forall t i b, state (set_bit i b t) = set_bit' t i b.
  Hypothesis Hsk : forall t i x, state (set_block i x t) = set_block' t i x.
  Hypothesis Hpb : forall t b, state (push_bit b t) = push_bit' t b.

  Lemma pdefault_set_bit_same t i b :
    state (pdefault_set_bit c nb bit_len get_block set_block i b t) = default_set_bit c nb bit_len get_block set_block' t i b.
  Proof.
    unfold pdefault_set_bit, default_set_bit, pbind, look, pure, bind.
    repeat pstep; try reflexivity. now rewrite <- Hsk.
  Qed.
  Lemma pdefault_set_block_same t i x :
    state (pdefault_set_block c nb bit_len block_len set_bit i x t) = default_set_block c nb bit_len block_len set_bit' t i x.
  Proof.
    unfold pdefault_set_block, default_set_block, pfor_range, for_range.
    assert (E : forall n start i l s, forget (pfor n i (fun i value =>
        pbind (pure (wadd c 64 start i)) (fun p => pbind (set_bit p (negb (N.land value 1 =? 0))) (fun _ => pure (wshr c nb value 1)))) l s) =
      for_loop n i (fun i (st : T * N) => let (t, value) := st in
        p <- wadd c 64 start i ;; t' <- set_bit' t p (negb (N.land value 1 =? 0)) ;; v' <- wshr c nb value 1 ;; Ok (t', v')) (s, l)).
    { intros. apply pfor_for. intros j l' s'. unfold pbind, pure, bind. destruct (wadd c 64 start j); [|reflexivity..].
      rewrite <- Hsb. destruct (set_bit a (negb (N.land l' 1 =? 0)) s') as [[[]|p|] s'']; cbn; [|reflexivity..].
      now destruct (wshr c nb l' 1). }
    unfold pbind at 1 2 3 4 5. unfold look, pure, bind at 1 2 3 4.
    destruct (wadd c (ptr c) i 1); [|reflexivity..]. destruct (block_len t); [|reflexivity..].
    destruct (a =? a0); unfold pbind, pret, pure, bind at 1.
    - destruct (bit_len t); [|reflexivity..]. destruct (last_block_bits c nb a1); [|reflexivity..].
      destruct (mul_nbits c nb i); [|reflexivity..]. rewrite <- E. unfold pbind, pure, bind.
      destruct (pfor _ _ _ _ _) as [[]]; reflexivity.
    - destruct (mul_nbits c nb i); [|reflexivity..]. rewrite <- E. unfold pbind, pure, bind.
      destruct (pfor _ _ _ _ _) as [[]]; reflexivity.
  Qed.
  Lemma pdefault_set_bits_same t i n x :
    state (pdefault_set_bits c nb bit_len get_block set_block i n x t) = default_set_bits c nb bit_len get_block set_block' t i n x.
  Proof.
    unfold pdefault_set_bits, default_set_bits.
    repeat first [rewrite state_pure | rewrite state_look | rewrite state_bind; rewrite Hsk | rewrite Hsk
      | match goal with |- bind ?r _ = bind ?r _ => destruct r; [cbn [bind]|reflexivity..] end
      | match goal with |- context [if ?b then _ else _] => destruct b end | reflexivity | progress cbn [bind]].
  Qed.
  Lemma pdefault_align_block_same f t b :
    state (pdefault_align_block c nb bit_len push_bit f b t) = default_align_block c nb bit_len push_bit' f t b.
  Proof.
    unfold pdefault_align_block, default_align_block. apply pwhile_loop. intros s. unfold pbind, look, pure, bind, pret.
    destruct (bit_len s); [|reflexivity..]. destruct (mod_nbits c nb a); [|reflexivity..]. destruct (a0 =? 0); [reflexivity|].
    rewrite <- Hpb. now destruct (push_bit b s) as [[[]|p|] s'].
  Qed.
  Lemma pdefault_push_block_same f t x :
    state (pdefault_push_block c nb bit_len push_bit f x t) = default_push_block c nb bit_len push_bit' f t x.
  Proof.
    unfold pdefault_push_block, default_push_block, pfor_range, for_range. rewrite <- pdefault_align_block_same.
    unfold pbind at 1. destruct (pdefault_align_block _ _ _ _ _ _ _) as [[[]|p|] s']; [|reflexivity..]. cbn [state]. unfold bind at 1.
    rewrite <- (pfor_for (fun _ value => pbind (push_bit (negb (N.land value 1 =? 0))) (fun _ => pure (wshr c nb value 1)))).
    - unfold pbind at 1. destruct (pfor _ _ _ _ _) as [[]]; reflexivity.
    - intros _ l s. unfold pbind, pure, bind. rewrite <- Hpb. destruct (push_bit _ s) as [[]]; [|reflexivity..]. cbn. now destruct (wshr c nb l 1).
  Qed.
End Same.

Section Same2.
  Variables (c : cfg) (nb : N).

  Lemma pblocks_set_block_same l i x : state (pblocks_set_block i x l) = blocks_set_block l i x.
  Proof. unfold pblocks_set_block, blocks_set_block. psolve. Qed.
  Lemma pblocks_set_bit_same l i b : state (pblocks_set_bit c nb i b l) = blocks_set_bit c nb l i b.
  Proof. apply pdefault_set_bit_same, pblocks_set_block_same. Qed.
  Lemma pblocks_set_bits_same l i n x : state (pblocks_set_bits c nb i n x l) = blocks_set_bits c nb l i n x.
  Proof. apply pdefault_set_bits_same, pblocks_set_block_same. Qed.
  Lemma in_vec_same (m : pm (list N) unit) (f : list N -> res (list N)) v : (forall l, state (m l) = f l) ->
    state (in_vec m v) = (l <- f (vb_vec v) ;; Ok {| vb_len := vb_len v; vb_vec := l |}).
  Proof. intros H. unfold in_vec, within. rewrite <- H. now destruct (m (vb_vec v)) as [[[]|p|] l]. Qed.
  Lemma in_base_same (m : pm vbase unit) (f : vbase -> res vbase) v : (forall b, state (m b) = f b) ->
    state (in_base m v) = (b <- f (iv_base v) ;; Ok {| iv_bits := iv_bits v; iv_base := b |}).
  Proof. intros H. unfold in_base, within. rewrite <- H. now destruct (m (iv_base v)) as [[[]|p|] l]. Qed.
  Lemma clear_extra_same k v : state (p_clear_extra_bits c nb k v) = clear_extra_bits c nb k v.
  Proof.
    unfold p_clear_extra_bits, clear_extra_bits, blocks. destruct v as [len vec]. cbn [vb_len vb_vec].
    rewrite state_look. destruct (wmul c 64 _ k); [|reflexivity..]. cbn [bind]. rewrite state_look. cbn [bind vb_vec].
    destruct vec as [|x t]; [reflexivity|].
    replace (lengthN (x :: t) =? 0) with false by (symmetry; apply N.eqb_neq; unfold lengthN; cbn; lia). cbn [vb_vec].
    rewrite state_pure. destruct (last_block_bits c nb a); [|reflexivity..]. cbn [bind].
    rewrite state_pure. destruct (low_mask c nb a0); reflexivity.
  Qed.
  Lemma set_len_same k v : state (p_set_len_from_blocks c nb k v) = set_len_from_blocks c nb k v.
  Proof.
    unfold p_set_len_from_blocks, set_len_from_blocks, blocks. rewrite state_look. cbn [bind]. rewrite state_pure.
    destruct (mul_nbits c nb _); [|reflexivity..]. cbn [bind]. rewrite state_pure. destruct (wdiv a k); [|reflexivity..]. cbn [bind].
    rewrite state_bind. apply clear_extra_same.
  Qed.
  Lemma vb_set_block_same k v i x : state (p_vb_set_block c nb k i x v) = vb_set_block c nb k v i x.
  Proof.
    unfold p_vb_set_block, vb_set_block. rewrite state_bind, (in_vec_same _ (fun l => blocks_set_block l i x)) by (intros; apply pblocks_set_block_same).
    unfold blocks_set_block. destruct (index_set _ i x); [|reflexivity..]. cbn [bind]. rewrite state_pure.
    destruct (wadd c (ptr c) i 1); [|reflexivity..]. cbn [bind]. unfold blocks. rewrite state_look. cbn [bind vb_vec].
    destruct (a0 =? lengthN a); [apply clear_extra_same|reflexivity].
  Qed.
  Lemma vb_set_bits_same k v i n x : state (p_vb_set_bits c nb k i n x v) = vb_set_bits c nb k v i n x.
  Proof.
    unfold p_vb_set_bits, vb_set_bits. rewrite state_pure. destruct (wadd c 64 i n); [|reflexivity..]. cbn [bind].
    rewrite state_look. destruct (wmul c 64 _ k); [|reflexivity..]. cbn [bind]. rewrite state_pure. destruct (assert_ _); [|reflexivity..]. cbn [bind].
    apply (in_vec_same _ (fun b => blocks_set_bits c nb b i n x)). intros; apply pblocks_set_bits_same.
  Qed.
  Lemma vb_set_bit_same v i y : state (p_vb_set_bit c nb i y v) = vb_set_bit c nb v i y.
  Proof.
    unfold p_vb_set_bit, vb_set_bit. rewrite state_look. cbn [bind]. rewrite state_pure. destruct (assert_ _); [|reflexivity..]. cbn [bind].
    apply (in_vec_same _ (fun b => blocks_set_bit c nb b i y)). intros; apply pblocks_set_bit_same.
  Qed.
  Lemma atomic_same {S} (f : S -> res S) s : state (atomic f s) = f s.
  Proof. unfold atomic. now destruct (f s). Qed.
  Lemma vb_push_block_same k v x : state (p_vb_push_block c nb k x v) = vb_push_block c nb k v x.
  Proof.
    unfold p_vb_push_block, vb_push_block. rewrite state_bind, (in_vec_same _ _ _ (atomic_same _)).
    destruct (vec_push c nb _ x); [|reflexivity..]. apply set_len_same.
  Qed.
  Lemma vb_pop_block_same k v : forget (p_vb_pop_block c nb k v) = (r <- vb_pop_block c nb k v ;; Ok (snd r, fst r)).
  Proof.
    unfold p_vb_pop_block, vb_pop_block, pbind, in_vec, within. destruct (vec_pop (vb_vec v)) as [r l]. rewrite <- set_len_same.
    unfold put_vec. now destruct (p_set_len_from_blocks c nb k _) as [[[]|p|] s].
  Qed.
  Lemma vb_push_bits_same k v x : state (p_vb_push_bits c nb k x v) = vb_push_bits c nb k v x.
  Proof.
    unfold p_vb_push_bits, vb_push_bits, blocks. rewrite state_look. destruct (wadd c 64 _ 1) eqn:E1; [|reflexivity..]. cbn [bind].
    rewrite state_pure. destruct (wmul c 64 k a); [|reflexivity..]. cbn [bind]. rewrite state_look. cbn [bind].
    rewrite state_pure. destruct (mul_nbits c nb _); [|reflexivity..]. cbn [bind]. rewrite state_bind.
    replace (state ((if a1 <? a0 then in_vec (atomic (fun l => vec_push c nb l 0)) else pret tt) v)) with
      (vec <- (if a1 <? a0 then vec_push c nb (vb_vec v) 0 else Ok (vb_vec v)) ;; Ok {| vb_len := vb_len v; vb_vec := vec |}).
    2: { destruct (a1 <? a0); [now rewrite (in_vec_same _ _ _ (atomic_same _))|now destruct v]. }
    destruct (if a1 <? a0 then _ else _); [|reflexivity..]. cbn [bind]. rewrite state_look. cbn [bind vb_len]. rewrite state_pure, E1. cbn [bind].
    rewrite state_bind. cbn [store state bind put_len vb_vec]. rewrite state_pure. destruct (wmul c 64 _ k); [|reflexivity..]. cbn [bind]. apply vb_set_bits_same.
  Qed.
  Lemma vb_push_bit_same v b : state (p_vb_push_bit c nb b v) = vb_push_bit c nb v b.
  Proof.
    unfold p_vb_push_bit, vb_push_bit, blocks. rewrite state_look. destruct (wadd c 64 _ 1) eqn:E1; [|reflexivity..]. cbn [bind].
    rewrite state_look. cbn [bind].
    rewrite state_pure. destruct (mul_nbits c nb _); [|reflexivity..]. cbn [bind]. rewrite state_bind.
    replace (state ((if a0 <? a then in_vec (atomic (fun l => vec_push c nb l 0)) else pret tt) v)) with
      (vec <- (if a0 <? a then vec_push c nb (vb_vec v) 0 else Ok (vb_vec v)) ;; Ok {| vb_len := vb_len v; vb_vec := vec |}).
    2: { destruct (a0 <? a); [now rewrite (in_vec_same _ _ _ (atomic_same _))|now destruct v]. }
    destruct (if a0 <? a then _ else _); [|reflexivity..]. cbn [bind]. rewrite state_look. cbn [bind vb_len]. rewrite state_pure, E1. cbn [bind].
    rewrite state_bind. apply vb_set_bit_same.
  Qed.
  Lemma forget_look {S A B} (f : S -> res A) (k : A -> pm S B) s : forget (pbind (look f) k s) = (a <- f s ;; forget (k a s)).
  Proof. unfold pbind, look. now destruct (f s). Qed.
  Lemma forget_pure {S A B} (r : res A) (k : A -> pm S B) s : forget (pbind (pure r) k s) = (a <- r ;; forget (k a s)).
  Proof. unfold pbind, pure. now destruct r. Qed.
  Lemma forget_bind {S A} (m : pm S unit) (k : unit -> pm S A) s :
    forget (pbind m k s) = (s' <- state (m s) ;; forget (k tt s')).
  Proof. unfold pbind. now destruct (m s) as [[[]|p|] s']. Qed.
  Lemma vb_pop_bits_same k v : forget (p_vb_pop_bits c nb k v) = (r <- vb_pop_bits c nb k v ;; Ok (snd r, fst r)).
  Proof.
    unfold p_vb_pop_bits, vb_pop_bits, blocks. rewrite forget_look. cbn [bind]. destruct (vb_len v =? 0); [reflexivity|].
    rewrite forget_pure. destruct (wsub c 64 (vb_len v) 1); [|reflexivity..]. cbn [bind].
    rewrite forget_pure. destruct (wmul c 64 k a); [|reflexivity..]. cbn [bind].
    rewrite forget_pure. destruct (ceil_div_nbits c nb a0); [|reflexivity..]. cbn [bind].
    rewrite forget_look. destruct (vb_get_bits c nb k v a0 k); [|reflexivity..]. cbn [bind].
    rewrite forget_bind, vb_set_bits_same. destruct (vb_set_bits c nb k v a0 k 0) as [v1| |]; [|reflexivity..]. cbn [bind].
    rewrite forget_look. destruct (wsub c 64 (vb_len v1) 1); [|reflexivity..]. cbn [bind].
    rewrite forget_bind. cbn [store state bind]. rewrite forget_look. cbn [bind put_len vb_vec].
    now destruct (a1 <? lengthN (vb_vec v1)).
  Qed.
  Lemma vb_pop_bit_same v : forget (p_vb_pop_bit c nb v) = (r <- vb_pop_bit c nb v ;; Ok (snd r, fst r)).
  Proof.
    unfold p_vb_pop_bit, vb_pop_bit, blocks. rewrite forget_look. cbn [bind]. destruct (vb_len v =? 0); [reflexivity|].
    rewrite forget_pure. destruct (wsub c 64 (vb_len v) 1); [|reflexivity..]. cbn [bind].
    rewrite forget_look. destruct (vb_get_bit c nb v a); [|reflexivity..]. cbn [bind].
    rewrite forget_bind, vb_set_bit_same. destruct (vb_set_bit c nb v a false) as [v1| |]; [|reflexivity..]. cbn [bind].
    rewrite forget_bind. cbn [store state bind].
    rewrite forget_pure. destruct (ceil_div_nbits c nb a); [|reflexivity..]. cbn [bind].
    rewrite forget_look. cbn [bind put_len vb_vec].
    now destruct (a1 <? lengthN (vb_vec v1)).
  Qed.
  Lemma vb_block_truncate_same k v n : state (p_vb_block_truncate c nb k n v) = vb_block_truncate c nb k v n.
  Proof.
    unfold p_vb_block_truncate, vb_block_truncate, blocks. rewrite state_look. cbn [bind]. destruct (n <? _); [|reflexivity].
    rewrite state_bind. apply set_len_same.
  Qed.
  Lemma vb_truncate_same k v n : state (p_vb_truncate c nb k n v) = vb_truncate c nb k v n.
  Proof.
    unfold p_vb_truncate, vb_truncate. rewrite state_look. cbn [bind]. destruct (n <? _); [|reflexivity].
    rewrite state_pure. destruct (wmul c 64 n k); [|reflexivity..]. cbn [bind].
    rewrite state_pure. destruct (ceil_div_nbits c nb a); [|reflexivity..]. cbn [bind].
    rewrite state_bind. cbn [in_vec within store state bind]. rewrite state_bind. apply clear_extra_same.
  Qed.
  Lemma vb_clear_same v : state (p_vb_clear v) = vb_clear v.
  Proof. reflexivity. Qed.
  Lemma vb_block_resize_same k v n x : state (p_vb_block_resize c nb k n x v) = vb_block_resize c nb k v n x.
  Proof.
    unfold p_vb_block_resize, vb_block_resize. rewrite state_bind, (in_vec_same _ _ _ (atomic_same _)).
    destruct (vec_resize c nb _ n x); [|reflexivity..]. apply set_len_same.
  Qed.
  Lemma vb_resize_same k v n x : state (p_vb_resize c nb k n x v) = vb_resize c nb k v n x.
  Proof.
    unfold p_vb_resize, vb_resize. rewrite state_pure. destruct (len_to_block_len c nb k n); [|reflexivity..]. cbn [bind].
    rewrite state_pure. destruct (expect a) as [bl| |]; [|reflexivity..]. cbn [bind].
    rewrite state_bind, (in_vec_same _ _ _ (atomic_same _)). destruct (vec_resize c nb _ bl 0) as [vec| |]; [|reflexivity..]. cbn [bind].
    rewrite state_look. cbn [bind vb_len]. rewrite state_bind. cbn [store state bind put_len vb_vec].
    destruct (n <=? vb_len v); [apply clear_extra_same|].
    unfold pfor_range, for_range. apply pfor_for1. intros j s. rewrite state_pure. destruct (wmul c 64 j k); [|reflexivity..].
    apply vb_set_bits_same.
  Qed.
  Lemma bvec_set_bits_same v s n x : state (p_bvec_set_bits c nb s n x v) = bvec_set_bits c nb v s n x.
  Proof. apply pdefault_set_bits_same. intros. apply vb_set_block_same. Qed.
  Lemma bvec_align_same f v b : state (p_bvec_align_block c nb f b v) = bvec_align_block c nb f v b.
  Proof. apply pdefault_align_block_same. intros. apply vb_push_bit_same. Qed.
  Lemma bvec_resize_same v n b : state (p_bvec_resize c nb n b v) = bvec_resize c nb v n b.
  Proof.
    unfold p_bvec_resize, bvec_resize. rewrite state_pure. destruct (checked_ceil_div_nbits c nb n); [|reflexivity..]. cbn [bind].
    rewrite state_pure. destruct (expect a) as [bl| |]; [|reflexivity..]. cbn [bind]. rewrite state_look. cbn [bind].
    rewrite state_bind. destruct (_ || _).
    - unfold p_bvec_block_resize, bvec_block_resize. rewrite vb_block_resize_same. destruct (vb_block_resize _ _ _ _ _ _); [|reflexivity..]. apply vb_truncate_same.
    - rewrite state_pure. destruct (last_block_bits c nb (vb_len v)); [|reflexivity..]. cbn [bind].
      rewrite state_pure. destruct (wsub c (ptr c) nb a0); [|reflexivity..]. cbn [bind]. rewrite state_bind.
      unfold pfor_range, for_range. rewrite (pfor_for1 _ (fun _ v => vb_push_bit c nb v true)) by (intros; apply vb_push_bit_same).
      destruct (for_loop _ _ _ _); [|reflexivity..]. cbn [bind].
      unfold p_bvec_block_resize, bvec_block_resize. rewrite vb_block_resize_same. destruct (vb_block_resize _ _ _ _ _ _); [|reflexivity..]. apply vb_truncate_same.
  Qed.
  Lemma punit_same {S} (m : pm S unit) s : forget (punit m s) = unit_ (state (m s)).
  Proof. unfold punit, unit_. rewrite forget_bind. now destruct (state (m s)). Qed.

  Lemma bvec_step_same fuel v op : forget (p_bvec_step c nb fuel op v) = bvec_step c nb fuel v op.
  Proof.
    destruct op; cbn [p_bvec_step bvec_step]; rewrite ?punit_same, ?forget_look.
    - f_equal. apply vb_push_bit_same.
    - transitivity (r <- forget (p_vb_pop_bit c nb v) ;; Ok (fst r, OOptBool (snd r))).
      + unfold p_bvec_pop_bit, pbind. now destruct (p_vb_pop_bit c nb v) as [[]].
      + rewrite vb_pop_bit_same. unfold bvec_pop_bit. now destruct (vb_pop_bit c nb v).
    - f_equal. apply vb_push_block_same.
    - f_equal. apply bvec_align_same.
    - f_equal. apply vb_set_bit_same.
    - f_equal. apply vb_set_block_same.
    - f_equal. apply bvec_set_bits_same.
    - f_equal. apply bvec_resize_same.
    - f_equal. apply vb_block_resize_same.
    - f_equal. apply vb_truncate_same.
    - f_equal. apply vb_block_truncate_same.
    - reflexivity.
    - reflexivity.
    - reflexivity.
    - reflexivity.
    - reflexivity.
    - reflexivity.
    - reflexivity.
  Qed.

  Lemma iv_set_random_same v off w i x : state (p_iv_set_random c nb off w i x v) = iv_set_random c nb v off w i x.
  Proof.
    unfold p_iv_set_random, iv_set_random, width. rewrite state_pure. destruct (check_value_random c nb w x); [|reflexivity..]. cbn [bind].
    rewrite state_pure. destruct (compute_address_random off w i); [|reflexivity..]. cbn [bind]. rewrite state_look. cbn [bind].
    apply (in_base_same _ (fun b => vb_set_bits c nb (iv_bits v) b a0 w x)). intros; apply vb_set_bits_same.
  Qed.
  Lemma iv_push_same v x : state (p_iv_push c nb x v) = iv_push c nb v x.
  Proof.
    unfold p_iv_push, iv_push, width. rewrite state_look. destruct (check_value c nb v x); [|reflexivity..]. cbn [bind].
    rewrite state_look. cbn [bind]. apply (in_base_same _ (fun b => vb_push_bits c nb (iv_bits v) b x)). intros; apply vb_push_bits_same.
  Qed.
  Lemma iv_pop_same v : forget (p_iv_pop c nb v) = (r <- iv_pop c nb v ;; Ok (snd r, fst r)).
  Proof.
    unfold p_iv_pop, iv_pop, width. rewrite forget_look. cbn [bind]. unfold in_base, within.
    pose proof (vb_pop_bits_same (iv_bits v) (iv_base v)) as E.
    destruct (p_vb_pop_bits c nb (iv_bits v) (iv_base v)) as [[o|p|] b]; destruct (vb_pop_bits c nb (iv_bits v) (iv_base v)) as [r| |];
      cbn in *; try discriminate; first [now injection E as -> -> | congruence].
  Qed.
  Lemma iv_set_same v i x : state (p_iv_set c nb i x v) = iv_set c nb v i x.
  Proof.
    unfold p_iv_set, iv_set, width. rewrite state_look. cbn [bind]. rewrite state_look. cbn [bind].
    destruct (iv_is_block_sized nb v).
    - apply (in_base_same _ (fun b => vb_set_block c nb (iv_bits v) b (as_usize c i) x)). intros; apply vb_set_block_same.
    - rewrite state_look. destruct (check_value c nb v x); [|reflexivity..]. cbn [bind].
      rewrite state_look. destruct (compute_address v i); [|reflexivity..]. cbn [bind]. apply (in_base_same _ (fun b => vb_set_bits c nb (iv_bits v) b a0 (iv_bits v) x)). intros; apply vb_set_bits_same.
  Qed.
  Lemma iv_set_block_same v i x : state (p_iv_set_block c nb i x v) = iv_set_block c nb v i x.
  Proof. unfold p_iv_set_block, iv_set_block, width. rewrite state_look. cbn [bind]. apply (in_base_same _ (fun b => vb_set_block c nb (iv_bits v) b i x)). intros; apply vb_set_block_same. Qed.
  Lemma iv_step_same fuel v op : forget (p_iv_step c nb fuel op v) = iv_step c nb fuel v op.
  Proof.
    destruct op; cbn [p_iv_step iv_step]; rewrite ?punit_same, ?forget_look; try reflexivity.
    - f_equal. apply iv_push_same.
    - transitivity (r <- forget (p_iv_pop c nb v) ;; Ok (fst r, OOptInt (snd r))).
      + unfold pbind. now destruct (p_iv_pop c nb v) as [[]].
      + rewrite iv_pop_same. now destruct (iv_pop c nb v).
    - f_equal. apply iv_set_same.
    - f_equal. unfold p_iv_resize, width. rewrite state_look. apply (in_base_same _ (fun b => vb_resize c nb (iv_bits v) b n x)). intros; apply vb_resize_same.
    - f_equal. unfold p_iv_block_resize, width. rewrite state_look. apply (in_base_same _ (fun b => vb_block_resize c nb (iv_bits v) b n x)). intros; apply vb_block_resize_same.
    - f_equal. unfold p_iv_truncate, width. rewrite state_look. apply (in_base_same _ (fun b => vb_truncate c nb (iv_bits v) b n)). intros; apply vb_truncate_same.
    - f_equal. unfold p_iv_block_truncate, width. rewrite state_look. apply (in_base_same _ (fun b => vb_block_truncate c nb (iv_bits v) b n)). intros; apply vb_block_truncate_same.
    - f_equal. apply iv_set_random_same.
    - f_equal. apply pdefault_set_bit_same. intros; apply iv_set_block_same.
    - f_equal. apply iv_set_block_same.
    - f_equal. apply pdefault_set_bits_same. intros; apply iv_set_block_same.
  Qed.
End Same2.

(** ** A panic leaves the state as it was *)

(** Unless [m] succeeds it leaves the state [s] as it was. *)
Definition keeps {S A} (m : pm S A) (s : S) : Prop := match m s with (Ok _, _) => True | (_, s') => s' = s end.

Lemma keeps_pure_bind {S A B} (r : res A) (k : A -> pm S B) s : (forall a, r = Ok a -> keeps (k a) s) -> keeps (pbind (pure r) k) s.
Proof. unfold keeps, pbind, pure. intros H. destruct r; auto. now apply H. Qed.
Lemma keeps_look_bind {S A B} (f : S -> res A) (k : A -> pm S B) s : (forall a, f s = Ok a -> keeps (k a) s) -> keeps (pbind (look f) k) s.
Proof. unfold keeps, pbind, look. intros H. destruct (f s); auto. now apply H. Qed.
Lemma keeps_bind {S A B} (m : pm S A) (k : A -> pm S B) s :
  keeps m s -> (forall a s', m s = (Ok a, s') -> exists b s'', k a s' = (Ok b, s'')) -> keeps (pbind m k) s.
Proof.
  unfold keeps, pbind. intros H K. destruct (m s) as [[a|p|] s'] eqn:E; auto. destruct (K a s' eq_refl) as [b [s'' ->]]. exact I.
Qed.
Lemma keeps_pret {S A} (a : A) (s : S) : keeps (pret a) s. Proof. exact I. Qed.
Lemma keeps_atomic {S} (f : S -> res S) s : keeps (atomic f) s.
Proof. unfold keeps, atomic. now destruct (f s). Qed.
Lemma keeps_within {S T A} (get : S -> T) (put : S -> T -> S) (m : pm T A) s :
  (forall s, put s (get s) = s) -> keeps m (get s) -> keeps (within get put m) s.
Proof. unfold keeps, within. intros H K. destruct (m (get s)) as [[a|p|] t]; subst; auto. Qed.
Lemma keeps_in_vec {A} (m : pm (list N) A) v : keeps m (vb_vec v) -> keeps (in_vec m) v.
Proof. apply keeps_within. now intros []. Qed.
Lemma keeps_in_base {A} (m : pm vbase A) v : keeps m (iv_base v) -> keeps (in_base m) v.
Proof. apply keeps_within. now intros []. Qed.
Lemma keeps_ok {S A} (m : pm S A) s : (exists s', state (m s) = Ok s') -> keeps m s.
Proof. unfold keeps. intros [s' H]. destruct (m s) as [[a|p|] t]; auto; discriminate. Qed.
Lemma keeps_punit {S} (m : pm S unit) s : keeps m s -> keeps (punit m) s.
Proof. unfold keeps, punit, pbind, pret. destruct (m s) as [[a|p|] t]; auto. Qed.
Lemma nofail_state {S} (m : pm S unit) s s' : state (m s) = Ok s' -> exists b s'', m s = (Ok b, s'').
Proof. destruct (m s) as [[a|p|] t]; try discriminate. eauto. Qed.

(** Once a block could be read it can be written, and the same blocks can be read thereafter. *)
Definition writable {T} (get_block : T -> N -> res N) (set_block : N -> N -> pm T unit) (Inv : T -> Prop) : Prop :=
  forall t i y x, Inv t -> get_block t i = Ok y ->
    exists t', set_block i x t = (Ok tt, t') /\ Inv t' /\ forall j z, get_block t j = Ok z -> exists z', get_block t' j = Ok z'.

Section KeepDefaults.
  Context {T : Type} (c : cfg) (nb : N).
  Variables (bit_len : T -> res N) (get_block : T -> N -> res N) (set_block : N -> N -> pm T unit) (Inv : T -> Prop).
  Hypothesis W : writable get_block set_block Inv.
  Lemma pdefault_set_bit_keeps i b t : Inv t -> keeps (pdefault_set_bit c nb bit_len get_block set_block i b) t.
  Proof.
    intros HI. unfold pdefault_set_bit.
    repeat first [apply keeps_look_bind | apply keeps_pure_bind]; intros.
    repeat first [apply keeps_look_bind | apply keeps_pure_bind]; intros.
    repeat first [apply keeps_look_bind | apply keeps_pure_bind]; intros.
    repeat first [apply keeps_look_bind | apply keeps_pure_bind]; intros.
    repeat first [apply keeps_look_bind | apply keeps_pure_bind]; intros.
    destruct (W t _ _ a3 HI H2) as [t' [E _]]. unfold keeps. now rewrite E.
  Qed.
  Lemma pdefault_set_bits_keeps i n x t : Inv t -> keeps (pdefault_set_bits c nb bit_len get_block set_block i n x) t.
  Proof.
    intros HI. unfold pdefault_set_bits.
    apply keeps_pure_bind; intros lim _. apply keeps_look_bind; intros bl _. apply keeps_pure_bind; intros _ _.
    apply keeps_pure_bind; intros a _. apply keeps_pure_bind; intros m _. destruct (n <=? m).
    - apply keeps_look_bind; intros old H. apply keeps_pure_bind; intros new _.
      destruct (W t _ _ new HI H) as [t' [E _]]. unfold keeps. now rewrite E.
    - apply keeps_pure_bind; intros ex _. apply keeps_look_bind; intros o1 H1. apply keeps_pure_bind; intros i2 H2.
      apply keeps_look_bind; intros o2 H3. apply keeps_pure_bind; intros hb _. apply keeps_pure_bind; intros n1 _.
      apply keeps_pure_bind; intros n2 _. destruct (W t _ _ n1 HI H1) as [t' [E [HI' K]]].
      destruct (K _ _ H3) as [z Hz]. destruct (W t' _ _ n2 HI' Hz) as [t'' [E' _]].
      unfold keeps, pbind, pure. rewrite E, H2, E'. exact I.
  Qed.
End KeepDefaults.

Lemma nthN_updN_some {A} (l : list A) i x j z : nthN l j = Some z -> exists z', nthN (updN l i x) j = Some z'.
Proof.
  intros H. destruct (nthN (updN l i x) j) eqn:E; [eauto|]. exfalso. apply nthN_None in E. rewrite lengthN_updN in E.
  apply nthN_None in E. congruence.
Qed.
Lemma index_some {A} (l : list A) i y : index l i = Ok y -> nthN l i = Some y.
Proof. unfold index. destruct (nthN l i); congruence. Qed.
Lemma index_set_some {A} (l : list A) i y x : index l i = Ok y -> index_set l i x = Ok (updN l i x).
Proof.
  intros H. apply index_some in H. unfold index_set. destruct (i <? lengthN l) eqn:E; [reflexivity|].
  assert (nthN l i = None) by (apply nthN_None; lia). congruence.
Qed.
Lemma blocks_writable : writable blocks_get_block pblocks_set_block (fun _ => True).
Proof.
  intros l i y x _ H. unfold pblocks_set_block, atomic, blocks_get_block in *. rewrite (index_set_some l i y x H).
  eexists; split; [reflexivity|]. split; [exact I|]. intros j z Hz. apply index_some in Hz.
  destruct (nthN_updN_some l i x j z Hz) as [z' Hz']. exists z'. unfold index. now rewrite Hz'.
Qed.
Lemma pblocks_set_bit_keeps c nb i b l : keeps (pblocks_set_bit c nb i b) l.
Proof. apply (pdefault_set_bit_keeps _ _ _ _ _ _ blocks_writable). exact I. Qed.
Lemma pblocks_set_bits_keeps c nb i n x l : keeps (pblocks_set_bits c nb i n x) l.
Proof. apply (pdefault_set_bits_keeps _ _ _ _ _ _ blocks_writable). exact I. Qed.
Lemma p_vb_set_bits_keeps c nb k i n x v : keeps (p_vb_set_bits c nb k i n x) v.
Proof.
  unfold p_vb_set_bits. apply keeps_pure_bind; intros. apply keeps_look_bind; intros. apply keeps_pure_bind; intros.
  apply keeps_in_vec, pblocks_set_bits_keeps.
Qed.
Lemma p_vb_set_bit_keeps c nb i b v : keeps (p_vb_set_bit c nb i b) v.
Proof.
  unfold p_vb_set_bit. apply keeps_look_bind; intros. apply keeps_pure_bind; intros.
  apply keeps_in_vec, pblocks_set_bit_keeps.
Qed.

Section KeepBase.
  Variables (c : cfg) (nb k : N).
  Hypothesis Hc : wf_cfg c.
  Hypothesis Hnb : wf_nb nb.
  Hypothesis Hk : 1 <= k <= nb.
  (** The lengths are in range. *)
  Definition in_range (v : vbase) : Prop := vb_len v * k < 2 ^ 64 /\ lengthN (vb_vec v) < 2 ^ ptr c.
  Lemma Vrep_in_range v l : Vrep c nb k v l -> in_range v.
  Proof.
    intros [E [El Hf]]. split.
    - pose proof (fits_lt64 c nb _ (wf_nb_pos nb Hnb) Hf). lia.
    - rewrite E, lengthN_pack. now apply fits_ptr.
  Qed.
  Lemma clear_extra_total v : vb_len v * k < 2 ^ 64 ->
    exists v', p_clear_extra_bits c nb k v = (Ok tt, v') /\ vb_len v' = vb_len v /\ lengthN (vb_vec v') = lengthN (vb_vec v).
  Proof.
    intros H. unfold p_clear_extra_bits, pbind, look, blocks, pure. rewrite wmul_ok by exact H.
    destruct (lengthN (vb_vec v) =? 0) eqn:E0; [exists v; auto|].
    rewrite last_block_bits_ok by assumption. rewrite low_mask_ok; auto.
    - eexists. split; [reflexivity|]. cbn. split; [reflexivity|]. unfold MVectorBase.map_last.
      rewrite <- (rev_involutive (vb_vec v)) at 2. destruct (rev (vb_vec v)) as [|y t]; [reflexivity|]. cbn [rev].
      unfold lengthN. now rewrite !app_length.
    - pose proof (wf_nb_pos nb Hnb). destruct (vb_len v * k mod nb =? 0); [lia|]. pose proof (N.mod_lt (vb_len v * k) nb). lia.
  Qed.
  Lemma vb_writable : writable vb_get_block (p_vb_set_block c nb k) in_range.
  Proof.
    intros v i y x [HI1 HI2] H. unfold vb_get_block in *. unfold p_vb_set_block, pblocks_set_block, in_vec, within, atomic, pbind, pure, look, blocks.
    rewrite (index_set_some _ i y x H). cbn [put_vec].
    assert (Hi : i < lengthN (vb_vec v)).
    { apply index_some in H. destruct (N.lt_ge_cases i (lengthN (vb_vec v))) as [G|G]; [exact G|]. apply nthN_None in G. congruence. }
    rewrite wadd_ok by lia. unfold put_vec. cbn [vb_vec].
    assert (K : forall vec : list N, lengthN vec = lengthN (vb_vec v) -> forall j z, index (vb_vec v) j = Ok z -> exists z', index vec j = Ok z').
    { intros vec El j z Hz. apply index_some in Hz. unfold index. destruct (nthN vec j) eqn:E; [eauto|].
      apply nthN_None in E. rewrite El in E. apply nthN_None in E. congruence. }
    destruct (i + 1 =? lengthN (updN (vb_vec v) i x)).
    - destruct (clear_extra_total (put_vec v (updN (vb_vec v) i x)) HI1) as [v' [E [L1 L2]]]. unfold put_vec in E; rewrite E. cbn in L1, L2.
      rewrite lengthN_updN in L2. exists v'. split; [reflexivity|]. split; [split; rewrite ?L1, ?L2; assumption|]. now apply K.
    - eexists. split; [reflexivity|]. cbn. split; [split; cbn; rewrite ?lengthN_updN; assumption|].
      apply K. apply lengthN_updN.
  Qed.
  Lemma p_vb_set_block_keeps i x v : in_range v -> keeps (p_vb_set_block c nb k i x) v.
  Proof.
    intros HI. destruct (index (vb_vec v) i) as [y| |] eqn:E.
    - destruct (vb_writable v i y x HI E) as [v' [H _]]. unfold keeps. now rewrite H.
    - unfold keeps, p_vb_set_block, in_vec, within, pblocks_set_block, atomic, pbind.
      assert (index_set (vb_vec v) i x = Panic PIndex) as ->.
      { unfold index in E. destruct (nthN (vb_vec v) i) eqn:E1; [discriminate|]. apply nthN_None in E1. unfold index_set.
        destruct (i <? lengthN (vb_vec v)) eqn:E2; [lia|reflexivity]. }
      now destruct v.
    - unfold index in E. destruct (nthN _ _); discriminate.
  Qed.
  Lemma p_vb_push_bits_keeps v l x : Vrep c nb k v l -> x < 2 ^ nb -> keeps (p_vb_push_bits c nb k x) v.
  Proof.
    intros HV Hx. destruct (fitsb c nb (lengthN l + k)) eqn:F.
    - apply keeps_ok. rewrite vb_push_bits_same. destruct (vb_push_bits_ok c nb k Hc Hnb Hk v l x HV Hx) as [v' [E _]]; [now apply fitsb_spec|]. eauto.
    - apply fitsb_false in F. pose proof HV as [E [El Hf0]]. pose proof (fits_lt64 c nb _ (wf_nb_pos nb Hnb) Hf0) as H63.
      pose proof (wf_nb_range nb Hnb).
      unfold p_vb_push_bits. apply keeps_look_bind; intros l1 H1. rewrite wadd_ok in H1 by nia. injection H1 as <-.
      apply keeps_pure_bind; intros need H2. rewrite wmul_ok in H2 by nia. injection H2 as <-.
      apply keeps_look_bind; intros n H3. injection H3 as <-. apply keeps_pure_bind; intros have H4.
      rewrite (vb_have c nb k Hc Hnb Hk v l HV) in H4. injection H4 as <-.
      replace (k * (vb_len v + 1)) with (lengthN l + k) by lia.
      destruct (grow_full c nb k Hc Hnb Hk l k ltac:(lia) Hf0 F) as [-> [p Hp]]. apply keeps_bind.
      + apply keeps_in_vec, keeps_atomic.
      + intros a s' G. unfold in_vec, within, atomic in G. rewrite E, Hp in G. discriminate.
  Qed.
  Lemma p_vb_block_resize_keeps v l n x : Vrep c nb k v l -> x < 2 ^ nb -> keeps (p_vb_block_resize c nb k n x) v.
  Proof.
    intros HV Hx. destruct (N.le_gt_cases (n * nb) (max_bits c)) as [F|F].
    - apply keeps_ok. rewrite vb_block_resize_same. destruct (vb_block_resize_ok c nb k Hc Hnb Hk v l n x HV Hx F) as [v' [E _]]. eauto.
    - pose proof HV as [E [El Hf]]. unfold p_vb_block_resize. apply keeps_bind.
      + apply keeps_in_vec, keeps_atomic.
      + intros a s' G. unfold in_vec, within, atomic, vec_resize in G. rewrite E, lengthN_pack in G. unfold fits in Hf.
        destruct (n <=? blocks_for nb (lengthN l)) eqn:En; [nia|]. rewrite alloc_fail in G by exact F. discriminate.
  Qed.
  Lemma p_vb_resize_keeps v l n x : Vrep c nb k v l -> x < 2 ^ nb -> n < 2 ^ 64 ->
    n * k + nb <= 2 ^ 64 \/ debug c = true \/ 2 ^ 64 <= n * k -> keeps (p_vb_resize c nb k n x) v.
  Proof.
    intros HV Hx Hn Hov. destruct (fitsb c nb (n * k)) eqn:F.
    - apply keeps_ok. rewrite vb_resize_same. destruct (vb_resize_ok c nb k Hc Hnb Hk v l n x HV Hx) as [v' [E _]]; [now apply fitsb_spec|]. eauto.
    - apply fitsb_false in F. pose proof HV as [E [El Hf0]]. unfold p_vb_resize. apply keeps_pure_bind; intros o Ho.
      apply keeps_pure_bind; intros bl Hbl. destruct o as [m|]; [|discriminate]. injection Hbl as <-.
      destruct (len_to_block_len_cases c nb k Hc Hnb Hk n Hn F) as [[p H]|[H|[[m' [H [Hm Em]]]|[H Hw]]]]; rewrite H in Ho; try discriminate.
      + injection Ho as ->. apply keeps_bind; [apply keeps_in_vec, keeps_atomic|].
        intros a s' G. unfold in_vec, within, atomic, vec_resize in G. rewrite E, lengthN_pack in G. unfold fits in Hf0.
        destruct (m <=? blocks_for nb (lengthN l)) eqn:En; [nia|]. rewrite alloc_fail in G by exact Hm. discriminate.
      + exfalso. destruct Hov as [G|[G|G]]; [lia| |lia]. unfold len_to_block_len, checked_mul in H.
        destruct (n * k <? 2 ^ 64) eqn:E1; [|lia]. rewrite checked_ceil_div_nbits_wrap, G in H by (auto; lia). discriminate.
  Qed.
End KeepBase.

Section KeepBits.
  Variables (c : cfg) (nb : N).
  Hypothesis Hc : wf_cfg c.
  Hypothesis Hnb : wf_nb nb.
  Let Hk : 1 <= 1 <= nb. Proof. pose proof (wf_nb_range nb Hnb). lia. Qed.
  Let R := R_bv c nb.

  Lemma p_vb_push_bit_keeps v l b : R v l -> keeps (p_vb_push_bit c nb b) v.
  Proof.
    intros HV. destruct (fitsb c nb (lengthN l + 1)) eqn:F.
    - apply keeps_ok. rewrite vb_push_bit_same. destruct (vb_push_bit_ok c nb Hc Hnb v l b HV) as [v' [E _]]; [now apply fitsb_spec|]. eauto.
    - apply fitsb_false in F. pose proof HV as [E [El Hf0]]. pose proof (fits_lt64 c nb _ (wf_nb_pos nb Hnb) Hf0) as H63.
      pose proof (wf_nb_range nb Hnb).
      unfold p_vb_push_bit. apply keeps_look_bind; intros l1 H1. rewrite wadd_ok in H1 by lia. injection H1 as <-.
      apply keeps_look_bind; intros n H3. injection H3 as <-. apply keeps_pure_bind; intros have H4.
      rewrite (vb_have c nb 1 Hc Hnb Hk v l HV) in H4. injection H4 as <-.
      replace (vb_len v + 1) with (lengthN l + 1) by lia.
      destruct (grow_full c nb 1 Hc Hnb Hk l 1 ltac:(lia) Hf0 F) as [-> [p Hp]]. apply keeps_bind.
      + apply keeps_in_vec, keeps_atomic.
      + intros a s' G. unfold in_vec, within, atomic in G. rewrite E, Hp in G. discriminate.
  Qed.
  Lemma p_vb_push_block_keeps v l x : R v l -> x < 2 ^ nb -> keeps (p_vb_push_block c nb 1 x) v.
  Proof.
    intros HV Hx. destruct (N.le_gt_cases ((blocks_for nb (lengthN l) + 1) * nb) (max_bits c)) as [F|F].
    - apply keeps_ok. rewrite vb_push_block_same. destruct (vb_push_block_ok c nb 1 Hc Hnb Hk v l x HV Hx F) as [v' [E _]]. eauto.
    - pose proof HV as [E [El Hf]]. unfold p_vb_push_block. apply keeps_bind; [apply keeps_in_vec, keeps_atomic|].
      intros a s' G. unfold in_vec, within, atomic, vec_push in G. rewrite E, lengthN_pack, alloc_fail in G by exact F. discriminate.
  Qed.
  Lemma state_of_forget {S A} (m : pm S A) s s' a : forget (m s) = Ok (s', a) -> m s = (Ok a, s').
  Proof. destruct (m s) as [[b|p|] t]; cbn; congruence. Qed.
  Lemma panic_of_forget {S A} (m : pm S A) s : panics (forget (m s)) -> exists p s', m s = (Panic p, s').
  Proof. intros [p H]. destruct (m s) as [[b|q|] t]; cbn in H; try discriminate. eauto. Qed.

  Lemma p_bvec_step_keeps l op v fuel : bop_ok c nb l op -> R v l -> spec_bstep c nb l op = None ->
    (forall n, op <> BResize n true) -> keeps (p_bvec_step c nb fuel op) v.
  Proof.
    intros Hop HV Hnone Hres. pose proof (Vrep_in_range c nb 1 Hc Hnb Hk v l HV) as HI.
    destruct op; cbn [p_bvec_step spec_bstep bop_ok] in *; try discriminate;
      try (apply keeps_look_bind; intros; apply keeps_pret); try apply keeps_punit.
    - now apply p_vb_push_bit_keeps with l.
    - now apply p_vb_push_block_keeps with l.
    - apply p_vb_set_bit_keeps.
    - now apply p_vb_set_block_keeps.
    - eapply pdefault_set_bits_keeps; [|exact HI]. now apply vb_writable.
    - destruct b; [now specialize (Hres n)|]. unfold p_bvec_resize.
      apply keeps_pure_bind; intros o Ho. apply keeps_pure_bind; intros m Hm. apply keeps_look_bind; intros len Hl. rewrite orb_true_r.
      apply keeps_bind; [apply (p_vb_block_resize_keeps c nb 1 Hc Hnb Hk v l m 0 HV); apply pow2_pos|].
      intros [] s' G. destruct (fitsb c nb n) eqn:F; [discriminate|]. apply fitsb_false in F. exfalso. destruct Hop as [Hn Hov].
      pose proof (bvec_resize_full c nb Hc Hnb v l n false HV Hn Hov F) as [p Hp]. rewrite <- bvec_resize_same in Hp.
      unfold p_bvec_resize in Hp. rewrite state_pure, Ho in Hp. cbn [bind] in Hp. rewrite state_pure, Hm in Hp. cbn [bind] in Hp.
      rewrite state_look in Hp. cbn [bind] in Hp. rewrite orb_true_r, state_bind, G in Hp. cbn [bind state] in Hp.
      assert (Hb : vb_block_resize c nb 1 v m 0 = Ok s') by (rewrite <- vb_block_resize_same; unfold p_bvec_block_resize in G; now rewrite G).
      destruct (N.le_gt_cases (m * nb) (max_bits c)) as [L|L].
      + destruct (bvec_block_resize_ok c nb Hc Hnb v l m 0 HV (pow2_pos nb) L) as [v' [E1 E2]]. unfold bvec_block_resize in E1.
        assert (s' = v') as -> by congruence.
        rewrite vb_truncate_same in Hp. destruct (bvec_truncate_ok c nb Hc Hnb v' _ n E2) as [v'' [E3 _]].
        unfold bvec_truncate in E3. congruence.
      + destruct (vb_block_resize_full c nb 1 Hc Hnb Hk v l m 0 HV L) as [q Hq]. congruence.
    - now apply (p_vb_block_resize_keeps c nb 1 Hc Hnb Hk v l n x HV).
  Qed.

  (** [resize] to ones that does not fit *)
  Lemma p_bvec_resize_left l n v : R v l -> size_ok c nb n -> ~ fits c nb n ->
    exists p v', p_bvec_resize c nb n true v = (Panic p, v') /\ R v' (spec_bleft c nb l (BResize n true)).
  Proof.
    intros HV [Hn Hov] Hf. pose proof (bvec_resize_full c nb Hc Hnb v l n true HV Hn Hov Hf) as Hp.
    pose proof (wf_nb_range nb Hnb) as Hr. pose proof (wf_nb_pos nb Hnb) as Hpos.
    rewrite <- bvec_resize_same in Hp. destruct Hp as [p Hp].
    destruct (p_bvec_resize c nb n true v) as [[a|q|] v'] eqn:Q; try discriminate. exists q, v'. split; [reflexivity|].
    cbn [spec_bleft]. unfold p_bvec_resize in Q. destruct (N.le_gt_cases (n + nb) (2 ^ 64)) as [H|H].
    - replace (n + (nb - 1) <? 2 ^ 64) with true by (symmetry; apply N.ltb_lt; lia). cbn [andb].
      unfold pbind at 1, pure at 1 in Q. rewrite checked_ceil_div_nbits_ok in Q by (auto; lia). unfold to_usize in Q.
      unfold pbind at 1, pure at 1 in Q. destruct (blocks_for nb n <? 2 ^ ptr c) eqn:E; cbn [expect] in Q; [|now injection Q as _ <-].
      unfold pbind at 1, look at 1 in Q. rewrite (V1_len c nb Hc Hnb v l HV) in Q.
      assert (Hlen : lengthN l <= n).
      { destruct (N.le_gt_cases (lengthN l) n) as [G|G]; [exact G|]. exfalso. apply Hf.
        pose proof (R_bv_fits c nb v l HV) as F. unfold fits in *. pose proof (blocks_for_mono nb n (lengthN l) Hpos ltac:(lia)). nia. }
      replace (n <? lengthN l) with false in Q by (symmetry; apply N.ltb_ge; lia). cbn [orb negb] in Q.
      unfold pbind at 1 2, pure at 1 in Q. rewrite last_block_bits_ok in Q by assumption.
      assert (Hlb : nb - (if lengthN l mod nb =? 0 then nb else lengthN l mod nb) = padding nb (lengthN l) /\
                    (if lengthN l mod nb =? 0 then nb else lengthN l mod nb) <= nb).
      { pose proof (N.mod_lt (lengthN l) nb ltac:(lia)) as G. unfold padding. destruct (lengthN l mod nb =? 0) eqn:E2.
        - replace (lengthN l mod nb) with 0 by lia. rewrite N.sub_0_r, N.mod_same by lia. lia.
        - split; [|lia]. symmetry. apply N.mod_small. lia. }
      destruct Hlb as [Hlb Hlb'].
      unfold pbind at 1, pure at 1 in Q. rewrite wsub_ok in Q by assumption. rewrite Hlb in Q.
      destruct (push_loop c nb Hc Hnb v l (padding nb (lengthN l)) HV) as [v1 [H1 H2]].
      { pose proof (R_bv_fits c nb v l HV) as F. unfold fits in *. rewrite padding_spec, blocks_for_mul by assumption. exact F. }
      assert (P1 : pfor_range 0 (padding nb (lengthN l)) (fun _ _ => p_vb_push_bit c nb true) tt v = (Ok tt, v1)).
      { unfold pfor_range. unfold for_range in H1. rewrite <- (pfor_for1 (fun _ _ => p_vb_push_bit c nb true)) in H1 by (intros; apply vb_push_bit_same).
        destruct (pfor _ _ _ _ _) as [[[]|r|] v2]; cbn in H1; congruence. }
      unfold pbind at 1 in Q. rewrite P1 in Q.
      pose proof (p_vb_block_resize_keeps c nb 1 Hc Hnb Hk v1 _ (blocks_for nb n) (wnot nb 0) H2) as K.
      assert (Hones : wnot nb 0 < 2 ^ nb). { rewrite wnot_0. rewrite N.ones_equiv. pose proof (pow2_pos nb). lia. }
      specialize (K Hones). unfold fits in Hf.
      destruct (vb_block_resize_full c nb 1 Hc Hnb Hk v1 _ (blocks_for nb n) (wnot nb 0) H2 ltac:(lia)) as [p2 Hp2].
      rewrite <- vb_block_resize_same in Hp2. unfold keeps in K. unfold p_bvec_block_resize in Q.
      destruct (p_vb_block_resize c nb 1 (blocks_for nb n) (wnot nb 0) v1) as [[u|p3|] v3]; cbn in Hp2; try discriminate.
      injection Q as _ <-. subst v3. exact H2.
    - replace (n + (nb - 1) <? 2 ^ 64) with false by (symmetry; apply N.ltb_ge; lia). cbn [andb].
      destruct Hov as [G|G]; [lia|]. unfold pbind at 1, pure at 1 in Q. rewrite checked_ceil_div_nbits_wrap, G in Q by auto.
      now injection Q as _ <-.
  Qed.

  Definition matches_p {S X L} (R : S -> L -> Prop) (r : res X * S) (o : option (L * X)) (left : L) : Prop :=
    match o with
    | Some (l, x) => exists s, r = (Ok x, s) /\ R s l
    | None => exists p s, r = (Panic p, s) /\ R s left
    end.
  Lemma p_bvec_step_sim l op : bop_ok c nb l op ->
    exists n0, forall fuel v, (n0 <= fuel)%nat -> R v l ->
      matches_p R (p_bvec_step c nb fuel op v) (spec_bstep c nb l op) (spec_bleft c nb l op).
  Proof.
    intros Hop. destruct (bvec_step_sim c nb Hc Hnb l op Hop) as [n0 H]. exists n0. intros fuel v Hf HV.
    specialize (H fuel v Hf HV). rewrite <- bvec_step_same in H. unfold matches_p, matches in *.
    destruct (spec_bstep c nb l op) as [[l' x]|] eqn:E.
    - destruct H as [s [H1 H2]]. exists s. split; [|exact H2]. now apply state_of_forget.
    - destruct (panic_of_forget _ _ H) as [p [s Q]].
      assert (D : (exists n, op = BResize n true) \/ forall n, op <> BResize n true).
      { destruct op; try (right; congruence). destruct b; [left; eauto|right; congruence]. }
      destruct D as [[n ->]|D].
      + cbn [spec_bstep bop_ok] in *. destruct (fitsb c nb n) eqn:F; [discriminate|]. apply fitsb_false in F.
        destruct (p_bvec_resize_left l n v HV Hop F) as [p' [v' [Q1 Q2]]]. exists p', v'. split; [|exact Q2].
        cbn [p_bvec_step]. unfold punit, pbind. now rewrite Q1.
      + pose proof (p_bvec_step_keeps l op v fuel Hop HV E D) as K. unfold keeps in K. rewrite Q in *. subst s. exists p, v.
        split; [reflexivity|]. replace (spec_bleft c nb l op) with l; [exact HV|].
        destruct op; try reflexivity. destruct b; [now specialize (D n)|reflexivity].
  Qed.
End KeepBits.

Lemma catching_sim {S O X L} (step : nat -> O -> pm S X) (spec : L -> O -> option (L * X)) (left : L -> O -> L)
    (R : S -> L -> Prop) (P : L -> O -> Prop) ops :
  (forall l o, P l o -> exists n0, forall fuel s, (n0 <= fuel)%nat -> R s l -> matches_p R (step fuel o s) (spec l o) (left l o)) ->
  forall l, along_catching spec left P l ops ->
  exists n0, forall fuel s, (n0 <= fuel)%nat -> R s l ->
    fst (run_catching (step fuel) s ops) = fst (spec_catching spec left l ops) /\
    R (snd (run_catching (step fuel) s ops)) (snd (spec_catching spec left l ops)).
Proof.
  intros Hstep. induction ops as [|o t IH]; intros l Hal.
  - exists 0%nat. intros. split; [reflexivity|assumption].
  - destruct Hal as [Ho Hal]. destruct (Hstep l o Ho) as [n1 H1]. cbn [run_catching spec_catching].
    unfold matches_p in H1. destruct (spec l o) as [[l' x]|].
    + destruct (IH l' Hal) as [n2 H2]. exists (Nat.max n1 n2). intros fuel s Hf HR.
      destruct (H1 fuel s ltac:(lia) HR) as [s' [-> HR']]. destruct (H2 fuel s' ltac:(lia) HR') as [G1 G2].
      destruct (run_catching (step fuel) s' t), (spec_catching spec left l' t). cbn in *. split; [now f_equal|exact G2].
    + destruct (IH (left l o) Hal) as [n2 H2]. exists (Nat.max n1 n2). intros fuel s Hf HR.
      destruct (H1 fuel s ltac:(lia) HR) as [p [s' [-> HR']]]. destruct (H2 fuel s' ltac:(lia) HR') as [G1 G2].
      destruct (run_catching (step fuel) s' t), (spec_catching spec left (left l o) t). cbn in *. split; [now f_equal|exact G2].
Qed.

Section KeepInts.
  Variables (c : cfg) (nb k : N).
  Hypothesis Hc : wf_cfg c.
  Hypothesis Hnb : wf_nb nb.
  Hypothesis Hk : 1 <= k <= nb.
  Let R := R_iv c nb k.
  Definition iv_in_range (v : intvec) : Prop := iv_bits v = k /\ in_range c k (iv_base v).
  Lemma iv_writable : writable iv_get_block (p_iv_set_block c nb) iv_in_range.
  Proof.
    intros v i y x [E HI] H. unfold iv_get_block in *. destruct (vb_writable c nb k Hc Hnb Hk (iv_base v) i y x HI H) as [b [H1 [H2 H3]]].
    unfold p_iv_set_block, pbind, look, width, in_base, within. rewrite E, H1. eexists. split; [reflexivity|]. cbn. split; [split; assumption|exact H3].
  Qed.
  Lemma p_iv_step_keeps xs op v fuel : iop_ok_catching c nb k xs op -> R v xs -> keeps (p_iv_step c nb fuel op) v \/ spec_istep c nb k xs op <> None.
  Proof.
    intros [Hop Hex] HR. pose proof HR as [Ek [HV Hall]]. pose proof (Vrep_in_range c nb k Hc Hnb Hk _ _ HV) as HI.
    destruct op; cbn [p_iv_step spec_istep iop_ok] in *;
      try (left; apply keeps_look_bind; intros; apply keeps_pret); try (right; discriminate); left; apply keeps_punit.
    - unfold p_iv_push. apply keeps_look_bind; intros. apply keeps_look_bind; intros w Hw. injection Hw as <-. rewrite Ek.
      apply keeps_in_base. now apply (p_vb_push_bits_keeps c nb k Hc Hnb Hk _ _ x HV).
    - unfold p_iv_set. apply keeps_look_bind; intros b _. apply keeps_look_bind; intros w Hw. injection Hw as <-. rewrite Ek. destruct b.
      + apply keeps_in_base. now apply (p_vb_set_block_keeps c nb k Hc Hnb Hk).
      + apply keeps_look_bind; intros. apply keeps_look_bind; intros. apply keeps_in_base, p_vb_set_bits_keeps.
    - unfold p_iv_resize. apply keeps_look_bind; intros w Hw. injection Hw as <-. rewrite Ek. apply keeps_in_base.
      destruct Hop. now apply (p_vb_resize_keeps c nb k Hc Hnb Hk _ _ n x HV).
    - unfold p_iv_block_resize. apply keeps_look_bind; intros w Hw. injection Hw as <-. rewrite Ek. apply keeps_in_base.
      destruct Hop. now apply (p_vb_block_resize_keeps c nb k Hc Hnb Hk _ _ n x HV).
    - unfold p_iv_set_random. apply keeps_pure_bind; intros. apply keeps_pure_bind; intros. apply keeps_look_bind; intros.
      apply keeps_in_base, p_vb_set_bits_keeps.
    - eapply pdefault_set_bit_keeps; [exact iv_writable|now split].
    - unfold p_iv_mut, pm_set_block, p_iv_set_block. apply keeps_look_bind; intros w Hw. injection Hw as <-. rewrite Ek. apply keeps_in_base.
      now apply (p_vb_set_block_keeps c nb k Hc Hnb Hk).
    - eapply pdefault_set_bits_keeps; [exact iv_writable|now split].
  Qed.
  Lemma p_iv_step_sim xs op : iop_ok_catching c nb k xs op ->
    exists n0, forall fuel v, (n0 <= fuel)%nat -> R v xs ->
      matches_p R (p_iv_step c nb fuel op v) (spec_istep c nb k xs op) xs.
  Proof.
    intros Hop. destruct (iv_step_sim c nb k Hc Hnb Hk xs op (proj1 Hop)) as [n0 H]. exists n0. intros fuel v Hf HV.
    specialize (H fuel v Hf HV). rewrite <- iv_step_same in H. unfold matches_p, matches in *.
    destruct (p_iv_step_keeps xs op v fuel Hop HV) as [K|K].
    - destruct (spec_istep c nb k xs op) as [[l' x]|].
      + destruct H as [s [H1 H2]]. exists s. split; [|exact H2]. now apply state_of_forget.
      + destruct (panic_of_forget _ _ H) as [p [s Q]]. unfold keeps in K. rewrite Q in *. subst s. eauto.
    - destruct (spec_istep c nb k xs op) as [[l' x]|]; [|congruence].
      destruct H as [s [H1 H2]]. exists s. split; [|exact H2]. now apply state_of_forget.
  Qed.
End KeepInts.
