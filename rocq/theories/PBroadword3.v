(** * Broadword selection with arguments out of range. *)
From Verif Require Import Machine MStorage MTraits MRank MBroadword SpecBits SpecCfg SpecLaws SpecRank PBase PStorage PBits PBlocks PDefaults PRank PBroadword PBroadword2.

Lemma le_lane_any x y : byte x -> byte y -> exists g, g <= 1 /\ le_lane x y = 128 * g /\ (x <= 64 -> 192 <= y -> g = 0).
Proof.
  intros Hx Hy. rewrite le_lane_ok by auto. unfold byte in *. destruct (eqb (x <? 128) (y <? 128)) eqn:E.
  - destruct (_ <=? _)%Z; [exists 1|exists 0]; split; try lia; split; try lia; intros; exfalso; destruct (x <? 128) eqn:E1, (y <? 128) eqn:E2; cbn in E; try discriminate; lia.
  - destruct (x mod 128 <=? y mod 128) eqn:E1; [exists 0; repeat split; lia|exists 1]. split; [lia|]. split; [lia|]. intros H1 H2. exfalso.
    rewrite (N.mod_small x) in E1 by lia. pose proof (N.mod_unique y 128 1 (y - 128) ltac:(lia) ltac:(lia)) as Em. rewrite <- Em in E1. lia.
Qed.
(** The number of lanes that compare, whatever they compare with. *)
Lemma count_lanes_any {A} c s0 s1 s2 s3 s4 s5 s6 s7 y : Forall byte [s0; s1; s2; s3; s4; s5; s6; s7] -> y < 2 ^ 64 -> exists E, E <= 8 /\
  (Forall (fun s => s <= 64) [s0; s1; s2; s3; s4; s5; s6; s7] -> (exists ys, length ys = 8%nat /\ Forall byte ys /\ Forall (fun b => 192 <= b) ys /\ y = word ys) -> E = 0) /\
  (forall k : N -> res A, (t <- le8 c (word [s0; s1; s2; s3; s4; s5; s6; s7]) y ;;
   t <- wshr c 64 t 7 ;; b <- wshr c 64 (wrapping_mul 64 t L8) 53 ;; k b) = k (8 * E)) /\
  (forall k : N -> res A, (t <- le8 c (word [s0; s1; s2; s3; s4; s5; s6; s7]) y ;;
   t <- wshr c 64 t 7 ;; b <- wshr c 64 (wrapping_mul 64 t L8) 56 ;; k b) = k E).
Proof.
  intros H Hy. destruct (word8 y Hy) as (y0 & y1 & y2 & y3 & y4 & y5 & y6 & y7 & HY & ->).
  assert (Hg : exists g0 g1 g2 g3 g4 g5 g6 g7, Forall (fun g => g <= 1) [g0; g1; g2; g3; g4; g5; g6; g7] /\
    zip le_lane [s0; s1; s2; s3; s4; s5; s6; s7] [y0; y1; y2; y3; y4; y5; y6; y7] = map (fun g => 128 * g) [g0; g1; g2; g3; g4; g5; g6; g7] /\
    (Forall (fun s => s <= 64) [s0; s1; s2; s3; s4; s5; s6; s7] -> Forall (fun b => 192 <= b) [y0; y1; y2; y3; y4; y5; y6; y7] -> g0 + g1 + g2 + g3 + g4 + g5 + g6 + g7 = 0)).
  { pose proof H as H'. pose proof HY as HY'. repeat match goal with H : Forall _ (_ :: _) |- _ => inversion H; subst; clear H end.
    destruct (le_lane_any s0 y0) as (g0 & ? & E0 & ?); auto. destruct (le_lane_any s1 y1) as (g1 & ? & E1 & ?); auto.
    destruct (le_lane_any s2 y2) as (g2 & ? & E2 & ?); auto. destruct (le_lane_any s3 y3) as (g3 & ? & E3 & ?); auto.
    destruct (le_lane_any s4 y4) as (g4 & ? & E4 & ?); auto. destruct (le_lane_any s5 y5) as (g5 & ? & E5 & ?); auto.
    destruct (le_lane_any s6 y6) as (g6 & ? & E6 & ?); auto. destruct (le_lane_any s7 y7) as (g7 & ? & E7 & ?); auto.
    exists g0, g1, g2, g3, g4, g5, g6, g7. split; [repeat constructor; assumption|]. split; [cbn [zip map]; congruence|].
    intros A1 A2. repeat match goal with H : Forall _ (_ :: _) |- _ => inversion H; subst; clear H end.
    repeat match goal with H : ?a <= 64 -> 192 <= ?b -> ?g = 0 |- _ => specialize (H ltac:(assumption) ltac:(assumption)) end. lia. }
  destruct Hg as (g0 & g1 & g2 & g3 & g4 & g5 & g6 & g7 & HG & EG & HZ). exists (g0 + g1 + g2 + g3 + g4 + g5 + g6 + g7).
  assert (H1 : Forall (fun g => g <= 1) [g0; g1; g2; g3; g4; g5; g6; g7]) by exact HG.
  repeat match goal with H : Forall (fun g => g <= 1) (_ :: _) |- _ => inversion H; subst; clear H end.
  split; [lia|]. split.
  { intros A1 (ys & L & B1 & B2 & E). apply HZ; [exact A1|]. 
    do 8 (destruct ys as [|? ys]; [discriminate L|]). destruct ys; [|discriminate L].
    repeat match goal with H : Forall _ (_ :: _) |- _ => inversion H; subst; clear H end. unfold byte in *. cbn [word] in E. repeat constructor; lia. }
  rewrite le8_word by auto. cbn [bind]. rewrite EG, wshr_ok by lia. cbn [bind]. rewrite word_shr by (repeat constructor; change (2 ^ 7) with 128; apply N.divide_factor_l).
  cbn [map]. rewrite !(fun y => N.shiftr_div_pow2 y 7). change (2 ^ 7) with 128. rewrite !(N.mul_comm 128), !N.div_mul by lia.
  rewrite mul_L8 by lia. rewrite !wshr_ok by lia. cbn [bind]. split; intros k.
  - rewrite shr53; [reflexivity|]. repeat constructor; lia.
  - rewrite shr56; [reflexivity|]. repeat constructor; unfold byte; lia.
Qed.
(** No argument makes it panic. *)
Lemma tail_any c r bs sl k : wf_cfg c -> Forall byte bs -> length bs = 8%nat -> k <= 8 -> r < 2 ^ 64 -> (forall i, lane sl i <= 64) -> 64 <= r ->
  exists p, tail c r (word bs) (8 * k) sl = Ok p /\ p <= 8 * k + 8 /\ (192 <= r < 256 -> k = 0 -> lane sl 0 = 0 -> p = 0).
Proof.
  intros Hc HF HL Hk Hr Hs Hr2. pose proof (wf_ptr c Hc) as Hptr. unfold tail, wrapping_shr.
  assert (Em : (8 * k) mod 2 ^ 32 = 8 * k) by (apply N.mod_small; lia). rewrite Em.
  assert (Em2 : exists k', (8 * k) mod 64 = 8 * k' /\ (k = 0 -> k' = 0)).
  { destruct (N.eq_dec k 8) as [->|]; [exists 0; split; [reflexivity|lia]|exists k; split; [apply N.mod_small; lia|auto]]. }
  destruct Em2 as (k' & Em2 & Hk0). rewrite Em2.
  change (N.land (N.shiftr sl (8 * k')) 255) with (lane sl k'). change (N.land (N.shiftr (word bs) (8 * k')) 255) with (lane (word bs) k').
  pose proof (Hs k') as Hs'. rewrite wsub_ok by lia. cbn [bind].
  pose proof (byte_head_ok c (lane (word bs) k') (lane_byte _ _)) as E1. unfold byte_head in E1. set (v := lane (word bs) k') in *.
  destruct (u_nz8 c _) as [t1| |] eqn:D1; try discriminate. cbn [bind] in *.
  destruct (wshr c 64 t1 7) as [t2| |] eqn:D2; try discriminate. cbn [bind] in *. assert (E2 : wrapping_mul 64 t2 L8 = word (pre v)) by congruence. cbv zeta. rewrite E2.
  assert (Hcnt : forall i, count_ones (v mod 2 ^ i) <= 8).
  { intros i. apply count_byte. pose proof (lane_byte (word bs) k') as Hb. fold v in Hb. unfold byte in *. eapply N.le_lt_trans; [apply N.mod_le|exact Hb]. pose proof (pow2_pos i). lia. }
  assert (HB : Forall byte (pre v)) by (unfold pre; apply Forall_map, Forall_forall; intros i _; unfold byte; pose proof (Hcnt i); lia).
  assert (HB64 : Forall (fun s => s <= 64) (pre v)) by (unfold pre; apply Forall_map, Forall_forall; intros i _; pose proof (Hcnt i); lia).
  unfold pre in *. cbn [map] in *.
  destruct (count_lanes_any (A := N) c _ _ _ _ _ _ _ _ (wrapping_mul 64 (r - lane sl k') L8) HB) as (E & HE & HE0 & _ & K).
  { unfold wrapping_mul. apply N.mod_lt. lia. }
  rewrite (K (fun t => q <- wadd c 64 (8 * k) t ;; Ok (as_usize c q))). rewrite wadd_ok by lia. cbn [bind]. rewrite as_usize_small by lia.
  exists (8 * k + E). split; [reflexivity|]. split; [lia|]. intros H192 -> Hl0. rewrite Hk0, Hl0 in HE0 by reflexivity. rewrite HE0; [reflexivity|exact HB64|].
  exists [r - 0; r - 0; r - 0; r - 0; r - 0; r - 0; r - 0; r - 0]. split; [reflexivity|]. split; [repeat constructor; unfold byte; lia|]. split; [repeat constructor; lia|]. apply mul_const. lia.
Qed.
Lemma select1_raw_any c r x : wf_cfg c -> x < 2 ^ 64 -> 64 <= r < 2 ^ 64 -> exists p, select1_raw c r x = Ok p /\ p <= 72 /\ (192 <= r < 256 -> p = 0).
Proof.
  intros Hc Hx Hr. destruct (word8 x Hx) as (b0 & b1 & b2 & b3 & b4 & b5 & b6 & b7 & HF & ->).
  change (select1_raw c r (word [b0; b1; b2; b3; b4; b5; b6; b7])) with
   (let x := word [b0; b1; b2; b3; b4; b5; b6; b7] in
    t <- wshr c 64 (N.land x 0xAAAAAAAAAAAAAAAA) 1 ;;
    s <- wsub c 64 x t ;;
    t <- wshr c 64 s 2 ;;
    s <- wadd c 64 (N.land s 0x3333333333333333) (N.land t 0x3333333333333333) ;;
    t <- wshr c 64 s 4 ;;
    t <- wadd c 64 s t ;;
    (fun s => let s := wrapping_mul 64 s L8 in
       t <- le8 c s (wrapping_mul 64 r L8) ;;
       t <- wshr c 64 t 7 ;;
       b <- wshr c 64 (wrapping_mul 64 t L8) 53 ;;
       (fun b => t <- wshl c 64 s 8 ;; tail c r x b t) b) (N.land t 0x0F0F0F0F0F0F0F0F)).
  cbv zeta. rewrite sideways by auto. cbn [map sum].
  assert (byte b0 /\ byte b1 /\ byte b2 /\ byte b3 /\ byte b4 /\ byte b5 /\ byte b6 /\ byte b7) as (? & ? & ? & ? & ? & ? & ? & ?).
  { clear - HF. repeat match goal with H : Forall _ (_ :: _) |- _ => inversion H; subst; clear H end. repeat split; assumption. }
  repeat match goal with H : byte ?b |- _ => lazymatch goal with _ : count_ones b <= 8 |- _ => fail | _ => pose proof (count_byte b H) end end.
  rewrite mul_L8 by lia.
  match goal with |- context [le8 c (word [?s0; ?s1; ?s2; ?s3; ?s4; ?s5; ?s6; ?s7]) _] =>
    assert (HL : Forall byte [s0; s1; s2; s3; s4; s5; s6; s7]) by (repeat constructor; unfold byte; lia);
    assert (HL' : Forall (fun s => s <= 64) [s0; s1; s2; s3; s4; s5; s6; s7]) by (repeat constructor; lia) end.
  destruct (count_lanes_any (A := N) c _ _ _ _ _ _ _ _ (wrapping_mul 64 r L8) HL) as (E & HE & HE0 & K & _).
  { unfold wrapping_mul. apply N.mod_lt. lia. }
  rewrite K. cbv beta. unfold wshl. cbn [N.ltb]. change (8 <? 64) with true. cbv iota. cbn [bind].
  rewrite shl8 by (repeat constructor; unfold byte; lia).
  match goal with |- context [tail c r _ _ (word ?l)] => set (sl := l); assert (HS : Forall byte sl) by (unfold sl; repeat constructor; unfold byte; lia);
    assert (HS64 : Forall (fun s => s <= 64) sl) by (unfold sl; repeat constructor; lia) end.
  destruct (tail_any c r [b0; b1; b2; b3; b4; b5; b6; b7] (word sl) E Hc HF eq_refl HE ltac:(lia)) as (p & Ep & Hp & Hz).
  - intros i. rewrite lane_word by exact HS. destruct (nthN sl i) eqn:En; [|lia]. exact (proj1 (Forall_nthN _ _) HS64 _ _ En).
  - lia.
  - exists p. split; [exact Ep|]. split; [lia|]. intros H192. apply Hz; [exact H192| |now rewrite lane_word by exact HS].
    apply HE0; [exact HL'|]. exists [r; r; r; r; r; r; r; r]. split; [reflexivity|]. split; [repeat constructor; unfold byte; lia|]. split; [repeat constructor; lia|]. apply mul_const. lia.
Qed.
