(** * Property C104: any session on a [BitBuffer], reading and writing bits, integers and code words and moving about as its answers
    suggest, is a session on a list of bits with a cursor; a code word can be overwritten in place. *)
From Verif Require Import Machine MStorage MTraits MVectorBase MBitVector MStream MSigned MCoding SpecBits SpecCfg SpecLaws SpecOps SpecStream SpecBuffer
  PBase PStorage PBits PVectorBase PBitVector PRun PStream PCoding PCoding3 PBuffer Properties8 Properties9 Properties29 Properties32 Properties49 Properties50.

(** A session: each continuation sees the answer, also an error or the end of data. *)
Inductive session (A : Type) :=
| Finish (a : A)
| GetBit (k : ioR (option bool) -> session A)
| GetInt (be : bool) (w nbits : N) (k : ioR (option N) -> session A)
| GetSint (be : bool) (w nbits : N) (k : ioR (option Z) -> session A)
| GetCode (C : code) (fuel : nat) (k : ioR (option N) -> session A)
| PutBit (b : bool) (k : ioR unit -> session A)
| PutInt (be : bool) (w nbits x : N) (k : ioR unit -> session A)
| PutSint (be : bool) (w nbits : N) (z : Z) (k : ioR unit -> session A)
| PutCode (C : code) (fuel : nat) (v : N) (k : ioR unit -> session A)
| SeekTo (p : N) (k : ioR unit -> session A)
| Where (k : N -> session A)
| Size (k : N -> session A).
Arguments Finish {A} a.
Arguments GetBit {A} k.
Arguments GetInt {A} be w nbits k.
Arguments GetSint {A} be w nbits k.
Arguments GetCode {A} C fuel k.
Arguments PutBit {A} b k.
Arguments PutInt {A} be w nbits x k.
Arguments PutSint {A} be w nbits z k.
Arguments PutCode {A} C fuel v k.
Arguments SeekTo {A} p k.
Arguments Where {A} k.
Arguments Size {A} k.

(** What a session is run on. *)
Record device (S : Type) := {
  dv_source : source S; dv_sink : sink S;
  dv_seek : N -> io S unit; dv_position : S -> N; dv_size : S -> res N }.
Arguments dv_source {S} d.
Arguments dv_sink {S} d.
Arguments dv_seek {S} d p.
Arguments dv_position {S} d s.
Arguments dv_size {S} d s.

Fixpoint run_session {A S} (c : cfg) (d : device S) (p : session A) (s : S) : res (A * S) :=
  match p with
  | Finish a => Ok (a, s)
  | GetBit k => x <- read_bit (dv_source d) s ;; run_session c d (k (fst x)) (snd x)
  | GetInt be w n k =>
      x <- (if be then read_int_be c (dv_source d) w n s else read_int c (dv_source d) w n s) ;; run_session c d (k (fst x)) (snd x)
  | GetSint be w n k =>
      x <- (if be then read_sint_be c (dv_source d) w n s else read_sint c (dv_source d) w n s) ;; run_session c d (k (fst x)) (snd x)
  | GetCode C fuel k => x <- decode C (dv_source d) fuel s ;; run_session c d (k (fst x)) (snd x)
  | PutBit b k => x <- write_bit (dv_sink d) b s ;; run_session c d (k (fst x)) (snd x)
  | PutInt be w n v k =>
      x <- (if be then write_int_be c (dv_sink d) w n v s else write_int c (dv_sink d) w n v s) ;; run_session c d (k (fst x)) (snd x)
  | PutSint be w n z k =>
      x <- (if be then write_sint_be c (dv_sink d) w n z s else write_sint c (dv_sink d) w n z s) ;; run_session c d (k (fst x)) (snd x)
  | PutCode C fuel v k => x <- encode C (dv_sink d) fuel v s ;; run_session c d (k (fst x)) (snd x)
  | SeekTo p k => x <- dv_seek d p s ;; run_session c d (k (fst x)) (snd x)
  | Where k => run_session c d (k (dv_position d s)) s
  | Size k => n <- dv_size d s ;; run_session c d (k n) s
  end.
Inductive session_ok {A} (c : cfg) : session A -> Prop :=
| so_finish : forall a, session_ok c (Finish a)
| so_get_bit : forall k, (forall x, session_ok c (k x)) -> session_ok c (GetBit k)
| so_get_int : forall be w n k, (forall x, session_ok c (k x)) -> session_ok c (GetInt be w n k)
| so_get_sint : forall be w n k, (forall x, session_ok c (k x)) -> session_ok c (GetSint be w n k)
| so_get_code : forall C fuel k, any_code c C -> (forall x, session_ok c (k x)) -> session_ok c (GetCode C fuel k)
| so_put_bit : forall b k, (forall x, session_ok c (k x)) -> session_ok c (PutBit b k)
| so_put_int : forall be w n v k, (forall x, session_ok c (k x)) -> session_ok c (PutInt be w n v k)
| so_put_sint : forall be w n z k, (forall x, session_ok c (k x)) -> session_ok c (PutSint be w n z k)
| so_put_code : forall C fuel v k, any_code c C -> (forall x, session_ok c (k x)) -> session_ok c (PutCode C fuel v k)
| so_seek : forall p k, (forall x, session_ok c (k x)) -> session_ok c (SeekTo p k)
| so_where : forall k, (forall x, session_ok c (k x)) -> session_ok c (Where k)
| so_size : forall k, (forall x, session_ok c (k x)) -> session_ok c (Size k).

(** A [BitBuffer] *)
Definition buffer_device {T} (c : cfg) (P : bitvecpush T) (fuel : nat) : device (bitbuf T) := {|
  dv_source := bb_source c (bm_bv (bp_bm P)); dv_sink := bb_sink c P fuel;
  dv_seek := bb_seek (bm_bv (bp_bm P)); dv_position := bb_position; dv_size := bb_bit_len (bm_bv (bp_bm P)) |}.
(** A tape: bits and a cursor.  Writing replaces the bit under the cursor or adds one at the end; [roomb n] says whether memory holds [n]
    bits. *)
Definition tape_device (roomb : N -> bool) : device (list bool * N) := {|
  dv_source := {| read_bit := fun f => Ok (match nthN (fst f) (snd f) with
                    | Some b => (IOk (Some b), (fst f, snd f + 1)) | None => (IOk None, f) end) |};
  dv_sink := {| write_bit := fun b f =>
    if snd f <? lengthN (fst f) then Ok (IOk tt, (updN (fst f) (snd f) b, snd f + 1))
    else if roomb (lengthN (fst f) + 1) then Ok (IOk tt, (fst f ++ [b], snd f + 1)) else Panic PAlloc |};
  dv_seek := fun p f => Ok (if p <=? lengthN (fst f) then (IOk tt, (fst f, p)) else (IErr NotFound, f));
  dv_position := snd;
  dv_size := fun f => Ok (lengthN (fst f)) |}.

(** The same results, the states related; or both panic; or neither has ended. *)
Definition agree {A S1 S2} (Q : S1 -> S2 -> Prop) (r1 : res (A * S1)) (r2 : res (A * S2)) : Prop :=
  match r1, r2 with
  | Ok (a1, t1), Ok (a2, t2) => a1 = a2 /\ Q t1 t2
  | Panic _, Panic _ => True
  | OutOfFuel, OutOfFuel => True
  | _, _ => False
  end.
Lemma agree_bind {A B S1 S2} (Q : S1 -> S2 -> Prop) (r1 : res (A * S1)) (r2 : res (A * S2)) (f1 : A * S1 -> res (B * S1)) (f2 : A * S2 -> res (B * S2)) :
  agree Q r1 r2 -> (forall x t1 t2, Q t1 t2 -> agree Q (f1 (x, t1)) (f2 (x, t2))) -> agree Q (bind r1 f1) (bind r2 f2).
Proof.
  intros H K. unfold agree in H. destruct r1 as [[a1 t1]|p1|], r2 as [[a2 t2]|p2|]; try contradiction; cbn [bind]; try exact I.
  destruct H as [-> H]. now apply K.
Qed.
Lemma same_agree {A S1 S2} (Q : S1 -> S2 -> Prop) (r1 : res (ioR (option A) * S1)) (r2 : res (ioR (option A) * S2)) :
  same_answer Q Q r1 r2 -> agree Q r1 r2.
Proof.
  unfold same_answer, agree. destruct r1 as [[[[a1|]|e1] t1]|p1|], r2 as [[[[a2|]|e2] t2]|p2|]; try contradiction; try exact (fun _ => I);
    intros H; intuition congruence.
Qed.
(** Sinks that behave alike are written alike. *)
Definition same_sink {S1 S2} (k1 : sink S1) (k2 : sink S2) (Q : S1 -> S2 -> Prop) : Prop :=
  forall s1 s2 b, Q s1 s2 -> agree Q (write_bit k1 b s1) (write_bit k2 b s2).
Lemma write_all_agree {S1 S2} (k1 : sink S1) (k2 : sink S2) Q : same_sink k1 k2 Q -> forall w s1 s2, Q s1 s2 ->
  agree Q (write_all k1 w s1) (write_all k2 w s2).
Proof.
  intros H. induction w as [|b w IH]; intros s1 s2 HQ; cbn [write_all]; [split; auto|].
  specialize (H s1 s2 b HQ). unfold agree in H. destruct (write_bit k1 b s1) as [[[u1|e1] t1]|p1|], (write_bit k2 b s2) as [[[u2|e2] t2]|p2|];
    try contradiction; try exact I; destruct H as [E H]; try discriminate; [now apply IH|]. injection E as ->. split; auto.
Qed.
Lemma oblivious_agree (m : forall S, sink S -> io S unit) {S1 S2} (k1 : sink S1) (k2 : sink S2) Q s1 s2 :
  oblivious m -> same_sink k1 k2 Q -> Q s1 s2 -> agree Q (m S1 k1 s1) (m S2 k2 s2).
Proof.
  intros (w & out & H) HS HQ. rewrite (H S1 k1 s1), (H S2 k2 s2). apply agree_bind; [now apply write_all_agree|].
  intros [u|e] t1 t2 Ht; [|split; auto]. destruct out as [o|p|]; cbn [bind]; try exact I. split; auto.
Qed.

Section Session.
  Context {S1 S2 : Type} (c : cfg) (d1 : device S1) (d2 : device S2) (Q : S1 -> S2 -> Prop).
  Hypothesis Hsrc : same_source (dv_source d1) (dv_source d2) Q Q.
  Hypothesis Hsnk : same_sink (dv_sink d1) (dv_sink d2) Q.
  Hypothesis Hseek : forall p s1 s2, Q s1 s2 -> agree Q (dv_seek d1 p s1) (dv_seek d2 p s2).
  Hypothesis Hpos : forall s1 s2, Q s1 s2 -> dv_position d1 s1 = dv_position d2 s2.
  Hypothesis Hsize : forall s1 s2, Q s1 s2 -> exists n, dv_size d1 s1 = Ok n /\ dv_size d2 s2 = Ok n.
  Lemma session_agree {A} (p : session A) : session_ok c p -> forall s1 s2, Q s1 s2 ->
    agree Q (run_session c d1 p s1) (run_session c d2 p s2).
  Proof.
    induction 1 as [a|k Hk IH|be w n k Hk IH|be w n k Hk IH|C fuel k HC Hk IH|b k Hk IH|be w n v k Hk IH|be w n z k Hk IH|C fuel v k HC Hk IH|p k Hk IH|k Hk IH|k Hk IH];
      intros s1 s2 HQ; cbn [run_session].
    - split; auto.
    - apply agree_bind; [|intros; now apply IH]. specialize (Hsrc s1 s2 HQ). apply same_agree. unfold same_answer.
      destruct (read_bit (dv_source d1) s1) as [[[[b1|]|e1] t1]|p1|], (read_bit (dv_source d2) s2) as [[[[b2|]|e2] t2]|p2|]; intuition.
    - apply agree_bind; [|intros; now apply IH]. apply same_agree.
      destruct (C82_two_int_sources c w n S1 S2 _ _ Q Q s1 s2 Hsrc HQ) as (H1 & H2 & _). destruct be; assumption.
    - apply agree_bind; [|intros; now apply IH]. apply same_agree.
      destruct (C82_two_int_sources c w n S1 S2 _ _ Q Q s1 s2 Hsrc HQ) as (_ & _ & H1 & H2). destruct be; assumption.
    - apply agree_bind; [|intros; now apply IH]. apply same_agree. now apply (C82_two_sources c).
    - apply agree_bind; [|intros; now apply IH]. now apply Hsnk.
    - apply agree_bind; [|intros; now apply IH]. destruct (C82_int_writers c w n v 0%Z) as (H1 & H2 & _).
      destruct be; [exact (oblivious_agree _ _ _ _ _ _ H2 Hsnk HQ)|exact (oblivious_agree _ _ _ _ _ _ H1 Hsnk HQ)].
    - apply agree_bind; [|intros; now apply IH]. destruct (C82_int_writers c w n 0 z) as (_ & _ & H1 & H2).
      destruct be; [exact (oblivious_agree _ _ _ _ _ _ H2 Hsnk HQ)|exact (oblivious_agree _ _ _ _ _ _ H1 Hsnk HQ)].
    - apply agree_bind; [|intros; now apply IH]. exact (oblivious_agree _ _ _ _ _ _ (C82_writers c C fuel v HC) Hsnk HQ).
    - apply agree_bind; [|intros; now apply IH]. now apply Hseek.
    - rewrite (Hpos s1 s2 HQ). now apply IH.
    - destruct (Hsize s1 s2 HQ) as (n & E1 & E2). rewrite E1, E2. cbn [bind]. now apply IH.
  Qed.
End Session.

Lemma room_fits {T} c (P : bitvecpush T) R (room : N -> Prop) roomb : lawful_push c P R room -> (forall n, roomb n = true <-> room n) ->
  lawful_push c P R (fun n => roomb n = true).
Proof.
  intros [A1 A2 A3 A4] H. split; auto.
  - intros t l b H0 H1. apply A1; auto. now apply H.
  - intros t l b H0 H1. apply A2 with (l := l); auto. intros H2. apply H1. now apply H.
Qed.

Lemma buffer_same_sink {T} c (P : bitvecpush T) (R : T -> list bool -> Prop) roomb fuel : wf_cfg c -> lawful_bits c (bm_bv (bp_bm P)) R ->
  lawful_blocks c (bm_bv (bp_bm P)) R -> lawful_setblock c (bp_bm P) R -> lawful_push c P R (fun n => roomb n = true) -> (2 <= fuel)%nat ->
  same_sink (dv_sink (buffer_device c P fuel)) (dv_sink (tape_device roomb)) (R_buf R).
Proof.
  intros Hc LB LK LS LP Hf. 
  intros bb [l0 p0] b H. cbn [buffer_device tape_device dv_sink bb_sink write_bit fst snd].
  pose proof (buf_write c P R roomb Hc LB LK LS LP fuel bb l0 p0 b Hf H) as K. destruct (p0 <? lengthN l0).
  - destruct K as (bb' & E & K). rewrite E. split; [reflexivity|exact K].
  - destruct (roomb (lengthN l0 + 1)); [|destruct K as [k K]; rewrite K; exact I]. destruct K as (bb' & E & K). rewrite E. split; [reflexivity|exact K].
Qed.
(** Over any store that grows, of any contents and at any position. *)
Theorem C104_sessions : forall A T c (P : bitvecpush T) (R : T -> list bool -> Prop) roomb (p : session A) fuel t l q,
  wf_cfg c -> lawful_bits c (bm_bv (bp_bm P)) R -> lawful_blocks c (bm_bv (bp_bm P)) R ->
  lawful_setblock c (bp_bm P) R -> lawful_push c P R (fun n => roomb n = true) ->
  session_ok c p -> (2 <= fuel)%nat -> R t l -> q <= lengthN l ->
  agree (fun bb f => R (bb_data bb) (fst f) /\ bb_pos bb = snd f /\ snd f <= lengthN (fst f))
    (run_session c (buffer_device c P fuel) p {| bb_data := t; bb_pos := q |}) (run_session c (tape_device roomb) p (l, q)).
Proof.
  intros A T c P R roomb p fuel t l q Hc LB LK LS LP HP Hf HR Hq.
  apply (session_agree c (buffer_device c P fuel) (tape_device roomb) (R_buf R)); auto.
  - intros bb [l0 p0] (H1 & H2 & H3). destruct bb as [t0 p1]. cbn [bb_data bb_pos fst snd] in *. subst p1.
    cbn [buffer_device tape_device dv_source bb_source read_bit fst snd].
    destruct (nthN l0 p0) as [b|] eqn:E.
    + rewrite (bb_read_ok c _ R Hc LB LK t0 l0 p0 b H1 E). pose proof (nthN_lt _ _ _ E). split; [reflexivity|].
      split; [exact H1|]. split; [reflexivity|]. cbn [snd fst]. lia.
    + apply nthN_None in E. rewrite (bb_read_end c _ R LB t0 l0 p0 H1 E). split; [reflexivity|]. split; [exact H1|]. auto.
  - exact (buffer_same_sink c P R roomb fuel Hc LB LK LS LP Hf).
  - intros p1 bb [l0 p0] (H1 & H2 & H3). cbn [buffer_device tape_device dv_seek fst snd] in *. unfold bb_seek.
    rewrite (lb_bit_len _ _ _ LB _ _ H1). cbn [bind]. destruct (p1 <=? lengthN l0) eqn:E; (split; [reflexivity|]).
    + split; [exact H1|]. split; [reflexivity|]. cbn [fst snd]. lia.
    + split; auto.
  - intros bb [l0 p0] (_ & H2 & _). exact H2.
  - intros bb [l0 p0] (H1 & _). exists (lengthN l0). split; [|reflexivity]. exact (lb_bit_len _ _ _ LB _ _ H1).
  - split; [exact HR|]. split; [reflexivity|exact Hq].
Qed.
(** Over a [BitVector] on which any program has run (C103), opened with [from] or [append]; the vector taken out with [into_inner] holds
    the bits of the tape. *)
Theorem C104_bit_vector : forall A c nb t ops v l (append : bool) (p : session A) fuel, wf_cfg c -> wf_nb nb ->
  bvec_exact c nb t ops v l -> session_ok c p -> (2 <= fuel)%nat ->
  exists bb, (if append then bb_append (bvec_bitvec c nb) v else Ok (bb_from v)) = Ok bb /\
  agree (fun bb f => bits_are (bvec_bitvec c nb) (bb_inner bb) (fst f) /\ bb_position bb = snd f)
    (run_session c (buffer_device c (bvec_bitvecpush c nb) fuel) p bb)
    (run_session c (tape_device (fitsb c nb)) p (l, if append then lengthN l else 0)).
Proof.
  intros A c nb t ops v l append p fuel Hc Hnb HE HP Hf. pose proof (bvec_exact_R _ _ _ _ _ _ Hc Hnb HE) as HR.
  pose proof (bvec_lawful_bits c nb Hc Hnb) as LB.
  exists {| bb_data := v; bb_pos := if append then lengthN l else 0 |}. split.
  { destruct append; [|reflexivity]. unfold bb_append. rewrite (lb_bit_len _ _ _ LB _ _ HR). reflexivity. }
  pose proof (C104_sessions A vbase c (bvec_bitvecpush c nb) (R_bv c nb) (fitsb c nb) p fuel v l (if append then lengthN l else 0) Hc LB
    (bvec_lawful_blocks c nb Hc Hnb) (mutblocks_setblock c _ _ (bvec_lawful_mutblocks c nb Hc Hnb))
    (room_fits c _ _ _ _ (bvec_lawful_push c nb Hc Hnb) (fitsb_spec c nb)) HP Hf HR ltac:(destruct append; lia)) as K.
  unfold agree in *. destruct (run_session _ (buffer_device _ _ _) _ _) as [[a1 t1]|p1|], (run_session _ (tape_device _) _ _) as [[a2 t2]|p2|]; auto.
  destruct K as [-> (H1 & H2 & _)]. split; [reflexivity|]. split; [|exact H2]. split; [exact (lb_bit_len _ _ _ LB _ _ H1)|].
  intros i b Hi. exact (lb_get_bit _ _ _ LB _ _ i b H1 Hi).
Qed.

(** A word written over another of the same length.  The program packs [vs1 ++ v :: vs2], keeping the position of [v]; goes back, writes
    [v'] there, rewinds and decodes everything. *)
Definition replace_one (c : cfg) (nb : N) (C : code) (fuel : nat) (vs1 : list N) (v : N) (vs2 : list N) (v' : N) : io (bitbuf vbase) (list N) :=
  let snk := bb_sink c (bvec_bitvecpush c nb) fuel in
  try_ (encode_list C snk fuel vs1) (fun _ bb =>
    try_ (encode C snk fuel v) (fun _ =>
    try_ (encode_list C snk fuel vs2) (fun _ =>
    try_ (bb_seek (bvec_bitvec c nb) (bb_position bb)) (fun _ =>
    try_ (encode C snk fuel v') (fun _ =>
    try_ (bb_seek (bvec_bitvec c nb) 0) (fun _ =>
    decode_list C (bb_source c (bvec_bitvec c nb)) fuel))))) bb).

Lemma updN_middle {A} (a : list A) x y b : updN (a ++ x :: b) (lengthN a) y = a ++ y :: b.
Proof.
  apply nthN_ext. intros i. rewrite nthN_updN, !nthN_app, !nthN_cons, lengthN_app, lengthN_cons.
  destruct (i =? lengthN a) eqn:E1.
  - destruct (lengthN a <? lengthN a + (lengthN b + 1)) eqn:E2; [|lia]. destruct (i <? lengthN a) eqn:E3; [lia|]. destruct (i - lengthN a =? 0) eqn:E4; [reflexivity|lia].
  - destruct (i <? lengthN a) eqn:E3; [reflexivity|]. destruct (i - lengthN a =? 0) eqn:E4; [lia|reflexivity].
Qed.
Lemma tape_over roomb w' : forall a w b, lengthN w' = lengthN w ->
  write_all (dv_sink (tape_device roomb)) w' (a ++ w ++ b, lengthN a) = Ok (IOk tt, (a ++ w' ++ b, lengthN a + lengthN w')).
Proof.
  induction w' as [|y w' IH]; intros a [|x w] b E; rewrite ?lengthN_cons, ?lengthN_nil in E; try lia.
  - cbn [write_all app]. now rewrite lengthN_nil, N.add_0_r.
  - assert (EW : write_bit (dv_sink (tape_device roomb)) y (a ++ (x :: w) ++ b, lengthN a) = Ok (IOk tt, (a ++ y :: w ++ b, lengthN a + 1))).
    { cbn [tape_device dv_sink write_bit fst snd]. destruct (lengthN a <? lengthN (a ++ (x :: w) ++ b)) eqn:El.
      - cbn [app]. now rewrite updN_middle.
      - rewrite !lengthN_app, lengthN_cons in El. lia. }
    cbn [write_all]. rewrite EW. specialize (IH (a ++ [y]) w b ltac:(lia)). rewrite lengthN_app, lengthN_cons, lengthN_nil, N.add_0_l, <- !app_assoc in IH. cbn [app] in IH.
    rewrite IH, lengthN_cons. f_equal. f_equal. f_equal. lia.
Qed.
Lemma encodes_unique C v w w' : encodes C v w -> encodes C v w' -> w = w'.
Proof.
  intros [n1 H1] [n2 H2]. pose proof (H1 (n1 + n2)%nat ltac:(lia) _ deque_sink []) as E1. rewrite (H2 (n1 + n2)%nat) in E1 by lia.
  rewrite !write_all_deque in E1. now injection E1.
Qed.

Theorem C104_replace : forall c nb strict C D vs1 v vs2 v' w w', wf_cfg c -> wf_nb nb -> provided c strict C D ->
  Forall D (vs1 ++ v :: vs2) -> D v' -> encodes C v w -> encodes C v' w' -> lengthN w' = lengthN w ->
  exists l n0, forall fuel, (n0 <= fuel)%nat -> encode_list C deque_sink fuel (vs1 ++ v :: vs2) [] = Ok (IOk tt, l) /\
    (fits c nb (lengthN l) -> exists bb0 bb, bb_new c nb = Ok bb0 /\
       replace_one c nb C fuel vs1 v vs2 v' bb0 = Ok (IOk (vs1 ++ v' :: vs2), bb) /\ bb_position bb = lengthN l).
Proof.
  intros c nb strict C D vs1 v vs2 v' w w' Hc Hnb HP HD HD' Ew Ew' Lw. pose proof (wf_nb_range nb Hnb) as Hr.
  apply Forall_app in HD. destruct HD as [HD1 HD2]. inversion HD2 as [|? ? HDv HD3]; subst.
  destruct (provided_words c strict C D vs1 Hc HP HD1) as (ws1 & F1). destruct (provided_words c strict C D vs2 Hc HP HD3) as (ws2 & F2).
  destruct (provided_codeword c strict C D v Hc HP HDv) as (wv & Cw & _). destruct (provided_codeword c strict C D v' Hc HP HD') as (wv' & Cw' & _).
  pose proof (encodes_unique C v _ _ (cw_encodes _ _ _ Cw) Ew) as ->. pose proof (encodes_unique C v' _ _ (cw_encodes _ _ _ Cw') Ew') as ->.
  assert (F : Forall2 (codeword C) (vs1 ++ v :: vs2) (ws1 ++ w :: ws2)) by (apply Forall2_app; [exact F1|constructor; auto]).
  assert (F' : Forall2 (codeword C) (vs1 ++ v' :: vs2) (ws1 ++ w' :: ws2)) by (apply Forall2_app; [exact F1|constructor; auto]).
  exists (concat (ws1 ++ w :: ws2)).
  destruct (encode_list_ok C _ _ F) as [n1 K1]. destruct (encode_list_ok C _ _ F1) as [n2 K2]. destruct (encode_list_ok C _ _ F2) as [n3 K3].
  destruct Ew as [n4 K4]. destruct Ew' as [n5 K5]. destruct (decode_list_ok C _ _ F' (provided_clean c strict C D HP)) as [n6 K6].
  exists (n1 + n2 + n3 + n4 + n5 + n6 + 2)%nat. intros fuel Hf. split; [rewrite K1 by lia; now rewrite write_all_deque|]. intros Hfit.
  set (la := concat ws1) in *. set (lb := concat ws2) in *. assert (El : concat (ws1 ++ w :: ws2) = la ++ w ++ lb) by (rewrite concat_app; reflexivity).
  assert (El' : concat (ws1 ++ w' :: ws2) = la ++ w' ++ lb) by (rewrite concat_app; reflexivity).
  rewrite El' in K6. rewrite El in *. clear El El' K1 F F' F1 F2. clearbody la lb.
  destruct (vb_with_capacity_ok c nb 1 Hc Hnb ltac:(lia) 0) as (v0 & E0 & R0); [apply fits_0; lia|].
  pose proof (bvec_lawful_bits c nb Hc Hnb) as LB. pose proof (bvec_lawful_blocks c nb Hc Hnb) as LK.
  pose proof (mutblocks_setblock _ _ _ (bvec_lawful_mutblocks c nb Hc Hnb)) as LS.
  pose proof (room_fits c _ _ _ _ (bvec_lawful_push c nb Hc Hnb) (fitsb_spec c nb)) as LP.
  exists {| bb_data := v0; bb_pos := 0 |}.
  assert (H0 : R_buf (R_bv c nb) {| bb_data := v0; bb_pos := 0 |} ([], lengthN (@nil bool))).
  { split; [exact R0|]. split; [reflexivity|apply N.le_refl]. }
  assert (RM : forall n, n <= lengthN (la ++ w ++ lb) -> fitsb c nb n = true).
  { intros n Hn. apply fitsb_spec. exact (fits_mono c nb n _ ltac:(lia) Hn Hfit). }
  rewrite !lengthN_app in RM.
  pose proof (fun u bb l => bb_write_all c (bvec_bitvecpush c nb) (R_bv c nb) (fitsb c nb) Hc LB LK LS LP fuel u ltac:(lia) bb l) as WA.
  destruct (WA la _ [] H0) as (b1 & E1 & H1). { intros n Hn. apply RM. rewrite lengthN_nil in Hn. lia. }
  destruct (WA w b1 _ H1) as (b2 & E2 & H2). { intros n Hn. apply RM. cbn [app] in Hn. lia. }
  destruct (WA lb b2 _ H2) as (b3 & E3 & H3). { intros n Hn. apply RM. cbn [app] in Hn. rewrite !lengthN_app in Hn. lia. }
  cbn [app] in *. rewrite <- app_assoc in *. pose proof H3 as (H3a & H3b & _). cbn [fst snd] in *.
  pose proof H1 as (_ & H1b & _). cbn [fst snd] in H1b.
  pose proof (write_all_agree _ _ _ (buffer_same_sink c (bvec_bitvecpush c nb) (R_bv c nb) (fitsb c nb) fuel Hc LB LK LS LP ltac:(lia)) w'
    {| bb_data := bb_data b3; bb_pos := lengthN la |} (la ++ w ++ lb, lengthN la)) as KA.
  rewrite (tape_over (fitsb c nb) w' la w lb Lw) in KA.
  specialize (KA ltac:(split; [exact H3a|split; [reflexivity|cbn [snd fst]; rewrite lengthN_app; lia]])).
  cbn [buffer_device dv_sink] in KA.
  destruct (write_all (bb_sink c (bvec_bitvecpush c nb) fuel) w' {| bb_data := bb_data b3; bb_pos := lengthN la |}) as [[x b4]|pk|] eqn:E4; try contradiction.
  destruct KA as [-> (H4a & _)]. cbn [fst snd] in H4a.
  set (lall := la ++ w' ++ lb) in *.
  pose proof (bb_reads_all c (bvec_bitvec c nb) (R_bv c nb) Hc LB LK (bb_data b4) lall H4a) as [RD ST].
  destruct ST as [ST _].
  exists {| bb_data := bb_data b4; bb_pos := lengthN lall |}. split; [unfold bb_new, bb_with_capacity, bvec_with_capacity; now rewrite E0|]. split.
  - unfold replace_one, try_. cbv zeta. rewrite K2 by lia. rewrite E1. cbn [bind]. rewrite K4 by lia. rewrite E2. cbn [bind]. rewrite K3 by lia. rewrite E3. cbn [bind].
    unfold bb_seek at 1. rewrite (lb_bit_len _ _ _ LB _ _ H3a). cbn [bind]. unfold bb_position. rewrite H1b.
    destruct (lengthN la <=? lengthN (la ++ w ++ lb)) eqn:Eq; [|rewrite lengthN_app in Eq; lia]. cbn [bind]. rewrite K5 by lia. rewrite E4. cbn [bind].
    unfold bb_seek. rewrite (lb_bit_len _ _ _ LB _ _ H4a). cbn [bind]. destruct (0 <=? lengthN lall) eqn:Eq0; [|lia]. cbn [bind].
    apply (K6 fuel ltac:(lia) _ _ _ _ _ RD ST).
  - unfold bb_position, lall. cbn [bb_pos]. rewrite !lengthN_app. lia.
Qed.

(** A session that follows what it reads: two code words; back; the first word read says how many bits to skip; a bit and two integers are
    written there, over the second word and past the end; a seek too far is refused and the session goes on. *)
Definition walk (c : cfg) : session (list N) :=
  PutCode (gamma c) 100 5 (fun _ => PutCode (delta c) 100 9 (fun _ => SeekTo 0 (fun _ => GetCode (gamma c) 100 (fun x =>
    Where (fun q => PutBit (match x with IOk (Some 5) => true | _ => false end) (fun _ => PutInt true 16 12 2748 (fun _ => PutSint false 8 4 (-3) (fun _ =>
    SeekTo 99 (fun r => SeekTo (q + 1) (fun _ => GetInt true 16 12 (fun y => GetSint false 8 4 (fun z => Size (fun n =>
      Finish [q; match x with IOk (Some v) => v | _ => 0 end; match r with IErr NotFound => 404 | _ => 0 end;
              match y with IOk (Some v) => v | _ => 0 end; match z with IOk (Some v) => Z.to_N (v + 100) | _ => 0 end; n]))))))))))))).
Example C104_walk_ok : session_ok dbg64 (walk dbg64).
Proof.
  assert (G : any_code dbg64 (gamma dbg64)) by (apply ac_elias, ac_unary).
  unfold walk. repeat (constructor; intros; try exact G).
Qed.
Example C104_walk_ex : exists v, bvec_exact dbg64 8 BNew [] v [] /\
  match run_session dbg64 (buffer_device dbg64 (bvec_bitvecpush dbg64 8) 2) (walk dbg64) (bb_from v), run_session dbg64 (tape_device (fitsb dbg64 8)) (walk dbg64) ([], 0) with
  | Ok (x, bb), Ok (y, f) => x = [5; 5; 404; 2748; 113; 22] /\ y = x /\ bb_position bb = 22 /\ snd f = 22 /\ lengthN (fst f) = 22
  | _, _ => False
  end.
Proof.
  exists {| vb_len := 0; vb_vec := [] |}. split; [|vm_compute; auto].
  split; [exact I|]. split; [constructor|]. split; [|reflexivity]. exists 0%nat. reflexivity.
Qed.
(** 5 over 7, both of five bits in the gamma code; and a longer word, 4 over 1, which spoils what follows. *)
Example C104_replace_ex : encodes (gamma rel64) 7 (gamma_word 7) /\ encodes (gamma rel64) 5 (gamma_word 5) /\ lengthN (gamma_word 5) = lengthN (gamma_word 7) /\
  match bb_new rel64 8 with
  | Ok bb => match replace_one rel64 8 (gamma rel64) 60 [3; 1] 7 [2; 9] 5 bb with Ok (IOk vs, bb') => vs = [3; 1; 5; 2; 9] /\ bb_position bb' = 19 | _ => False end /\
             match replace_one rel64 8 (gamma rel64) 60 [3] 1 [7; 9] 4 bb with Ok (IOk vs, _) => vs <> [3; 4; 7; 9] | _ => True end
  | _ => False
  end.
Proof.
  assert (H : forall v, 1 <= v < 2 ^ 64 -> encodes (gamma rel64) v (gamma_word v)) by (intros; apply cw_encodes, gamma_codeword; auto with wf; lia).
  split; [apply H; lia|]. split; [apply H; lia|]. split; [reflexivity|]. vm_compute. repeat split; discriminate.
Qed.
Print Assumptions C104_sessions.
Print Assumptions C104_bit_vector.
Print Assumptions C104_replace.
