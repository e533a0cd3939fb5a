(** * Codes and integer readers and writers see nothing of a stream but its bits (C82): malformed input, values that cannot be
    encoded, errors, panics and endless loops included. *)
From Verif Require Import Machine MStorage MTraits MVectorBase MBitVector MStream MSigned MCoding SpecBits SpecCfg SpecLaws SpecStream
  PBase PStorage PBits PStream PCoding PBuffer Properties8 Properties9.

(** The codes of the library with any parameters, and what [Lift0] and [Elias] build from them *)
Inductive any_code (c : cfg) : code -> Prop :=
| ac_unary : any_code c (unary c)
| ac_omega : any_code c (omega c)
| ac_fibonacci : any_code c (fibonacci c)
| ac_comma : forall n, any_code c (comma c n)
| ac_lift0 : forall C, any_code c C -> any_code c (lift0 c C)
| ac_elias : forall C, any_code c C -> any_code c (elias c C).

(** ** Sinks: a writer is a fixed sequence of bits followed by a fixed outcome *)
Definition writes (m : forall S, sink S -> io S unit) (w : list bool) (out : res (ioR unit)) : Prop :=
  forall S (snk : sink S) s, m S snk s = (r <- write_all snk w s ;; match r with (IOk _, s') => o <- out ;; Ok (o, s') | (IErr e, s') => Ok (IErr e, s') end).
Definition oblivious (m : forall S, sink S -> io S unit) : Prop := exists w out, writes m w out.
(** The same for a computation that returns a value *)
Definition writes_v {A} (m : forall S, sink S -> io S A) (w : list bool) (out : res (ioR A)) : Prop :=
  forall S (snk : sink S) s, m S snk s = (r <- write_all snk w s ;; match r with (IOk _, s') => o <- out ;; Ok (o, s') | (IErr e, s') => Ok (IErr e, s') end).
Definition obl {A} (m : forall S, sink S -> io S A) : Prop := exists w out, writes_v m w out.

Lemma obl_pure {A} (out : res (ioR A)) : obl (fun S _ s => o <- out ;; Ok (o, s)).
Proof. exists [], out. intros S snk s. reflexivity. Qed.
Lemma obl_ret {A} (a : A) : obl (fun S _ => ret a).
Proof. apply (obl_pure (Ok (IOk a))). Qed.
Lemma obl_fail {A} e : obl (fun S _ => @fail S A e).
Proof. apply (obl_pure (Ok (IErr e))). Qed.
Lemma obl_ext {A} (m m' : forall S, sink S -> io S A) : (forall S snk s, m S snk s = m' S snk s) -> obl m -> obl m'.
Proof. intros H (w & out & K). exists w, out. intros S snk s. rewrite <- H. apply K. Qed.
Lemma obl_lift {A} (r : res A) : obl (fun S _ => lift r).
Proof. destruct r as [a|p|]; [apply (obl_pure (Ok (IOk a)))|apply (obl_pure (Panic p))|apply (obl_pure OutOfFuel)]. Qed.
Lemma obl_lift_io {A} (r : ioR A) : obl (fun S _ => lift_io r).
Proof. apply (obl_pure (Ok r)). Qed.
Lemma obl_write b : obl (fun S snk => write_bit snk b).
Proof.
  exists [b], (Ok (IOk tt)). intros S snk s. cbn [write_all]. destruct (write_bit snk b s) as [[[[]|e] s']|p|]; reflexivity.
Qed.
Lemma write_all_app {S} (snk : sink S) w1 w2 s :
  write_all snk (w1 ++ w2) s = (r <- write_all snk w1 s ;; match r with (IOk _, s') => write_all snk w2 s' | (IErr e, s') => Ok (IErr e, s') end).
Proof.
  revert s. induction w1 as [|b w1 IH]; intros s; cbn [write_all app bind]; [reflexivity|].
  destruct (write_bit snk b s) as [[[u|e] s']|p|]; cbn [bind]; auto.
Qed.
Lemma obl_try {A B} (m : forall S, sink S -> io S A) (f : forall S, sink S -> A -> io S B) :
  obl m -> (forall a, obl (fun S snk => f S snk a)) -> obl (fun S snk => try_ (m S snk) (f S snk)).
Proof.
  intros (w & out & K) Hf. destruct out as [[a|e]|p|].
  - destruct (Hf a) as (w2 & out2 & K2). exists (w ++ w2), out2. intros S snk s. unfold try_. rewrite K, write_all_app.
    destruct (write_all snk w s) as [[[u|e] s']|p|]; cbn [bind]; try reflexivity. apply K2.
  - exists w, (Ok (IErr e)). intros S snk s. unfold try_. rewrite K. destruct (write_all snk w s) as [[[u|e'] s']|p|]; reflexivity.
  - exists w, (Panic p). intros S snk s. unfold try_. rewrite K. destruct (write_all snk w s) as [[[u|e'] s']|p'|]; reflexivity.
  - exists w, OutOfFuel. intros S snk s. unfold try_. rewrite K. destruct (write_all snk w s) as [[[u|e'] s']|p'|]; reflexivity.
Qed.
Lemma obl_for {L R} (body : forall S, sink S -> L -> io S (flow L R)) (done : forall S, sink S -> L -> io S R) :
  (forall l, obl (fun S snk => body S snk l)) -> (forall l, obl (fun S snk => done S snk l)) ->
  forall n l, obl (fun S snk => for_io n (body S snk) (done S snk) l).
Proof.
  intros Hb Hd. induction n as [|n IH]; intros l; cbn [for_io]; [apply Hd|].
  apply (obl_try (fun S snk => body S snk l) (fun S snk x => match x with Continue l' => for_io n (body S snk) (done S snk) l' | Return r => ret r end)); [apply Hb|].
  intros [l'|r]; [apply IH|apply obl_ret].
Qed.
Lemma obl_loop {L R} (body : forall S, sink S -> L -> io S (flow L R)) :
  (forall l, obl (fun S snk => body S snk l)) -> forall n l, obl (fun S snk => loop_io n (body S snk) l).
Proof.
  intros Hb. induction n as [|n IH]; intros l; cbn [loop_io]; [apply (obl_pure OutOfFuel)|].
  apply (obl_try (fun S snk => body S snk l) (fun S snk x => match x with Continue l' => loop_io n (body S snk) l' | Return r => ret r end)); [apply Hb|].
  intros [l'|r]; [apply IH|apply obl_ret].
Qed.
Ltac otry := lazymatch goal with |- obl (fun S snk => try_ (@?m S snk) (@?f S snk)) => apply (obl_try m f) end.

Lemma obl_write_int c w nbits value : obl (fun S snk => write_int c snk w nbits value).
Proof.
  unfold write_int.
  apply (obl_for (fun S snk value => try_ (write_bit snk (negb (N.land value 1 =? 0))) (fun _ => try_ (lift (wshr c w value 1)) (fun v => ret (Continue v))))
    (fun S snk _ => ret tt)); [|intros; apply obl_ret].
  intros l. otry; [apply obl_write|]. intros _. otry; [apply obl_lift|]. intros v. apply obl_ret.
Qed.
Lemma obl_write_int_be c w nbits value : obl (fun S snk => write_int_be c snk w nbits value).
Proof.
  unfold write_int_be. otry; [apply obl_lift|]. intros n1. otry; [apply obl_lift|]. intros mask.
  apply (obl_for (fun S snk mask => try_ (write_bit snk (negb (N.land value mask =? 0))) (fun _ => try_ (lift (wshr c w mask 1)) (fun v => ret (Continue v))))
    (fun S snk _ => ret tt)); [|intros; apply obl_ret].
  intros l. otry; [apply obl_write|]. intros _. otry; [apply obl_lift|]. intros v. apply obl_ret.
Qed.
Lemma obl_write_sint c w nbits value : obl (fun S snk => write_sint c snk w nbits value).
Proof.
  unfold write_sint.
  apply (obl_for (fun S snk value => try_ (write_bit snk (negb (Z.land value 1 =? 0)%Z)) (fun _ => try_ (lift (sshr c w value 1)) (fun v => ret (Continue v))))
    (fun S snk _ => ret tt)); [|intros; apply obl_ret].
  intros l. otry; [apply obl_write|]. intros _. otry; [apply obl_lift|]. intros v. apply obl_ret.
Qed.
Lemma obl_write_sint_be c w nbits value : obl (fun S snk => write_sint_be c snk w nbits value).
Proof.
  unfold write_sint_be. otry; [apply obl_lift|]. intros n1. otry; [apply obl_lift|]. intros mask.
  apply (obl_for (fun S snk mask => try_ (write_bit snk (negb (Z.land value mask =? 0)%Z)) (fun _ => try_ (lift (sshr c w mask 1)) (fun v => ret (Continue v))))
    (fun S snk _ => ret tt)); [|intros; apply obl_ret].
  intros l. otry; [apply obl_write|]. intros _. otry; [apply obl_lift|]. intros v. apply obl_ret.
Qed.
Lemma obl_encode c C : any_code c C -> forall fuel v, obl (fun S snk => encode C snk fuel v).
Proof.
  induction 1 as [| | |n|C HC IH|C HC IH]; intros fuel v.
  - change (obl (fun S snk => unary_encode c snk fuel v)). unfold unary_encode. otry.
    + apply (obl_loop (fun S snk value => if 0 <? value then try_ (write_bit snk false) (fun _ => try_ (lift (wsub c 64 value 1)) (fun v => ret (Continue v))) else ret (Return tt))).
      intros l. destruct (0 <? l); [|apply obl_ret]. otry; [apply obl_write|]. intros _. otry; [apply obl_lift|]. intros. apply obl_ret.
    + intros _. otry; [apply obl_write|]. intros _. apply obl_ret.
  - change (obl (fun S snk => omega_encode c snk fuel v)). unfold omega_encode. otry; [apply obl_lift|]. intros stack. otry.
    + induction stack as [|[nbits value] t IHt]; cbn [omega_write]; [apply obl_ret|]. otry; [apply obl_write_int_be|]. intros _. exact IHt.
    + intros _. otry; [apply obl_write|]. intros _. apply obl_ret.
  - change (obl (fun S snk => fib_encode c snk fuel v)). unfold fib_encode. otry; [apply obl_lift|]. intros _. otry.
    + unfold fib_search. apply (obl_loop (fun S snk f => if fi f <=? v then try_ (lift_io (fib_next f)) (fun f' => ret (Continue f')) else ret (Return f))).
      intros f. destruct (fi f <=? v); [|apply obl_ret]. otry; [apply obl_lift_io|]. intros. apply obl_ret.
    + intros f. otry; [apply obl_lift|]. intros stack. induction stack as [|b t IHt]; cbn [write_stack]; [apply obl_ret|]. otry; [apply obl_write|]. intros _. exact IHt.
  - change (obl (fun S snk => comma_encode c n snk fuel v)). unfold comma_encode. otry; [apply obl_lift|]. intros base. otry; [apply obl_lift|]. intros stack. otry.
    + induction stack as [|d t IHt]; cbn [comma_write]; [apply obl_ret|]. otry; [apply obl_write_int|]. intros _. exact IHt.
    + intros _. otry; [apply obl_write_int|]. intros _. apply obl_ret.
  - change (obl (fun S snk => lift0_encode C snk fuel v)). unfold lift0_encode. destruct (checked_add 64 v 1) as [v'|]; [apply IH|apply obl_fail].
  - change (obl (fun S snk => elias_encode c C snk fuel v)). unfold elias_encode. otry; [apply obl_lift|]. intros _. otry; [apply obl_lift|]. intros t. otry; [apply obl_lift|].
    intros nbits. otry; [apply IH|]. intros _. apply obl_write_int.
Qed.
(** [encode], for every value, encodable or not: there are bits [w] and an outcome [out] (success, an error, a panic, no end) such that
    on every sink the bits are written one by one and then that is the outcome, unless the sink fails, panics or hangs before.
    The same holds of the integer writers, for every width. *)
Theorem C82_writers : forall c C fuel v, any_code c C -> oblivious (fun S snk => encode C snk fuel v).
Proof. intros c C fuel v HC. exact (obl_encode c C HC fuel v). Qed.
Theorem C82_int_writers : forall c w nbits value z,
  oblivious (fun S snk => write_int c snk w nbits value) /\ oblivious (fun S snk => write_int_be c snk w nbits value) /\
  oblivious (fun S snk => write_sint c snk w nbits z) /\ oblivious (fun S snk => write_sint_be c snk w nbits z).
Proof.
  intros c w nbits value z. split; [exact (obl_write_int c w nbits value)|]. split; [exact (obl_write_int_be c w nbits value)|].
  split; [exact (obl_write_sint c w nbits z)|exact (obl_write_sint_be c w nbits z)].
Qed.
(** What a queue receives is what every sink is given. *)
Theorem C82_queue_decides : forall c C fuel v r w, any_code c C -> encode C deque_sink fuel v [] = Ok (r, w) ->
  forall S (snk : sink S) s,
  encode C snk fuel v s = (x <- write_all snk w s ;; match x with (IOk _, s') => Ok (r, s') | (IErr e, s') => Ok (IErr e, s') end).
Proof.
  intros c C fuel v r w HC H S snk s. destruct (C82_writers c C fuel v HC) as (w' & out & K).
  rewrite (K _ deque_sink []), write_all_deque in H. cbn [bind app] in H. destruct out as [o| |]; try discriminate. cbn [bind] in H. inversion H; subst. apply K.
Qed.

(** ** Sources: two sources in related states *)
(** [Q] relates states in which both go on delivering the same, [E] those reached by the end of data or an error. *)
Definition same_source {S1 S2} (src1 : source S1) (src2 : source S2) (Q E : S1 -> S2 -> Prop) : Prop := forall s1 s2, Q s1 s2 ->
  match read_bit src1 s1, read_bit src2 s2 with
  | Ok (IOk (Some b1), t1), Ok (IOk (Some b2), t2) => b1 = b2 /\ Q t1 t2
  | Ok (o1, t1), Ok (o2, t2) => o1 = o2 /\ E t1 t2
  | Panic p1, Panic p2 => p1 = p2
  | OutOfFuel, OutOfFuel => True
  | _, _ => False
  end.
(** The same answer, and states that are again related; after the end of data there is no value. *)
Definition same_answer {S1 S2 A} (Q E : S1 -> S2 -> Prop) (r1 : res (ioR (option A) * S1)) (r2 : res (ioR (option A) * S2)) : Prop :=
  match r1, r2 with
  | Ok (IOk (Some a1), t1), Ok (IOk (Some a2), t2) => a1 = a2 /\ Q t1 t2
  | Ok (o1, t1), Ok (o2, t2) => o1 = o2 /\ (Q t1 t2 \/ E t1 t2)
  | Panic p1, Panic p2 => p1 = p2
  | OutOfFuel, OutOfFuel => True
  | _, _ => False
  end.

Section Two.
  Context {S1 S2 : Type} (src1 : source S1) (src2 : source S2) (Q E : S1 -> S2 -> Prop).
  Hypothesis HS : same_source src1 src2 Q E.

  (** [fin a]: the stream may be at its end when [a] is returned *)
  Definition sim {A} (fin : A -> Prop) (m1 : io S1 A) (m2 : io S2 A) (P : S1 -> S2 -> Prop) : Prop := forall s1 s2, P s1 s2 ->
    match m1 s1, m2 s2 with
    | Ok (IOk a1, t1), Ok (IOk a2, t2) => a1 = a2 /\ (Q t1 t2 \/ fin a1 /\ E t1 t2)
    | Ok (IErr e1, t1), Ok (IErr e2, t2) => e1 = e2 /\ (Q t1 t2 \/ E t1 t2)
    | Panic p1, Panic p2 => p1 = p2
    | OutOfFuel, OutOfFuel => True
    | _, _ => False
    end.
  Lemma sim_ret {A} (fin : A -> Prop) a : sim fin (ret a) (ret a) Q.
  Proof. intros s1 s2 H. cbn. auto. Qed.
  Lemma sim_ret_E {A} (fin : A -> Prop) a : fin a -> sim fin (ret a) (ret a) E.
  Proof. intros Hf s1 s2 H. cbn. auto. Qed.
  Lemma sim_fail {A} (fin : A -> Prop) e : sim fin (fail e) (fail e) Q.
  Proof. intros s1 s2 H. cbn. auto. Qed.
  Lemma sim_fail_E {A} (fin : A -> Prop) e : sim fin (fail e) (fail e) E.
  Proof. intros s1 s2 H. cbn. auto. Qed.
  Lemma sim_lift {A} (r : res A) : sim (fun _ => False) (lift r) (lift r) Q.
  Proof. intros s1 s2 H. destruct r; cbn; auto. Qed.
  Lemma sim_lift_io {A} (r : ioR A) : sim (fun _ => False) (lift_io r) (lift_io r) Q.
  Proof. intros s1 s2 H. destruct r; cbn; auto. Qed.
  Lemma sim_fuel {A} (fin : A -> Prop) P : sim fin (fun _ => OutOfFuel) (fun _ => OutOfFuel) P.
  Proof. intros s1 s2 H. exact I. Qed.
  Lemma sim_read : sim (fun o => o = None) (read_bit src1) (read_bit src2) Q.
  Proof.
    intros s1 s2 H. specialize (HS s1 s2 H). destruct (read_bit src1 s1) as [[[[b1|]|e1] t1]|p1|], (read_bit src2 s2) as [[[[b2|]|e2] t2]|p2|]; cbn; try tauto;
      destruct HS as [HA HB]; try discriminate; try (split; [congruence|auto]).
  Qed.
  Lemma sim_try {A B} (finA : A -> Prop) (finB : B -> Prop) m1 m2 (f1 : A -> io S1 B) (f2 : A -> io S2 B) :
    sim finA m1 m2 Q -> (forall a, sim finB (f1 a) (f2 a) Q) -> (forall a, finA a -> sim finB (f1 a) (f2 a) E) -> sim finB (try_ m1 f1) (try_ m2 f2) Q.
  Proof.
    intros Hm Hq He s1 s2 H. specialize (Hm s1 s2 H). unfold try_. destruct (m1 s1) as [[[a1|e1] t1]|p1|], (m2 s2) as [[[a2|e2] t2]|p2|]; cbn [bind]; try contradiction.
    - destruct Hm as [-> [HQ|[HF HE]]]; [apply (Hq a2 t1 t2 HQ)|apply (He a2 HF t1 t2 HE)].
    - destruct Hm as [-> HQ]. split; [reflexivity|exact HQ].
    - exact Hm.
    - exact I.
  Qed.
  (** The body of a loop: at the end of data it only returns. *)
  Definition fin_flow {L R} (fin : R -> Prop) (x : flow L R) : Prop := match x with Continue _ => False | Return r => fin r end.
  Lemma sim_for {L R} (fin : R -> Prop) b1 b2 d1 d2 : (forall l : L, sim (fin_flow fin) (b1 l) (b2 l) Q) -> (forall l, sim fin (d1 l) (d2 l) Q) ->
    forall n l, sim fin (for_io n b1 d1 l) (for_io n b2 d2 l) Q.
  Proof.
    intros Hb Hd. induction n as [|n IH]; intros l; cbn [for_io]; [apply Hd|].
    apply (sim_try (fin_flow fin)); [apply Hb| |]; intros [l'|r]; [apply IH|apply sim_ret|intros []|intros Hf; now apply sim_ret_E].
  Qed.
  Lemma sim_loop {L R} (fin : R -> Prop) b1 b2 : (forall l : L, sim (fin_flow fin) (b1 l) (b2 l) Q) ->
    forall n l, sim fin (loop_io n b1 l) (loop_io n b2 l) Q.
  Proof.
    intros Hb. induction n as [|n IH]; intros l; cbn [loop_io]; [apply sim_fuel|].
    apply (sim_try (fin_flow fin)); [apply Hb| |]; intros [l'|r]; [apply IH|apply sim_ret|intros []|intros Hf; now apply sim_ret_E].
  Qed.
  Notation ended := (fun o => o = None).
  Ltac rd := apply (sim_try (fun o : option bool => o = None)); [apply sim_read| |].
  Ltac lf := apply (sim_try (fun _ => False)); [apply sim_lift| |intros ? []].
  Lemma sim_read_int c w nbits : sim ended (read_int c src1 w nbits) (read_int c src2 w nbits) Q.
  Proof.
    unfold read_int. apply sim_for; [|intros; apply sim_ret]. intros [[result mask] consumed]. rd.
    - intros [bit|]; [lf; intros; apply sim_ret|]. destruct consumed; [apply sim_fail|apply sim_ret].
    - intros o ->. destruct consumed; [apply sim_fail_E|apply sim_ret_E; reflexivity].
  Qed.
  Lemma sim_read_int_be c w nbits : sim ended (read_int_be c src1 w nbits) (read_int_be c src2 w nbits) Q.
  Proof.
    unfold read_int_be. apply sim_for; [|intros; apply sim_ret]. intros [result consumed]. rd.
    - intros [bit|]; [lf; intros; apply sim_ret|]. destruct consumed; [apply sim_fail|apply sim_ret].
    - intros o ->. destruct consumed; [apply sim_fail_E|apply sim_ret_E; reflexivity].
  Qed.
  Lemma sim_read_sint c w nbits : sim ended (read_sint c src1 w nbits) (read_sint c src2 w nbits) Q.
  Proof.
    unfold read_sint. apply sim_for; [|intros; apply sim_ret]. intros [[result mask] consumed]. rd.
    - intros [bit|]; [lf; intros; apply sim_ret|]. destruct consumed; [apply sim_fail|apply sim_ret].
    - intros o ->. destruct consumed; [apply sim_fail_E|apply sim_ret_E; reflexivity].
  Qed.
  Lemma sim_read_sint_be c w nbits : sim ended (read_sint_be c src1 w nbits) (read_sint_be c src2 w nbits) Q.
  Proof.
    unfold read_sint_be. apply sim_for; [|intros; apply sim_ret]. intros [result consumed]. rd.
    - intros [bit|]; [lf; intros; apply sim_ret|]. destruct consumed; [apply sim_fail|apply sim_ret].
    - intros o ->. destruct consumed; [apply sim_fail_E|apply sim_ret_E; reflexivity].
  Qed.
  Lemma sim_decode c C : any_code c C -> forall fuel, sim ended (decode C src1 fuel) (decode C src2 fuel) Q.
  Proof.
    induction 1 as [| | |n|C HC IH|C HC IH]; intros fuel.
    - change (sim ended (unary_decode c src1 fuel) (unary_decode c src2 fuel) Q). unfold unary_decode. apply sim_loop. intros [result consumed]. rd.
      + intros [bit|]; [destruct bit; [apply sim_ret|lf; intros; apply sim_ret]|destruct consumed; [apply sim_fail|apply sim_ret]].
      + intros o ->. destruct consumed; [apply sim_fail_E|apply sim_ret_E; reflexivity].
    - change (sim ended (omega_decode c src1 fuel) (omega_decode c src2 fuel) Q). unfold omega_decode. apply sim_loop. intros result. rd.
      + intros [bit|]; [destruct bit; cbn [negb]; [|apply sim_ret]|destruct (result =? 1); [apply sim_ret|apply sim_fail]].
        apply (sim_try (fun o => o = None)); [apply sim_read_int_be| |].
        * intros [next|]; [lf; intros; apply sim_ret|apply sim_fail].
        * intros o ->. apply sim_fail_E.
      + intros o ->. destruct (result =? 1); [apply sim_ret_E; reflexivity|apply sim_fail_E].
    - change (sim ended (fib_decode c src1 fuel) (fib_decode c src2 fuel) Q). unfold fib_decode. apply sim_loop. intros [[result f] previous]. rd.
      + intros [bit|]; [destruct (bit && previous); [apply sim_ret|]|destruct (result =? 0); [apply sim_ret|apply sim_fail]].
        lf. intros r. apply (sim_try (fun _ => False)); [apply sim_lift_io| |intros ? []]. intros. apply sim_ret.
      + intros o ->. destruct (result =? 0); [apply sim_ret_E; reflexivity|apply sim_fail_E].
    - change (sim ended (comma_decode c n src1 fuel) (comma_decode c n src2 fuel) Q). unfold comma_decode. lf. intros base. apply sim_loop. intros [result consumed].
      apply (sim_try (fun o => o = None)); [apply sim_read_int| |].
      + intros [digit|]; [destruct (digit =? base); [apply sim_ret|lf; intros; lf; intros; apply sim_ret]|destruct consumed; [apply sim_fail|apply sim_ret]].
      + intros o ->. destruct consumed; [apply sim_fail_E|apply sim_ret_E; reflexivity].
    - change (sim ended (lift0_decode c C src1 fuel) (lift0_decode c C src2 fuel) Q). unfold lift0_decode. apply (sim_try (fun o => o = None)); [apply IH| |].
      + intros [n|]; [lf; intros; apply sim_ret|apply sim_ret].
      + intros o ->. apply sim_ret_E. reflexivity.
    - change (sim ended (elias_decode c C src1 fuel) (elias_decode c C src2 fuel) Q). unfold elias_decode. apply (sim_try (fun o => o = None)); [apply IH| |].
      + intros [nbits|]; [|apply sim_ret]. destruct (63 <? nbits); [apply sim_fail|]. apply (sim_try (fun o => o = None)); [apply sim_read_int| |].
        * intros [low|]; [lf; intros; apply sim_ret|apply sim_fail].
        * intros o ->. apply sim_fail_E.
      + intros o ->. apply sim_ret_E. reflexivity.
  Qed.
  Lemma sim_same {A} (m1 : io S1 (option A)) (m2 : io S2 (option A)) s1 s2 : sim ended m1 m2 Q -> Q s1 s2 -> same_answer Q E (m1 s1) (m2 s2).
  Proof.
    intros H HQ. specialize (H s1 s2 HQ). unfold same_answer. destruct (m1 s1) as [[[[a1|]|e1] t1]|p1|], (m2 s2) as [[[[a2|]|e2] t2]|p2|]; cbn in *; intuition congruence.
  Qed.
End Two.

(** Two sources that deliver the same bits, ends, errors and panics cannot be told apart by a decoder or an integer reader. *)
Theorem C82_two_sources : forall c C S1 S2 (src1 : source S1) (src2 : source S2) Q E s1 s2, any_code c C -> same_source src1 src2 Q E -> Q s1 s2 ->
  forall fuel, same_answer Q E (decode C src1 fuel s1) (decode C src2 fuel s2).
Proof. intros c C S1 S2 src1 src2 Q E s1 s2 HC HS HQ fuel. apply sim_same; [|exact HQ]. now apply (sim_decode src1 src2 Q E HS c). Qed.
Theorem C82_two_int_sources : forall c w nbits S1 S2 (src1 : source S1) (src2 : source S2) Q E s1 s2, same_source src1 src2 Q E -> Q s1 s2 ->
  same_answer Q E (read_int c src1 w nbits s1) (read_int c src2 w nbits s2) /\ same_answer Q E (read_int_be c src1 w nbits s1) (read_int_be c src2 w nbits s2) /\
  same_answer Q E (read_sint c src1 w nbits s1) (read_sint c src2 w nbits s2) /\ same_answer Q E (read_sint_be c src1 w nbits s1) (read_sint_be c src2 w nbits s2).
Proof.
  intros c w nbits S1 S2 src1 src2 Q E s1 s2 HS HQ. split; [|split; [|split]]; apply sim_same; try exact HQ;
    [now apply sim_read_int|now apply sim_read_int_be|now apply sim_read_sint|now apply sim_read_sint_be].
Qed.

(** ** A source that delivers the bits [l] and then stops with [o] *)
Definition list_source (o : ioR (option bool)) : source (list bool) := {|
  read_bit := fun l => Ok (match l with [] => (o, []) | b :: t => (IOk (Some b), t) end) |}.
(** Decoding from it is decoding from the list: same value, end, error, panic or endless loop; a value leaves the source where the list was left. *)
Theorem C82_bits_decide : forall c C S (src : source S) s l s' o s'' fuel, any_code c C -> reads src s l s' -> stops src s' o s'' ->
  match decode C (list_source o) fuel l with
  | Ok (IOk (Some v), rest) => exists p t, l = p ++ rest /\ reads src s p t /\ decode C src fuel s = Ok (IOk (Some v), t)
  | Ok (r, _) => exists t, decode C src fuel s = Ok (r, t)
  | Panic k => decode C src fuel s = Panic k
  | OutOfFuel => decode C src fuel s = OutOfFuel
  end.
Proof.
  intros c C S src s l s' o s'' fuel HC HR [HS1 HS2].
  pose (Q := fun t rest => exists p, l = p ++ rest /\ reads src s p t /\ reads src t rest s').
  assert (Hsnoc : forall a p t b t', reads src a p t -> read_bit src t = Ok (IOk (Some b), t') -> reads src a (p ++ [b]) t').
  { induction 1 as [|a b0 a1 w a' H1 H2 IH]; intros HH; [econstructor; [exact HH|constructor]|]. cbn. econstructor; [exact H1|now apply IH]. }
  assert (HSS : same_source src (list_source o) Q (fun _ _ => True)).
  { intros t rest (p & El & H1 & H2). destruct H2 as [t|t b t1 w t2 HB H2]; cbn [list_source read_bit].
    - rewrite HS1. destruct o as [[b|]|e]; [contradiction|auto|auto].
    - rewrite HB. split; [reflexivity|]. exists (p ++ [b]). split; [now rewrite <- app_assoc|]. split; [|exact H2]. exact (Hsnoc _ _ _ _ _ H1 HB). }
  pose proof (C82_two_sources c C S (list bool) src (list_source o) Q _ s l HC HSS ltac:(exists []; split; [reflexivity|split; [constructor|exact HR]]) fuel) as H.
  unfold same_answer in H. destruct (decode C src fuel s) as [[[[a1|]|e1] t1]|p1|], (decode C (list_source o) fuel l) as [[[[a2|]|e2] t2]|p2|]; cbn in H; try contradiction; try (destruct H; discriminate).
  - destruct H as [-> (p & El & H1 & H2)]. exists p, t1. auto.
  - exists t1. reflexivity.
  - destruct H as [H _]. injection H as ->. exists t1. reflexivity.
  - now rewrite H.
  - reflexivity.
Qed.
(** ** Reading programs: any adaptive use of a source.  The continuation sees the answer, also errors and the end of data. *)
Inductive reading (A : Type) :=
| Done (a : A)
| Bit (k : ioR (option bool) -> reading A)
| Int (be : bool) (w nbits : N) (k : ioR (option N) -> reading A)
| Sint (be : bool) (w nbits : N) (k : ioR (option Z) -> reading A)
| Decode (C : code) (fuel : nat) (k : ioR (option N) -> reading A).
Arguments Done {A} a.
Arguments Bit {A} k.
Arguments Int {A} be w nbits k.
Arguments Sint {A} be w nbits k.
Arguments Decode {A} C fuel k.
Fixpoint run_reading {A S} (c : cfg) (src : source S) (p : reading A) (s : S) : res (A * S) :=
  match p with
  | Done a => Ok (a, s)
  | Bit k => x <- read_bit src s ;; run_reading c src (k (fst x)) (snd x)
  | Int be w n k => x <- (if be then read_int_be c src w n s else read_int c src w n s) ;; run_reading c src (k (fst x)) (snd x)
  | Sint be w n k => x <- (if be then read_sint_be c src w n s else read_sint c src w n s) ;; run_reading c src (k (fst x)) (snd x)
  | Decode C fuel k => x <- decode C src fuel s ;; run_reading c src (k (fst x)) (snd x)
  end.
Inductive codes_ok {A} (c : cfg) : reading A -> Prop :=
| co_done : forall a, codes_ok c (Done a)
| co_bit : forall k, (forall x, codes_ok c (k x)) -> codes_ok c (Bit k)
| co_int : forall be w n k, (forall x, codes_ok c (k x)) -> codes_ok c (Int be w n k)
| co_sint : forall be w n k, (forall x, codes_ok c (k x)) -> codes_ok c (Sint be w n k)
| co_decode : forall C fuel k, any_code c C -> (forall x, codes_ok c (k x)) -> codes_ok c (Decode C fuel k).
Lemma same_answer_bind {S1 S2 A B} (Q : S1 -> S2 -> Prop) (r1 : res (ioR (option A) * S1)) (r2 : res (ioR (option A) * S2)) f1 f2 (P : res (B * S1) -> res (B * S2) -> Prop) :
  same_answer Q Q r1 r2 -> (forall x t1 t2, Q t1 t2 -> P (f1 (x, t1)) (f2 (x, t2))) -> (forall k, P (Panic k) (Panic k)) -> P OutOfFuel OutOfFuel ->
  P (bind r1 f1) (bind r2 f2).
Proof.
  intros H H1 H2 H3. unfold same_answer in H. destruct r1 as [[[[a1|]|e1] t1]|p1|], r2 as [[[[a2|]|e2] t2]|p2|]; cbn in H; cbn [bind]; try contradiction; try (destruct H; discriminate).
  - destruct H as [-> H]. now apply H1.
  - destruct H as [_ [H|H]]; now apply H1.
  - destruct H as [-> [H|H]]; now apply H1.
  - subst. apply H2.
  - exact H3.
Qed.
(** Two sources that behave alike, before and after their end, give the same result to every reading program. *)
Theorem C82_readings : forall A c S1 S2 (src1 : source S1) (src2 : source S2) Q (p : reading A), same_source src1 src2 Q Q -> codes_ok c p ->
  forall s1 s2, Q s1 s2 ->
  match run_reading c src1 p s1, run_reading c src2 p s2 with
  | Ok (a1, t1), Ok (a2, t2) => a1 = a2 /\ Q t1 t2
  | Panic p1, Panic p2 => p1 = p2
  | OutOfFuel, OutOfFuel => True
  | _, _ => False
  end.
Proof.
  intros A c S1 S2 src1 src2 Q p HS HP.
  induction HP as [a|k Hk IH|be w n k Hk IH|be w n k Hk IH|C fuel k HC Hk IH]; intros s1 s2 HQ; cbn [run_reading].
  - auto.
  - apply (same_answer_bind Q (read_bit src1 s1) (read_bit src2 s2)); auto.
    specialize (HS s1 s2 HQ). unfold same_answer. destruct (read_bit src1 s1) as [[[[b1|]|e1] t1]|p1|], (read_bit src2 s2) as [[[[b2|]|e2] t2]|p2|]; intuition.
  - destruct (C82_two_int_sources c w n S1 S2 src1 src2 Q Q s1 s2 HS HQ) as (H1 & H2 & _).
    apply (same_answer_bind Q (if be then read_int_be c src1 w n s1 else read_int c src1 w n s1) (if be then read_int_be c src2 w n s2 else read_int c src2 w n s2)); auto.
    destruct be; assumption.
  - destruct (C82_two_int_sources c w n S1 S2 src1 src2 Q Q s1 s2 HS HQ) as (_ & _ & H1 & H2).
    apply (same_answer_bind Q (if be then read_sint_be c src1 w n s1 else read_sint c src1 w n s1) (if be then read_sint_be c src2 w n s2 else read_sint c src2 w n s2)); auto.
    destruct be; assumption.
  - apply (same_answer_bind Q (decode C src1 fuel s1) (decode C src2 fuel s2)); auto. exact (C82_two_sources c C S1 S2 src1 src2 Q Q s1 s2 HC HS HQ fuel).
Qed.

(** A [BitBuffer] at position [p], over any store, answers every reading program exactly as a queue holding its bits from [p] on,
    and is left at the same bit. *)
Lemma same_source_buffer T c (B : bitvec T) (R : T -> list bool -> Prop) t l : wf_cfg c -> lawful_bits c B R -> lawful_blocks c B R -> R t l ->
  same_source (bb_source c B) deque_source
    (fun bb rest => exists p, p <= lengthN l /\ bb = {| bb_data := t; bb_pos := p |} /\ rest = skipnN p l)
    (fun bb rest => exists p, p <= lengthN l /\ bb = {| bb_data := t; bb_pos := p |} /\ rest = skipnN p l).
Proof.
  intros Hc LB LK HR bb rest (q & Hq & -> & ->). cbn [bb_source read_bit deque_source]. destruct (N.eq_dec q (lengthN l)) as [->|Hne].
  - rewrite (bb_read_end c B R LB t l (lengthN l) HR ltac:(lia)). rewrite (skipnN_all (lengthN l) l) by lia.
    split; [reflexivity|]. exists (lengthN l). split; [lia|]. split; [reflexivity|]. symmetry. apply skipnN_all. lia.
  - destruct (nthN l q) as [b|] eqn:Eb; [|apply nthN_None in Eb; lia]. rewrite (bb_read_ok c B R Hc LB LK t l q b HR Eb).
    assert (Es : skipnN q l = b :: skipnN (q + 1) l).
    { apply nthN_ext. intros i. rewrite nthN_cons, !nthN_skipnN. destruct (i =? 0) eqn:Ei; [replace (q + i) with q by lia; exact Eb|f_equal; lia]. }
    rewrite Es. split; [reflexivity|]. exists (q + 1). split; [lia|]. auto.
Qed.
Theorem C82_bit_buffer : forall A T c (B : bitvec T) (R : T -> list bool -> Prop) t l p (prog : reading A),
  wf_cfg c -> lawful_bits c B R -> lawful_blocks c B R -> R t l -> codes_ok c prog -> p <= lengthN l ->
  run_reading c (bb_source c B) prog {| bb_data := t; bb_pos := p |} =
  (x <- run_reading c deque_source prog (skipnN p l) ;; Ok (fst x, {| bb_data := t; bb_pos := lengthN l - lengthN (snd x) |})).
Proof.
  intros A T c B R t l p prog Hc LB LK HR HC Hp.
  pose proof (C82_readings A c _ _ (bb_source c B) deque_source _ prog (same_source_buffer T c B R t l Hc LB LK HR) HC _ _ (ex_intro _ p (conj Hp (conj eq_refl eq_refl)))) as H.
  cbv beta in H. destruct (run_reading c (bb_source c B) prog _) as [[a1 t1]|p1|], (run_reading c deque_source prog (skipnN p l)) as [[a2 t2]|p2|]; cbn [bind fst snd]; try contradiction.
  - destruct H as [-> (q & Hq & -> & ->)]. rewrite lengthN_skipnN. do 3 f_equal. lia.
  - now rewrite H.
  - reflexivity.
Qed.

(** Malformed input: the header of the Elias code announces too many bits, and the last integer is cut off. *)
Definition C82_prog : reading (list (ioR (option N))) :=
  Decode (comma dbg64 8) 20 (fun a => Int true 16 5 (fun b => Decode (elias dbg64 (comma dbg64 3)) 20 (fun d => Decode (omega dbg64) 20 (fun e => Int false 16 12 (fun f => Done [a; b; d; e; f]))))).
Example C82_ex : any_code dbg64 (comma dbg64 0) /\ any_code dbg64 (elias dbg64 (lift0 dbg64 (fibonacci dbg64))) /\ codes_ok dbg64 C82_prog /\
  lawful_bits dbg64 (blocks_bitvec dbg64 8) (R_blocks dbg64 8) /\ lawful_blocks dbg64 (blocks_bitvec dbg64 8) (R_blocks dbg64 8) /\
  R_blocks dbg64 8 [1; 2; 255; 85; 170; 63; 250] (bits_of_blocks 8 [1; 2; 255; 85; 170; 63; 250]) /\
  run_reading dbg64 (bb_source dbg64 (blocks_bitvec dbg64 8)) C82_prog {| bb_data := [1; 2; 255; 85; 170; 63; 250]; bb_pos := 0 |} =
    Ok ([IOk (Some 257); IOk (Some 21); IErr InvalidData; IOk (Some 3); IErr UnexpectedEof], {| bb_data := [1; 2; 255; 85; 170; 63; 250]; bb_pos := 56 |}) /\
  encode (gamma dbg64) deque_sink 10 0 [] = Panic PAssert /\ encode (fibonacci dbg64) deque_sink 100 (2 ^ 64 - 1) [] = Ok (IErr InvalidData, []).
Proof.
  split; [constructor|]. split; [repeat constructor|]. split; [repeat constructor|].
  split; [apply blocks_lawful_bits; auto with wf|]. split; [apply blocks_lawful_blocks; auto with wf|].
  split; [split; [reflexivity|]; split; [repeat constructor|vm_compute; congruence]|].
  split; [vm_compute; reflexivity|]. split; vm_compute; reflexivity.
Qed.

Example C82_sources_ex : exists Q,
  same_source (bb_source dbg64 (blocks_bitvec dbg64 8)) deque_source Q Q /\
  Q {| bb_data := [5; 20]; bb_pos := 3 |} [false; false; false; false; false; false; false; true; false; true; false; false; false] /\
  decode (gamma dbg64) (bb_source dbg64 (blocks_bitvec dbg64 8)) 20 {| bb_data := [5; 20]; bb_pos := 9 |} = Ok (IOk (Some 2), {| bb_data := [5; 20]; bb_pos := 12 |}) /\
  Q {| bb_data := [5; 20]; bb_pos := 9 |} [false; true; false; true; false; false; false] /\
  decode (gamma dbg64) deque_source 20 [false; true; false; true; false; false; false] = Ok (IOk (Some 2), [true; false; false; false]) /\
  decode (gamma dbg64) (bb_source dbg64 (blocks_bitvec dbg64 8)) 20 {| bb_data := [5; 20]; bb_pos := 3 |} = Ok (IErr UnexpectedEof, {| bb_data := [5; 20]; bb_pos := 16 |}) /\
  decode (gamma dbg64) deque_source 20 [false; false; false; false; false; false; false; true; false; true; false; false; false] = Ok (IErr UnexpectedEof, []).
Proof.
  eexists. split.
  - apply (same_source_buffer _ dbg64 (blocks_bitvec dbg64 8) (R_blocks dbg64 8) [5; 20] (bits_of_blocks 8 [5; 20])); [auto with wf|apply blocks_lawful_bits; auto with wf|apply blocks_lawful_blocks; auto with wf|].
    split; [reflexivity|]. split; [repeat constructor|vm_compute; congruence].
  - cbv beta. split; [exists 3; split; [vm_compute; congruence|]; split; reflexivity|]. split; [vm_compute; reflexivity|].
    split; [exists 9; split; [vm_compute; congruence|]; split; reflexivity|]. split; [vm_compute; reflexivity|]. split; vm_compute; reflexivity.
Qed.

Print Assumptions C82_writers.
Print Assumptions C82_int_writers.
Print Assumptions C82_queue_decides.
Print Assumptions C82_two_sources.
Print Assumptions C82_two_int_sources.
Print Assumptions C82_bits_decide.
Print Assumptions C82_readings.
Print Assumptions C82_bit_buffer.
