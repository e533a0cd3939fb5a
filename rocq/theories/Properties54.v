(** * Property C107: messages of values, each under a code of its own; cut short; and those that cannot be read back. *)
From Verif Require Import Machine MStorage MTraits MStream MCoding SpecBits SpecCfg SpecStream SpecParse
  PBase PBits PDefaults PStream PCoding PCoding2 PCoding3 Properties9 Properties18 Properties26 Properties29 Properties51 Properties52 Properties53.

(** A message: values, each with the code it is sent in. *)
Definition message := list (codex * N).
Fixpoint send {S} (c : cfg) (snk : sink S) (fuel : nat) (m : message) : io S unit :=
  match m with
  | [] => ret tt
  | (C, v) :: m => try_ (encode (code_of c C) snk fuel v) (fun _ => send c snk fuel m)
  end.
(** How the receiver stops: it has all it wants; no more data; an error. *)
Inductive ended := Complete | NoMore | Error (e : io_error).
Fixpoint receive {S} (c : cfg) (src : source S) (fuel : nat) (Cs : list codex) (s : S) : res (list N * ended * S) :=
  match Cs with
  | [] => Ok ([], Complete, s)
  | C :: Cs =>
      r <- decode (code_of c C) src fuel s ;;
      match r with
      | (IErr e, s) => Ok ([], Error e, s)
      | (IOk None, s) => Ok ([], NoMore, s)
      | (IOk (Some v), s) => '(vs, x, s) <- receive c src fuel Cs s ;; Ok (v :: vs, x, s)
      end
  end.

(** The words of a message, one after the other. *)
Inductive words (c : cfg) : message -> list bool -> Prop :=
| words_nil : words c [] []
| words_cons : forall C v w m l, v < 2 ^ 64 -> emits c C v (Word w) -> words c m l -> words c ((C, v) :: m) (w ++ l).
Definition readable (m : message) : Prop := Forall (fun x => ~ omega_of_0 (fst x) (snd x)) m.
(** The code that reads the first bit. *)
Fixpoint first_code (C : codex) : codex := match C with XLift0 C => first_code C | XElias C => first_code C | _ => C end.

Lemma omega_of_0_dec C v : omega_of_0 C v \/ ~ omega_of_0 C v.
Proof.
  revert v. induction C as [| | |n|C IH|C IH]; intros v; cbn [omega_of_0]; auto. destruct (N.eq_dec v 0); auto.
Qed.
Lemma parse_at {S} c C l (src : source S) s s' o s'' fuel : wf_cfg c -> reads src s l s' -> stops src s' o s'' -> (length l < fuel)%nat ->
  answers src s l o s'' (parse c C l) (fun v => v) (decode (code_of c C) src fuel s).
Proof. intros Hc HR HS Hf. exact (C105_decoding c (code_of c C) (parse c C) l Hc (codex_parses c C) S src s s' o s'' fuel HR HS Hf). Qed.
Lemma read_one {S} c C v p l (src : source S) s s' o s'' fuel : wf_cfg c -> parse c C (p ++ l) = Value v l -> reads src s (p ++ l) s' -> stops src s' o s'' ->
  (length (p ++ l) < fuel)%nat -> exists t, reads src s p t /\ reads src t l s' /\ decode (code_of c C) src fuel s = Ok (IOk (Some v), t).
Proof.
  intros Hc HP HR HS Hf. pose proof (parse_at c C (p ++ l) src s s' o s'' fuel Hc HR HS Hf) as K. rewrite HP in K. cbn [answers] in K. destruct K as (p' & t & E & H1 & H2).
  apply app_inv_tail in E. subst p'. exists t. split; [exact H1|]. split; [|exact H2]. apply reads_app in HR. destruct HR as (t' & H3 & H4). now rewrite (reads_det _ _ _ _ _ H1 H3).
Qed.

(** The message arrives. *)
Theorem C107_sent : forall c m l, wf_cfg c -> words c m l -> exists n0, forall fuel, (n0 <= fuel)%nat -> forall S (snk : sink S) s, send c snk fuel m s = write_all snk l s.
Proof.
  intros c m l Hc H. induction H as [|C v w m l Hv He H [n1 IH]]; [exists 0%nat; reflexivity|].
  pose proof (C106_encoding c C v (Word w) Hc He Hv) as [n0 K]. exists (n0 + n1)%nat. intros fuel Hf S snk s. cbn [send]. rewrite PStream.write_all_app. unfold try_. rewrite K by lia.
  destruct (write_all snk w s) as [[[u|e] s']| |]; cbn [bind]; auto. apply IH. lia.
Qed.
Theorem C107_received : forall S c m l (src : source S) s s' o s'' fuel, wf_cfg c -> words c m l -> readable m -> reads src s l s' -> stops src s' o s'' -> (length l < fuel)%nat ->
  receive c src fuel (map fst m) s = Ok (map snd m, Complete, s').
Proof.
  intros S c m l src s s' o s'' fuel Hc H HZ HR HS Hf. revert s HZ HR Hf. induction H as [|C v w m l Hv He H IH]; intros s HZ HR Hf.
  - apply reads_nil_inv in HR. now subst s'.
  - inversion HZ as [|x y HZ1 HZ2]; subst. cbn [fst snd] in HZ1. pose proof (C106_round_trip c C v w l Hc Hv He HZ1) as HP.
    destruct (read_one c C v w l src s s' o s'' fuel Hc HP HR HS Hf) as (t & H1 & H2 & H3). cbn [map fst snd receive]. rewrite H3. cbn [bind].
    rewrite app_length in Hf. rewrite (IH t HZ2 H2) by lia. reflexivity.
Qed.
(** No other message arrives: if a value of the message is one that cannot be sent, what arrives is something else. *)
Theorem C107_exactly : forall S c m l (src : source S) s s' o s'' fuel, wf_cfg c -> words c m l -> reads src s l s' -> stops src s' o s'' -> (length l < fuel)%nat ->
  ((exists t, receive c src fuel (map fst m) s = Ok (map snd m, Complete, t)) <-> readable m).
Proof.
  intros S c m l src s s' o s'' fuel Hc HW HR HS Hf. split.
  2:{ intros HZ. exists s'. now apply (C107_received S c m l src s s' o s''). }
  revert s HR Hf. induction HW as [|C v w m l Hv He H IH]; intros s HR Hf [t E]; [constructor|].
  cbn [map fst snd receive] in E. pose proof (parse_at c C (w ++ l) src s s' o s'' fuel Hc HR HS Hf) as K.
  destruct (omega_of_0_dec C v) as [Z|Z].
  - exfalso. destruct (parse c C (w ++ l)) as [v' q|q|b|] eqn:EP; cbn [answers] in K.
    + destruct K as (p & t1 & _ & _ & K). rewrite K in E. cbn [bind] in E. destruct (receive c src fuel (map fst m) t1) as [[[vs x] t2]| |]; cbn [bind] in E; try discriminate.
      injection E as Ev _ _. pose proof (C106_no_round_trip c C v w l v' q Hc Hv He Z EP). lia.
    + destruct K as (p & t1 & _ & _ & K). rewrite K in E. discriminate.
    + rewrite K in E. destruct o as [[b'|]|e]; cbn [bind] in E; destruct b; discriminate.
    + destruct K as [k K]. rewrite K in E. discriminate.
  - constructor; [exact Z|]. pose proof (C106_round_trip c C v w l Hc Hv He Z) as HP.
    destruct (read_one c C v w l src s s' o s'' fuel Hc HP HR HS Hf) as (t1 & H1 & H2 & H3). rewrite H3 in E. cbn [bind] in E.
    apply (IH t1 H2); [rewrite app_length in Hf; lia|]. destruct (receive c src fuel (map fst m) t1) as [[[vs x] t2]| |]; cbn [bind] in E; try discriminate.
    injection E as -> -> ->. eauto.
Qed.

(** ** Cut short *)
Lemma unary_clean c p : forall k, parse_unary c k p = Cut true -> k = 0 /\ p = [].
Proof.
  induction p as [|[|] p IH]; intros k H; cbn [parse_unary] in H; [|discriminate|].
  - injection H as H. split; [lia|reflexivity].
  - destruct (debug c && (2 ^ 64 <=? k + 1)); [discriminate|]. destruct (IH _ H). lia.
Qed.
Lemma digits_clean c n k : forall v b p, parse_digits c n k v b p = Cut true -> b = false /\ p = [].
Proof.
  induction k as [|k IH]; intros v b p H; cbn [parse_digits] in H; [discriminate|]. destruct (chunk n p) as [[x q]|].
  - destruct (_ =? comma_radix n); [discriminate|]. destruct (debug c && _); [discriminate|]. destruct (IH _ _ _ H). discriminate.
  - injection H as H. apply andb_true_iff in H. destruct H as [H1 H2]. destruct b; [discriminate|]. split; [reflexivity|]. destruct p; [reflexivity|]. unfold lengthN in H2. cbn [length] in H2. lia.
Qed.
Lemma fib_clean c p : forall a b sum prev, 1 <= a <= b -> (if prev : bool then sum < b else sum < a) -> parse_fibonacci c a b sum prev p = Cut true ->
  sum = 0 /\ Forall (eq false) p.
Proof.
  induction p as [|x p IH]; intros a b sum prev Hab Hs H; cbn [parse_fibonacci] in H.
  - injection H as H. split; [lia|constructor].
  - destruct (x && prev) eqn:Ex; [discriminate|]. set (sum' := if x then sum + b else sum) in *. destruct (debug c && (2 ^ 64 <=? sum')); [discriminate|].
    destruct (2 ^ 64 <=? a + b) eqn:Eo; [discriminate|].
    assert (L : sum' < a + b) by (unfold sum'; destruct x, prev; cbn in Ex; try discriminate; lia). rewrite N.mod_small in H by lia.
    destruct (IH b (a + b) sum' x) as [E F]; [lia| |exact H|].
    { destruct x; [exact L|]. unfold sum'. destruct prev; lia. }
    unfold sum' in E. destruct x; [lia|]. split; [exact E|]. now constructor.
Qed.
Lemma cut_word c C v w p q : wf_cfg c -> v < 2 ^ 64 -> emits c C v (Word w) -> ~ omega_of_0 C v -> w = p ++ q -> q <> [] -> exists b, parse c C p = Cut b.
Proof.
  intros Hc Hv He Z -> Hq. pose proof (C106_round_trip c C v (p ++ q) [] Hc Hv He Z) as HP. rewrite app_nil_r in HP.
  destruct (parse c C p) as [v' r|r|b|] eqn:E; [| |eauto|]; exfalso;
    (pose proof (C105_no_lookahead c (code_of c C) (parse c C) p q (codex_parses c C)) as K; rewrite E in K; specialize (K ltac:(discriminate)); cbn [followed] in K; rewrite HP in K).
  - injection K as _ K. destruct r; [|discriminate]. cbn [app] in K. congruence.
  - discriminate.
  - discriminate.
Qed.
Lemma cut_clean c C : wf_cfg c -> forall v w p q, v < 2 ^ 64 -> emits c C v (Word w) -> ~ omega_of_0 C v -> w = p ++ q -> q <> [] -> parse c C p = Cut true ->
  p = [] \/ first_code C = XFibonacci /\ Forall (eq false) p.
Proof.
  intros Hc. induction C as [| | |n|C IH|C IH]; intros v w p q Hv He Z Hw Hq HP; cbn [first_code parse] in *.
  - left. now destruct (unary_clean c p 0 HP).
  - left. inversion He as [|v' w' HO| | | | | | | | | | | | ]; subst. cbn [omega_of_0] in Z. replace (N.max v 1) with v in HO by lia.
    destruct (omega_truncates c v (p ++ q) Hc Hv HO) as [n0 K]. pose proof (reads_deque p []) as RD. rewrite app_nil_r in RD.
    pose proof (parse_at c XOmega p deque_source p [] (IOk None) [] (n0 + S (length p))%nat Hc RD stops_deque ltac:(lia)) as KA. cbn [parse code_of] in KA. rewrite HP in KA. cbn [answers] in KA.
    specialize (K (n0 + S (length p))%nat ltac:(lia) _ deque_source p p [] (IOk None) [] (ex_intro _ q (conj Hq eq_refl)) RD stops_deque). rewrite K in KA. destruct p; [reflexivity|]. cbn [stopped] in KA. discriminate.
  - right. split; [reflexivity|]. eapply fib_clean; [| |exact HP]; cbn; lia.
  - left. unfold parse_comma in HP. destruct (debug c && _); [discriminate|]. now destruct (digits_clean c n _ _ _ _ HP).
  - inversion He as [| | | | | | | | |C' v' e Hv' H| | | | ]; subst. cbn [omega_of_0] in Z. apply (IH (v + 1) (p ++ q) p q); auto.
    destruct (parse c C p) as [v2 r|r|b|]; cbn [parse_lift0] in HP; try discriminate; [|exact HP]. destruct (0 <? v2); [discriminate|]. destruct (debug c); discriminate.
  - inversion He as [| | | | | | | | | | | |C' v' w' Hv' H|C' v' e Hv' H Hne]; subst; [|now elim (Hne (p ++ q))]. cbn [omega_of_0] in Z.
    assert (L : N.log2 v < 2 ^ 64) by (pose proof (log2_lt v 64 ltac:(lia) Hv); lia).
    assert (EH : parse c C p = Cut true).
    { destruct (parse c C p) as [v2 r|r|b|]; cbn [parse_elias] in HP; try discriminate; [|exact HP]. destruct (63 <? v2); [discriminate|]. destruct (chunk v2 r) as [[? ?]|]; discriminate. }
    match goal with E : w' ++ _ = p ++ q |- _ => rename E into EW end.
    assert (CS : (exists q', w' = p ++ q' /\ q' <> []) \/ exists p', p = w' ++ p').
    { clear - EW. revert p EW. induction w' as [|b w' IHw]; intros p E; [right; exists p; reflexivity|]. destruct p as [|b' p]; [left; exists (b :: w'); split; [reflexivity|discriminate]|].
      cbn [app] in E. injection E as <- E. destruct (IHw _ E) as [(q' & -> & Hq')|(p' & ->)]; [left; exists q'; auto|right; exists p'; reflexivity]. }
    destruct CS as [(q' & E1 & E2)|(p' & ->)]; [now apply (IH (N.log2 v) w' p q')|].
    rewrite (C106_round_trip c C (N.log2 v) w' p' Hc L H Z) in EH. discriminate.
Qed.
Lemma at_start c C : first_code C <> XComma 0 -> parse c C [] = Cut true \/ parse c C [] = Breaks.
Proof.
  induction C as [| | |n|C IH|C IH]; intros H; cbn [first_code parse] in *; try (left; reflexivity).
  - unfold parse_comma. destruct (debug c && _); [right; reflexivity|left]. cbn [length parse_digits]. unfold chunk. destruct (n <=? lengthN (@nil bool)) eqn:E; [|reflexivity].
    elim H. f_equal. unfold lengthN in E. cbn in E. lia.
  - destruct (IH H) as [-> | ->]; auto.
  - destruct (IH H) as [-> | ->]; auto.
Qed.
Lemma only_zeros c C p : first_code C = XFibonacci -> Forall (eq false) p -> parse c C p = Cut true \/ exists q, parse c C p = Refused q.
Proof.
  intros H HF. induction C as [| | |n|C IH|C IH]; cbn [first_code parse] in *; try discriminate.
  - generalize 1 at 1 3 as a. generalize 1 as b. induction HF as [|x p <- HF IH]; intros b a; cbn [parse_fibonacci]; [left; reflexivity|]. cbn [andb].
    assert (E : debug c && (2 ^ 64 <=? 0) = false) by (destruct (debug c); reflexivity). rewrite E. destruct (2 ^ 64 <=? a + b); [right; eauto|]. apply IH.
  - destruct (IH H) as [-> |[q ->]]; [left; reflexivity|right; exists q; reflexivity].
  - destruct (IH H) as [-> |[q ->]]; [left; reflexivity|right; exists q; reflexivity].
Qed.
(** A message cut anywhere: the values before the cut arrive; then the failure of the source; or an error; or no more values, which is at the
    beginning of a word, or after zeros only where the Fibonacci code reads the first bits.  (A word that begins with the empty word of
    [Comma 0] is the exception: its beginning is taken for its middle.) *)
Theorem C107_cut : forall S c m p q (src : source S) s s' o s'' fuel, wf_cfg c -> words c m (p ++ q) -> readable m -> q <> [] -> reads src s p s' -> stops src s' o s'' -> (length p < fuel)%nat ->
  exists m1 C v m2 p1 p2 clean, m = m1 ++ (C, v) :: m2 /\ p = p1 ++ p2 /\ words c m1 p1 /\
    receive c src fuel (map fst m) s = Ok (map snd m1, match o with IErr e => Error e | IOk _ => if clean : bool then NoMore else Error UnexpectedEof end, s'') /\
    (clean = true -> p2 = [] \/ first_code C = XFibonacci /\ Forall (eq false) p2) /\
    (p2 = [] /\ first_code C <> XComma 0 \/ first_code C = XFibonacci /\ Forall (eq false) p2 -> clean = true).
Proof.
  intros S c m p q src s s' o s'' fuel Hc HW HZ Hq HR HS Hf. remember (p ++ q) as l eqn:El. revert p s El HZ HR Hf.
  induction HW as [|C v w m l Hv He H IH]; intros p s El HZ HR Hf; [exfalso; destruct p; [cbn [app] in El; congruence|discriminate]|].
  inversion HZ as [|x0 y0 HZ1 HZ2]; subst x0 y0. cbn [fst snd] in HZ1.
  assert (CS : (exists q', w = p ++ q' /\ q' <> []) \/ exists p', p = w ++ p' /\ l = p' ++ q).
  { clear - El. revert p El. induction w as [|b w IHw]; intros p E; [right; exists p; auto|]. destruct p as [|b' p]; [left; exists (b :: w); split; [reflexivity|discriminate]|].
    cbn [app] in E. injection E as <- E. destruct (IHw _ E) as [(q' & -> & Hq')|(p' & -> & ->)]; [left; exists q'; auto|right; exists p'; auto]. }
  destruct CS as [(q' & E1 & E2)|(p' & -> & ->)].
  - destruct (cut_word c C v w p q' Hc Hv He HZ1 E1 E2) as [b HP]. pose proof (parse_at c C p src s s' o s'' fuel Hc HR HS Hf) as K. rewrite HP in K. cbn [answers] in K.
    exists [], C, v, m, [], p, b. cbn [map fst snd receive app]. rewrite K. split; [reflexivity|]. split; [reflexivity|]. split; [constructor|]. split.
    { destruct o as [o'|e]; [destruct b|]; reflexivity. }
    split.
    + intros ->. exact (cut_clean c C Hc v w p q' Hv He HZ1 E1 E2 HP).
    + intros [[-> HC]|[HC HF]].
      * destruct (at_start c C HC) as [E|E]; rewrite HP in E; [now injection E|discriminate].
      * destruct (only_zeros c C p HC HF) as [E|[q0 E]]; rewrite HP in E; [now injection E|discriminate].
  - pose proof (C106_round_trip c C v w p' Hc Hv He HZ1) as HP.
    destruct (read_one c C v w p' src s s' o s'' fuel Hc HP HR HS Hf) as (t & H1 & H2 & H3). rewrite app_length in Hf.
    destruct (IH p' t eq_refl HZ2 H2 ltac:(lia)) as (m1 & C1 & v1 & m2 & p1 & p2 & b & -> & -> & HW1 & HX & HE).
    exists ((C, v) :: m1), C1, v1, m2, (w ++ p1), p2, b. split; [reflexivity|]. split; [now rewrite app_assoc|]. split; [now constructor|]. split; [|exact HE].
    cbn [map fst snd receive] in *. rewrite H3. cbn [bind]. cbn [app map fst] in HX. rewrite HX. reflexivity.
Qed.

(** Four values in four codes.  Cut in the zeros of the third word, where the end passes for the end of the message; then a bit later.  And
    two messages that do not arrive. *)
Definition C107_message : message := [(XElias XUnary, 9); (XLift0 (XElias (XElias XUnary)), 3); (XLift0 XFibonacci, 10); (XComma 3, 50)].
Definition C107_bits : list bool :=
  [false; false; false; true; true; false; false] ++ [false; true; false; false; false] ++ [false; false; true; false; true; true] ++ bits_of 3 1 ++ bits_of 3 0 ++ bits_of 3 1 ++ bits_of 3 7.
Example C107_ex : words rel64 C107_message C107_bits /\ readable C107_message /\
  send rel64 deque_sink 20 C107_message [] = Ok (IOk tt, C107_bits) /\
  receive rel64 deque_source 40 (map fst C107_message) (C107_bits ++ [true]) = Ok ([9; 3; 10; 50], Complete, [true]) /\
  receive rel64 deque_source 40 (map fst C107_message) (firstn 14 C107_bits) = Ok ([9; 3], NoMore, []) /\
  receive rel64 deque_source 40 (map fst C107_message) (firstn 15 C107_bits) = Ok ([9; 3], Error UnexpectedEof, []).
Proof.
  split.
  { change C107_bits with (((unary_word 3 ++ bits_of (N.log2 9) 9)) ++ ((unary_word 1 ++ bits_of (N.log2 (N.log2 4)) (N.log2 4)) ++ bits_of (N.log2 4) 4) ++
      [false; false; true; false; true; true] ++ (flat_map (bits_of 3) [1; 0; 1] ++ bits_of 3 (comma_radix 3)) ++ []).
    constructor; [lia|apply em_elias; [lia|apply em_unary]|].
    constructor; [lia|apply em_lift0; [lia|]; apply (em_elias rel64 (XElias XUnary) 4); [lia|]; apply (em_elias rel64 XUnary (N.log2 4)); [vm_compute; discriminate|]; apply em_unary|].
    constructor; [lia|apply em_lift0; [lia|]; apply em_fibonacci; [split; [lia|reflexivity]|exact (proj1 C50_ex)]|].
    constructor; [lia| |constructor]. apply em_comma; [left; reflexivity|right; vm_compute; discriminate|]. exists [1; 0; 1]. split; [repeat constructor|]. split; [discriminate|]. split; reflexivity. }
  split; [repeat constructor; cbn; auto|]. split; [vm_compute; reflexivity|]. split; [vm_compute; reflexivity|]. split; vm_compute; reflexivity.
Qed.
Example C107_lost : let m := [(XUnary, 2); (XElias XOmega, 1); (XUnary, 1)] in
  words rel64 m [false; false; true; false; false; true] /\ ~ readable m /\ send rel64 deque_sink 20 m [] = Ok (IOk tt, [false; false; true; false; false; true]) /\
  receive rel64 deque_source 20 (map fst m) [false; false; true; false; false; true] = Ok ([2; 2; 0], Complete, []) /\
  receive rel64 deque_source 20 [XElias (XElias (XComma 0))] [] = Ok ([], Error UnexpectedEof, []).
Proof.
  split.
  { change [false; false; true; false; false; true] with (unary_word 2 ++ ([false] ++ bits_of (N.log2 1) 1) ++ unary_word 1 ++ []).
    constructor; [lia|apply em_unary|]. constructor; [lia| |constructor; [lia|apply em_unary|constructor]].
    apply em_elias; [lia|]. apply em_omega. exists []. split; [constructor|reflexivity]. }
  split. { intros H. inversion H as [|x y _ K]; subst. inversion K as [|x y Z _]; subst. now apply Z. }
  split; [vm_compute; reflexivity|]. split; vm_compute; reflexivity.
Qed.
Print Assumptions C107_sent.
Print Assumptions C107_received.
Print Assumptions C107_exactly.
Print Assumptions C107_cut.
