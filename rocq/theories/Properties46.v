(** * C99: blocks written and read through files that work in pieces, are interrupted, and fail. *)
From Verif Require Import PBase PBits PIO MIO MStream MDevice SpecDevice SpecCfg Properties11.

(** ** Lemmas *)
Lemma skipnN_skipnN {A} a b (l : list A) : skipnN a (skipnN b l) = skipnN (b + a) l.
Proof. unfold skipnN. rewrite N2Nat.inj_add. revert l. induction (N.to_nat b) as [|n IH]; intros l; [reflexivity|]. destruct l; cbn; [now rewrite skipn_nil|apply IH]. Qed.
Lemma firstnN_add {A} a b (l : list A) : firstnN (a + b) l = firstnN a l ++ firstnN b (skipnN a l).
Proof.
  unfold firstnN, skipnN. rewrite N2Nat.inj_add. revert l. induction (N.to_nat a) as [|n IH]; intros l; [reflexivity|].
  destruct l; cbn; [now rewrite firstn_nil|]. now rewrite IH.
Qed.
Lemma lengthN_firstnN {A} n (l : list A) : lengthN (firstnN n l) = N.min n (lengthN l).
Proof. unfold lengthN, firstnN. rewrite firstn_length. lia. Qed.
Lemma lengthN_skipnN {A} n (l : list A) : lengthN (skipnN n l) = lengthN l - n.
Proof. unfold lengthN, skipnN. rewrite skipn_length. lia. Qed.
Lemma firstnN_all2 {A} n (l : list A) : lengthN l <= n -> firstnN n l = l.
Proof. unfold lengthN, firstnN. intros H. apply firstn_all2. lia. Qed.
Lemma skipnN_all2 {A} n (l : list A) : lengthN l <= n -> skipnN n l = [].
Proof. unfold lengthN, skipnN. intros H. apply skipn_all2. lia. Qed.
Lemma firstnN_app_le {A} n (l m : list A) : n <= lengthN l -> firstnN n (l ++ m) = firstnN n l.
Proof. unfold lengthN, firstnN. intros H. rewrite firstn_app. replace (N.to_nat n - length l)%nat with 0%nat by lia. cbn. apply app_nil_r. Qed.

Lemma faultless_nil : faultless [].
Proof. intros e []. Qed.
Lemma faultless_cons ev q : (forall e, ev <> Fault e) -> faultless q -> faultless (ev :: q).
Proof. intros H Hq e [E|E]; [now apply (H e)|now apply (Hq e)]. Qed.
Lemma faultless_app q1 q2 : faultless q1 -> faultless q2 -> faultless (q1 ++ q2).
Proof. intros H1 H2 e E. apply in_app_or in E. destruct E; [now apply (H1 e)|now apply (H2 e)]. Qed.
Lemma failed_cons ev e q : (forall e, ev <> Fault e) -> failed_with e q -> failed_with e (ev :: q).
Proof. intros H (q0 & -> & Hq). exists (ev :: q0). split; [reflexivity|now apply faultless_cons]. Qed.
Lemma failed_app e q1 q : faultless q1 -> failed_with e q -> failed_with e (q1 ++ q).
Proof. intros H (q0 & -> & Hq). exists (q1 ++ q0). split; [apply app_assoc|now apply faultless_app]. Qed.
Lemma failed_one e : failed_with e [Fault e].
Proof. exists []. split; [reflexivity|apply faultless_nil]. Qed.
Lemma failed_in e q : failed_with e q -> In (Fault e) q.
Proof. intros (q0 & -> & _). apply in_or_app. right. now left. Qed.

Definition read_body (rd : reader file) (n : N) (st : list N * file) : res (flow (list N * file) (ioR (list N) * file)) :=
  let (got, s) := st in
  if lengthN got =? n then Ok (Return (IOk got, s))
  else
    '(r, s') <- rd (n - lengthN got) s ;;
    match r with
    | Done [] => Ok (Return (IErr UnexpectedEof, s'))
    | Done l => if n - lengthN got <? lengthN l then Panic PIndex else Ok (Continue (got ++ l, s'))
    | Interrupted => Ok (Continue (got, s'))
    | Failed e => Ok (Return (IErr e, s'))
    end.
Lemma read_exact_body fuel rd n f : read_exact fuel rd n f = loop_fuel fuel (read_body rd n) ([], f).
Proof. reflexivity. Qed.

(** One call of [read] that gives bytes. *)
Lemma read_piece n m got l p p' : lengthN got < n -> 0 < m -> m <= n - lengthN got ->
  file_read (n - lengthN got) {| content := l; plan := p |} = Ok (Done (firstnN m l), {| content := skipnN m l; plan := p' |}) ->
  read_body file_read n (got, {| content := l; plan := p |}) =
    match l with
    | [] => Ok (Return (IErr UnexpectedEof, {| content := []; plan := p' |}))
    | _ => Ok (Continue (got ++ firstnN m l, {| content := skipnN m l; plan := p' |}))
    end.
Proof.
  intros H0 Hm Hle E. unfold read_body. destruct (N.eqb_spec (lengthN got) n) as [H|_]; [lia|]. rewrite E. cbn [bind].
  destruct l as [|b l].
  - unfold firstnN, skipnN. rewrite firstn_nil, skipn_nil. reflexivity.
  - assert (Hl : lengthN (firstnN m (b :: l)) = N.min m (lengthN (b :: l))) by apply lengthN_firstnN.
    assert (Hl0 : 0 < lengthN (b :: l)) by (unfold lengthN; cbn [length]; lia).
    destruct (firstnN m (b :: l)) as [|b' l'] eqn:El.
    + unfold lengthN in Hl at 1. cbn [length] in Hl. lia.
    + destruct (N.ltb_spec (n - lengthN got) (lengthN (b' :: l'))) as [H|_]; [lia|]. reflexivity.
Qed.

Lemma read_exact_file p : forall fuel n got l, lengthN got <= n -> (length p + 3 <= fuel)%nat ->
  exists r f' q, loop_fuel fuel (read_body file_read n) (got, {| content := l; plan := p |}) = Ok (r, f') /\
    p = q ++ plan f' /\
    match r with
    | IOk got' => faultless q /\ n - lengthN got <= lengthN l /\ got' = got ++ firstnN (n - lengthN got) l /\ content f' = skipnN (n - lengthN got) l
    | IErr e => (faultless q /\ e = UnexpectedEof /\ lengthN l < n - lengthN got /\ content f' = []) \/
        (failed_with e q /\ exists j, j < n - lengthN got /\ content f' = skipnN j l)
    end.
Proof.
  assert (Full : forall fuel n got l p, lengthN got = n -> (1 <= fuel)%nat ->
    loop_fuel fuel (read_body file_read n) (got, {| content := l; plan := p |}) = Ok (IOk got, {| content := l; plan := p |})).
  { intros [|fuel] n got l p' E H; [lia|]. cbn [loop_fuel read_body]. rewrite E, N.eqb_refl. reflexivity. }
  induction p as [|ev p IH]; intros fuel n got l Hg Hf.
  - destruct (N.eq_dec (lengthN got) n) as [E|E].
    { exists (IOk got), {| content := l; plan := [] |}, []. rewrite (Full fuel n got l []) by lia. cbn [content plan app].
      replace (n - lengthN got) with 0 by lia. split; [reflexivity|]. split; [reflexivity|].
      split; [apply faultless_nil|]. split; [lia|]. split; [now rewrite app_nil_r|reflexivity]. }
    destruct fuel as [|[|fuel]]; [cbn in Hf; lia..|]. set (m := n - lengthN got) in *. cbn [length] in Hf.
    cbn [loop_fuel]. rewrite (read_piece n m got l [] []) by (reflexivity || lia).
    destruct l as [|b l]; cbn [bind].
    { exists (IErr UnexpectedEof), {| content := []; plan := [] |}, []. split; [reflexivity|]. split; [reflexivity|].
      left. split; [apply faultless_nil|]. unfold lengthN at 1. cbn [length]. repeat split; lia. }
    set (l0 := b :: l) in *. assert (Hl0 : 0 < lengthN l0) by (unfold l0, lengthN; cbn [length]; lia). clearbody l0. clear b l.
    destruct (N.le_gt_cases m (lengthN l0)) as [Hm|Hm].
    + assert (Eg : lengthN (got ++ firstnN m l0) = n) by (rewrite lengthN_app, lengthN_firstnN; unfold m in *; lia).
      change (x <- read_body file_read n (got ++ firstnN m l0, {| content := skipnN m l0; plan := [] |});;
        match x with Continue s' => loop_fuel fuel (read_body file_read n) s' | Return r => Ok r end)
        with (loop_fuel (S fuel) (read_body file_read n) (got ++ firstnN m l0, {| content := skipnN m l0; plan := [] |})).
      rewrite Full by (assumption || lia).
      exists (IOk (got ++ firstnN m l0)), {| content := skipnN m l0; plan := [] |}, []. split; [reflexivity|]. split; [reflexivity|]. split; [apply faultless_nil|]. repeat split. exact Hm.
    + assert (Eg : lengthN (got ++ firstnN m l0) < n) by (rewrite lengthN_app, lengthN_firstnN; unfold m in *; lia).
      rewrite (skipnN_all2 m l0) by lia.
      rewrite (read_piece n (n - lengthN (got ++ firstnN m l0)) _ [] [] []) by (reflexivity || lia). cbn [bind].
      exists (IErr UnexpectedEof), {| content := []; plan := [] |}, []. split; [reflexivity|]. split; [reflexivity|]. left. split; [apply faultless_nil|]. repeat split; assumption.
  - destruct (N.eq_dec (lengthN got) n) as [E|E].
    { exists (IOk got), {| content := l; plan := ev :: p |}, []. rewrite (Full fuel n got l (ev :: p)) by lia. cbn [content plan app].
      replace (n - lengthN got) with 0 by lia. split; [reflexivity|]. split; [reflexivity|].
      split; [apply faultless_nil|]. split; [lia|]. split; [now rewrite app_nil_r|reflexivity]. }
    destruct fuel as [|fuel]; [cbn in Hf; lia|]. cbn [length] in Hf. cbn [loop_fuel]. set (m := n - lengthN got) in *.
    destruct ev as [k| |e].
    + rewrite (read_piece n (N.min m (k + 1)) got l (Piece k :: p) p) by (reflexivity || lia).
      destruct l as [|b l]; cbn [bind].
      { exists (IErr UnexpectedEof), {| content := []; plan := p |}, [Piece k]. split; [reflexivity|]. split; [reflexivity|].
        left. split; [apply faultless_cons; [discriminate|apply faultless_nil]|]. unfold lengthN at 1. cbn [length]. repeat split; lia. }
      set (l0 := b :: l) in *. clearbody l0. clear b l. set (j := N.min m (k + 1)) in *.
      assert (Eg : lengthN (got ++ firstnN j l0) = lengthN got + N.min j (lengthN l0)) by now rewrite lengthN_app, lengthN_firstnN.
      destruct (IH fuel n (got ++ firstnN j l0) (skipnN j l0)) as (r & f' & q & Er & Ep & H); [unfold m in *; lia|lia|].
      exists r, f', (Piece k :: q). split; [exact Er|]. split; [cbn [app]; now rewrite <- Ep|].
      rewrite Eg in H. rewrite lengthN_skipnN in H. destruct r as [g|e].
      * destruct H as (H0 & H1 & H2 & H3). split; [now apply faultless_cons|]. assert (Hj : j + (n - (lengthN got + N.min j (lengthN l0))) = m \/ lengthN l0 <= j) by (unfold m; lia).
        destruct Hj as [Hj|Hj].
        { split; [unfold m in *; lia|]. rewrite H2, H3, <- Hj, <- app_assoc, skipnN_skipnN. split; [|reflexivity]. f_equal. now rewrite firstnN_add. }
        { assert (m = lengthN l0) as Em by (unfold m in *; lia). split; [lia|].
          assert (En : n - (lengthN got + N.min j (lengthN l0)) = 0) by (unfold m in *; lia). rewrite En in H2, H3.
          rewrite H2, H3. rewrite (firstnN_all2 m), (skipnN_all2 m), (firstnN_all2 j), (skipnN_all2 j) by lia.
          split; [now rewrite app_nil_r|reflexivity]. }
      * destruct H as [(H0 & H1 & H2 & H3)|(H1 & i & Hi & H2)].
        { left. split; [now apply faultless_cons|]. repeat split; [exact H1|unfold m in *; lia|exact H3]. }
        { right. split; [now apply failed_cons|]. destruct (N.le_gt_cases (lengthN l0) j) as [Hj|Hj].
          - exists (N.min j (lengthN l0)). split; [unfold m in *; lia|]. rewrite H2, skipnN_skipnN.
            rewrite !skipnN_all2 by lia. reflexivity.
          - exists (j + i). split; [unfold m in *; lia|]. now rewrite H2, skipnN_skipnN. }
    + assert (Es : read_body file_read n (got, {| content := l; plan := Interrupt :: p |}) = Ok (Continue (got, {| content := l; plan := p |}))).
      { unfold read_body. destruct (N.eqb_spec (lengthN got) n) as [H|_]; [contradiction|]. reflexivity. }
      rewrite Es. cbn [bind]. destruct (IH fuel n got l Hg) as (r & f' & q & Er & Ep & H); [lia|].
      exists r, f', (Interrupt :: q). split; [exact Er|]. split; [cbn [app]; now rewrite <- Ep|].
      destruct r; [destruct H as [H0 H]; split; [now apply faultless_cons|exact H]|].
      destruct H as [[H0 H]|[H1 H2]]; [left; split; [now apply faultless_cons|exact H]|]. right. split; [now apply failed_cons|exact H2].
    + assert (Es : read_body file_read n (got, {| content := l; plan := Fault e :: p |}) = Ok (Return (IErr e, {| content := l; plan := p |}))).
      { unfold read_body. destruct (N.eqb_spec (lengthN got) n) as [H|_]; [contradiction|]. reflexivity. }
      rewrite Es. cbn [bind]. exists (IErr e), {| content := l; plan := p |}, [Fault e]. split; [reflexivity|]. split; [reflexivity|].
      right. split; [apply failed_one|]. exists 0. split; [unfold m in *; lia|reflexivity].
Qed.

Definition write_body (wr : writer file) (st : list N * file) : res (flow (list N * file) (ioR unit * file)) :=
  let (buf, s) := st in
  match buf with
  | [] => Ok (Return (IOk tt, s))
  | _ =>
      '(r, s') <- wr buf s ;;
      match r with
      | Done n => if n =? 0 then Ok (Return (IErr IoOther, s'))
                  else if lengthN buf <? n then Panic PIndex else Ok (Continue (skipnN n buf, s'))
      | Interrupted => Ok (Continue (buf, s'))
      | Failed e => Ok (Return (IErr e, s'))
      end
  end.
Lemma write_all_body fuel wr buf f : write_all fuel wr buf f = loop_fuel fuel (write_body wr) (buf, f).
Proof. reflexivity. Qed.

Lemma write_all_file p : forall fuel buf l, (length p + 2 <= fuel)%nat ->
  exists r f' q, loop_fuel fuel (write_body file_write) (buf, {| content := l; plan := p |}) = Ok (r, f') /\
    p = q ++ plan f' /\
    match r with
    | IOk _ => faultless q /\ content f' = l ++ buf
    | IErr e => failed_with e q /\ exists j, j < lengthN buf /\ content f' = l ++ firstnN j buf
    end.
Proof.
  assert (Nil : forall fuel l p, (1 <= fuel)%nat ->
    loop_fuel fuel (write_body file_write) ([], {| content := l; plan := p |}) = Ok (IOk tt, {| content := l; plan := p |})).
  { intros [|fuel] l p' H; [lia|]. reflexivity. }
  induction p as [|ev p IH]; intros fuel buf l Hf.
  - destruct buf as [|b buf].
    { exists (IOk tt), {| content := l; plan := [] |}, []. rewrite Nil by lia. cbn [content plan]. rewrite (app_nil_r l). auto using faultless_nil. }
    destruct fuel as [|fuel]; [cbn in Hf; lia|]. cbn [length] in Hf. cbn [loop_fuel]. set (b0 := b :: buf).
    assert (Es : write_body file_write (b0, {| content := l; plan := [] |}) = Ok (Continue ([], {| content := l ++ b0; plan := [] |}))).
    { unfold b0, write_body, file_write. cbn [plan content bind]. destruct (N.eqb_spec (lengthN (b :: buf)) 0) as [H|_]; [unfold lengthN in H; cbn [length] in H; lia|].
      rewrite N.ltb_irrefl, skipnN_all2 by lia. reflexivity. }
    rewrite Es. cbn [bind]. rewrite Nil by lia. exists (IOk tt), {| content := l ++ b0; plan := [] |}, []. auto using faultless_nil.
  - destruct buf as [|b buf].
    { exists (IOk tt), {| content := l; plan := ev :: p |}, []. rewrite Nil by lia. cbn [content plan]. rewrite (app_nil_r l). auto using faultless_nil. }
    destruct fuel as [|fuel]; [cbn in Hf; lia|]. cbn [length] in Hf. cbn [loop_fuel]. set (b0 := b :: buf).
    assert (Hb : 0 < lengthN b0) by (unfold b0, lengthN; cbn [length]; lia).
    destruct ev as [k| |e].
    + assert (Es : write_body file_write (b0, {| content := l; plan := Piece k :: p |}) =
        Ok (Continue (skipnN (N.min (lengthN b0) (k + 1)) b0, {| content := l ++ firstnN (k + 1) b0; plan := p |}))).
      { unfold b0 in *. unfold write_body, file_write. cbn [plan content bind]. set (m := N.min (lengthN (b :: buf)) (k + 1)).
        destruct (N.eqb_spec m 0) as [H|_]; [lia|]. destruct (N.ltb_spec (lengthN (b :: buf)) m) as [H|_]; [lia|]. reflexivity. }
      rewrite Es. cbn [bind]. clearbody b0. clear b buf Es.
      destruct (IH fuel (skipnN (N.min (lengthN b0) (k + 1)) b0) (l ++ firstnN (k + 1) b0)) as (r & f' & q & Er & Ep & H); [lia|].
      exists r, f', (Piece k :: q). split; [exact Er|]. split; [cbn [app]; now rewrite <- Ep|].
      assert (Ej : skipnN (N.min (lengthN b0) (k + 1)) b0 = skipnN (k + 1) b0).
      { destruct (N.le_gt_cases (k + 1) (lengthN b0)); [f_equal; lia|]. rewrite !skipnN_all2 by lia. reflexivity. }
      rewrite Ej in H. destruct r as [u|e].
      * destruct H as [H0 H]. split; [now apply faultless_cons|]. rewrite H, <- app_assoc. f_equal. unfold firstnN, skipnN. apply firstn_skipn.
      * destruct H as (H1 & j & Hj & H2). split; [now apply failed_cons|]. rewrite lengthN_skipnN in Hj. exists (k + 1 + j).
        split; [lia|]. rewrite H2, <- app_assoc. f_equal. symmetry; apply firstnN_add.
    + assert (Es : write_body file_write (b0, {| content := l; plan := Interrupt :: p |}) = Ok (Continue (b0, {| content := l; plan := p |}))) by reflexivity.
      rewrite Es. cbn [bind]. destruct (IH fuel b0 l) as (r & f' & q & Er & Ep & H); [lia|].
      exists r, f', (Interrupt :: q). split; [exact Er|]. split; [cbn [app]; now rewrite <- Ep|].
      destruct r; [destruct H as [H0 H]; split; [now apply faultless_cons|exact H]|]. destruct H as [H1 H2]. split; [now apply failed_cons|exact H2].
    + assert (Es : write_body file_write (b0, {| content := l; plan := Fault e :: p |}) = Ok (Return (IErr e, {| content := l; plan := p |}))) by reflexivity.
      rewrite Es. cbn [bind]. exists (IErr e), {| content := l; plan := p |}, [Fault e]. split; [reflexivity|]. split; [reflexivity|].
      split; [apply failed_one|]. exists 0. split; [exact Hb|]. now rewrite app_nil_r.
Qed.

Lemma type_bytes c t : wf_cfg c -> 8 * (type_bits c t / 8) = type_bits c t.
Proof. intros Hc. destruct (type_bits_cases c t Hc) as [->|[->|[->| ->]]]; reflexivity. Qed.

(** What a source answers decides what [read_block] answers. *)
Lemma read_block_ok c S t (src : byte_source S) o (s s' : S) l rest : wf_cfg c -> lengthN l = type_bits c t / 8 ->
  src (type_bits c t / 8) s = Ok (IOk l, s') ->
  exists x, read_block c S t src o s = Ok (IOk x, s') /\ read_block c _ t bytes_source o (l ++ rest) = Ok (IOk x, rest).
Proof.
  intros Hc El E.
  assert (Eb : bytes_source (type_bits c t / 8) (l ++ rest) = Ok (IOk l, rest)).
  { unfold bytes_source. rewrite <- El, lengthN_app. destruct (N.leb_spec (lengthN l) (lengthN l + lengthN rest)) as [_|H]; [|lia].
    unfold firstnN, skipnN, lengthN. rewrite Nat2N.id, firstn_app, skipn_app, firstn_all, skipn_all, Nat.sub_diag.
    cbn [firstn skipn app]. now rewrite app_nil_r. }
  destruct t; cbn [type_bits read_block] in *; unfold read_uint, try_;
    try (change (8 / 8) with 1 in *); rewrite ?E, ?Eb; cbn [bind]; try (eexists; split; reflexivity).
  destruct Hc as [Ep|Ep]; rewrite Ep in *; [change (32 =? 64) with false|change (64 =? 64) with true]; cbv iota beta;
    rewrite E, Eb; cbn [bind]; eexists; split; reflexivity.
Qed.
Lemma read_block_err c S t (src : byte_source S) o (s s' : S) e : wf_cfg c ->
  src (type_bits c t / 8) s = Ok (IErr e, s') -> read_block c S t src o s = Ok (IErr e, s').
Proof.
  intros Hc E. destruct t; cbn [type_bits read_block] in *; unfold read_uint, try_;
    try (change (8 / 8) with 1 in *); rewrite ?E; cbn [bind]; try reflexivity.
  destruct Hc as [Ep|Ep]; rewrite Ep in *; [change (32 =? 64) with false|change (64 =? 64) with true]; cbv iota beta; rewrite E; reflexivity.
Qed.

(** ** C99 *)

(** Reading a block from a file that hands out its bytes in any pieces, with any interruptions: the block that is
    at the front of the file, and all that follows it is left; [UnexpectedEof] exactly if there are too few bytes;
    any other error is the first one the file raised, before the block was complete.  [q] is the part of the plan
    that was carried out: no error of the file goes unreported, and nothing is done after one. *)
Theorem C99_read (c : cfg) (t : block_type) (o : byte_order) (l : list N) (p : list event) (fuel : nat) :
  wf_cfg c -> (length p + 3 <= fuel)%nat ->
  exists r f' q, read_block c file t (read_exact fuel file_read) o {| content := l; plan := p |} = Ok (r, f') /\
    p = q ++ plan f' /\
    match r with
    | IOk x => faultless q /\ read_block c _ t bytes_source o l = Ok (IOk x, content f')
    | IErr e => (faultless q /\ e = UnexpectedEof /\ lengthN l * 8 < type_bits c t /\ content f' = []) \/
        (failed_with e q /\ exists j, j * 8 < type_bits c t /\ content f' = skipnN j l)
    end.
Proof.
  intros Hc Hf. pose proof (type_bytes c t Hc) as E8.
  destruct (read_exact_file p fuel (type_bits c t / 8) [] l) as (r & f' & q & Er & Ep & H); [unfold lengthN; cbn; lia|exact Hf|].
  rewrite <- read_exact_body in Er. change (lengthN (@nil N)) with 0 in H. rewrite N.sub_0_r in H. cbn [app] in H. destruct r as [g|e].
  - destruct H as (H0 & H1 & H2 & H3).
    assert (El : lengthN g = type_bits c t / 8) by (rewrite H2, lengthN_firstnN; lia).
    destruct (read_block_ok c file t (read_exact fuel file_read) o {| content := l; plan := p |} f' g (content f') Hc El Er) as (x & Ex & Ex2).
    exists (IOk x), f', q. split; [exact Ex|]. split; [exact Ep|]. split; [exact H0|].
    replace l with (g ++ content f'); [exact Ex2|]. rewrite H2, H3. unfold firstnN, skipnN. apply firstn_skipn.
  - exists (IErr e), f', q. split; [now apply read_block_err|]. split; [exact Ep|].
    destruct H as [(H0 & H1 & H2 & H3)|(H1 & j & Hj & H2)]; [left|right].
    + split; [exact H0|]. split; [exact H1|]. split; [lia|exact H3].
    + split; [exact H1|]. exists j. split; [lia|exact H2].
Qed.

(** Writing a block: all its bytes, in order, after what was written before; or, after the first error that the
    file raised, the first few of them and not all. *)
Theorem C99_write (c : cfg) (t : block_type) (o : byte_order) (x : N) (l : list N) (p : list event) (fuel : nat) :
  wf_cfg c -> x < 2 ^ type_bits c t -> (length p + 2 <= fuel)%nat ->
  exists r f' q bytes, write_block c file t (write_all fuel file_write) o x {| content := l; plan := p |} = Ok (r, f') /\
    p = q ++ plan f' /\ write_block c _ t bytes_sink o x [] = Ok (IOk tt, bytes) /\
    match r with
    | IOk _ => faultless q /\ content f' = l ++ bytes
    | IErr e => failed_with e q /\ exists j, j < lengthN bytes /\ content f' = l ++ firstnN j bytes
    end.
Proof.
  intros Hc Hx Hf. destruct (write_all_file p fuel (to_bytes o (type_bits c t) x) l Hf) as (r & f' & q & Er & Ep & H).
  exists r, f', q, (to_bytes o (type_bits c t) x). rewrite !write_block_bytes by assumption. rewrite write_all_body.
  split; [exact Er|]. split; [exact Ep|]. split; [reflexivity|exact H].
Qed.

(** The bytes of a list of items, one after the other. *)
Fixpoint item_bytes (c : cfg) (items : list (block_type * byte_order * N)) : list N :=
  match items with
  | [] => []
  | (t, o, x) :: rest => to_bytes o (type_bits c t) x ++ item_bytes c rest
  end.
Lemma skipn_nil_N {A} n : skipnN n (@nil A) = [].
Proof. unfold skipnN. apply skipn_nil. Qed.

Lemma write_blocks_file c fuel : wf_cfg c -> forall items l p,
  Forall (fun i => snd i < 2 ^ type_bits c (fst (fst i))) items -> (length p + 2 <= fuel)%nat ->
  exists r f' q, write_blocks c (write_all fuel file_write) items {| content := l; plan := p |} = Ok (r, f') /\
    p = q ++ plan f' /\
    match r with
    | IOk _ => faultless q /\ content f' = l ++ item_bytes c items
    | IErr e => failed_with e q /\ exists m i j, (m < length items)%nat /\ nth_error items m = Some i /\
        j * 8 < type_bits c (fst (fst i)) /\
        content f' = l ++ item_bytes c (firstn m items) ++ firstnN j (item_bytes c [i])
    end.
Proof.
  intros Hc. induction items as [|[[t o] x] items IH]; intros l p Hi Hf.
  - exists (IOk tt), {| content := l; plan := p |}, []. split; [reflexivity|]. split; [reflexivity|]. cbn [content item_bytes]. split; [apply faultless_nil|now rewrite app_nil_r].
  - inversion Hi as [|? ? Hx Hi2]; subst. cbn [fst snd] in Hx.
    destruct (C99_write c t o x l p fuel Hc Hx Hf) as (r & f' & q & bytes & Er & Ep & Eb & H).
    rewrite write_block_bytes in Eb by assumption. unfold bytes_sink in Eb. cbn [app] in Eb. injection Eb as <-.
    cbn [write_blocks]. unfold try_. rewrite Er. cbn [bind]. destruct r as [u|e].
    + destruct H as [H0 H]. destruct f' as [l' p']. cbn [content plan] in *.
      destruct (IH l' p' Hi2) as (r2 & f2 & q2 & Er2 & Ep2 & H2); [rewrite Ep, app_length in Hf; lia|].
      exists r2, f2, (q ++ q2). split; [exact Er2|]. split; [rewrite Ep, Ep2; apply app_assoc|]. destruct r2 as [u2|e2].
      * destruct H2 as [H20 H2]. split; [now apply faultless_app|]. rewrite H2, H. cbn [item_bytes]. now rewrite <- app_assoc.
      * destruct H2 as (H2 & m & i & j & Hm & Hn & Hj & H3). split; [now apply failed_app|].
        exists (S m), i, j. split; [cbn [length]; lia|]. split; [exact Hn|]. split; [exact Hj|].
        rewrite H3, H. cbn [firstn item_bytes]. now rewrite <- !app_assoc.
    + exists (IErr e), f', q. split; [reflexivity|]. split; [exact Ep|]. destruct H as (H1 & j & Hj & H2). split; [exact H1|].
      exists 0%nat, (t, o, x), j. split; [cbn [length]; lia|]. split; [reflexivity|]. cbn [fst].
      rewrite length_to_bytes in Hj. pose proof (type_bytes c t Hc). split; [lia|]. cbn [firstn item_bytes app]. now rewrite app_nil_r.
Qed.

Lemma read_front c t o x rest : wf_cfg c -> x < 2 ^ type_bits c t ->
  read_block c _ t bytes_source o (to_bytes o (type_bits c t) x ++ rest) = Ok (IOk x, rest).
Proof. intros Hc Hx. apply (C08_roundtrip c t o x rest); [exact Hc|exact Hx|]. now rewrite write_block_bytes. Qed.

(** Reading items back from a file that holds the bytes of the first of them, and then the beginning of one more
    (or the end of the file). *)
Lemma read_blocks_file c fuel : wf_cfg c -> forall items more tail p,
  Forall (fun i => snd i < 2 ^ type_bits c (fst (fst i))) items ->
  match more with [] => True | f :: _ => lengthN tail * 8 < type_bits c (fst f) end ->
  (length p + 3 <= fuel)%nat ->
  exists xs e f' q, read_blocks c (read_exact fuel file_read) (map fst items ++ more) {| content := item_bytes c items ++ tail; plan := p |}
      = Ok (xs, e, f') /\ p = q ++ plan f' /\
    (exists n, xs = firstn n (map snd items) /\ (n < length items -> exists e', e = Some e' /\ In (Fault e') q)%nat) /\
    ((exists e', e = Some e' /\ In (Fault e') q) \/
     (xs = map snd items /\ match more with [] => e = None /\ content f' = tail | _ => e = Some UnexpectedEof /\ content f' = [] end)).
Proof.
  intros Hc. induction items as [|[[t o] x] items IH]; intros more tail p Hi Ht Hf.
  - cbn [map app item_bytes]. destruct more as [|[t o] more].
    + exists [], None, {| content := tail; plan := p |}, []. split; [reflexivity|]. split; [reflexivity|].
      split; [exists 0%nat; split; [reflexivity|cbn [length]; lia]|]. right. auto.
    + destruct (C99_read c t o tail p fuel Hc Hf) as (r & f' & q & Er & Ep & H). cbn [read_blocks]. rewrite Er. cbn [bind].
      cbn [fst] in Ht. destruct r as [x|e].
      * exfalso. pose proof (type_bytes c t Hc) as E8.
        assert (Eb : bytes_source (type_bits c t / 8) tail = Ok (IErr UnexpectedEof, [])).
        { unfold bytes_source. destruct (N.leb_spec (type_bits c t / 8) (lengthN tail)); [lia|reflexivity]. }
        destruct H as [_ H]. rewrite (read_block_err c _ t bytes_source o tail [] UnexpectedEof Hc Eb) in H. discriminate.
      * exists [], (Some e), f', q. split; [reflexivity|]. split; [exact Ep|].
        split; [exists 0%nat; split; [reflexivity|cbn [length]; lia]|].
        destruct H as [(_ & H1 & H2 & H3)|(H1 & _)]; [right; subst e; auto|left; eauto using failed_in].
  - inversion Hi as [|? ? Hx Hi2]; subst. cbn [fst snd] in Hx. cbn [map app item_bytes fst snd].
    rewrite <- app_assoc.
    destruct (C99_read c t o (to_bytes o (type_bits c t) x ++ item_bytes c items ++ tail) p fuel Hc Hf) as (r & f' & q & Er & Ep & H).
    cbn [read_blocks]. rewrite Er. cbn [bind]. destruct r as [y|e].
    + destruct H as [_ H]. rewrite read_front in H by assumption. injection H as <- El. destruct f' as [l' p']. cbn [content plan] in *. subst l'.
      destruct (IH more tail p' Hi2 Ht) as (xs & e & f2 & q2 & Er2 & Ep2 & (n & Hn1 & Hn2) & H2); [rewrite Ep, app_length in Hf; lia|].
      rewrite Er2. cbn [bind]. exists (x :: xs), e, f2, (q ++ q2). split; [reflexivity|]. split; [rewrite Ep, Ep2; apply app_assoc|].
      split.
      * exists (S n). cbn [firstn length]. rewrite Hn1. split; [reflexivity|]. intros Hl. destruct Hn2 as (e' & He & Hin); [lia|].
        exists e'. split; [exact He|]. apply in_or_app; now right.
      * destruct H2 as [(e' & He & Hin)|(Hxs & H2)]; [left; exists e'; split; [exact He|apply in_or_app; now right]|right; split; [now rewrite Hxs|exact H2]].
    + exists [], (Some e), f', q. split; [reflexivity|]. split; [exact Ep|].
      assert (Hin : In (Fault e) q).
      { destruct H as [(_ & H1 & H2 & H3)|(H1 & _)]; [|now apply failed_in]. exfalso. rewrite lengthN_app, length_to_bytes in H2.
        pose proof (type_bytes c t Hc). lia. }
      split; [exists 0%nat; split; [reflexivity|eauto]|left; eauto].
Qed.

Lemma item_bytes_eq c1 c2 items : Forall (fun i => type_bits c1 (fst (fst i)) = type_bits c2 (fst (fst i))) items ->
  item_bytes c1 items = item_bytes c2 items.
Proof. induction 1 as [|[[t o] x] items E _ IH]; [reflexivity|]. cbn [item_bytes fst] in *. now rewrite E, IH. Qed.
Lemma Forall_firstn_ {A} (P : A -> Prop) m l : Forall P l -> Forall P (firstn m l).
Proof.
  intros H. apply Forall_forall. intros i Hin. rewrite Forall_forall in H. apply H. rewrite <- (firstn_skipn m l). apply in_or_app. now left.
Qed.

(** Blocks of any types and byte orders are written to a file; the writing is interrupted, split, and perhaps
    broken off by an error at any point.  Then the file is read back in the same formats, perhaps on another machine
    (where the types must have the same sizes: only [usize] can differ).  Exactly the first [m] blocks are there: all
    of them if no error was reported, fewer if one was; and then the end of the file, where [UnexpectedEof] is
    reported even if part of the next block was written.  No block is ever read that was not written. *)
Theorem C99_crash (c1 c2 : cfg) (items : list (block_type * byte_order * N)) (p q : list event) (fuel1 fuel2 : nat) :
  wf_cfg c1 -> wf_cfg c2 -> Forall (fun i => type_bits c1 (fst (fst i)) = type_bits c2 (fst (fst i))) items ->
  Forall (fun i => snd i < 2 ^ type_bits c1 (fst (fst i))) items ->
  (length p + 2 <= fuel1)%nat -> (length q + 3 <= fuel2)%nat ->
  exists r f m, write_blocks c1 (write_all fuel1 file_write) items {| content := []; plan := p |} = Ok (r, f) /\
    (m <= length items)%nat /\
    match r with IOk _ => m = length items | IErr e => (m < length items)%nat /\ In (Fault e) p end /\
    exists xs e f', read_blocks c2 (read_exact fuel2 file_read) (map fst items) {| content := content f; plan := q |} = Ok (xs, e, f') /\
      (exists n, (n <= m)%nat /\ xs = firstn n (map snd items)) /\
      (faultless q -> xs = firstn m (map snd items) /\ content f' = [] /\
         e = if Nat.eqb m (length items) then None else Some UnexpectedEof) /\
      (forall e', e = Some e' -> e' = UnexpectedEof \/ In (Fault e') q) /\ (e = None -> xs = map snd items).
Proof.
  intros Hc Hc2 Hcc Hi Hf1 Hf2.
  destruct (write_blocks_file c1 fuel1 Hc items [] p Hi Hf1) as (r & f & q1 & Er & Ep & H).
  assert (K : exists m tail, (m <= length items)%nat /\
    match r with IOk _ => m = length items | IErr e => (m < length items)%nat /\ In (Fault e) p end /\
    content f = item_bytes c2 (firstn m items) ++ tail /\
    match skipn m items with [] => tail = [] | i :: _ => lengthN tail * 8 < type_bits c2 (fst (fst i)) end).
  { destruct r as [u|e].
    - exists (length items), []. split; [lia|]. split; [reflexivity|]. rewrite firstn_all, skipn_all, app_nil_r.
      split; [rewrite <- (item_bytes_eq c1 c2) by exact Hcc; apply H|reflexivity].
    - destruct H as (H1 & m & i & j & Hm & Hn & Hj & H2). exists m, (firstnN j (item_bytes c1 [i])).
      split; [lia|]. split; [split; [exact Hm|rewrite Ep; apply in_or_app; left; now apply failed_in]|].
      split; [rewrite <- (item_bytes_eq c1 c2) by (apply Forall_firstn_; exact Hcc); exact H2|].
      assert (Es : exists rest, skipn m items = i :: rest).
      { clear - Hn. revert m Hn. induction items as [|a items IH]; intros [|m] Hn; cbn in *; try discriminate.
        - injection Hn as ->. now exists items.
        - now apply IH. }
      destruct Es as [rest ->]. rewrite lengthN_firstnN.
      rewrite Forall_forall in Hcc. rewrite <- (Hcc i) by (eapply nth_error_In; exact Hn). lia. }
  destruct K as (m & tail & Hm & Hr & Ec & Ht). exists r, f, m. split; [exact Er|]. split; [exact Hm|]. split; [exact Hr|].
  assert (Hi1 : Forall (fun i => snd i < 2 ^ type_bits c2 (fst (fst i))) (firstn m items)).
  { apply Forall_firstn_. rewrite Forall_forall in *. intros i Hin. rewrite <- Hcc by exact Hin. now apply Hi. }
  destruct (read_blocks_file c2 fuel2 Hc2 (firstn m items) (map fst (skipn m items)) tail q Hi1) as (xs & e & f' & q2 & Er2 & Eq & (n & Hn1 & Hn2) & H2).
  { destruct (skipn m items) as [|i rest]; cbn [map]; [exact I|exact Ht]. }
  { exact Hf2. }
  rewrite <- map_app, firstn_skipn, <- Ec in Er2.
  exists xs, e, f'. split; [exact Er2|]. rewrite firstn_length, Nat.min_l in Hn2 by lia.
  assert (Hfs : forall k, firstn k (map snd (firstn m items)) = firstn (Nat.min k m) (map snd items)).
  { intros k. rewrite <- firstn_map, firstn_firstn. reflexivity. }
  split; [exists (Nat.min n m); split; [lia|]; rewrite Hn1; apply Hfs|].
  assert (Hmore : skipn m items = [] <-> m = length items).
  { split; intros E.
    - apply (f_equal (@length _)) in E. rewrite skipn_length in E. cbn [length] in E. lia.
    - rewrite E. apply skipn_all. }
  split; [|split].
  - intros Hq. destruct H2 as [(e' & _ & Hin)|(Hxs & H2)].
    { exfalso. apply (Hq e'). rewrite Eq. apply in_or_app. now left. }
    split; [rewrite Hxs, <- firstn_map; reflexivity|].
    destruct (Nat.eqb_spec m (length items)) as [E|E].
    + apply Hmore in E. rewrite E in *. cbn [map] in H2. destruct H2 as [-> ->]. split; [exact Ht|reflexivity].
    + destruct (skipn m items) as [|i rest]; [exfalso; apply E; now apply Hmore|]. cbn [map] in H2. destruct H2 as [-> ->]. split; reflexivity.
  - intros e' ->. destruct H2 as [(e2 & [= <-] & Hin)|(_ & H2)]; [right; rewrite Eq; apply in_or_app; now left|].
    destruct (skipn m items) as [|i rest]; cbn [map] in H2; [destruct H2; discriminate|]. destruct H2 as [[= <-] _]. now left.
  - intros ->. destruct H2 as [(e2 & E2 & _)|(Hxs & H2)]; [discriminate|].
    destruct (skipn m items) as [|i rest] eqn:Es; cbn [map] in H2; [|destruct H2; discriminate].
    assert (E : m = length items) by now apply Hmore. rewrite Hxs, E, firstn_all. reflexivity.
Qed.

(** Interruptions and pieces alone never show: what is written and what is read is the same as with a file that
    does everything at once. *)
Theorem C99_pieces (c : cfg) (items : list (block_type * byte_order * N)) (p q : list event) (fuel1 fuel2 : nat) :
  wf_cfg c -> Forall (fun i => snd i < 2 ^ type_bits c (fst (fst i))) items -> faultless p -> faultless q ->
  (length p + 2 <= fuel1)%nat -> (length q + 3 <= fuel2)%nat ->
  exists f f', write_blocks c (write_all fuel1 file_write) items {| content := []; plan := p |} = Ok (IOk tt, f) /\
    write_blocks c bytes_sink items [] = Ok (IOk tt, content f) /\
    read_blocks c (read_exact fuel2 file_read) (map fst items) {| content := content f; plan := q |} = Ok (map snd items, None, f') /\
    content f' = [].
Proof.
  intros Hc Hi Hp Hq Hf1 Hf2.
  assert (Eb : forall its l, Forall (fun i => snd i < 2 ^ type_bits c (fst (fst i))) its -> write_blocks c bytes_sink its l = Ok (IOk tt, l ++ item_bytes c its)).
  { induction its as [|[[t o] x] its IH]; intros l H.
    - cbn. now rewrite app_nil_r.
    - inversion H as [|? ? Hx H2]; subst. cbn [write_blocks item_bytes]. unfold try_. rewrite write_block_bytes by exact Hx || exact Hc.
      unfold bytes_sink at 1. cbn [bind]. rewrite IH by exact H2. now rewrite <- app_assoc. }
  destruct (write_blocks_file c fuel1 Hc items [] p Hi Hf1) as (r & f & q1 & Er & Ep & H).
  destruct r as [[]|e]; [destruct H as [_ H]|exfalso; destruct H as [H _]; apply (Hp e); rewrite Ep; apply in_or_app; left; now apply failed_in].
  assert (Hcc : Forall (fun i : block_type * byte_order * N => type_bits c (fst (fst i)) = type_bits c (fst (fst i))) items) by (apply Forall_forall; auto).
  destruct (C99_crash c c items p q fuel1 fuel2 Hc Hc Hcc Hi Hf1 Hf2) as (r2 & f2 & m & Er2 & _ & Hr & xs & e & f' & Er3 & _ & H3 & _).
  rewrite Er in Er2. injection Er2 as <- <-. subst m. destruct (H3 Hq) as (-> & Ef & ->). rewrite Nat.eqb_refl in Er3.
  exists f, f'. split; [exact Er|]. split; [rewrite Eb by exact Hi; cbn [app] in *; now rewrite H|].
  split; [|exact Ef]. rewrite Er3, firstn_all2 by (rewrite map_length; lia). reflexivity.
Qed.

(** A u16, a u64 and a u32; the write is split and interrupted, and the disk fills up in the middle of the u64. *)
Example C99_ex :
  let items := [(U16, BigEndian, 0x1234); (U64, LittleEndian, 77); (U32, BigEndian, 5)] in
  let p := [Piece 0; Interrupt; Piece 7; Piece 2; Fault IoOther] in
  Forall (fun i => snd i < 2 ^ type_bits dbg64 (fst (fst i))) items /\
  write_blocks dbg64 (write_all 9 file_write) items {| content := []; plan := p |}
    = Ok (IErr IoOther, {| content := [0x12; 0x34; 77; 0; 0]; plan := [] |}) /\
  read_blocks dbg64 (read_exact 9 file_read) (map fst items) {| content := [0x12; 0x34; 77; 0; 0]; plan := [Interrupt; Piece 0; Piece 1] |}
    = Ok ([0x1234], Some UnexpectedEof, {| content := []; plan := [] |}) /\
  write_blocks dbg64 (write_all 9 file_write) items {| content := []; plan := [Piece 0; Interrupt; Piece 7; Piece 2] |}
    = Ok (IOk tt, {| content := [0x12; 0x34; 77; 0; 0; 0; 0; 0; 0; 0; 0; 0; 0; 5]; plan := [] |}) /\
  faultless [Interrupt; Piece 0; Piece 1].
Proof.
  cbv zeta. split; [repeat constructor; vm_compute; reflexivity|]. split; [vm_compute; reflexivity|]. split; [vm_compute; reflexivity|].
  split; [vm_compute; reflexivity|]. intros e H. cbn in H. intuition discriminate.
Qed.

Print Assumptions C99_read.
Print Assumptions C99_write.
Print Assumptions C99_crash.
Print Assumptions C99_pieces.
