(** * Property C67: integer streams at signed types (src/stream/traits.rs).
    [zbits_of n z] are the [n] low bits of [z] in two's complement, least significant first;
    [signed_range w] are the values of the signed type of [w] bits. *)
From Verif Require Import Machine MStorage MTraits MStream MSigned SpecBits SpecCfg SpecStream SpecSigned PBase PBits PDefaults
  PStream PSigned.

(** Little-endian writes, whatever the sink: sign-extended above the width of the type. *)
Theorem C67_write_int : forall S c (snk : sink S) w n z s, wf_nb w ->
  write_sint c snk w n z s = write_all snk (zbits_of n z) s.
Proof. intros S c snk w n z s Hw. pose proof (wf_nb_range w Hw). apply write_sint_ok. lia. Qed.

(** Reads: below the width of the type the result is not negative, at the width it is the value. *)
Theorem C67_read_int : forall S c (src : source S) w n z s s', wf_nb w -> signed_range w z ->
  reads src s (zbits_of n z) s' ->
  read_sint c src w n s = Ok (IOk (Some (if n <? w then (z mod 2 ^ Z.of_N n)%Z else z)), s').
Proof.
  intros S c src w n z s s' Hw Hz H. pose proof (wf_nb_range w Hw). unfold signed_range in Hz.
  replace (Z.of_N w - 1)%Z with (Z.of_N (w - 1)) in Hz by lia.
  rewrite read_sint_sim by lia. rewrite (read_int_ok c src w ltac:(lia) n (zbits_of n z) s s' (lengthN_zbits_of _ _) H).
  cbn [reinterpret]. rewrite sgn_zbits by (assumption || lia). reflexivity.
Qed.
Theorem C67_read_int_be : forall S c (src : source S) w n z s s', wf_nb w -> signed_range w z ->
  reads src s (rev (zbits_of n z)) s' ->
  read_sint_be c src w n s = Ok (IOk (Some (if n <? w then (z mod 2 ^ Z.of_N n)%Z else z)), s').
Proof.
  intros S c src w n z s s' Hw Hz H. pose proof (wf_nb_range w Hw). unfold signed_range in Hz.
  replace (Z.of_N w - 1)%Z with (Z.of_N (w - 1)) in Hz by lia.
  rewrite read_sint_be_sim by lia.
  rewrite (read_int_be_ok c src w ltac:(lia) n _ s s' ltac:(now rewrite lengthN_rev, lengthN_zbits_of) H).
  cbn [reinterpret]. rewrite rev_involutive, sgn_zbits by (assumption || lia). reflexivity.
Qed.

(** A read that meets the end of the stream, or an error. *)
Theorem C67_read_stops : forall S c (src : source S) w n p s s' o s'', wf_nb w -> lengthN p < n ->
  reads src s p s' -> stops src s' o s'' ->
  read_sint c src w n s = Ok (stopped o p, s'') /\ read_sint_be c src w n s = Ok (stopped o p, s'').
Proof.
  intros S c src w n p s s' o s'' Hw Hp H Ho. pose proof (wf_nb_range w Hw).
  rewrite read_sint_sim, read_sint_be_sim by lia.
  rewrite (read_int_stop c src w ltac:(lia) n p s s' o s'' Hp H Ho), (read_int_be_stop c src w ltac:(lia) n p s s' o s'' Hp H Ho).
  destruct o as [o|e], p; split; reflexivity.
Qed.

(** Big-endian writes below the width of the type.  What is missing: [n = w], where the claim is false
    ([C67_write_int_be_refuted]; [C67_write_int_be_full] says what is written instead). *)
Theorem C67_write_int_be_partial : forall S c (snk : sink S) w n z s, wf_cfg c -> wf_nb w -> 1 <= n -> n < w ->
  write_sint_be c snk w n z s = write_all snk (rev (zbits_of n z)) s.
Proof. intros S c snk w n z s Hc Hw H1 Hn. pose proof (wf_nb_range w Hw). apply write_sint_be_ok; auto. lia. Qed.

(** At the full width the mask is the smallest value of the type and is shifted arithmetically: every bit
    below the highest one is written as 1. *)
Theorem C67_write_int_be_full : forall S c (snk : sink S) w z s, wf_cfg c -> wf_nb w ->
  write_sint_be c snk w w z s =
  write_all snk (rev (map (fun i => (z <? 0)%Z || (2 ^ Z.of_nat i <=? z)%Z) (seq 0 (N.to_nat w)))) s.
Proof. intros S c snk w z s Hc Hw. pose proof (wf_nb_range w Hw). apply write_sint_be_full; auto; lia. Qed.
Theorem C67_write_int_be_refuted : exists c w z, wf_cfg c /\ wf_nb w /\ signed_range w z /\
  write_sint_be c deque_sink w w z [] <> write_all deque_sink (rev (zbits_of w z)) [] /\
  exists x, write_sint_be c deque_sink w w z [] = Ok (IOk tt, x) /\
    read_sint_be c deque_source w w x = Ok (IOk (Some 127%Z), []) /\ z = 64%Z.
Proof.
  exists dbg64, 8, 64%Z. split; [auto with wf|]. split; [unfold wf_nb; lia|]. split; [split; vm_compute; congruence|].
  split; [vm_compute; congruence|]. exists [false; true; true; true; true; true; true; true].
  repeat split; vm_compute; reflexivity.
Qed.

(** On a queue: what was there comes first, then the integer, then what is written later. *)
Theorem C67_queue_roundtrip : forall c w z l rest, wf_nb w -> signed_range w z ->
  exists x, write_sint c deque_sink w w z l = Ok (IOk tt, l ++ x) /\ lengthN x = w /\
    read_sint c deque_source w w (x ++ rest) = Ok (IOk (Some z), rest).
Proof.
  intros c w z l rest Hw Hz. exists (zbits_of w z). rewrite C67_write_int, write_all_deque, lengthN_zbits_of by exact Hw.
  split; [reflexivity|]. split; [reflexivity|]. rewrite (C67_read_int _ c _ w w z _ rest Hw Hz (reads_deque _ _)).
  now rewrite N.ltb_irrefl.
Qed.
Example C67_ex :
  wf_cfg dbg64 /\ wf_nb 8 /\ signed_range 8 (-77) /\
  write_sint dbg64 deque_sink 8 8 (-77) [] = Ok (IOk tt, [true; true; false; false; true; true; false; true]) /\
  read_sint dbg64 deque_source 8 8 [true; true; false; false; true; true; false; true; false] = Ok (IOk (Some (-77)%Z), [false]) /\
  read_sint dbg64 deque_source 8 5 [true; true; false; false; true; true; false; true] = Ok (IOk (Some 19%Z), [true; false; true]) /\
  write_sint_be rel32 deque_sink 8 5 (-77) [] = Ok (IOk tt, [true; false; false; true; true]) /\
  write_sint_be rel32 deque_sink 8 8 (-77) [] = Ok (IOk tt, [true; true; true; true; true; true; true; true]) /\
  read_sint_be rel32 deque_source 8 5 [true; false; false; true; true] = Ok (IOk (Some 19%Z), []) /\
  ((-77) mod 2 ^ Z.of_N 5 = 19)%Z /\
  read_sint_be rel32 deque_source 8 5 [true; false] = Ok (IErr UnexpectedEof, []).
Proof. split; [auto with wf|]. split; [unfold wf_nb; lia|]. split; [split; vm_compute; congruence|]. vm_compute. repeat split. Qed.

Print Assumptions C67_write_int.
Print Assumptions C67_read_int.
Print Assumptions C67_read_int_be.
Print Assumptions C67_read_stops.
Print Assumptions C67_write_int_be_partial.
Print Assumptions C67_write_int_be_full.
Print Assumptions C67_write_int_be_refuted.
Print Assumptions C67_queue_roundtrip.
