(** * Specification vocabulary for bit streams and codes. *)
From Verif Require Import Machine SpecBits MStream MCoding.

(** Writing the bits [w] one after another, stopping at the first error. *)
Fixpoint write_all {S} (snk : sink S) (w : list bool) (s : S) : res (ioR unit * S) :=
  match w with
  | [] => Ok (IOk tt, s)
  | b :: t =>
      match write_bit snk b s with
      | Ok (IOk _, s') => write_all snk t s'
      | Ok (IErr e, s') => Ok (IErr e, s')
      | Panic p => Panic p
      | OutOfFuel => OutOfFuel
      end
  end.

(** The source in state [s] delivers the bits [w] and is then in state [s']. *)
Inductive reads {S} (src : source S) : S -> list bool -> S -> Prop :=
| reads_nil : forall s, reads src s [] s
| reads_cons : forall s b s1 w s', read_bit src s = Ok (IOk (Some b), s1) -> reads src s1 w s' ->
    reads src s (b :: w) s'.

(** The source in state [s] is at its end, or fails, with the answer [o]. *)
Definition stops {S} (src : source S) (s : S) (o : ioR (option bool)) (s' : S) : Prop :=
  read_bit src s = Ok (o, s') /\ match o with IOk (Some _) => False | _ => True end.

(** What a reader of a code word or of an integer must answer when the source stops with [o]
    after the bits [p]: a failure is passed on; end of data is [None] at the start of a word and
    an error within it. *)
Definition stopped {A} (o : ioR (option bool)) (p : list bool) : ioR (option A) :=
  match o with
  | IErr e => IErr e
  | IOk _ => match p with [] => IOk None | _ :: _ => IErr UnexpectedEof end
  end.

(** [p] is a proper prefix of [w]. *)
Definition proper_prefix (p w : list bool) : Prop := exists q, q <> [] /\ w = p ++ q.

(** ** Codes.  Loops of the model run on fuel: "terminates" is "for all sufficient fuel". *)

(** Encoding [v] is writing the bits [w], whatever the sink. *)
Definition encodes (C : code) (v : N) (w : list bool) : Prop :=
  exists n0, forall fuel, (n0 <= fuel)%nat -> forall S (snk : sink S) s,
    encode C snk fuel v s = write_all snk w s.
(** Decoding reads exactly the bits [w] and answers [v], whatever the source. *)
Definition decodes (C : code) (w : list bool) (v : N) : Prop :=
  exists n0, forall fuel, (n0 <= fuel)%nat -> forall S (src : source S) s s',
    reads src s w s' -> decode C src fuel s = Ok (IOk (Some v), s').
(** Decoding when the source stops before the end of [w]. *)
Definition truncates (C : code) (w : list bool) : Prop :=
  exists n0, forall fuel, (n0 <= fuel)%nat -> forall S (src : source S) s p s' o s'',
    proper_prefix p w -> reads src s p s' -> stops src s' o s'' ->
    decode C src fuel s = Ok (stopped o p, s'').

(** [w] is the code word of [v]. *)
Record codeword (C : code) (v : N) (w : list bool) : Prop := {
  cw_nonempty : w <> [];
  cw_encodes : encodes C v w;
  cw_decodes : decodes C w v }.

(** ** The code words *)
Definition unary_word (n : N) : list bool := repeatN false n ++ [true].
(** The lengths and low bits of [v]: [N.log2 v] is the position of its highest one. *)
Definition gamma_word (v : N) : list bool := unary_word (N.log2 v) ++ bits_of (N.log2 v) v.
Definition delta_word (v : N) : list bool := gamma_word (N.log2 v + 1) ++ bits_of (N.log2 v) v.
(** Omega: the groups are numbers written most significant bit first; each group is preceded by
    the group for its length less one. *)
Inductive omega_groups : N -> list bool -> Prop :=
| og_one : omega_groups 1 []
| og_more : forall v w, 1 < v -> omega_groups (N.log2 v) w ->
    omega_groups v (w ++ rev (bits_of (N.log2 v + 1) v)).
Definition omega_word (v : N) (w : list bool) : Prop := exists g, omega_groups v g /\ w = g ++ [false].

(** Fibonacci: the sum of the numbers 1, 2, 3, 5, 8, ... selected by [z] is the value, no two
    adjacent ones are selected, the last one is; a further one ends the word. *)
Fixpoint fib_sum (a b : N) (z : list bool) : N :=
  match z with
  | [] => 0
  | x :: t => (if x then b else 0) + fib_sum b (a + b) t
  end.
Definition fib_word (v : N) (w : list bool) : Prop := exists z,
  fib_sum 1 1 z = v /\ (forall i, ~ (nthN z i = Some true /\ nthN z (i + 1) = Some true)) /\
  last z false = true /\ w = z ++ [true].
(** The largest Fibonacci number below 2^64. *)
Definition fib_max : N := 12200160415121876738.

(** Comma: the digits in base 2^n - 1, most significant first and none for 0, each as [n] bits
    least significant first; then the digit 2^n - 1. *)
Definition comma_word (n v : N) (w : list bool) : Prop := exists ds,
  Forall (fun d => d < 2 ^ n - 1) ds /\ hd 1 ds <> 0 /\
  fold_left (fun a d => a * (2 ^ n - 1) + d) ds 0 = v /\
  w = flat_map (bits_of n) ds ++ bits_of n (2 ^ n - 1).

(** ** Arbitrary input.  A decoder survives the input [l] if on every source that delivers [l]
    and then stops it terminates without a panic: with an error, with [None], or with a value for
    the bits [p] read so far; all values it can deliver satisfy [ok]. *)
Definition outcome {S} (src : source S) (ok : N -> Prop) (s : S) (l : list bool) (s' : S) (r : res (ioR (option N) * S)) : Prop :=
  (exists e t, r = Ok (IErr e, t)) \/ (exists t, r = Ok (IOk None, t)) \/
  (exists v p q t, r = Ok (IOk (Some v), t) /\ ok v /\ l = p ++ q /\ reads src s p t /\ reads src t q s').
Definition survives (C : code) (ok : N -> Prop) (l : list bool) : Prop :=
  exists n0, forall fuel, (n0 <= fuel)%nat -> forall S (src : source S) s s' o s'',
    reads src s l s' -> stops src s' o s'' -> outcome src ok s l s' (decode C src fuel s).

(** ** The codes of the library and the values each of them can encode, closed under the two
    combinators.  [strict] excludes Fibonacci, whose truncated words are not all detected. *)
Inductive provided (c : cfg) : bool -> code -> (N -> Prop) -> Prop :=
| pr_unary : provided c true (unary c) (fun v => v < 2 ^ 64)
| pr_gamma : provided c true (gamma c) (fun v => 1 <= v < 2 ^ 64)
| pr_delta : provided c true (delta c) (fun v => 1 <= v < 2 ^ 64)
| pr_omega : provided c true (omega c) (fun v => 1 <= v < 2 ^ 64)
| pr_fib : provided c false (fibonacci c) (fun v => 1 <= v < fib_max)
| pr_comma : forall n, 2 <= n <= 63 -> provided c true (comma c n) (fun v => v < 2 ^ 64)
| pr_lift0 : forall strict C D, provided c strict C D ->
    provided c strict (lift0 c C) (fun v => v + 1 < 2 ^ 64 /\ D (v + 1))
| pr_elias : forall strict H D, provided c strict H D ->
    provided c strict (elias c H) (fun v => 1 <= v < 2 ^ 64 /\ D (N.log2 v)).

(** ** Sequences of code words *)
Fixpoint encode_list {S} (C : code) (snk : sink S) (fuel : nat) (vs : list N) : io S unit :=
  match vs with
  | [] => ret tt
  | v :: t => try_ (encode C snk fuel v) (fun _ => encode_list C snk fuel t)
  end.
(** Decoding until the decoder answers [None]. *)
Definition decode_list {S} (C : code) (src : source S) (fuel : nat) : io S (list N) :=
  loop_io fuel (fun acc : list N =>
    try_ (decode C src fuel) (fun o => match o with
                                       | Some v => ret (Continue (v :: acc))
                                       | None => ret (Return (rev acc)) end)) [].

(** A sink that keeps what it is given and fails with [e] once it holds [m] bits. *)
Definition limited_sink (m : N) (e : io_error) : sink (list bool) := {|
  write_bit := fun b l => Ok (if lengthN l <? m then (IOk tt, l ++ [b]) else (IErr e, l)) |}.
