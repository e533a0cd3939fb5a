(** * The iterator adaptors of the standard library over the iterators of the crate.

    [IntVector::iter] and [BitVector::iter] return types that implement [Iterator], [DoubleEndedIterator] and
    [ExactSizeIterator] (src/internal/vector_base.rs:349-427, src/bit_vec/bit_vector.rs:257-292,
    src/int_vec/int_vector.rs:363-399), so the adaptors of [std::iter] apply to them.  The adaptors are not code of
    the crate: what is written here is what the standard library of the time documents and does.  An iterator is its
    [next] (and where an adaptor uses them [nth], [next_back] and [len]) on a state [T].

    Left out: the adaptors' own overrides of [fold] and [try_fold] (they consume by [next]). *)
From Verif Require Import Machine.

Section Adaptors.
  Context {T A : Type}.
  Variable next : T -> res (option A * T).
  Variable nth : T -> N -> res (option A * T).
  Variable next_back : T -> res (option A * T).
  Variable len : T -> res N.

  (** The provided [Iterator::nth]: [next] up to [n + 1] times, stopping at the first [None]; [nth_back] is the same
      with [next_back].  src/internal/vector_base.rs:392-396 overrides [nth] and leaves [nth_back] alone. *)
  Fixpoint calls (n : nat) (s : T) : res (option A * T) :=
    r <- next s ;;
    match n, fst r with
    | S m, Some _ => calls m (snd r)
    | _, _ => Ok r
    end.
  Definition default_nth (s : T) (n : N) : res (option A * T) := calls (N.to_nat n) s.

  (** The provided [ExactSizeIterator::len]: the lower bound of [size_hint], which is asserted to be the upper one. *)
  Definition default_len (size_hint : T -> res (N * option N)) (s : T) : res N :=
    h <- size_hint s ;;
    match snd h with
    | Some u => _ <- assert_ (u =? fst h) ;; Ok (fst h)
    | None => Panic PAssert
    end.

  (** [Skip]: the number still to be skipped, and the iterator. *)
  Definition skip_next (s : N * T) : res (option A * (N * T)) :=
    r <- (if fst s =? 0 then next (snd s) else nth (snd s) (fst s)) ;;
    Ok (fst r, (0, snd r)).
  Definition skip_nth (s : N * T) (n : N) : res (option A * (N * T)) :=
    if fst s =? 0 then r <- nth (snd s) n ;; Ok (fst r, (0, snd r))
    else
      r <- nth (snd s) (fst s - 1) ;;
      match fst r with
      | None => Ok (None, (0, snd r))
      | Some _ => r <- nth (snd r) n ;; Ok (fst r, (0, snd r))
      end.
  (** its [len] is the provided one, from its [size_hint], which subtracts from the one of the iterator *)
  Definition skip_len (s : N * T) : res N := l <- len (snd s) ;; Ok (saturating_sub l (fst s)).
  Definition skip_next_back (s : N * T) : res (option A * (N * T)) :=
    l <- skip_len s ;;
    if 0 <? l then r <- next_back (snd s) ;; Ok (fst r, (fst s, snd r)) else Ok (None, s).

  (** [Take]: the number still to be taken, and the iterator. *)
  Definition take_next (s : N * T) : res (option A * (N * T)) :=
    if fst s =? 0 then Ok (None, s)
    else r <- next (snd s) ;; Ok (fst r, (fst s - 1, snd r)).
  Definition take_nth (s : N * T) (n : N) : res (option A * (N * T)) :=
    if n <? fst s then r <- nth (snd s) n ;; Ok (fst r, (fst s - (n + 1), snd r))
    else if fst s =? 0 then Ok (None, s)
    else r <- nth (snd s) (fst s - 1) ;; Ok (None, (0, snd r)).

  (** from the back: what lies beyond the number to be taken is passed over *)
  Definition take_next_back (nth_back : T -> N -> res (option A * T)) (s : N * T) : res (option A * (N * T)) :=
    if fst s =? 0 then Ok (None, s)
    else
      l <- len (snd s) ;;
      r <- nth_back (snd s) (saturating_sub l (fst s)) ;; Ok (fst r, (fst s - 1, snd r)).
  Definition take_len (s : N * T) : res N :=
    if fst s =? 0 then Ok 0 else l <- len (snd s) ;; Ok (N.min l (fst s)).

  (** [step_by] asserts that the step is not zero; the state is the step less one, whether the first item is still to
      come, and the iterator. *)
  Definition step_by (step : N) (s : T) : res (N * bool * T) :=
    _ <- assert_ (negb (step =? 0)) ;; Ok (step - 1, true, s).
  Definition step_next (s : N * bool * T) : res (option A * (N * bool * T)) :=
    let '(step, first, t) := s in
    r <- (if first : bool then next t else nth t step) ;; Ok (fst r, (step, false, snd r)).
  (** [nth] of [StepBy]: a single [nth] of the iterator if the product fits in [usize], several otherwise; the fuel is
      enough for all of them, as each lowers one of the factors. *)
  Fixpoint step_jump (c : cfg) (fuel : nat) (t : T) (n step : N) : res (option A * T) :=
    match fuel with
    | O => OutOfFuel
    | S f =>
        if n * step <? 2 ^ ptr c then k <- wsub c (ptr c) (n * step) 1 ;; nth t k
        else
          let dn := (2 ^ ptr c - 1) / n in
          let ds := (2 ^ ptr c - 1) / step in
          kn <- wmul c (ptr c) dn n ;;
          ks <- wmul c (ptr c) ds step ;;
          (if ks <? kn then s <- wsub c (ptr c) step dn ;; k <- wsub c (ptr c) kn 1 ;; r <- nth t k ;; step_jump c f (snd r) n s
           else m <- wsub c (ptr c) n ds ;; k <- wsub c (ptr c) ks 1 ;; r <- nth t k ;; step_jump c f (snd r) m step)
    end.
  Definition step_nth (c : cfg) (s : N * bool * T) (n : N) : res (option A * (N * bool * T)) :=
    let '(step, first, t) := s in
    let rest t n :=
      step1 <- wadd c (ptr c) step 1 ;;
      tn <- (if n =? 2 ^ ptr c - 1 then r <- nth t step ;; Ok (snd r, n) else m <- wadd c (ptr c) n 1 ;; Ok (t, m)) ;;
      r <- step_jump c (N.to_nat (snd tn) + N.to_nat step1) (fst tn) (snd tn) step1 ;;
      Ok (fst r, (step, false, snd r)) in
    if first : bool then
      r <- next t ;;
      if n =? 0 then Ok (fst r, (step, false, snd r)) else rest (snd r) (n - 1)
    else rest t n.
  Definition step_len (s : N * bool * T) : res N :=
    let '(step, first, t) := s in
    n <- len t ;;
    Ok (if first : bool then (if n =? 0 then 0 else 1 + (n - 1) / (step + 1)) else n / (step + 1)).

  (** from the back: how many items at the end are to be passed over follows from [len] *)
  Definition step_next_back (c : cfg) (nth_back : T -> N -> res (option A * T)) (s : N * bool * T) : res (option A * (N * bool * T)) :=
    let '(step, first, t) := s in
    n <- len t ;;
    step1 <- wadd c (ptr c) step 1 ;;
    rem <- wmod n step1 ;;
    k <- (if first : bool then (if rem =? 0 then Ok step else wsub c (ptr c) rem 1) else Ok rem) ;;
    r <- nth_back t k ;; Ok (fst r, (step, first, snd r)).

  (** [Map] with a closure that returns *)
  Definition map_next {B} (f : A -> B) (s : T) : res (option B * T) :=
    r <- next s ;; Ok (option_map f (fst r), snd r).

  (** [Filter] with a predicate that returns *)
  Fixpoint filter_next (p : A -> bool) (fuel : nat) (s : T) : res (option A * T) :=
    match fuel with
    | O => OutOfFuel
    | S f =>
        r <- next s ;;
        match fst r with
        | Some a => if p a then Ok r else filter_next p f (snd r)
        | None => Ok r
        end
    end.

  (** [Enumerate]: the number of the next item, and the iterator; the counter is a [usize]. *)
  Definition enum_next (c : cfg) (s : N * T) : res (option (N * A) * (N * T)) :=
    r <- next (snd s) ;;
    match fst r with
    | None => Ok (None, (fst s, snd r))
    | Some a => i <- wadd c (ptr c) (fst s) 1 ;; Ok (Some (fst s, a), (i, snd r))
    end.
  Definition enum_nth (c : cfg) (s : N * T) (n : N) : res (option (N * A) * (N * T)) :=
    r <- nth (snd s) n ;;
    match fst r with
    | None => Ok (None, (fst s, snd r))
    | Some a => i <- wadd c (ptr c) (fst s) n ;; j <- wadd c (ptr c) i 1 ;; Ok (Some (i, a), (j, snd r))
    end.
  Definition enum_next_back (c : cfg) (s : N * T) : res (option (N * A) * (N * T)) :=
    r <- next_back (snd s) ;;
    match fst r with
    | None => Ok (None, (fst s, snd r))
    | Some a => l <- len (snd r) ;; i <- wadd c (ptr c) (fst s) l ;; Ok (Some (i, a), (fst s, snd r))
    end.

  (** [Zip] *)
  Definition zip_next {U B} (next' : U -> res (option B * U)) (s : T * U) : res (option (A * B) * (T * U)) :=
    r <- next (fst s) ;;
    match fst r with
    | None => Ok (None, (snd r, snd s))
    | Some a =>
        r' <- next' (snd s) ;;
        Ok (option_map (pair a) (fst r'), (snd r, snd r'))
    end.

  (** from the back: the longer one is cut first; items at one end only are unreachable code *)
  Fixpoint trim {V B} (next_back : V -> res (option B * V)) (n : nat) (s : V) : res V :=
    match n with O => Ok s | S m => r <- next_back s ;; trim next_back m (snd r) end.
  Definition zip_next_back {U B} (next_back' : U -> res (option B * U)) (len' : U -> res N) (s : T * U) :
    res (option (A * B) * (T * U)) :=
    la <- len (fst s) ;;
    lb <- len' (snd s) ;;
    t <- trim next_back (N.to_nat (la - lb)) (fst s) ;;
    u <- trim next_back' (N.to_nat (lb - la)) (snd s) ;;
    r <- next_back t ;;
    r' <- next_back' u ;;
    match fst r, fst r' with
    | Some a, Some b => Ok (Some (a, b), (snd r, snd r'))
    | None, None => Ok (None, (snd r, snd r'))
    | _, _ => Panic PAssert
    end.
  Definition zip_len {U} (len' : U -> res N) (s : T * U) : res N :=
    la <- len (fst s) ;; lb <- len' (snd s) ;; Ok (N.min la lb).

  (** [Chain]: an iterator that has returned [None] is not asked again. *)
  Definition chain_next {U} (next' : U -> res (option A * U)) (s : option T * option U) :
    res (option A * (option T * option U)) :=
    let rear u :=
      match u with
      | None => Ok (None, (None, None))
      | Some u => r <- next' u ;; Ok (fst r, (None, match fst r with Some _ => Some (snd r) | None => None end))
      end in
    match fst s with
    | None => rear (snd s)
    | Some t =>
        r <- next t ;;
        match fst r with
        | Some a => Ok (Some a, (Some (snd r), snd s))
        | None => rear (snd s)
        end
    end.
  Definition chain_next_back {U} (next_back' : U -> res (option A * U)) (s : option T * option U) :
    res (option A * (option T * option U)) :=
    let front t :=
      match t with
      | None => Ok (None, (None, None))
      | Some t => r <- next_back t ;; Ok (fst r, (match fst r with Some _ => Some (snd r) | None => None end, None))
      end in
    match snd s with
    | None => front (fst s)
    | Some u =>
        r <- next_back' u ;;
        match fst r with
        | Some a => Ok (Some a, (fst s, Some (snd r)))
        | None => front (fst s)
        end
    end.
End Adaptors.
