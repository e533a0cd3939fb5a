(** * User code: a sorted list of numbers kept in a stream as the code words of their differences, and the
    intersection of two such lists.  Written with [UniversalCode] (src/coding/traits.rs:7-17), [BitWrite]
    (src/stream/traits.rs:65-98) and [BitRead] (src/stream/traits.rs:8-62).
<<
    fn save<C: UniversalCode, W: BitWrite>(code: &C, sink: &mut W, list: &[u64]) -> Result<()> {
        let mut prev = 0u64;
        for &x in list {
            match x.checked_sub(prev) {
                Some(d) => try!(code.encode(sink, d)),
                None => return Err(Error::new(ErrorKind::InvalidData, "not sorted")),
            }
            prev = x;
        }
        Ok(())
    }

    fn next<C: UniversalCode, R: BitRead>(code: &C, source: &mut R, prev: u64) -> Result<Option<u64>> {
        if let Some(d) = try!(code.decode(source)) {
            match prev.checked_add(d) {
                Some(x) => Ok(Some(x)),
                None => Err(Error::new(ErrorKind::InvalidData, "too large")),
            }
        } else { Ok(None) }
    }

    fn load<C: UniversalCode, R: BitRead>(code: &C, source: &mut R) -> Result<Vec<u64>> {
        let (mut prev, mut result) = (0, Vec::new());
        while let Some(x) = try!(next(code, source, prev)) { result.push(x); prev = x; }
        Ok(result)
    }

    fn intersect<C, D, R, S>(code_a: &C, a: &mut R, code_b: &D, b: &mut S) -> Result<Vec<u64>>
    where C: UniversalCode, D: UniversalCode, R: BitRead, S: BitRead {
        let mut result = Vec::new();
        let mut x = try!(next(code_a, a, 0));
        let mut y = try!(next(code_b, b, 0));
        while let (Some(u), Some(v)) = (x, y) {
            if u < v { x = try!(next(code_a, a, u)); }
            else if v < u { y = try!(next(code_b, b, v)); }
            else {
                result.push(u);
                x = try!(next(code_a, a, u));
                y = try!(next(code_b, b, v));
            }
        }
        Ok(result)
    }
>> *)
From Verif Require Import Machine MStorage MStream MCoding.
Local Open Scope io_scope.

Section Posting.
  Variable C : code.
  Context {S : Type}.

  (** [prev] is the local variable; the test is [x.checked_sub(prev)] *)
  Fixpoint posting_save (snk : sink S) (fuel : nat) (prev : N) (xs : list N) : io S unit :=
    match xs with
    | [] => ret tt
    | x :: t =>
        if x <? prev then fail InvalidData
        else
          _ <-- encode C snk fuel (x - prev) ;;
          posting_save snk fuel x t
    end.

  Definition posting_next (src : source S) (fuel : nat) (prev : N) : io S (option N) :=
    o <-- decode C src fuel ;;
    match o with
    | Some d =>
        match checked_add 64 prev d with
        | Some x => ret (Some x)
        | None => fail InvalidData
        end
    | None => ret None
    end.

  Definition posting_load (src : source S) (fuel : nat) : io S (list N) :=
    loop_io fuel (fun st : N * list N =>
      let (prev, result) := st in
      o <-- posting_next src fuel prev ;;
      match o with
      | Some x => ret (Continue (x, result ++ [x]))
      | None => ret (Return result)
      end) (0, []).
End Posting.

Section Intersect.
  Variables CA CB : code.
  Context {SA SB : Type}.

  (** Work on the first, on the second of two streams *)
  Definition at_a {A} (m : io SA A) : io (SA * SB) A := fun s => (r <- m (fst s) ;; Ok (fst r, (snd r, snd s)))%res.
  Definition at_b {A} (m : io SB A) : io (SA * SB) A := fun s => (r <- m (snd s) ;; Ok (fst r, (fst s, snd r)))%res.

  Definition posting_intersect (a : source SA) (b : source SB) (fuel : nat) : io (SA * SB) (list N) :=
    x <-- at_a (posting_next CA a fuel 0) ;;
    y <-- at_b (posting_next CB b fuel 0) ;;
    loop_io fuel (fun st : option N * option N * list N =>
      let '(x, y, result) := st in
      match x, y with
      | Some u, Some v =>
          if u <? v then x' <-- at_a (posting_next CA a fuel u) ;; ret (Continue (x', y, result))
          else if v <? u then y' <-- at_b (posting_next CB b fuel v) ;; ret (Continue (x, y', result))
          else
            x' <-- at_a (posting_next CA a fuel u) ;;
            y' <-- at_b (posting_next CB b fuel v) ;;
            ret (Continue (x', y', result ++ [u]))
      | _, _ => ret (Return result)
      end) (x, y, []).
End Intersect.
