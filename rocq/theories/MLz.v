(** * User code: a text in a stream as literals and copies of earlier parts, each as two code words.  Written with [UniversalCode]
    (src/coding/traits.rs:7-17), [BitWrite] (src/stream/traits.rs:65-98) and [BitRead] (src/stream/traits.rs:8-62).
<<
    enum Token { Literal(u64), Copy { distance: u64, count: u64 } }

    fn save<C: UniversalCode, W: BitWrite>(code: &C, sink: &mut W, tokens: &[Token]) -> Result<()> {
        for t in tokens {
            match *t {
                Literal(x) => { try!(code.encode(sink, 0)); try!(code.encode(sink, x)); }
                Copy { distance, count } => { try!(code.encode(sink, count)); try!(code.encode(sink, distance)); }
            }
        }
        Ok(())
    }

    fn load<C: UniversalCode, R: BitRead>(code: &C, source: &mut R) -> Result<Vec<u64>> {
        let mut out: Vec<u64> = Vec::new();
        while let Some(count) = try!(code.decode(source)) {
            let v = match try!(code.decode(source)) {
                Some(v) => v,
                None => return Err(Error::new(ErrorKind::UnexpectedEof, "half a token")),
            };
            if count == 0 { out.push(v); }
            else if v == 0 || v > out.len() as u64 { return Err(Error::new(ErrorKind::InvalidData, "distance")); }
            else {
                for _ in 0 .. count { let x = out[out.len() - v as usize]; out.push(x); }
            }
        }
        Ok(out)
    }
>> *)
From Verif Require Import Machine MStorage MStream MCoding.
Local Open Scope io_scope.

Inductive lz_token := Literal (x : N) | Copy (distance count : N).

Section Lz.
  Variables (c : cfg) (C : code).
  Context {S : Type}.

  Fixpoint lz_save (snk : sink S) (fuel : nat) (ts : list lz_token) : io S unit :=
    match ts with
    | [] => ret tt
    | Literal x :: r => _ <-- encode C snk fuel 0 ;; _ <-- encode C snk fuel x ;; lz_save snk fuel r
    | Copy distance count :: r => _ <-- encode C snk fuel count ;; _ <-- encode C snk fuel distance ;; lz_save snk fuel r
    end.
  (** the [for] loop *)
  Definition lz_copy (v count : N) (out : list N) : res (list N) :=
    for_range 0 count (fun _ out => (i <- wsub c (ptr c) (lengthN out) (as_usize c v) ;; x <- index out i ;; Ok (out ++ [x]))%res) out.
  Definition lz_load (src : source S) (fuel : nat) : io S (list N) :=
    loop_io fuel (fun out =>
      o <-- decode C src fuel ;;
      match o with
      | None => ret (Return out)
      | Some count =>
          o <-- decode C src fuel ;;
          match o with
          | None => fail UnexpectedEof
          | Some v =>
              if count =? 0 then ret (Continue (out ++ [v]))
              else if (v =? 0) || (lengthN out <? v) then fail InvalidData
              else out <-- lift (lz_copy v count out) ;; ret (Continue out)
          end
      end) [].
End Lz.
