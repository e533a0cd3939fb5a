(** * User code: the code of Rice, written with the interface of the crate: the trait [UniversalCode]
    (src/coding/traits.rs:7-17), [BitWrite::write_int] (src/stream/traits.rs:70-77), [BitRead::read_int]
    (src/stream/traits.rs:15-37) and, as it does, generic in the code of its header (src/coding/elias.rs:12, 30-55).
<<
    struct Rice<Header: UniversalCode>(Header, u8);

    impl<Header: UniversalCode> UniversalCode for Rice<Header> {
        fn encode<W: BitWrite>(&self, sink: &mut W, value: u64) -> Result<()> {
            try!(self.0.encode(sink, value >> self.1));
            sink.write_int(self.1 as usize, value)
        }
        fn decode<R: BitRead>(&self, source: &mut R) -> Result<Option<u64>> {
            if let Some(high) = try!(self.0.decode(source)) {
                if high > !0 >> self.1 {
                    return Err(Error::new(ErrorKind::InvalidData, "Rice::decode"));
                }
                if let Some(low) = try!(source.read_int::<u64>(self.1 as usize)) {
                    Ok(Some(low | high << self.1))
                } else {
                    Err(Error::new(ErrorKind::UnexpectedEof, "Rice::decode"))
                }
            } else {
                Ok(None)
            }
        }
    }
>> *)
From Verif Require Import Machine MStorage MStream MCoding.
Local Open Scope io_scope.

Section Rice.
  Variables (c : cfg) (header : code) (k : N).
  Context {S : Type}.

  Definition rice_encode (snk : sink S) (fuel : nat) (value : N) : io S unit :=
    high <-- lift (wshr c 64 value k) ;;
    _ <-- encode header snk fuel high ;;
    write_int c snk 64 k value.

  Definition rice_decode (src : source S) (fuel : nat) : io S (option N) :=
    o <-- decode header src fuel ;;
    match o with
    | Some high =>
        m <-- lift (wshr c 64 (wnot 64 0) k) ;;
        if m <? high then fail InvalidData
        else
          o2 <-- read_int c src 64 k ;;
          match o2 with
          | Some low => h <-- lift (wshl c 64 high k) ;; ret (Some (N.lor low h))
          | None => fail UnexpectedEof
          end
    | None => ret None
    end.
End Rice.
Definition rice (c : cfg) (header : code) (k : N) : code :=
  {| encode := @rice_encode c header k; decode := @rice_decode c header k |}.
