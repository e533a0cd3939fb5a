(** * Operation languages for [BitVector] and [IntVector]: what a program can do with one,
    what the model of the code does, and what a plain list does. *)
From Verif Require Import Machine SpecBits MStorage MTraits MVectorBase MBitVector MIntVector.

(** ** Running programs *)

(** The results delivered by the operations [ops], and how the run ended: in a state, by a
    panic (then no further operation runs). *)
Fixpoint run {S O X} (step : S -> O -> res (S * X)) (s : S) (ops : list O) : list X * res S :=
  match ops with
  | [] => ([], Ok s)
  | o :: t =>
      match step s o with
      | Ok (s', x) => let (xs, r) := run step s' t in (x :: xs, r)
      | Panic p => ([], Panic p)
      | OutOfFuel => ([], OutOfFuel)
      end
  end.

(** The same for a specification, where [None] demands a panic. *)
Fixpoint spec_run {S O X} (step : S -> O -> option (S * X)) (s : S) (ops : list O) : list X * option S :=
  match ops with
  | [] => ([], Some s)
  | o :: t =>
      match step s o with
      | Some (s', x) => let (xs, r) := spec_run step s' t in (x :: xs, r)
      | None => ([], None)
      end
  end.

(** Every operation of the run satisfies [P] in the (specification) state it is applied to. *)
Fixpoint along {S O X} (step : S -> O -> option (S * X)) (P : S -> O -> Prop) (s : S) (ops : list O) : Prop :=
  match ops with
  | [] => True
  | o :: t => P s o /\
      match step s o with Some (s', _) => along step P s' t | None => True end
  end.

(** What operations deliver. *)
Inductive out :=
| OUnit
| OBool (b : bool)
| OInt (n : N)
| OOptBool (o : option bool)
| OOptInt (o : option N)
| OBools (l : list bool)
| OInts (l : list N).

(** A [for] loop over an iterator, collecting the items; [loop_fuel] because it ends only when
    [next] returns [None]. *)
Definition collect {I A} (next : I -> res (option A * I)) (fuel : nat) (it : I) : res (list A) :=
  loop_fuel fuel (fun st : list A * I =>
    let (acc, it) := st in
    r <- next it ;;
    match fst r with
    | None => Ok (Return (rev acc))
    | Some a => Ok (Continue (a :: acc, snd r))
    end) ([], it).

Definition fitsb (c : cfg) (nb n : N) : bool := blocks_for nb n * nb <=? max_bits c.

(** [n] blocks made from the bits [l]: cut, or padded with zeros to a block boundary and then
    with copies of the block [x]. *)
Definition resize_blocks_of (nb n x : N) (l : list bool) : list bool :=
  let l0 := l ++ repeatN false (padding nb (lengthN l)) in
  if n <=? blocks_for nb (lengthN l) then firstnN (n * nb) l0
  else l0 ++ bits_of_blocks nb (repeatN x (n - blocks_for nb (lengthN l))).

(** ** [BitVector] *)
Inductive bctor :=
| BNew | BWithCapacity (n : N) | BBlockWithCapacity (n : N)
| BWithFill (n : N) (b : bool) | BBlockWithFill (n x : N).

Inductive bop :=
| BPushBit (b : bool) | BPopBit | BPushBlock (x : N) | BAlignBlock (b : bool)
| BSetBit (i : N) (b : bool) | BSetBlock (i x : N) | BSetBits (s n x : N)
| BResize (n : N) (b : bool) | BBlockResize (n x : N)
| BTruncate (n : N) | BBlockTruncate (n : N) | BClear
| BBitLen | BBlockLen | BGetBit (i : N) | BGetBlock (i : N) | BGetBits (s n : N)
| BIter.

Section BitVectorRun.
  Variables (c : cfg) (nb : N).

  Definition bvec_make (k : bctor) : res vbase :=
    match k with
    | BNew => bvec_new c nb
    | BWithCapacity n => bvec_with_capacity c nb n
    | BBlockWithCapacity n => bvec_block_with_capacity c nb n
    | BWithFill n b => bvec_with_fill c nb n b
    | BBlockWithFill n x => bvec_block_with_fill c nb n x
    end.

  Definition unit_ {S} (r : res S) : res (S * out) := s <- r ;; Ok (s, OUnit).

  Definition bvec_step (fuel : nat) (v : vbase) (op : bop) : res (vbase * out) :=
    match op with
    | BPushBit b => unit_ (bvec_push_bit c nb v b)
    | BPopBit => r <- bvec_pop_bit c nb v ;; Ok (snd r, OOptBool (fst r))
    | BPushBlock x => unit_ (bvec_push_block c nb v x)
    | BAlignBlock b => unit_ (bvec_align_block c nb fuel v b)
    | BSetBit i b => unit_ (bvec_set_bit c nb v i b)
    | BSetBlock i x => unit_ (bvec_set_block c nb v i x)
    | BSetBits s n x => unit_ (bvec_set_bits c nb v s n x)
    | BResize n b => unit_ (bvec_resize c nb v n b)
    | BBlockResize n x => unit_ (bvec_block_resize c nb v n x)
    | BTruncate n => unit_ (bvec_truncate c nb v n)
    | BBlockTruncate n => unit_ (bvec_block_truncate c nb v n)
    | BClear => unit_ (bvec_clear v)
    | BBitLen => n <- bvec_bit_len v ;; Ok (v, OInt n)
    | BBlockLen => n <- bvec_block_len c nb v ;; Ok (v, OInt n)
    | BGetBit i => b <- bvec_get_bit c nb v i ;; Ok (v, OBool b)
    | BGetBlock i => x <- bvec_get_block v i ;; Ok (v, OInt x)
    | BGetBits s n => x <- bvec_get_bits c nb v s n ;; Ok (v, OInt x)
    | BIter => l <- collect (bit_next c nb) fuel (bvec_iter v) ;; Ok (v, OBools l)
    end.

  (** The same on a list of booleans; [None] means "panics". *)
  Definition spec_bmake (k : bctor) : option (list bool) :=
    match k with
    | BNew => Some []
    | BWithCapacity n => if fitsb c nb n then Some [] else None
    | BBlockWithCapacity n => if n * nb <=? max_bits c then Some [] else None
    | BWithFill n b => if fitsb c nb n then Some (repeatN b n) else None
    | BBlockWithFill n x => if n * nb <=? max_bits c then Some (bits_of_blocks nb (repeatN x n)) else None
    end.

  Definition spec_bstep (l : list bool) (op : bop) : option (list bool * out) :=
    match op with
    | BPushBit b => if fitsb c nb (lengthN l + 1) then Some (l ++ [b], OUnit) else None
    | BPopBit => Some (removelast l, OOptBool (match l with [] => None | _ => Some (last l false) end))
    | BPushBlock x =>
        let l0 := l ++ repeatN false (padding nb (lengthN l)) in
        if fitsb c nb (lengthN l0 + nb) then Some (l0 ++ bits_of nb x, OUnit) else None
    | BAlignBlock b => Some (l ++ repeatN b (padding nb (lengthN l)), OUnit)
    | BSetBit i b => if i <? lengthN l then Some (updN l i b, OUnit) else None
    | BSetBlock i x => if i * nb <? lengthN l then Some (set_block_of nb i x l, OUnit) else None
    | BSetBits s n x => if s + n <=? lengthN l then Some (put s (bits_of n x) l, OUnit) else None
    | BResize n b => if fitsb c nb n then Some (fit n b l, OUnit) else None
    | BBlockResize n x => if n * nb <=? max_bits c then Some (resize_blocks_of nb n x l, OUnit) else None
    | BTruncate n => Some (firstnN n l, OUnit)
    | BBlockTruncate n => Some (firstnN (n * nb) l, OUnit)
    | BClear => Some ([], OUnit)
    | BBitLen => Some (l, OInt (lengthN l))
    | BBlockLen => Some (l, OInt (blocks_for nb (lengthN l)))
    | BGetBit i => match nthN l i with Some b => Some (l, OBool b) | None => None end
    | BGetBlock i => if i * nb <? lengthN l then Some (l, OInt (int_of (sub (i * nb) nb l))) else None
    | BGetBits s n => if s + n <=? lengthN l then Some (l, OInt (int_of (sub s n l))) else None
    | BIter => Some (l, OBools l)
    end.

  (** Arguments in the range of their Rust types, and:
      - sizes in bits that are within [nb] of 2^64 only with overflow checks (see C15, C24);
      - in-bounds bit spans no longer than a block (see C64), and not empty at a block
        boundary at the very end (see C11). *)
  Definition size_ok (n : N) : Prop := n < 2 ^ 64 /\ (n + nb <= 2 ^ 64 \/ debug c = true).
  Definition span_ok (l : list bool) (s n : N) : Prop := s < 2 ^ 64 /\ n < 2 ^ ptr c /\
    (s + n <= lengthN l -> n <= nb /\ (1 <= n \/ s < lengthN l \/ s mod nb <> 0)).
  Definition bmake_ok (k : bctor) : Prop :=
    match k with
    | BNew => True
    | BWithCapacity n | BWithFill n _ => size_ok n
    | BBlockWithCapacity n => n < 2 ^ ptr c
    | BBlockWithFill n x => n < 2 ^ ptr c /\ x < 2 ^ nb
    end.
  Definition bop_ok (l : list bool) (op : bop) : Prop :=
    match op with
    | BPushBlock x => x < 2 ^ nb
    | BSetBit i _ | BGetBit i => i < 2 ^ 64
    | BSetBlock i x => i < 2 ^ ptr c /\ x < 2 ^ nb
    | BGetBlock i => i < 2 ^ ptr c
    | BSetBits s n x => span_ok l s n /\ x < 2 ^ nb
    | BGetBits s n => span_ok l s n
    | BResize n _ => size_ok n
    | BBlockResize n x => n < 2 ^ ptr c /\ x < 2 ^ nb
    | BTruncate n => n < 2 ^ 64
    | BBlockTruncate n => n < 2 ^ ptr c
    | BPushBit _ | BPopBit | BAlignBlock _ | BClear | BBitLen | BBlockLen | BIter => True
    end.

  (** A whole program: a constructor and then operations. *)
  Definition bvec_program (fuel : nat) (k : bctor) (ops : list bop) : list out * res vbase :=
    match bvec_make k with
    | Ok v => run (bvec_step fuel) v ops
    | Panic p => ([], Panic p)
    | OutOfFuel => ([], OutOfFuel)
    end.
  (** The program ends normally, with the vector [v] (the fuel only matters for the loops of
      [align_block] and of iteration). *)
  Definition bvec_ends (k : bctor) (ops : list bop) (v : vbase) : Prop :=
    exists n0, forall fuel, (n0 <= fuel)%nat -> snd (bvec_program fuel k ops) = Ok v.
  Definition spec_bprogram (k : bctor) (ops : list bop) : list out * option (list bool) :=
    match spec_bmake k with Some l => spec_run spec_bstep l ops | None => ([], None) end.
  Definition bprogram_ok (k : bctor) (ops : list bop) : Prop :=
    bmake_ok k /\ match spec_bmake k with Some l => along spec_bstep bop_ok l ops | None => True end.
End BitVectorRun.

(** ** [IntVector] *)

(** The [k]-bit integers stored in the bits [l]; an incomplete last group is dropped. *)
Definition ints_of (k : N) (l : list bool) : list N :=
  map (fun i => int_of (sub (N.of_nat i * k) k l)) (seq 0 (N.to_nat (lengthN l / k))).

Inductive ictor :=
| INew | IWithCapacity (n : N) | IBlockWithCapacity (n : N)
| IWithFill (n x : N) | IBlockWithFill (n x : N).

Inductive iop :=
| IPush (x : N) | IPop | IGet (i : N) | ISet (i x : N)
| IResize (n x : N) | IBlockResize (n x : N) | ITruncate (n : N) | IBlockTruncate (n : N) | IClear
| ILen | IIsEmpty | IIter
| IGetRandom (off w i : N) | ISetRandom (off w i x : N)
| IBitLen | IBlockLen | IGetBit (i : N) | IGetBlock (i : N) | IGetBits (s n : N)
| ISetBit (i : N) (b : bool) | ISetBlock (i x : N) | ISetBits (s n x : N).

Section IntVectorRun.
  Variables (c : cfg) (nb k : N).

  Definition iv_make (t : ictor) : res intvec :=
    match t with
    | INew => iv_new c nb k
    | IWithCapacity n => iv_with_capacity c nb k n
    | IBlockWithCapacity n => iv_block_with_capacity c nb k n
    | IWithFill n x => iv_with_fill c nb k n x
    | IBlockWithFill n x => iv_block_with_fill c nb k n x
    end.

  Definition iv_step (fuel : nat) (v : intvec) (op : iop) : res (intvec * out) :=
    match op with
    | IPush x => unit_ (iv_push c nb v x)
    | IPop => r <- iv_pop c nb v ;; Ok (snd r, OOptInt (fst r))
    | IGet i => x <- iv_get c nb v i ;; Ok (v, OInt x)
    | ISet i x => unit_ (iv_set c nb v i x)
    | IResize n x => unit_ (iv_resize c nb v n x)
    | IBlockResize n x => unit_ (iv_block_resize c nb v n x)
    | ITruncate n => unit_ (iv_truncate c nb v n)
    | IBlockTruncate n => unit_ (iv_block_truncate c nb v n)
    | IClear => unit_ (iv_clear v)
    | ILen => Ok (v, OInt (iv_len v))
    | IIsEmpty => Ok (v, OBool (iv_is_empty v))
    | IIter => l <- collect (it_next c nb) fuel (iv_iter v) ;; Ok (v, OInts l)
    | IGetRandom off w i => x <- iv_get_random c nb v off w i ;; Ok (v, OInt x)
    | ISetRandom off w i x => unit_ (iv_set_random c nb v off w i x)
    | IBitLen => n <- bv_bit_len (iv_bitvec c nb) v ;; Ok (v, OInt n)
    | IBlockLen => n <- bv_block_len (iv_bitvec c nb) v ;; Ok (v, OInt n)
    | IGetBit i => b <- bv_get_bit (iv_bitvec c nb) v i ;; Ok (v, OBool b)
    | IGetBlock i => x <- bv_get_block (iv_bitvec c nb) v i ;; Ok (v, OInt x)
    | IGetBits s n => x <- bv_get_bits (iv_bitvec c nb) v s n ;; Ok (v, OInt x)
    | ISetBit i b => unit_ (bm_set_bit (iv_bitvecmut c nb) v i b)
    | ISetBlock i x => unit_ (bm_set_block (iv_bitvecmut c nb) v i x)
    | ISetBits s n x => unit_ (bm_set_bits (iv_bitvecmut c nb) v s n x)
    end.

  (** The same on a list of integers below [2 ^ k]. *)
  Definition spec_imake (t : ictor) : option (list N) :=
    if (k =? 0) || (nb <? k) then None else
    match t with
    | INew => Some []
    | IWithCapacity n => if fitsb c nb (n * k) then Some [] else None
    | IBlockWithCapacity n => if n * nb <=? max_bits c then Some [] else None
    | IWithFill n x => if fitsb c nb (n * k) then Some (repeatN (x mod 2 ^ k) n) else None
    | IBlockWithFill n x =>
        if n * nb <=? max_bits c then Some (ints_of k (bits_of_blocks nb (repeatN x n))) else None
    end.

  Definition spec_istep (xs : list N) (op : iop) : option (list N * out) :=
    let l := bits_of_blocks k xs in
    match op with
    | IPush x => if (x <? 2 ^ k) && fitsb c nb ((lengthN xs + 1) * k) then Some (xs ++ [x], OUnit) else None
    | IPop => Some (removelast xs, OOptInt (match xs with [] => None | _ => Some (last xs 0) end))
    | IGet i => match nthN xs i with Some x => Some (xs, OInt x) | None => None end
    | ISet i x => if (x <? 2 ^ k) && (i <? lengthN xs) then Some (updN xs i x, OUnit) else None
    | IResize n x => if fitsb c nb (n * k) then Some (fit n (x mod 2 ^ k) xs, OUnit) else None
    | IBlockResize n x =>
        if n * nb <=? max_bits c then Some (ints_of k (resize_blocks_of nb n x l), OUnit) else None
    | ITruncate n => Some (firstnN n xs, OUnit)
    | IBlockTruncate n => Some (if n <? blocks_for nb (lengthN l) then firstnN (n * nb / k) xs else xs, OUnit)
    | IClear => Some ([], OUnit)
    | ILen => Some (xs, OInt (lengthN xs))
    | IIsEmpty => Some (xs, OBool (match xs with [] => true | _ => false end))
    | IIter => Some (xs, OInts xs)
    | IGetRandom off w i =>
        if i * w + off + w <=? lengthN l then Some (xs, OInt (int_of (sub (i * w + off) w l))) else None
    | ISetRandom off w i x =>
        if (x <? 2 ^ w) && (i * w + off + w <=? lengthN l)
        then Some (ints_of k (put (i * w + off) (bits_of w x) l), OUnit) else None
    | IBitLen => Some (xs, OInt (lengthN l))
    | IBlockLen => Some (xs, OInt (blocks_for nb (lengthN l)))
    | IGetBit i => match nthN l i with Some b => Some (xs, OBool b) | None => None end
    | IGetBlock i => if i * nb <? lengthN l then Some (xs, OInt (int_of (sub (i * nb) nb l))) else None
    | IGetBits s n => if s + n <=? lengthN l then Some (xs, OInt (int_of (sub s n l))) else None
    | ISetBit i b => if i <? lengthN l then Some (ints_of k (updN l i b), OUnit) else None
    | ISetBlock i x => if i * nb <? lengthN l then Some (ints_of k (set_block_of nb i x l), OUnit) else None
    | ISetBits s n x => if s + n <=? lengthN l then Some (ints_of k (put s (bits_of n x) l), OUnit) else None
    end.

  (** Arguments in the range of their Rust types, and the exclusions of [bop_ok]; an index of
      [get]/[set] beyond [usize] on block-sized elements is the subject of C20. *)
  Definition imake_ok (t : ictor) : Prop :=
    match t with
    | INew => True
    | IWithCapacity n => n < 2 ^ 64 /\ (n * k + nb <= 2 ^ 64 \/ debug c = true \/ 2 ^ 64 <= n * k)
    | IWithFill n x => n < 2 ^ 64 /\ x < 2 ^ nb
    | IBlockWithCapacity n => n < 2 ^ ptr c
    | IBlockWithFill n x => n < 2 ^ ptr c /\ x < 2 ^ nb
    end.
  Definition index_ok (i : N) : Prop := i < 2 ^ 64 /\ (k = nb -> i < 2 ^ ptr c).
  Definition iop_ok (xs : list N) (op : iop) : Prop :=
    let l := bits_of_blocks k xs in
    match op with
    | IPush x => x < 2 ^ nb
    | IGet i => index_ok i
    | ISet i x => index_ok i /\ x < 2 ^ nb
    | IResize n x => n < 2 ^ 64 /\ x < 2 ^ nb
    | IBlockResize n x => n < 2 ^ ptr c /\ x < 2 ^ nb
    | ITruncate n => n < 2 ^ 64
    | IBlockTruncate n => n < 2 ^ ptr c
    | IGetRandom off w i => off < 2 ^ 64 /\ i < 2 ^ 64 /\ 1 <= w <= nb
    | ISetRandom off w i x => off < 2 ^ 64 /\ i < 2 ^ 64 /\ 1 <= w <= nb /\ x < 2 ^ nb
    | IGetBit i | ISetBit i _ => i < 2 ^ 64
    | IGetBlock i => i < 2 ^ ptr c
    | ISetBlock i x => i < 2 ^ ptr c /\ x < 2 ^ nb
    | IGetBits s n => span_ok c nb l s n
    | ISetBits s n x => span_ok c nb l s n /\ x < 2 ^ nb
    | IPop | IClear | ILen | IIsEmpty | IIter | IBitLen | IBlockLen => True
    end.

  Definition iv_program (fuel : nat) (t : ictor) (ops : list iop) : list out * res intvec :=
    match iv_make t with
    | Ok v => run (iv_step fuel) v ops
    | Panic p => ([], Panic p)
    | OutOfFuel => ([], OutOfFuel)
    end.
  Definition iv_ends (t : ictor) (ops : list iop) (v : intvec) : Prop :=
    exists n0, forall fuel, (n0 <= fuel)%nat -> snd (iv_program fuel t ops) = Ok v.
  Definition spec_iprogram (t : ictor) (ops : list iop) : list out * option (list N) :=
    match spec_imake t with Some xs => spec_run spec_istep xs ops | None => ([], None) end.
  Definition iprogram_ok (t : ictor) (ops : list iop) : Prop :=
    imake_ok t /\ match spec_imake t with Some xs => along spec_istep iop_ok xs ops | None => True end.
End IntVectorRun.

(** ** Iterators *)
Inductive itop := ItNext | ItNextBack | ItNth (n : N).

Definition it_step {I A} (next next_back : I -> res (option A * I)) (nth : I -> N -> res (option A * I))
    (it : I) (op : itop) : res (I * option A) :=
  r <- (match op with ItNext => next it | ItNextBack => next_back it | ItNth n => nth it n end) ;;
  Ok (snd r, fst r).

(** The iterator over a list: the state is the list of items still to come. *)
Definition spec_itstep {A} (xs : list A) (op : itop) : option (list A * option A) :=
  Some match op with
  | ItNext => (tl xs, hd_error xs)
  | ItNextBack => (removelast xs, hd_error (rev xs))
  | ItNth n => (tl (skipnN n xs), nthN xs n)
  end.
Definition itop_ok (c : cfg) {A} (_ : list A) (op : itop) : Prop :=
  match op with ItNth n => n < 2 ^ ptr c | _ => True end.
