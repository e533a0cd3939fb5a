(** * Programs that catch panics: what a method leaves behind, and what a list would. *)
From Verif Require Import Machine SpecBits SpecOps MStorage MTraits MVectorBase MBitVector MIntVector MBitSlice MStream SpecBuffer MPanic.

(** The outcome of a method as the rest of the model has it: a panic discards the state. *)
Definition forget {S A} (r : res A * S) : res (S * A) :=
  match r with (Ok a, s) => Ok (s, a) | (Panic p, _) => Panic p | (OutOfFuel, _) => OutOfFuel end.
Definition state {S A} (r : res A * S) : res S :=
  match r with (Ok _, s) => Ok s | (Panic p, _) => Panic p | (OutOfFuel, _) => OutOfFuel end.
(** The implementation of the traits that a program which does not catch panics sees. *)
Definition forget_mut {T} (M : pbitvecmut T) : bitvecmut T := {|
  bm_bv := pm_bv M;
  bm_set_bit := fun t i b => state (pm_set_bit M i b t);
  bm_set_block := fun t i x => state (pm_set_block M i x t);
  bm_set_bits := fun t s n x => state (pm_set_bits M s n x t) |}.
Definition forget_push {T} (P : pbitvecpush T) : bitvecpush T := {|
  bp_bm := forget_mut (pp_bm P);
  bp_push_bit := fun t b => state (pp_push_bit P b t);
  bp_pop_bit := fun t => x <- forget (pp_pop_bit P t) ;; Ok (snd x, fst x);
  bp_align_block := fun f t b => state (pp_align_block P f b t);
  bp_push_block := fun f t x => state (pp_push_block P f x t) |}.

(** Method by method the same implementation. *)
Record same_mut {T} (M M' : bitvecmut T) : Prop := {
  sm_bv : bm_bv M = bm_bv M';
  sm_set_bit : forall t i b, bm_set_bit M t i b = bm_set_bit M' t i b;
  sm_set_block : forall t i x, bm_set_block M t i x = bm_set_block M' t i x;
  sm_set_bits : forall t s n x, bm_set_bits M t s n x = bm_set_bits M' t s n x }.
Record same_push {T} (P P' : bitvecpush T) : Prop := {
  sp_bm : same_mut (bp_bm P) (bp_bm P');
  sp_push_bit : forall t b, bp_push_bit P t b = bp_push_bit P' t b;
  sp_pop_bit : forall t, bp_pop_bit P t = bp_pop_bit P' t;
  sp_align_block : forall f t b, bp_align_block P f t b = bp_align_block P' f t b;
  sp_push_block : forall f t x, bp_push_block P f t x = bp_push_block P' f t x }.

(** ** Programs that catch every panic and go on *)

(** What each operation delivered ([None]: it panicked), and the state at the end. *)
Fixpoint run_catching {S O X} (step : O -> pm S X) (s : S) (ops : list O) : list (option X) * S :=
  match ops with
  | [] => ([], s)
  | o :: t =>
      let (r, s') := step o s in
      let (xs, e) := run_catching step s' t in
      ((match r with Ok x => Some x | _ => None end) :: xs, e)
  end.
(** The same for a specification: [left s o] is what remains when [o] panics in [s]. *)
Fixpoint spec_catching {S O X} (step : S -> O -> option (S * X)) (left : S -> O -> S) (s : S) (ops : list O)
    : list (option X) * S :=
  match ops with
  | [] => ([], s)
  | o :: t =>
      match step s o with
      | Some (s', x) => let (xs, e) := spec_catching step left s' t in (Some x :: xs, e)
      | None => let (xs, e) := spec_catching step left (left s o) t in (None :: xs, e)
      end
  end.
Fixpoint along_catching {S O X} (step : S -> O -> option (S * X)) (left : S -> O -> S) (P : S -> O -> Prop) (s : S) (ops : list O) : Prop :=
  match ops with
  | [] => True
  | o :: t => P s o /\ along_catching step left P (match step s o with Some (s', _) => s' | None => left s o end) t
  end.

Local Open Scope pm_scope.
Definition punit {S} (m : pm S unit) : pm S out := m ~; pret OUnit.

Section Steps.
  Variables (c : cfg) (nb : N) (fuel : nat).

  Definition p_bvec_step (op : bop) : pm vbase out :=
    match op with
    | BPushBit b => punit (p_bvec_push_bit c nb b)
    | BPopBit => r <~ p_bvec_pop_bit c nb ;; pret (OOptBool r)
    | BPushBlock x => punit (p_bvec_push_block c nb x)
    | BAlignBlock b => punit (p_bvec_align_block c nb fuel b)
    | BSetBit i b => punit (p_bvec_set_bit c nb i b)
    | BSetBlock i x => punit (p_bvec_set_block c nb i x)
    | BSetBits s n x => punit (p_bvec_set_bits c nb s n x)
    | BResize n b => punit (p_bvec_resize c nb n b)
    | BBlockResize n x => punit (p_bvec_block_resize c nb n x)
    | BTruncate n => punit (p_bvec_truncate c nb n)
    | BBlockTruncate n => punit (p_bvec_block_truncate c nb n)
    | BClear => punit p_bvec_clear
    | BBitLen => n <~ look bvec_bit_len ;; pret (OInt n)
    | BBlockLen => n <~ look (bvec_block_len c nb) ;; pret (OInt n)
    | BGetBit i => b <~ look (fun v => bvec_get_bit c nb v i) ;; pret (OBool b)
    | BGetBlock i => x <~ look (fun v => bvec_get_block v i) ;; pret (OInt x)
    | BGetBits s n => x <~ look (fun v => bvec_get_bits c nb v s n) ;; pret (OInt x)
    | BIter => l <~ look (fun v => collect (bit_next c nb) fuel (bvec_iter v)) ;; pret (OBools l)
    end.

  Definition p_iv_step (op : iop) : pm intvec out :=
    match op with
    | IPush x => punit (p_iv_push c nb x)
    | IPop => r <~ p_iv_pop c nb ;; pret (OOptInt r)
    | IGet i => x <~ look (fun v => iv_get c nb v i) ;; pret (OInt x)
    | ISet i x => punit (p_iv_set c nb i x)
    | IResize n x => punit (p_iv_resize c nb n x)
    | IBlockResize n x => punit (p_iv_block_resize c nb n x)
    | ITruncate n => punit (p_iv_truncate c nb n)
    | IBlockTruncate n => punit (p_iv_block_truncate c nb n)
    | IClear => punit p_iv_clear
    | ILen => n <~ look (fun v => Ok (iv_len v)) ;; pret (OInt n)
    | IIsEmpty => b <~ look (fun v => Ok (iv_is_empty v)) ;; pret (OBool b)
    | IIter => l <~ look (fun v => collect (it_next c nb) fuel (iv_iter v)) ;; pret (OInts l)
    | IGetRandom off w i => x <~ look (fun v => iv_get_random c nb v off w i) ;; pret (OInt x)
    | ISetRandom off w i x => punit (p_iv_set_random c nb off w i x)
    | IBitLen => n <~ look (bv_bit_len (iv_bitvec c nb)) ;; pret (OInt n)
    | IBlockLen => n <~ look (bv_block_len (iv_bitvec c nb)) ;; pret (OInt n)
    | IGetBit i => b <~ look (fun v => bv_get_bit (iv_bitvec c nb) v i) ;; pret (OBool b)
    | IGetBlock i => x <~ look (fun v => bv_get_block (iv_bitvec c nb) v i) ;; pret (OInt x)
    | IGetBits s n => x <~ look (fun v => bv_get_bits (iv_bitvec c nb) v s n) ;; pret (OInt x)
    | ISetBit i b => punit (pm_set_bit (p_iv_mut c nb) i b)
    | ISetBlock i x => punit (pm_set_block (p_iv_mut c nb) i x)
    | ISetBits s n x => punit (pm_set_bits (p_iv_mut c nb) s n x)
    end.

  (** What a panic leaves of a bit sequence: all of it as it was; but [resize] to ones has by then filled up the last block, unless it
      was stopped by the computation of the number of blocks, which fails if the number is not a usize or, with overflow checks, if the
      size is within a block of 2^64. *)
  Definition spec_bleft (l : list bool) (op : bop) : list bool :=
    match op with
    | BResize n true =>
        if (n + (nb - 1) <? 2 ^ 64) && (blocks_for nb n <? 2 ^ ptr c)
        then l ++ repeatN true (padding nb (lengthN l)) else l
    | _ => l
    end.
  (** [resize] of an [IntVector] to a size in bits within a block of 2^64 is left out without overflow checks ([C88_int_resize_refuted]). *)
  Definition iop_ok_catching (k : N) (xs : list N) (op : iop) : Prop :=
    iop_ok c nb k xs op /\
    match op with
    | IResize n _ => n * k + nb <= 2 ^ 64 \/ debug c = true \/ 2 ^ 64 <= n * k
    | _ => True
    end.
End Steps.

(** ** Programs with a [BitBuffer] *)
Section BufferSteps.
  Context {T : Type} (c : cfg) (P : pbitvecpush T) (fuel : nat).
  Let M := pp_bm P.
  Let B := pm_bv M.
  Let BB := p_bb_mut c M.
  Definition p_io {A} (f : A -> out) (m : pm (bitbuf T) (ioR A)) : pm (bitbuf T) fout := r <~ m ;; pret (FIo (io_map f r)).
  Definition p_val {A} (f : A -> out) (m : bitbuf T -> res A) : pm (bitbuf T) fout := x <~ look m ;; pret (FVal (f x)).
  Definition p_upd (m : pm (bitbuf T) unit) : pm (bitbuf T) fout := m ~; pret (FVal OUnit).
  Definition p_bb_step (op : fop) : pm (bitbuf T) fout :=
    match op with
    | FRead => p_io OOptBool (p_bb_read_bit c B)
    | FWrite b => p_io (fun _ => OUnit) (p_bb_write_bit c P fuel b ~; pret (IOk tt))
    | FSeek p => p_io (fun _ => OUnit) (p_bb_seek B p)
    | FPosition => p_val OInt (fun bb => Ok (bb_position bb))
    | FBitLen => p_val OInt (bv_bit_len (pm_bv BB))
    | FBlockLen => p_val OInt (bv_block_len (pm_bv BB))
    | FGetBit i => p_val OBool (fun bb => bv_get_bit (pm_bv BB) bb i)
    | FGetBlock i => p_val OInt (fun bb => bv_get_block (pm_bv BB) bb i)
    | FGetBits s n => p_val OInt (fun bb => bv_get_bits (pm_bv BB) bb s n)
    | FSetBit i b => p_upd (pm_set_bit BB i b)
    | FSetBlock i x => p_upd (pm_set_block BB i x)
    | FSetBits s n x => p_upd (pm_set_bits BB s n x)
    end.
End BufferSteps.

(** A panic of [m] in the state [s] leaves [s] as it was. *)
Definition unharmed {S A} (m : pm S A) (s : S) : Prop := forall p s', m s = (Panic p, s') -> s' = s.
