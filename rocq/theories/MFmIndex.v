(** * User code: full-text search (an FM-index), written over any [RankSupport] whose symbols are u64 values
    (src/rank/traits.rs:6-23), here the wavelet tree of [MWavelet.v].  The text ends with a 0 that it does not contain.
<<
    struct Fm<R> { first: Vec<u64>, last: R }

    impl Fm<Wavelet> {
        fn new(width: usize, sigma: u64, text: &[u64]) -> Self {
            let mut t = text.to_vec();
            t.push(0);
            let mut suffixes: Vec<usize> = (0 .. t.len()).collect();
            suffixes.sort_by(|&i, &j| t[i ..].cmp(&t[j ..]));
            let last: Vec<u64> = suffixes.iter().map(|&i| if i == 0 { 0 } else { t[i - 1] }).collect();
            let first = (0 .. sigma).map(|x| t.iter().filter(|&&y| y < x).count() as u64).collect();
            Fm { first: first, last: Wavelet::new(width, &last) }
        }
    }
    impl<R: RankSupport<Over = u64>> Fm<R> {
        fn step(&self, x: u64, p: u64) -> u64 {
            self.first[x as usize] + if p == 0 { 0 } else { self.last.rank(p - 1, x) }
        }
        fn count(&self, pattern: &[u64]) -> u64 {
            let (mut s, mut e) = (0, self.last.limit());
            for &x in pattern.iter().rev() { s = self.step(x, s); e = self.step(x, e); }
            e - s
        }
    }
    impl Fm<Wavelet> {
        fn extract(&self) -> Vec<u64> {
            let (mut result, mut p) = (Vec::new(), 0);
            loop {
                let x = self.last.tree.get(p);
                if x == 0 { break; }
                result.push(x);
                p = self.step(x, p);
            }
            result.reverse();
            result
        }
    }
>>
    [sort_by] is written as an insertion sort: what it returns for a total order without equal elements does not depend on the
    method. *)
From Verif Require Import Machine MStorage MTraits MRank MWavelet.

(** The order of slices: [Ord for [u64]] *)
Fixpoint slice_le (x y : list N) : bool :=
  match x, y with
  | [], _ => true
  | _ :: _, [] => false
  | a :: x', b :: y' => (a <? b) || ((a =? b) && slice_le x' y')
  end.
Fixpoint insert_by {A} (le : A -> A -> bool) (a : A) (l : list A) : list A :=
  match l with [] => [a] | b :: r => if le a b then a :: l else b :: insert_by le a r end.
Fixpoint sort_by {A} (le : A -> A -> bool) (l : list A) : list A :=
  match l with [] => [] | a :: r => insert_by le a (sort_by le r) end.

Record fm (T : Type) := { fm_first : list N; fm_last : T }.
Arguments fm_first {T} _.
Arguments fm_last {T} _.

Section Fm.
  Variable c : cfg.

  Definition fm_suffixes (t : list N) : list N :=
    sort_by (fun i j => slice_le (skipnN i t) (skipnN j t)) (map N.of_nat (seq 0 (length t))).
  (** the [map] that fills [last] *)
  Fixpoint fm_preceding (t suffixes : list N) : res (list N) :=
    match suffixes with
    | [] => Ok []
    | i :: r =>
        x <- (if i =? 0 then Ok 0 else q <- wsub c (ptr c) i 1 ;; index t q) ;;
        xs <- fm_preceding t r ;;
        Ok (x :: xs)
    end.
  Definition fm_firsts (sigma : N) (t : list N) : list N :=
    map (fun x => lengthN (filter (fun y => y <? x) t)) (map N.of_nat (seq 0 (N.to_nat sigma))).
  Definition fm_new (width : nat) (sigma : N) (text : list N) : res (fm wavelet) :=
    let t := text ++ [0] in
    last <- fm_preceding t (fm_suffixes t) ;;
    w <- wavelet_new c width last ;;
    Ok {| fm_first := fm_firsts sigma t; fm_last := w |}.

  Context {T : Type} (R : ranksup N T).
  Definition fm_step (f : fm T) (x p : N) : res N :=
    a <- index (fm_first f) (as_usize c x) ;;
    b <- (if p =? 0 then Ok 0 else q <- wsub c 64 p 1 ;; rs_rank R (fm_last f) q x) ;;
    wadd c 64 a b.
  (** the loop, over the reversed pattern *)
  Fixpoint fm_steps (f : fm T) (xs : list N) (s e : N) : res (N * N) :=
    match xs with
    | [] => Ok (s, e)
    | x :: r => s <- fm_step f x s ;; e <- fm_step f x e ;; fm_steps f r s e
    end.
  Definition fm_count (f : fm T) (pattern : list N) : res N :=
    n <- rs_limit R (fm_last f) ;;
    '(s, e) <- fm_steps f (rev pattern) 0 n ;;
    wsub c 64 e s.
End Fm.

Definition fm_extract (c : cfg) (fuel : nat) (f : fm wavelet) : res (list N) :=
  loop_fuel fuel (fun '(result, p) =>
    x <- wt_get c (wl_tree (fm_last f)) p ;;
    if x =? 0 then Ok (Return (rev result))
    else p <- fm_step c (wavelet_ranksup c) f x p ;; Ok (Continue (result ++ [x], p))) ([], 0).
