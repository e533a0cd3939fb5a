(** * User code: a labelled tree in level order (LOUDS), two bits and a packed label per node, written with the interface of the
    crate: [BitVector] (src/bit_vec/bit_vector.rs), [IntVector] (src/int_vec/int_vector.rs), [Rank9] (src/rank/rank9.rs) and
    [BinSearchSelect] (src/select/bin_search.rs).
<<
    struct Tree { label: u64, children: Vec<Tree> }

    struct Louds { bits: BinSearchSelect<Rank9<BitVector<u64>>>, labels: IntVector<u64> }

    fn new(k: usize, t: &Tree) -> Self {
        let mut bits = BitVector::new();
        let mut labels = IntVector::new(k);
        let mut queue = VecDeque::new();
        queue.push_back(t);
        while let Some(node) = queue.pop_front() {
            labels.push(node.label);
            for child in &node.children {
                bits.push_bit(true);
                queue.push_back(child);
            }
            bits.push_bit(false);
        }
        Louds { bits: BinSearchSelect::new(Rank9::new(bits)), labels: labels }
    }
    /// nodes are numbered in level order, from 0
    fn label(&self, i: u64) -> u64 { self.labels.get(i) }
    /// where the children of the node are listed
    fn range(&self, i: u64) -> Option<(u64, u64)> {
        let start = if i == 0 { 0 } else { match self.bits.select0(i - 1) { Some(p) => p + 1, None => return None } };
        match self.bits.select0(i) { Some(limit) => Some((start, limit)), None => None }
    }
    fn degree(&self, i: u64) -> Option<u64> {
        match self.range(i) { Some((start, limit)) => Some(limit - start), None => None }
    }
    fn child(&self, i: u64, j: u64) -> Option<u64> {
        match self.range(i) {
            Some((start, limit)) => if j < limit - start { Some(self.bits.rank1(start + j)) } else { None },
            None => None
        }
    }
    fn parent(&self, i: u64) -> Option<u64> {
        if i == 0 { return None; }
        match self.bits.select1(i - 1) { Some(p) => Some(self.bits.rank0(p)), None => None }
    }
    /// which child of its parent the node is
    fn birth(&self, i: u64) -> Option<u64> {
        if i == 0 { return None; }
        match self.bits.select1(i - 1) {
            Some(p) => match self.range(self.bits.rank0(p)) { Some((start, _)) => Some(p - start), None => None },
            None => None
        }
    }
    /// the node that is reached from the root by the given numbers of children
    fn find(&self, path: &[u64]) -> Option<u64> {
        let mut i = 0;
        for &j in path { match self.child(i, j) { Some(k) => i = k, None => return None } }
        Some(i)
    }
>> *)
From Verif Require Import Machine MStorage MTraits MVectorBase MBitVector MIntVector MRank MSelect.

Inductive tree := Node (label : N) (children : list tree).
Definition label_of (t : tree) : N := let '(Node a _) := t in a.
Definition children_of (t : tree) : list tree := let '(Node _ cs) := t in cs.

Record louds := { lo_bits : rank9 vbase; lo_labels : intvec }.

Section Louds.
  Variable c : cfg.
  Let B := bvec_bitvec c 64.
  Let P := bvec_bitvecpush c 64.
  Let K := bss_bitrank (rank9_bitrank c B).

  (** the [for] loop *)
  Fixpoint louds_children (cs : list tree) (bits : vbase) (queue : list tree) : res (vbase * list tree) :=
    match cs with
    | [] => Ok (bits, queue)
    | child :: r => bits <- bp_push_bit P bits true ;; louds_children r bits (queue ++ [child])
    end.
  (** the [while] loop *)
  Definition louds_body : list tree * (vbase * intvec) -> res (flow (list tree * (vbase * intvec)) (vbase * intvec)) :=
    fun '(queue, (bits, labels)) =>
      match queue with
      | [] => Ok (Return (bits, labels))
      | node :: queue =>
          labels <- iv_push c 64 labels (label_of node) ;;
          '(bits, queue) <- louds_children (children_of node) bits queue ;;
          bits <- bp_push_bit P bits false ;;
          Ok (Continue (queue, (bits, labels)))
      end.
  Definition louds_new (fuel : nat) (k : N) (t : tree) : res louds :=
    bits <- bvec_new c 64 ;;
    labels <- iv_new c 64 k ;;
    '(bits, labels) <- loop_fuel fuel louds_body ([t], (bits, labels)) ;;
    d <- rank9_new c B bits ;;
    Ok {| lo_bits := d; lo_labels := labels |}.

  Definition louds_label (t : louds) (i : N) : res N := iv_get c 64 (lo_labels t) i.
  Definition louds_range (fuel : nat) (t : louds) (i : N) : res (option (N * N)) :=
    start <- (if i =? 0 then Ok (Some 0)
              else
                i1 <- wsub c 64 i 1 ;;
                o <- bss_select0 c (rank9_bitrank c B) fuel (lo_bits t) i1 ;;
                match o with Some p => p1 <- wadd c 64 p 1 ;; Ok (Some p1) | None => Ok None end) ;;
    match start with
    | None => Ok None
    | Some start =>
        o <- bss_select0 c (rank9_bitrank c B) fuel (lo_bits t) i ;;
        Ok (match o with Some limit => Some (start, limit) | None => None end)
    end.
  Definition louds_degree (fuel : nat) (t : louds) (i : N) : res (option N) :=
    o <- louds_range fuel t i ;;
    match o with Some (start, limit) => d <- wsub c 64 limit start ;; Ok (Some d) | None => Ok None end.
  Definition louds_child (fuel : nat) (t : louds) (i j : N) : res (option N) :=
    o <- louds_range fuel t i ;;
    match o with
    | Some (start, limit) =>
        d <- wsub c 64 limit start ;;
        if j <? d then p <- wadd c 64 start j ;; r <- br_rank1 K (lo_bits t) p ;; Ok (Some r) else Ok None
    | None => Ok None
    end.
  Definition louds_parent (fuel : nat) (t : louds) (i : N) : res (option N) :=
    if i =? 0 then Ok None
    else
      i1 <- wsub c 64 i 1 ;;
      o <- bss_select1 c (rank9_bitrank c B) fuel (lo_bits t) i1 ;;
      match o with Some p => r <- br_rank0 K (lo_bits t) p ;; Ok (Some r) | None => Ok None end.
  Definition louds_birth (fuel : nat) (t : louds) (i : N) : res (option N) :=
    if i =? 0 then Ok None
    else
      i1 <- wsub c 64 i 1 ;;
      o <- bss_select1 c (rank9_bitrank c B) fuel (lo_bits t) i1 ;;
      match o with
      | Some p =>
          r <- br_rank0 K (lo_bits t) p ;;
          o <- louds_range fuel t r ;;
          match o with Some (start, _) => d <- wsub c 64 p start ;; Ok (Some d) | None => Ok None end
      | None => Ok None
      end.
  Fixpoint louds_walk (fuel : nat) (t : louds) (i : N) (path : list N) : res (option N) :=
    match path with
    | [] => Ok (Some i)
    | j :: r =>
        o <- louds_child fuel t i j ;;
        match o with Some k => louds_walk fuel t k r | None => Ok None end
    end.
  Definition louds_find (fuel : nat) (t : louds) (path : list N) : res (option N) := louds_walk fuel t 0 path.
End Louds.
