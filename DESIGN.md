# Formal model of succinct-rs in Rocq (Coq 8.16.1)

## 1. What is modelled, and the conventions of the model

The model is a set of total, computable Gallina functions, one per Rust function, in
`rocq/theories/M*.v` (plus `Machine.v`, the machine layer). Every definition cites the file and
lines of `/repo` it models. Proofs live in `P*.v`, specifications in `Spec*.v`, and the property
theorems (with their non-vacuity examples and `Print Assumptions`) in `Properties*.v`.

* **Machine integers** are `N` values; every `+ - * << >>` of the Rust source goes through an operation
  parameterised by the width and by a build configuration `cfg = {debug; ptr}`:
  `debug = true` models overflow checks on (overflow panics, `debug_assert!` active),
  `debug = false` models them off (wrap-around, shift amounts reduced modulo the width).
  `ptr` is the pointer width, 32 or 64. All theorems quantify over both unless they say otherwise.
* **Panics** are the explicit outcome `Panic k` of the type `res A := Ok a | Panic k | OutOfFuel`.
  `OutOfFuel` is only produced by loops that are not structurally bounded (decoders on generic sources,
  `Comma` encode, binary search, `BitBuffer::write_bit` fill loop, `align_block`); theorems exclude it
  explicitly (they say the answer is `Ok`), or prove it for every fuel when the loop diverges.
* **`io::Result`** is data: `IOk a | IErr e`.
* **`&mut self`** methods return the new value.
* **Traits** (`BitVec`, `BitVecMut`, `BitVecPush`, `BitRankSupport`, `BitRead`, `BitWrite`) become records of
  functions (dictionaries); default methods become functions of the required ones; generic structures
  (`BitSlice`, `JacobsonRank`, `Rank9`, `BinSearchSelect`, `BitBuffer`, the codes) take a dictionary. Theorems
  about generic structures hold for every *lawful* dictionary (a relation between a value and the list of bits
  it holds), and the concrete stores are proved lawful.
* **Block types** u8, u16, u32, u64, usize are the widths `nb` in {8,16,32,64}.
* **Vectors** `Vec<Block>` are `list N`; `Vec::len` is its length. Allocation is modelled by a size limit:
  an allocation of more than `max_bits c` bits panics (`PAlloc`), a smaller one succeeds. `max_bits c` is
  8*(2^31-1) bits on 32-bit targets (Vec's limit of isize::MAX bytes) and 2^63 bits on 64-bit targets (2^60 bytes, less
  than Vec's limit and more than any address space). So "out of memory" below that limit is not modelled, and an
  out-of-memory abort is counted as a panic. The `VecDeque<bool>` sink never fails.
* **Capacity** is modelled separately (`MCapacity.v`), with the allocator's growth policy as an arbitrary
  function constrained only by `Vec`'s documented contract.

* **Derived traits and formatting** (`MDerive.v`): a formatter is an arbitrary state machine receiving the text pieces of each
  `write!` one by one; the text of an integer is its decimal numeral without flags. `Hash` is the list of items fed to the hasher.
* **Files** (`MDevice.v`, `SpecDevice.v`): `read_exact` and `write_all` are the standard library's documented loops; a file
  follows an arbitrary finite plan of pieces, interruptions and errors, after which it works at once. `MSave.v` is user code.
* **Signed streams** (`MSigned.v`): `PrimInt` at i8..i64 with `Z` values and arithmetic right shift.

* **User types**: a method taking `&self` of a type supplied by the user (a bit store, a code) is a function of its value and
  arguments: stores with interior mutability are outside the model. What takes `&mut self` (streams, `BitVecMut`, `BitVecPush`) and the
  closure of the generic search (C81) may change its state.

Modelled by a projection or by the value itself, without a definition of their own: `VectorBase::len`
(src/internal/vector_base.rs:223), `IntVector::element_bits` and `block_capacity` (src/int_vec/int_vector.rs:181, 314),
`Default` and the two `IntoIterator` impls (src/bit_vec/bit_vector.rs:247, 298, src/int_vec/int_vector.rs:404: `new` and
`iter`), `BitBuffer::new` and `position` (src/stream/bit_buffer.rs:18, 78), `into_inner` of Rank9 and JacobsonRank
(src/rank/rank9.rs:127, src/rank/jacobson.rs:81, C60), `new`, `inner`, `into_inner` of BinSearchSelect
(src/select/bin_search.rs:16-30: the wrapper holds the rank structure only), the mutable slice constructors
(src/bit_vec/bit_slice.rs:52, 66, 78: as the shared ones).

Not modelled: allocation failure below the size limit, formatter flags, the hash functions themselves,
lifetimes/borrowing, running time (but C81, C94 and C97 count queries, blocks and steps), the benchmarks (the unit tests and doc-tests are run on the model in `UnitTests.v`).

## 2. Trusted base

* Coq's kernel (and `vm_compute`), Coq 8.16.1 standard library. 
* The reading of the Rust source embodied in the model (the code is not executed here).
* Semantics assumed of the Rust standard library and of `num_traits`/`byteorder`: `Vec` indexing panics out of
  bounds, `leading_zeros`, `count_ones`, `wrapping_*`, `checked_*`, little/big endian byte order, `Vec::reserve` contract; the iterator adaptors as `MAdaptors.v` writes them (C117); `Vec::push`, `Vec::resize` and an indexed
  assignment that panic change nothing.
* `Print Assumptions` for each theorem: see section 4 (no axioms of our own).

## 3. Per-property plan

* **C01** MStorage.get_bits/with_bits; proof by N.testbit extensionality. Spec: testbit of result, per bit.
* **C02** MStorage.get_bit/with_bit; testbit.
* **C03** MStorage.low_mask (macro) and default_low_mask; both = 2^k-1.
* **C04** MStorage.ceil_lg/floor_lg with leading_zeros = w - N.size; inequality spec.
* **C05** MStorage.ceil_div; _partial when x+d does not overflow, _refuted otherwise (witness).
* **C06** MStorage.address_new/bit_index.
* **C07** MStorage size functions against / and mod; refuted for the last few u64 in checked_ceil_div_nbits.
* **C08** MIO byte lists, both endiannesses.
* **C09** MTraits default methods on list N; spec: nth bit of the concatenation of blocks.
* **C10** Same, set operations; spec per bit.
* **C11** refuted by witness; partial for start not at the aligned end.
* **C12** MTraits Vec<bool> instance with default methods, fuel for align_block.
* **C13** MVectorBase/MBitVector; representation invariant; observational equivalence of op-sequence interpreters (run_impl = run_spec).
* **C14** Corollary of the invariant: representation is a function of the bit list.
* **C15** refuted in release (len near 2^64); partial below 2^64-nbits; debug always panics or is right.
* **C16** MIntVector; observational equivalence with list of integers.
* **C17** As C14.
* **C18** Direct theorems on constructors and push/set.
* **C19** Direct theorems over the flat bit sequence.
* **C20** 64-bit proved; refuted on 32-bit for block-sized elements.
* **C21** Iterator state machine vs. list (deque) for any call sequence.
* **C22** refuted after nth past the end; partial otherwise.
* **C23** MCapacity; refuted when capacity exceeds the length in blocks; partial when capacity = length, or when request fits; the effect on every vector in closed form (C23_effect).
* **C24** MCapacity; every request in closed form (C24_effect).
* **C25** MBitSlice over lawful dictionaries.
* **C26** MBitSlice over lawful mutable dictionaries.
* **C27** MBitSlice.
* **C28** refuted by witness; partial for complete blocks.
* **C29** MRank prim; popcount of masked block = count over positions.
* **C30** MRank Jacobson loop invariant on IntVector contents.
* **C31** refuted (empty and 1-bit stores panic with division by zero); partial: >= 2 bits, exactly if the second directory can be allocated.
* **C32** MRank Rank9 loop invariant on packed level-2 counters.
* **C33** Jacobson: proved; Rank9 and primitives (release): refuted.
* **C34** MSearch with fuel; termination and correctness by loop invariant; domain of f tracked by making f partial (Panic outside).
* **C35** MSelect over any correct rank function.
* **C36** refuted in release, debug panics.
* **C37** Corollary for Jacobson and Rank9.
* **C38** MBroadword; bytewise decomposition and finite sweep per byte lifted to all words.
* **C39** Same for r < 128; refuted for r = 128. For every r from 64 on, the
  exact condition for None (sixteen lane comparisons), and for 128 ≤ r < 256
  the plain one: r = 128 and an odd word.
* **C40** Bytewise; le8 refuted on opposite signs, partial on equal signs.
* **C41** MStream over generic sinks/sources.
* **C42** refuted in debug (panics).
* **C43** MStream.
* **C44** MStream BitBuffer observational equivalence with (list bool, cursor).
* **C45** refuted by witness (BitSlice of 5 bits).
* **C46** MCoding over generic sinks and sources.
* **C47** MCoding.
* **C48** MCoding.
* **C49** refuted.
* **C50** MCoding; Zeckendorf.
* **C51** MCoding.
* **C52** refuted for n = 1 (diverges for every fuel); partial for n >= 2.
* **C53** MCoding.
* **C54** Corollary.
* **C55** Corollary of round-trip with arbitrary suffix.
* **C56** Proved for Unary, Elias, Omega, Comma; refuted for Fibonacci.
* **C57** Proved for Unary (streams < 2^64 bits), Gamma, Delta; refuted for Omega, Fibonacci, Comma, Lift0(Unary) in debug.
* **C58** Sink that fails at bit m as a generic sink.
* **C59** MSpace: deep embedding of types and values.
* **C60** Adapters are definitional; proved by unfolding (thin).
* **C61** BitVector::push_block vs default_push_block.
* **C62** refuted in release; debug panics.
* **C63** default set_block, BitSlice get_block/set_block: refuted on 64-bit, partial otherwise.
* **C64** PLong: spans longer than a block, both build profiles; refuted without overflow checks (see the notes in MANIFEST.json).
* **C65** get_random/set_random over the storage blocks; refuted by witness (bounds are taken at the last element).
* **C66** MCapacity; any growth policy allowed by `Vec`'s contract.
* **C67** MSigned against two's-complement bits; simulated by the unsigned model; refuted for write_int_be at the full width.
* **C68** MTraits prim_*; testbit.
* **C69** MDerive over the representation invariant of reachable vectors (equal contents have equal representations).
* **C70**, **C71** MDerive over an arbitrary formatter.
* **C72** Lengths of the words already characterised for C46-C53.
* **C73** Reachable IntVectors; division facts.
* **C74** Extra conjuncts of the construction invariants of C30/C31.
* **C75** C30, C32, C35 with slices of whole blocks as the store; any other slice panics (generic proof against an ideal
  store that differs in the last block only); refuted by witness.
* **C76** Loop invariants over the consumed prefix of an arbitrary stream (`PAccept.v`; `Properties65.v`: exactly what omega and comma accept in every build); false for comma (leading zero digits),
  omega without overflow checks or on 32-bit targets, and whole Fibonacci streams: witnesses.
* **C77** Operation language of VectorBase (`SpecBase.v`), simulation as for C13 (`PBaseRun.v`).
* **C78** From C13 and C16: on these operations the list specification depends on neither parameter.
* **C79** The word of an item does not depend on the configuration (from C41 and the code words of C42–C51); induction on the message.
* **C80** The QuickCheck property functions are modelled in `MQuickCheck.v`; each follows from C31, C38–C41 and the code words of C42–C51. The inputs on which the property functions themselves overflow are stated exactly.
* **C81** MSearchGen: `search.rs` with positions of any integer type, values of any type and a function with state; the calls are an inductive trace. The search of MSelect is proved to be the instance at unsigned integers (C81_instance). One-block reads: the result is unchanged when the rest of the store is replaced.
* **C82** Parametricity proved by hand: writers are shown to be a list of bits and an outcome (closed under `try!`, `for` and `loop`); readers are related by a simulation between two sources, with a separate relation for states after the end of data.
* **C83** Tables as inductive relations on (how the source stops, bits, outcome, rest); each row is run through the loop (`leads`), coverage is an induction on the input, and agreement of rows follows by running the list source.
* **C84** The mirror of C83: tables on (value, bits, outcome), where an outcome can also be `OutOfFuel` for ever; `writes` of C82 says what it is to put exactly these bits into any sink.  The rows of Comma are run backwards over their digits; agreement follows by running the deque sink.
* **C85** `span_read` and `span_write` are functions on bit lists; proved once for the default methods of the traits over any store that answers `bit_len`, `get_block` and `set_block` as a list does, then for each implementation.  Results of writing are stated by reading the bits back one by one.
* **C86** A relation `agree` between the results of the two builds, preserved by sequencing and by every kind of loop; the checked operations of `Machine.v` satisfy it, and one lemma per definition of the model carries it up (`PAgree.v`).  User-supplied stores, sources, sinks and codes are a pair of implementations, one per build, related method by method.
* **C87** For vectors the specification of a program is the same for both widths as long as the sizes fit, so the theorems that a program follows its specification (C13, C16) on either side give it.  Coders and integers are compared function by function: each decoder is shown to do the same reads and the same arithmetic, the one place where the width of `usize` enters being the count of bits to read.  `Omega` differs on ill-formed input (`_refuted`), as does the size of a `usize` block.
* **C88** `MPanic.v` models the mutating methods a second time, statement by statement, as functions that also yield the state when they panic.  `C88_same_…` prove that forgetting that state gives back the first model, so the two cannot drift apart.  `Vec::push`, `Vec::resize` and an indexed assignment are taken to change nothing when they panic.  A method leaves its state alone if it panics before its first write or cannot panic after it; the proofs go by that.  A program of operations then runs against the specification of C13, C16 and C44 in which a failing operation has no effect.
* **C89** by the loop invariants of C41 and C67, with the mask followed until it has left the type.
* **C90**: the two ends of an iterator are followed through the calls as in C22; texts by showing that each is self-delimiting, numbers when
  no digit follows.
* **C91**: the default methods of C10 and C34 put together for a store about which only the required methods are known; extra bits of the last
  block by reading the store as a longer vector that begins with the given one; the mutual calls by induction on the depth.
* **C92**: Rank9 reads nothing but blocks, so it is the Rank9 of the longer vector that the blocks show; the loop of JacobsonRank is followed
  again with the ones of the longer vector. False of the code: the total is stored in a number of bits taken from the length, so extra
  ones can make `JacobsonRank::new` panic (three bits in a byte of ones); exactly when is proved.
* **C93**: a relation between results (`alike`) that `bind` and the loops preserve; each wrapper is then followed with exactly the methods
  it uses assumed alike. The relation between panics is a parameter (equality, or always true).
* **C94**: as C93, with the blocks assumed alike only at the numbers that the field spans; for writes, any transitive relation that
  `set_block` respects at those numbers is respected by `set_bits`.
* **C95**: monotonicity by induction on `provided` from the exact lengths of C72; the Kraft inequality for any prefix-free list of
  words by induction on the bound, splitting the words by their first bit.
* **C96**: the nestings are inductive predicates (`SpecTower.v`) that say which bits a value stands for; by induction each satisfies the
  laws of a bit vector, a rank structure or a select structure, with the theorems of C30-C37, C44, C75 as the steps.
* **C97**: a call with fewer steps is below one with more in the order "out of steps, or equal", and every construct of the model is
  monotone in it; the bounds go through the tables of C84 and, for the search, the halving of the interval.
* **C98**: no laws are assumed of the store; an invariant of the slices that can be obtained (empty, or within the old length), then
  case distinctions.
* **C99**: a file is its contents and a plan of what happens at each call (`SpecDevice.v`); the loops of `read_exact` and `write_all`
  by induction on the plan, lists of blocks by induction on the list.
* **C100**: saving is writing the list of blocks of C99, and loading reads it; the invariant of loading is that the bits of the
  blocks read so far are in place.
* **C101**: arithmetic on the table sizes of C74.
* **C102**: `MArchive.v` is user code; the marks are `1 0 .. 0` for each word, so the i-th one stands at the sum of the lengths before
  it; select by C35, reading by C44/C54.
* **C103**: `exact_bstep`/`exact_istep` are the list programs of C13/C16 with `span_read`/`span_write` of C85 and the lost sizes of
  C15/C24; the side conditions of C13/C16 shrink to the ranges of the Rust types. Simulation step by step.
* **C104**: readers by C82 (two sources that behave alike), writers because each is a fixed word followed by a fixed outcome (C82), bit
  by bit with `buf_write` of C44. The replacement is run on the tape and carried over.
* **C105**: loop by loop, with the general lemmas on `read_int` and `read_int_be` (any width, any stop). What follows is proved on the
  list functions.
* **C106**: by induction over the composition; the reading side is C105's function on lists, so that round trips are equations on lists.
* **C107**: by induction over the message from C105 and C106; a proper prefix of a word parses as `Cut`.
* **C108**: on C105's function: an answer given while a word is read leaves a part of the word; a part of two bits or more is a word; by induction on what is left.
* **C109**: `MSparse.v` is user code; the items split at a position into those below it, as many as the ones before it, and the rest.
* **C110**: the occurrences of a symbol are a sequence of bits, so the search of C35 applies; the tree by induction on the width: the symbols with a given bit, in order, and the prefix of them in a prefix.
* **C111**: one lemma for every loop that rewrites the blocks in order: after i blocks the first i·nb bits are new, the rest old; one lemma for the loops that add up ones.
* **C112**: the high parts in unary: the i-th one stands at h_i + i, the z-th zero at z + the number of high parts up to z; a predicate that holds up to some element of a sorted list holds of a prefix.
* **C113**: the interval below the last position goes from m to (m - 1) / 2, so m + 1 is halved: induction on the power of two below it, with the calls recorded.
* **C114**: false: C113 at n = 2^(2^(4(a+b+1))) over positions wide enough. The true cost is C113 and the upper bound of C81.
* **C115**: the forest as a list of places (opened, closed, level, parent, first child, next sibling, descendants) defined without parentheses; the scan over a balanced text leaves the excess as it was; the text before a node determines its parent.
* **C116**: C62's `wrapped_mask` for the masks; log2/log2_up for the logarithms; C07_wrapped for `mul_nbits`; division with remainder for addresses.
* **C117**: laws (`steps`, `jumps`, `backs`, `counts`) that the crate's iterators satisfy by C21/C22's invariants and that each adaptor preserves; `C117_pipeline` composes them; `Properties67.v` has them of one relation per adaptor, so that calls at both ends mix (`C117_both_ends`, `C117_ends_pipeline`); the two `_refuted` are C22's wrong `len` seen through `Skip` and `StepBy`.
* **C118**: the queue runs through whole generations (`louds_queue`, `louds_all`), so the text is that of the level order `L`, which satisfies `L = root :: flat_map kids L`; node numbers and positions then correspond by counting ones and zeros (`C35_select`, `lawful_rank`).
* **C119**: as for Elias (C47, C56, C57), with the quotient and remainder by 2^k in place of the logarithm; towers by induction on `tower_code`.
* **C120**: C119's code words of the differences; the merge by induction on what both streams still hold; select from C35 and the positions of ones and zeros.
* **C121**: invariant of the outer loop: a bit is set iff nothing from 2 to below i properly divides its position; inner loop by induction; rank and select from C35.
* **C122**: the suffixes below a pattern are counted; one more symbol in front turns that count into rank plus the number of smaller symbols (`bound_step`); rank from C110. Extraction: the row of a suffix is the number of suffixes below it (`row_ok`), and one step leads to the row of the suffix one symbol longer.
* **C123**: the loop leads from the row of suffix i to that of suffix i - 1 until a marked one, whose sample is found by rank (`filter_at`); the rows between the two bounds are those of the suffixes that begin with the pattern (`below`).
* **C124**: induction over the levels; a level's numbers are the quotients of those of the level above that go on, in order, and the rank of the marks is the index there (`filter_at` of C123).
* **C125**: the rank of a position is the number of runs up to it (`heads_ok`), so positions of the same rank hold the same number; select gives both ends of the run, marked exactly where a number differs from the one before (`fresh_at`).
* **C126**: what tokens mean is an inductive relation (`expands`) that says of each added symbol that it equals the one `distance` places earlier; the loop takes the tokens one by one (`load_tokens`), and the decoder's clean end or the bad distance closes it.

### Files

* `Machine.v` machine layer; `MStorage.v` src/storage.rs (all but I/O); `MTraits.v` src/bit_vec/traits.rs, mod.rs, prim.rs;
  `MVectorBase.v` src/internal/vector_base.rs; `MBitVector.v`, `MIntVector.v`, `MBitSlice.v` the vectors; `MRank.v` src/rank;
  `MSelect.v` src/select and src/internal/search.rs; `MBroadword.v` src/broadword.rs; `MStream.v` src/stream and
  src/internal/errors.rs; `MCoding.v` src/coding; `MCapacity.v` capacities; `MIO.v` read_block/write_block; `MSpace.v`
  src/space_usage.rs; `MSigned.v` src/stream/traits.rs at signed types; `MDerive.v` derived traits and formatting.
* `Spec*.v` vocabulary of the theorems: `SpecBits` (bit lists), `SpecCfg` (concrete build configurations), `SpecLaws` (what it
  means to implement the bit-vector traits correctly), `SpecOps`, `SpecBase` (programs of operations and their meaning on lists),
  `SpecRank`, `SpecStream` (streams and code words), `SpecBuffer` (a file of bits with a cursor), `SpecSpace` (ownership),
  `SpecSigned` (two's complement), `SpecDerive` (orders, emitted text).
* `P*.v` proofs. `Properties1.v` C01-C07, C62, `Properties2.v` C09-C12, C63, `Properties3.v` C13-C15, C61, C64, `Properties4.v` C16-C22, C65,
  `Properties5.v` C25-C28, C63, `Properties6.v` C29-C37, C60, `Properties7.v` C38-C40, `Properties8.v` C41-C45, `Properties9.v` C46-C58,
  `Properties10.v` C23, C24, C66, `Properties11.v` C08, C59, `Properties12.v` C67,
  `Properties13.v` C68, `Properties14.v` C69-C71, `Properties15.v` C72, `Properties16.v` C73, C74, `Properties17.v` C75, `Properties18.v` the behaviour on the inputs
  for which a claim marked partial fails (C05, C07, C11, C15, C20, C24, C28, C33, C42, C52, C62, C63); so also
  `Properties19.v` C57, `Properties20.v` C22, `Properties21.v` C64. `Properties22.v`/`Properties65.v` C76, `Properties23.v` C77,
  `Properties24.v` C78, `Properties25.v` C79, `Properties26.v` further exact behaviour (C39, C49, C65), `Properties27.v` C80 (over `MQuickCheck.v`), `Properties28.v` C81 (over `MSearchGen.v`), `Properties29.v` C82, `Properties30.v` C83, `Properties31.v` C84, `Properties32.v` C85, `SpecAgree.v`, `PAgree.v` and `Properties33.v` C86, `Properties34.v` C87, `MPanic.v`, `SpecPanic.v`, `PPanic.v`, `PPanic2.v` and `Properties35.v` C88, `Properties36.v` C89, `Properties37.v` C90 (texts modelled in `MDerive2.v`), `Properties38.v` C91 (`MMinimal.v`, `SpecMinimal.v`), `Properties39.v` C92 (`PRankPad.v`), `Properties40.v` C93 (`SpecSame.v`), `Properties41.v` C94, `Properties42.v` C95, `Properties43.v` C96 (`MAdapter.v`, `SpecTower.v`), `Properties44.v` C97, `Properties45.v` C98, `Properties46.v` C99 (`MDevice.v`, `SpecDevice.v`), `Properties47.v` C100 (`MSave.v`), `Properties48.v` C101, `Properties49.v` C102 (`MArchive.v`), `Properties50.v` C103, `Properties51.v` C104, `SpecParse.v` and `Properties52.v` C105, `Properties53.v` C106, `Properties54.v` C107, `Properties55.v` C108, `Properties56.v` C109 (`MSparse.v`), `Properties57.v` C110 (`MWavelet.v`), `Properties58.v` C111 (`MBlockwise.v`), `Properties59.v` C112 (`MEliasFano.v`), `Properties60.v` C113, C114, `Properties61.v` C115 (`MParens.v`), `Properties62.v` C116, `Properties63.v` the exact effect of reserving (C23, C24), `MAdaptors.v`/`Properties64.v` C117, `MLouds.v`/`Properties66.v` C118, `Properties67.v` C117 from both ends, `MRice.v`/`Properties68.v` C119, `MPosting.v`/`Properties69.v` C120, `MSieve.v`/`Properties70.v` C121, `MFmIndex.v`/`Properties71.v` C122, `MFmLocate.v`/`Properties72.v` C123, `MDac.v`/`Properties73.v` C124, `MRuns.v`/`Properties74.v` C125, `MLz.v`/`Properties75.v` C126.
* `UnitTests.v`: tests of the model, not proofs. Every `#[test]` function of /repo/src is transcribed to the model and evaluated in the four configurations; all pass, so the model agrees with the crate's own expectations. The two space-usage tests are run for the first and last of their 50 sizes, and the assertions on `Vec` capacity (vector_base.rs:478-479, bit_vector.rs:341) are left out because the capacity there depends on the allocator.
* `tools/manifest.py` regenerates MANIFEST.json, `tools/assumptions.py` section 4.

## 4. Assumptions per theorem

`Print Assumptions` was run on each of the 575 theorems below, in one file that requires all the compiled `Properties` files
(`tools/assumptions.py` does the same file by file).

"Closed under the global context" (no axioms at all): 575 theorems.

* `Properties1.v`: C01_get_bits, C01_with_bits, C01_with_bits_list, C01_out_of_bounds, C62_wrapping_span_partial, C62_wrapping_span_refuted, C02_get_bit, C02_with_bit, C02_out_of_bounds, C03_low_mask, C04_ceil_lg, C04_floor_lg, C05_ceil_div_partial, C05_zero_divisor, C05_overflow_detected_with_checks, C05_ceil_div_refuted, C06_address, C07_sizes_partial, C07_mul_nbits, C07_checked_ceil_refuted, C07_div_nbits_refuted
* `Properties2.v`: C09_blocks_read, C09_out_of_bounds, C10_blocks_write, C10_put_spec, C10_out_of_bounds, C11_empty_span_partial, C11_empty_span_refuted, C12_vecbool_read, C12_vecbool_read_out_of_bounds, C12_vecbool_write, C12_vecbool_write_out_of_bounds, C12_vecbool_push, C63_huge_block_index_partial, C63_huge_block_index_refuted
* `Properties3.v`: C13_bitvector_is_a_list, C14_bitvector_eq, C14_unused_bits_are_zero, C15_with_fill_partial, C15_resize_partial, C15_with_fill_refuted, C15_resize_refuted, C61_push_block, C61_align_block, C64_long_spans_partial, C64_long_spans_refuted, C64_long_write_refuted
* `Properties4.v`: C16_intvector_is_a_list, C17_intvector_eq, C17_different_widths, C18_invalid_width, C18_push_value, C18_set_value, C18_fill_value, C19_get_random, C19_set_random, C65_random_support_partial, C65_random_support_refuted, C20_out_of_range_partial, C20_out_of_range_refuted, C21_int_iterator, C21_bit_iterator, C22_int_len_partial, C22_bit_len_partial, C22_len_after_nth_refuted, C22_count_refuted
* `Properties5.v`: C25_slice_reads, C26_slice_write, C26_frame, C27_nested, C27_outside, C28_blocks_partial, C28_blocks_refuted, C63_slice_block_index_partial, C63_slice_block_index_refuted
* `Properties6.v`: C29_prim_rank, C30_jacobson_rank, C31_jacobson_new_partial, C31_room, C31_jacobson_new_small, C31_jacobson_new_refuted, C32_rank9, C33_jacobson, C33_rank9_partial, C33_rank9_padding, C33_prim_partial, C33_rank9_refuted, C33_prim_refuted, C34_binary_search, C34_average, C35_select, C35_rank_structures, C36_max_index_partial, C36_max_index_refuted, C37_jacobson_inverse, C37_rank9_inverse, C37_bitvector_inverse, C60_jacobson_store, C60_rank9_store, C60_select_rank
* `Properties7.v`: C38_count_ones, C38_broadword_rank, C38_same_as_primitive, C39_select1_partial, C39_select1_raw_partial, C39_broadword_select_partial, C39_select1_refuted, C39_select1_u64_refuted, C40_u_le8, C40_u_nz8, C40_le8_partial, C40_le8_refuted
* `Properties8.v`: C41_write_int, C41_write_int_be, C41_read_int, C41_read_int_be, C41_queue_roundtrip, C42_zero_width_partial, C42_zero_width_refuted, C43_end_of_stream, C43_queue, C44_file, C44_bitvector, C44_vec_bool, C45_read_all_partial, C45_slice_partial, C45_slice_refuted
* `Properties9.v`: C46_unary, C47_gamma, C47_delta, C47_elias_generic, C47_zero_panics, C48_omega, C48_omega_words_exist, C49_omega_zero_refuted, C50_fibonacci, C50_fibonacci_words, C50_too_large, C50_zero_panics, C51_comma, C51_comma_words, C52_comma_terminates_partial, C52_comma_terminates_refuted, C53_lift0, C53_max, C54_any_stream, C54_queue, C54_bit_buffer, C55_prefix_free, C56_truncation_partial, C56_fibonacci_partial, C56_fibonacci_refuted, C57_unary_gamma_delta, C57_unchecked_builds_partial, C57_omega_refuted, C57_fibonacci_refuted, C57_comma_refuted, C58_any_sink, C58_failing_sink
* `Properties10.v`: C23_reserve_partial, C23_bit_vector_partial, C23_int_vector_partial, C23_exact_partial, C23_reserve_refuted, C23_block_reserve, C24_bit_vector_partial, C24_int_vector_partial, C24_bad_width, C24_with_capacity_refuted, C66_any_operation, C66_push_bits, C66_push_ints, C66_shrink_to_fit
* `Properties11.v`: C08_bytes, C08_roundtrip, C08_short, C08_any_stream, C59_stack_only, C59_heap_bytes, C59_vec, C59_all
* `Properties12.v`: C67_write_int, C67_read_int, C67_read_int_be, C67_read_stops, C67_write_int_be_partial, C67_write_int_be_full, C67_write_int_be_refuted, C67_queue_roundtrip
* `Properties13.v`: C68_reads, C68_writes, C68_out_of_bounds
* `Properties14.v`: C69_bitvector_order, C69_total_order, C69_intvector_order, C69_block_sized_order, C69_different_widths, C69_bitvector_hash, C69_intvector_hash, C70_binary, C70_to_string, C71_debug, C71_decimal
* `Properties15.v`: C72_unary, C72_gamma, C72_delta, C72_omega, C72_comma, C72_fibonacci, C72_lift0
* `Properties16.v`: C73_alignment, C74_rank9, C74_jacobson
* `Properties17.v`: C75_rank9_partial, C75_rank9_ragged, C75_jacobson_partial, C75_jacobson_ragged, C75_refuted
* `Properties18.v`: C05_without_checks, C07_top, C07_wrapped, C11_at_the_end, C15_wrapped, C20_alias, C24_wrapped, C28_ragged, C33_prim_wrapped, C42_zero_width_checked, C52_base_one, C62_wrapped, C63_slice_alias, C63_vec_bool_alias
* `Properties19.v`: C57_comma_exact, C57_comma_exact_all, C57_fibonacci_exact, C57_omega_exact, C57_omega_exact_all, C57_unary_gamma_delta_exact
* `Properties20.v`: C22_int_len_exact, C22_bit_len_exact, C22_int_len_always, C22_bit_len_always
* `Properties21.v`: C64_two_blocks
* `Properties22.v`: C76_words_partial, C76_queue_partial, C76_reencode_partial, C76_comma_partial, C76_comma_refuted, C76_omega_refuted, C76_omega32_refuted, C76_fibonacci_refuted
* `Properties23.v`: C77_vector_base, C77_equal
* `Properties24.v`: C78_bitvector, C78_intvector
* `Properties25.v`: C79_any_stream, C79_queue, C79_bit_buffer
* `Properties26.v`: C39_never_panics, C39_beyond, C39_next, C49_zero_as_one, C65_tail_panics
* `Properties27.v`: C80_floor_lg, C80_ceil_lg, C80_ceil_div_unchecked, C80_ceil_div_checked, C80_count_ones, C80_select1, C80_u_nz8, C80_u_le8, C80_code_decode, C80_max_checked, C80_max_elias, C80_max_fibonacci, C80_comma_unchecked, C80_fibonacci_large, C80_omega_unchecked
* `Properties28.v`: C81_any_function, C81_fixed_function, C81_monotone, C81_instance, C81_select_queries, C81_jacobson_one_block, C81_rank9_one_block
* `Properties29.v`: C82_writers, C82_int_writers, C82_queue_decides, C82_two_sources, C82_two_int_sources, C82_bits_decide, C82_readings, C82_bit_buffer
* `Properties30.v`: C83_unary, C83_lift0, C83_elias, C83_omega, C83_fibonacci, C83_comma, C83_every_code, C83_gamma, C83_delta, C83_rows_agree, C83_terminates, C83_prefix_decides
* `Properties31.v`: C84_unary, C84_lift0, C84_elias, C84_omega, C84_fibonacci, C84_comma, C84_every_code, C84_rows_agree, C84_gamma, C84_delta, C84_comma_reads_back, C84_comma_round_trip, C84_fails_clean
* `Properties32.v`: C85_blocks, C85_bit_vector, C85_int_vector, C85_vec_bool, C85_prim, C85_slice, C85_get_random, C85_set_random
* `Properties33.v`: C86_meaning, C86_panics, C86_bit_vector, C86_int_vector, C86_iterators, C86_stores, C86_wrappers, C86_wrappers_mut, C86_defaults, C86_rank, C86_word_rank, C86_select, C86_search, C86_buffer, C86_read_int, C86_write_int, C86_codes, C86_block_type, C86_capacity, C86_space, C86_format, C86_quickcheck
* `Properties34.v`: C87_bit_vector, C87_int_vector, C87_encoders, C87_decoders_partial, C87_omega_partial, C87_omega_refuted, C87_integers, C87_blocks_partial, C87_blocks_refuted, C87_no_bits
* `Properties35.v`: C88_same_vectors, C88_same_traits, C88_same_wrappers, C88_bit_vector, C88_int_vector, C88_resize_refuted, C88_int_resize_refuted, C88_blocks, C88_prim, C88_vec_bool, C88_vec_bool_refuted, C88_vec_bool_push, C88_slice, C88_buffer, C88_buffer_stores
* `Properties36.v`: C89_write_int, C89_write_int_be, C89_write_sint_be, C89_read_int, C89_read_sint, C89_read_stops, C89_wide_roundtrip, C89_wide_be
* `Properties37.v`: C90_address, C90_iterators_total, C90_bit_iterators, C90_int_iterators, C90_debug_determines, C90_debug_bit_vector, C90_debug_int_vector, C90_exhausted_differ
* `Properties38.v`: C91_get_bit, C91_get_block, C91_set_block, C91_set_bit, C91_push_bit, C91_neither, C91_neither_set
* `Properties39.v`: C92_rank9, C92_jacobson_partial, C92_shown, C92_jacobson_refuted, C92_select
* `Properties40.v`: C93_defaults, C93_defaults_mut, C93_defaults_push, C93_slice, C93_slice_mut, C93_buffer, C93_buffer_mut, C93_buffer_write, C93_rank9, C93_jacobson, C93_select
* `Properties41.v`: C94_get_bit, C94_get_bits, C94_set_bit, C94_set_bits, C94_bit_vector_reads, C94_int_vector_reads, C94_bit_vector_writes, C94_int_vector_writes, C94_push_pop, C94_buffer
* `Properties42.v`: C95_kraft, C95_count, C95_monotone, C95_total
* `Properties43.v`: C96_reads, C96_builds, C96_ranks, C96_selects, C96_macros
* `Properties44.v`: C97_encode, C97_decode, C97_lists, C97_buffer, C97_select, C97_search, C97_bit_vector_programs, C97_int_vector_programs, C97_file_programs, C97_defaults, C97_formatters, C97_self_check, C97_encode_steps, C97_search_steps, C97_select_steps
* `Properties45.v`: C98_inside, C98_bit, C98_bits, C98_block, C98_new, C98_cut
* `Properties46.v`: C99_read, C99_write, C99_crash, C99_pieces
* `Properties47.v`: C100_store, C100_bit_vector, C100_int_vector
* `Properties48.v`: C101_int_vector, C101_jacobson, C101_jacobson_words, C101_jacobson_bytes, C101_rank9
* `Properties49.v`: C102_archive
* `Properties50.v`: C103_bit_vector, C103_bit_vector_eq, C103_int_vector, C103_int_vector_eq
* `Properties51.v`: C104_sessions, C104_bit_vector, C104_replace
* `Properties52.v`: C105_decoding, C105_every_code, C105_no_lookahead, C105_prefix, C105_progress, C105_unchecked
* `Properties53.v`: C106_encoding, C106_every_value, C106_round_trip, C106_no_round_trip, C106_codes
* `Properties54.v`: C107_sent, C107_received, C107_exactly, C107_cut
* `Properties55.v`: C108_tail, C108_fibonacci, C108_lost, C108_unary, C108_gamma
* `Properties56.v`: C109_sparse
* `Properties57.v`: C110_select, C110_wavelet
* `Properties58.v`: C111_combine, C111_short, C111_complement, C111_size, C111_distance, C111_subset, C111_bit_vector
* `Properties59.v`: C112_elias_fano
* `Properties60.v`: C113_first, C113_absent, C113_last, C113_select_absent, C113_select_last, C114_lglg_refuted
* `Properties61.v`: C115_tree
* `Properties62.v`: C116_low_mask, C116_nth_mask, C116_logarithms, C116_bit_index, C116_address, C116_order
* `Properties63.v`: C23_effect, C23_shortfall, C24_effect
* `Properties64.v`: C117_int_iter, C117_bit_iter, C117_collect, C117_nth, C117_rev, C117_skip, C117_skip_back, C117_take, C117_step_by, C117_step_back, C117_map, C117_filter, C117_enumerate, C117_zip, C117_chain, C117_pipeline, C117_skip_back_refuted, C117_step_len_refuted
* `Properties65.v`: C76_omega_exact, C76_comma_exact, C76_comma_wide
* `Properties66.v`: C118_level_order, C118_louds
* `Properties67.v`: C117_both_ends, C117_int_ends, C117_bit_ends, C117_skip_ends, C117_step_ends, C117_take_ends, C117_zip_ends, C117_chain_ends, C117_filter_ends, C117_ends_pipeline
* `Properties68.v`: C119_word, C119_truncated, C119_too_large, C119_any_input, C119_any_stream, C119_prefix_free, C119_cut, C119_unary
* `Properties69.v`: C120_loaded, C120_saved, C120_unsorted, C120_cut, C120_intersection, C120_unary
* `Properties70.v`: C121_sieve, C121_primes
* `Properties71.v`: C122_count, C122_extract
* `Properties72.v`: C123_locate
* `Properties73.v`: C124_dac
* `Properties74.v`: C125_runs
* `Properties75.v`: C126_loaded, C126_refused

No theorem depends on any axiom.

`coqchk` additionally lists seven axioms of `Coq.ssr.ssrunder`; they belong to a module type of the standard library that
is loaded with the `zify` plugin and no theorem here depends on them.
