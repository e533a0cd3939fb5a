{"id": "C01", "title": "Block bit-field read and functional update", "statement": "For an in-bounds span, BlockType::get_bits(start,len) is exactly the len bits starting at start read as a little-endian integer; with_bits(start,len,value) changes exactly those bits to the low len bits of value and no other bit; both panic when start+len exceeds the block size (and is representable as usize; see C62 for the rest).", "quantifier": "every block type (u8,u16,u32,u64,usize), both build profiles (overflow checks on/off), both pointer widths, every block value, every start, len and value", "why_tests_cant": "2^64 block values times all spans; a mask error shows only at particular boundaries such as len = block size", "anchors": ["src/storage.rs: BlockType::get_bits, BlockType::with_bits"]}
{"id": "C02", "title": "Block single-bit read and update", "statement": "BlockType::get_bit(i) is bit i of the block and with_bit(i,b) sets bit i to b leaving every other bit alone, for i inside the block; both panic for i outside it.", "quantifier": "every block type (u8,u16,u32,u64,usize), both build profiles (overflow checks on/off), both pointer widths, every block value and index", "why_tests_cant": "cannot enumerate 2^64 values", "anchors": ["src/storage.rs: BlockType::get_bit, BlockType::with_bit, BlockType::nth_mask"]}
{"id": "C03", "title": "low_mask is exactly k ones", "statement": "For k from 0 to the block size inclusive, low_mask(k) is 2^k-1; the branch-free version used by the primitive types agrees with the trait's documented default.", "quantifier": "every block type (u8,u16,u32,u64,usize), both build profiles (overflow checks on/off), both pointer widths, every k up to the block size", "why_tests_cant": "the k = block size case relies on wrapping shifts and differs per profile", "anchors": ["src/storage.rs: fn_low_mask!, BlockType::low_mask"]}
{"id": "C04", "title": "ceil_lg and floor_lg are exact", "statement": "ceil_lg(x) is the least n with 2^n >= x, and for x >= 1 floor_lg(x) is the greatest n with 2^n <= x.", "quantifier": "every block type (u8,u16,u32,u64,usize), both build profiles (overflow checks on/off), both pointer widths, every x", "why_tests_cant": "an off-by-one at one power of two is easily missed by sampling", "anchors": ["src/storage.rs: BlockType::ceil_lg, BlockType::floor_lg"]}
{"id": "C05", "title": "ceil_div is the least adequate multiple", "statement": "ceil_div(x,d) is the least n with n*d >= x for every x and every nonzero d; a zero divisor panics.", "quantifier": "every block type (u8,u16,u32,u64,usize), both build profiles (overflow checks on/off), both pointer widths, every x and d", "why_tests_cant": "fails only where x+d overflows the type", "anchors": ["src/storage.rs: BlockType::ceil_div"]}
{"id": "C06", "title": "Bit addresses split and join without loss", "statement": "Address::new(i) has bit_offset < block size and Address::bit_index gives back i; Address::new panics exactly when the block index does not fit in usize.", "quantifier": "every block type (u8,u16,u32,u64,usize), both build profiles (overflow checks on/off), both pointer widths, every u64 index", "why_tests_cant": "the claim is about all 2^64 indices and both pointer widths", "anchors": ["src/storage.rs: Address::new, Address::bit_index, BlockType::div_nbits, mod_nbits, mul_nbits"]}
{"id": "C07", "title": "Block size arithmetic is division", "statement": "div_nbits, mod_nbits, ceil_div_nbits, last_block_bits compute floor quotient, remainder, ceiling quotient and the 1..block-size number of bits in the last block; the checked ceiling reports None, never a wrong number, when the result is not representable.", "quantifier": "every block type (u8,u16,u32,u64,usize), both build profiles (overflow checks on/off), both pointer widths, every u64 index", "why_tests_cant": "the rounding addition overflows only for the last few u64 values", "anchors": ["src/storage.rs: div_nbits, checked_div_nbits, ceil_div_nbits, checked_ceil_div_nbits, mod_nbits, last_block_bits"]}
{"id": "C08", "title": "Block I/O round-trips in either byte order", "statement": "read_block returns the block that write_block wrote with the same byte order, consuming exactly those bytes; with too few bytes it reports an unexpected-EOF error; big-endian output is the reverse of little-endian output.", "quantifier": "every block type, byte order, block value and trailing input", "why_tests_cant": "all values and all stream remainders", "anchors": ["src/storage.rs: BlockType::read_block, BlockType::write_block"]}
{"id": "C09", "title": "A slice or Vec of blocks reads as one bit sequence", "statement": "For [Block] and Vec<Block>, get_bit, get_block and get_bits all read the same bit sequence (block i holds bits i*nbits.., least significant first), including spans crossing a block boundary, and panic when out of bounds.", "quantifier": "every block type (u8,u16,u32,u64,usize), both build profiles (overflow checks on/off), both pointer widths, every vector within memory limits, every position and count up to the block size", "why_tests_cant": "boundary-straddling spans for every offset and content", "anchors": ["src/bit_vec/traits.rs: BitVec::get_bit, BitVec::get_bits, impl BitVec for [Block]/Vec<Block>"]}
{"id": "C10", "title": "Bit writes to a slice or Vec of blocks touch only their span", "statement": "For [Block] and Vec<Block>, after set_bit/set_bits/set_block every bit in the span reads as written and every bit outside is unchanged; length never changes; out-of-bounds writes panic.", "quantifier": "every block type (u8,u16,u32,u64,usize), both build profiles (overflow checks on/off), both pointer widths, every vector, span and value", "why_tests_cant": "the frame condition quantifies over all other bits", "anchors": ["src/bit_vec/traits.rs: BitVecMut::set_bit, set_bits, set_block"]}
{"id": "C11", "title": "Reading an empty span that lies within bounds succeeds", "statement": "get_bits(start, 0) and set_bits(start, 0, v) with start <= bit_len() do not panic (the documentation says they panic only if the span goes out of bounds).", "quantifier": "every vector and every start <= bit_len()", "why_tests_cant": "fails only when start is the block-aligned end of the vector", "anchors": ["src/bit_vec/traits.rs: BitVec::get_bits, BitVecMut::set_bits"]}
{"id": "C12", "title": "Vec<bool> behaves as a bit vector", "statement": "The default block operations on Vec<bool> (get_block assembled bit by bit, set_block spread bit by bit, get_bits, set_bits, align_block, push_block) agree with the plain list of booleans, padding with zeros past the end.", "quantifier": "every Vec<bool>, position, count and value", "why_tests_cant": "all lengths and positions; default methods are slow reference code rarely exercised", "anchors": ["src/bit_vec/traits.rs: BitVec::get_block, BitVecMut::set_block, BitVecPush::align_block, BitVecPush::push_block, impl for Vec<bool>"]}
{"id": "C13", "title": "BitVector is observationally a list of bits", "statement": "For any sequence of BitVector operations (constructors, push/pop bit, push_block, set bit/block/bits, resize, truncate, block_resize, block_truncate, clear, align and all observers) every result and every panic is the one a plain list of booleans gives.", "quantifier": "every finite operation sequence whose arguments are in range, except the calls treated as properties of their own (spans longer than a block: C64; the empty span at an aligned end: C11; bit sizes within a block of 2^64: C15, C24), every block type (u8,u16,u32,u64,usize), both build profiles (overflow checks on/off), both pointer widths", "why_tests_cant": "state-dependent defects (stale bits in the last block, missing or extra block) need specific histories", "anchors": ["src/bit_vec/bit_vector.rs: BitVector", "src/internal/vector_base.rs: VectorBase"]}
{"id": "C14", "title": "BitVector equality means equal bits", "statement": "Two BitVectors produced by any operation histories compare equal (derived Eq over the representation) exactly when they have the same length and the same bits; unused bits of the last block are always zero.", "quantifier": "every pair of operation histories", "why_tests_cant": "one leftover bit after pop/truncate/resize breaks it, only on some history", "anchors": ["src/internal/vector_base.rs: VectorBase, clear_extra_bits, set_len_from_blocks", "src/bit_vec/bit_vector.rs: derive(Eq)"]}
{"id": "C15", "title": "Over-large BitVector sizes are rejected, not misinterpreted", "statement": "BitVector::with_fill(len,_) and resize(len,_) either produce a vector with bit_len() = len or panic, for every u64 len.", "quantifier": "every u64 len, fill value and starting vector", "why_tests_cant": "only the last few u64 values in an overflow-unchecked build misbehave", "anchors": ["src/bit_vec/bit_vector.rs: with_fill, resize", "src/storage.rs: checked_ceil_div_nbits"]}
{"id": "C16", "title": "IntVector is observationally a list of k-bit integers", "statement": "For any sequence of IntVector operations with element width k every result and every panic is the one a plain list of integers below 2^k gives: get returns what was last set/pushed, set changes only its element, pop returns the last, resize fills, out-of-bounds panics.", "quantifier": "every operation sequence whose arguments are in range, except the calls treated as properties of their own (C64, C11, C24, C20), every width 1..=block size, every block type (u8,u16,u32,u64,usize), both build profiles (overflow checks on/off), both pointer widths", "why_tests_cant": "elements straddling block boundaries depend on width, index and history", "anchors": ["src/int_vec/int_vector.rs: IntVector", "src/internal/vector_base.rs: VectorBase"]}
{"id": "C17", "title": "IntVector equality means equal elements", "statement": "Two IntVectors of the same element width produced by any operation histories compare equal exactly when they hold the same sequence of elements; with different widths they are never equal.", "quantifier": "every pair of operation histories", "why_tests_cant": "stale bits or spare blocks appear only on particular histories", "anchors": ["src/int_vec/int_vector.rs: derive(PartialEq)", "src/internal/vector_base.rs"]}
{"id": "C18", "title": "IntVector rejects invalid widths and values", "statement": "Every IntVector constructor panics when the element width is 0 or exceeds the block size; push and set panic when the value does not fit the width and otherwise store it exactly; with_fill and resize store the fill value reduced modulo 2^width.", "quantifier": "every width, value and vector", "why_tests_cant": "all widths times values times build profiles", "anchors": ["src/int_vec/int_vector.rs: check_element_bits, check_value, create, push, set, with_fill, resize"]}
{"id": "C19", "title": "IntVector random-width access addresses raw bits", "statement": "get_random(off,w,i) with w between 1 and the block size returns the w bits at bit address i*w+off of the element storage, set_random writes exactly those bits, and both panic when the span passes the last element.", "quantifier": "every vector, offset, width up to the block size and index", "why_tests_cant": "address arithmetic overflow and straddling are input dependent", "anchors": ["src/int_vec/int_vector.rs: get_random, set_random, compute_address_random"]}
{"id": "C20", "title": "IntVector out-of-range get/set panics", "statement": "IntVec::get(i) and IntVecMut::set(i,v) panic for every i >= len(), on every platform.", "quantifier": "every vector, every u64 index, both pointer widths", "why_tests_cant": "on 32-bit targets only indices >= 2^32 with block-sized elements misbehave", "anchors": ["src/int_vec/int_vector.rs: get, set"]}
{"id": "C21", "title": "Iterators enumerate elements from both ends", "statement": "For any interleaving of next, next_back and nth on a BitVector/IntVector iterator, the items returned are those a double-ended list iterator returns; iteration yields each element once, in order.", "quantifier": "every vector and every finite call sequence", "why_tests_cant": "call interleavings are unbounded", "anchors": ["src/internal/vector_base.rs: Iter", "src/bit_vec/bit_vector.rs: Iter", "src/int_vec/int_vector.rs: Iter"]}
{"id": "C22", "title": "Iterator length is exact at all times", "statement": "At every point of an iteration len()/size_hint() is exactly the number of items still to come, whatever calls were made before.", "quantifier": "every vector and every finite call sequence (including nth past the end)", "why_tests_cant": "depends on the history of nth calls", "anchors": ["src/internal/vector_base.rs: Iter::len, Iter::nth, Iter::size_hint, Iter::count"]}
{"id": "C23", "title": "reserve guarantees capacity", "statement": "After reserve(additional) or reserve_exact(additional) on a BitVector/IntVector, capacity() >= len + additional, for every allocator growth policy, and the contents are unchanged.", "quantifier": "every vector (any length and capacity), every amount that does not overflow, every allocation policy allowed by Vec's contract", "why_tests_cant": "depends on the relation between length, current capacity and request", "anchors": ["src/internal/vector_base.rs: additional_blocks, reserve, reserve_exact"]}
{"id": "C24", "title": "with_capacity guarantees capacity", "statement": "with_capacity(n) yields an empty vector whose capacity() is at least n, or panics when the block count is not representable.", "quantifier": "every element width, n, allocation policy", "why_tests_cant": "rounding and overflow for all n", "anchors": ["src/internal/vector_base.rs: with_capacity, capacity"]}
{"id": "C25", "title": "BitSlice reads exactly the selected range", "statement": "A BitSlice over range a..b of any bit vector has bit_len = b-a (0 if a>b), its get_bit/get_bits read base bits a+i, and accesses outside the slice panic even if inside the base; construction panics if b exceeds the base length.", "quantifier": "every base vector, range (all four range forms), position and count", "why_tests_cant": "all offsets relative to block boundaries", "anchors": ["src/bit_vec/bit_slice.rs: BitSlice, IntoRange"]}
{"id": "C26", "title": "BitSliceMut writes stay inside the slice", "statement": "Writing through a BitSliceMut changes exactly the addressed bits of the base and nothing outside the slice's range; out-of-slice writes panic.", "quantifier": "every base vector, range, position, count and value", "why_tests_cant": "frame condition over all other bits", "anchors": ["src/bit_vec/bit_slice.rs: BitSliceMut"]}
{"id": "C27", "title": "Nested slices compose", "statement": "Slicing a slice with c..d yields the same reads as slicing the base with a+c..a+d, whether via slice(), slice_mut() or a new slice layered over the slice; a range that ends after the slice is refused even if the base is long enough.", "quantifier": "every base, every pair of ranges (outer range in order, start of the inner range representable) and position; zero-length reads only of ranges in order", "why_tests_cant": "composition over all ranges", "anchors": ["src/bit_vec/bit_slice.rs: slice, slice_mut, new"]}
{"id": "C28", "title": "get_block on a slice works for every block index below block_len", "statement": "For every j < block_len(), get_block(j) on a BitSlice returns the bits of that block (the documentation: panics only if position is out of bounds).", "quantifier": "every slice and block index", "why_tests_cant": "fails only when the slice length is not a multiple of the block size", "anchors": ["src/bit_vec/bit_slice.rs: get_block, set_block", "src/bit_vec/traits.rs: BitVec::get_block docs"]}
{"id": "C29", "title": "Primitive rank", "statement": "For a primitive integer, rank1(p) is the number of one bits at positions 0..=p and rank0(p) the number of zero bits; rank(p,v) picks between them.", "quantifier": "every primitive type, value and position below its width, both profiles", "why_tests_cant": "2^64 values", "anchors": ["src/rank/prim.rs", "src/rank/traits.rs: BitRankSupport::rank0"]}
{"id": "C30", "title": "JacobsonRank answers rank exactly", "statement": "For a JacobsonRank built over any bit store of at least two bits, rank1(p) is the number of one bits in positions 0..=p for every p < bit_len(), rank0(p) the number of zeros, and rank1(p) panics for p >= bit_len().", "quantifier": "every store within memory limits with >= 2 bits, every block type, every position, both profiles and pointer widths", "why_tests_cant": "superblock/block boundaries depend on length (block geometry is a function of lg^2 n)", "anchors": ["src/rank/jacobson.rs: JacobsonRank::new, rank1"]}
{"id": "C31", "title": "JacobsonRank can be built for every bit vector", "statement": "JacobsonRank::new does not panic, for every bit store (including the empty one).", "quantifier": "every store", "why_tests_cant": "only lengths 0 and 1 divide by zero", "anchors": ["src/rank/jacobson.rs: JacobsonRank::new"]}
{"id": "C32", "title": "Rank9 answers rank exactly", "statement": "For a Rank9 built over any u64-block bit store (including the empty one), rank1(p) is the number of one bits in positions 0..=p for every p < bit_len(), and rank0(p) the number of zeros.", "quantifier": "every store within memory limits, every position, both profiles and pointer widths", "why_tests_cant": "packed 9-bit counters: errors appear at particular word offsets and counts", "anchors": ["src/rank/rank9.rs: Rank9::new, Level2::get, Level2::set, rank1"]}
{"id": "C33", "title": "Rank queries past the limit panic", "statement": "rank(p,v)/rank1(p) panics whenever p >= limit(), for every rank structure (trait documentation).", "quantifier": "every rank structure and position", "why_tests_cant": "only positions in the padding of the last block misbehave", "anchors": ["src/rank/traits.rs: RankSupport::rank docs", "src/rank/rank9.rs: rank1", "src/rank/prim.rs: rank1"]}
{"id": "C34", "title": "Binary search finds the least argument", "statement": "binary_search_function(start,limit,value,f) for monotone f returns the least d in start..limit with f(d) >= value, or None if there is none, never evaluates f outside the interval, and always terminates; average never overflows.", "quantifier": "every interval of any integer width, every value, every monotone f", "why_tests_cant": "unbounded functions and intervals", "anchors": ["src/internal/search.rs: binary_search_function, average"]}
{"id": "C35", "title": "BinSearchSelect answers select exactly", "statement": "Over any correct rank structure, select1(i) (select0(i), select(i,v)) is Some(p) exactly when bit p is a one (zero, v) with exactly i such bits before it, and None when there are at most i of them, for every i < 2^64-1.", "quantifier": "every bit sequence, every index, every correct rank structure", "why_tests_cant": "positions and densities unbounded", "anchors": ["src/select/bin_search.rs", "src/internal/search.rs"]}
{"id": "C36", "title": "select with the maximal index", "statement": "select1(u64::MAX) returns None, since no bit vector has 2^64 ones.", "quantifier": "every rank structure, both profiles", "why_tests_cant": "single input value; profile dependent", "anchors": ["src/select/bin_search.rs: index + 1"]}
{"id": "C37", "title": "Rank and select are mutually inverse", "statement": "If select1(i) = Some(p) then rank1(p) = i+1 and bit p is one; if bit p is one then select1(rank1(p)-1) = Some(p); likewise for zeros.", "quantifier": "every bit vector, index and position, over both Rank9 and JacobsonRank", "why_tests_cant": "all vectors", "anchors": ["src/select/bin_search.rs", "src/rank/rank9.rs", "src/rank/jacobson.rs"]}
{"id": "C38", "title": "Broadword population count", "statement": "broadword::count_ones(x) is the number of one bits of x and never overflows; Broadword(x).rank1(p) is the number of ones in positions 0..=p.", "quantifier": "all 2^64 words, every p < 64, both profiles", "why_tests_cant": "2^64 inputs", "anchors": ["src/broadword.rs: count_ones, Broadword::rank1"]}
{"id": "C39", "title": "Broadword select", "statement": "broadword::select1(r,x) is Some(position of the one bit with r ones below it) when x has more than r ones and None otherwise, for every r.", "quantifier": "all words x and all r", "why_tests_cant": "2^64 inputs times r; quickcheck test stops at r <= 64", "anchors": ["src/broadword.rs: select1, select1_raw, Broadword::select1"]}
{"id": "C40", "title": "Broadword lane comparisons", "statement": "u_le8 sets the top bit of exactly the lanes where the unsigned byte of x is <= that of y; u_nz8 of exactly the nonzero byte lanes; le8 of exactly the lanes where the signed byte of x is <= that of y; all other bits are zero.", "quantifier": "all pairs of 64-bit words", "why_tests_cant": "2^128 input pairs", "anchors": ["src/broadword.rs: u_le8, le8, u_nz8"]}
{"id": "C41", "title": "Integer stream round-trip", "statement": "read_int(n) after write_int(n,v) returns v mod 2^n and leaves the rest of the stream untouched; write_int_be/read_int_be round-trip likewise; the bit orders are least- and most-significant first.", "quantifier": "every unsigned integer type width, n up to the width, v, stream contents, and any bit sink/source", "why_tests_cant": "all values, widths and stream contexts", "anchors": ["src/stream/traits.rs: read_int, read_int_be, write_int, write_int_be"]}
{"id": "C42", "title": "Zero-width big-endian integer write", "statement": "write_int_be(0, v) writes nothing and succeeds, as write_int(0, v) does.", "quantifier": "every v and sink, both profiles", "why_tests_cant": "profile dependent corner", "anchors": ["src/stream/traits.rs: write_int_be"]}
{"id": "C43", "title": "Integer reads distinguish clean and dirty end of stream", "statement": "read_int(n) with n >= 1 returns Ok(None) exactly when the stream is at its end, an unexpected-EOF error exactly when it ends after 1..n-1 bits, and Ok(Some) otherwise; a source error is passed through unchanged.", "quantifier": "every source contents and n", "why_tests_cant": "all truncation points", "anchors": ["src/stream/traits.rs: read_int, read_int_be", "src/internal/errors.rs"]}
{"id": "C44", "title": "BitBuffer is a positioned bit file", "statement": "Any sequence of read_bit, write_bit, seek and position on a BitBuffer over a BitVector or Vec<bool> behaves as a list of bits with a cursor: reads return the bit under the cursor, writes overwrite or extend at the end, seek beyond the end fails leaving the cursor alone.", "quantifier": "every operation sequence within memory limits", "why_tests_cant": "histories unbounded", "anchors": ["src/stream/bit_buffer.rs: BitBuffer"]}
{"id": "C45", "title": "BitBuffer over a slice can read all its bits", "statement": "A BitBuffer reading from any BitVec (for instance a BitSlice) returns each of its bit_len() bits in turn without panicking.", "quantifier": "every BitVec implementation", "why_tests_cant": "fails only for slices whose length is not a multiple of the block size", "anchors": ["src/stream/bit_buffer.rs: read_bit", "src/bit_vec/bit_slice.rs: get_block"]}
{"id": "C46", "title": "Unary code round-trip", "statement": "Decoding what Unary encoded returns the value and consumes exactly the codeword, whatever follows; the codeword is n zeros and a one.", "quantifier": "every u64 value, every following stream", "why_tests_cant": "all values and contexts", "anchors": ["src/coding/unary.rs"]}
{"id": "C47", "title": "Elias gamma and delta round-trip", "statement": "For every nonzero u64, decoding what Gamma (Delta) encoded returns the value and consumes exactly the codeword, whatever follows; encoding 0 panics; the generic Elias construction round-trips over any round-tripping header code.", "quantifier": "every nonzero u64, every following stream, every header code", "why_tests_cant": "all values and contexts", "anchors": ["src/coding/elias.rs: Elias", "src/coding/trans.rs: Lift0"]}
{"id": "C48", "title": "Elias omega round-trip", "statement": "For every u64 >= 1, decoding what Omega encoded returns the value and consumes exactly the codeword, whatever follows.", "quantifier": "every u64 >= 1, every following stream", "why_tests_cant": "recursive group structure; all values", "anchors": ["src/coding/elias.rs: Omega"]}
{"id": "C49", "title": "Omega does not silently corrupt zero", "statement": "Omega either refuses to encode 0 or round-trips it.", "quantifier": "the value 0", "why_tests_cant": "the quickcheck test adds one to every value, so never tries 0", "anchors": ["src/coding/elias.rs: Omega::encode"]}
{"id": "C50", "title": "Fibonacci code round-trip", "statement": "For every u64 from 1 below the largest Fibonacci number representable in u64, decoding what Fibonacci encoded returns the value and consumes exactly the codeword; larger values give an error and write nothing; 0 panics.", "quantifier": "every u64, every following stream", "why_tests_cant": "Zeckendorf greedy correctness for all values", "anchors": ["src/coding/fib.rs"]}
{"id": "C51", "title": "Comma code round-trip", "statement": "For every digit width n from 2 to 63 and every u64, decoding what Comma(n) encoded returns the value and consumes exactly the codeword, whatever follows.", "quantifier": "every n in 2..=63, every u64 value, every following stream", "why_tests_cant": "all values, bases", "anchors": ["src/coding/comma.rs"]}
{"id": "C52", "title": "Comma encodes in finite time for every parameter", "statement": "Comma(n).encode returns or panics for every n and value.", "quantifier": "every n and value", "why_tests_cant": "non-termination cannot be observed by a terminating test", "anchors": ["src/coding/comma.rs: encode"]}
{"id": "C53", "title": "Lift0 extends a code to zero", "statement": "Lift0(code) round-trips every value v < 2^64-1 whenever code round-trips v+1; encoding u64::MAX gives an error and writes nothing.", "quantifier": "every inner code and every value", "why_tests_cant": "higher-order over all codes", "anchors": ["src/coding/trans.rs"]}
{"id": "C54", "title": "Streams of codewords decode to the original sequence", "statement": "For each code, encoding a list of (encodable) values one after another and decoding until EOF returns exactly that list followed by Ok(None).", "quantifier": "every list of encodable values, each code, over a VecDeque or a BitBuffer", "why_tests_cant": "unbounded lists", "anchors": ["src/coding/mod.rs: properties::code_decode", "src/coding/*.rs"]}
{"id": "C55", "title": "Codes are prefix-free and injective", "statement": "For each code, no codeword of an encodable value is a prefix of the codeword of a different one.", "quantifier": "every pair of distinct encodable values", "why_tests_cant": "pairs of 2^64 values", "anchors": ["src/coding/*.rs"]}
{"id": "C56", "title": "A truncated codeword is an error, not end of data", "statement": "Decoding a proper non-empty prefix of a codeword yields an error (unexpected EOF), never Ok(None) and never a value.", "quantifier": "every value, every truncation point, each code", "why_tests_cant": "all truncation points of all codewords", "anchors": ["src/coding/*.rs"]}
{"id": "C57", "title": "Decoders never panic", "statement": "For each code, decoding an arbitrary bit stream returns Ok or an error; it never panics.", "quantifier": "every finite bit stream, each code, both profiles", "why_tests_cant": "malformed streams are unbounded", "anchors": ["src/coding/*.rs: decode"]}
{"id": "C58", "title": "A failing sink sees a prefix of the codeword and its error is returned", "statement": "If the sink fails on its m-th bit, encode returns that error and the bits delivered are exactly the first bits of the codeword; if the sink does not fail, exactly the codeword is delivered.", "quantifier": "every value, each code, every failure point", "why_tests_cant": "every crash point", "anchors": ["src/coding/*.rs: encode", "src/stream/traits.rs: write_int, write_int_be"]}
{"id": "C59", "title": "Stack-only types own no heap", "statement": "For every type built from the provided SpaceUsage implementations, if is_stack_only() is true then heap_bytes() is 0 for every value; a Vec's heap_bytes is capacity times element size plus the elements' own heap bytes whether or not the shortcut is taken.", "quantifier": "every type built from primitives, references, tuples, Vec, Box and every value", "why_tests_cant": "types nest without bound", "anchors": ["src/space_usage.rs"]}
{"id": "C60", "title": "Rank9 and JacobsonRank preserve their bit store", "statement": "inner()/into_inner() return the store given to new, and bit_len/get_bit/get_block/get_bits on the rank or select structure equal those on the store.", "quantifier": "every store and query", "why_tests_cant": "all stores", "anchors": ["src/rank/rank9.rs", "src/rank/jacobson.rs", "src/macros.rs", "src/select/bin_search.rs"]}
{"id": "C61", "title": "push_block pads to a block boundary", "statement": "BitVecPush::push_block appends zeros up to the block boundary and then the block's bits, for BitVector (overridden) exactly as the default bit-by-bit implementation; align_block appends the given bit until aligned and terminates.", "quantifier": "every vector and block value", "why_tests_cant": "all alignments", "anchors": ["src/bit_vec/traits.rs: push_block, align_block", "src/bit_vec/bit_vector.rs: push_block"]}
{"id": "C62", "title": "A bit field whose end is not representable is rejected", "statement": "BlockType::get_bits(start,len) and with_bits(start,len,v) panic when start+len does not fit in usize.", "quantifier": "every block type, block value, start, len; both build profiles, both pointer widths", "why_tests_cant": "only spans ending past usize::MAX in a build without overflow checks misbehave", "anchors": ["src/storage.rs: BlockType::get_bits, BlockType::with_bits"]}
{"id": "C63", "title": "A block index whose bit position is not representable is rejected", "statement": "Block operations that convert a block index into a bit position (the default BitVecMut::set_block as used by Vec<bool>, BitSlice::get_block/set_block) panic for every block index past the end, including indices i with i*nbits >= 2^64.", "quantifier": "every vector or slice, every usize block index, both build profiles, both pointer widths", "why_tests_cant": "only block indices above 2^64/nbits misbehave: the conversion is a shift that drops high bits even when overflow checks are on", "anchors": ["src/bit_vec/traits.rs: BitVecMut::set_block", "src/storage.rs: BlockType::mul_nbits", "src/bit_vec/bit_slice.rs: get_block, set_block"]}
{"id": "C64", "title": "Bit spans longer than a block are rejected", "statement": "get_bits(start,count) and set_bits(start,count,v) on an in-bounds span with count larger than the block size panic instead of returning or storing only some of the bits.", "quantifier": "every BitVector, start, count > block size, value; both build profiles, both pointer widths", "why_tests_cant": "The outcome depends on count, on the offset within the block and on the build profile; only specific combinations misbehave.", "anchors": ["src/bit_vec/traits.rs: BitVec::get_bits, BitVecMut::set_bits"]}
{"id": "C65", "title": "Random-width access reaches to the end of the support array", "statement": "IntVector::get_random(off,w,i) and set_random (documented: 'Bounds are considered to the end of the support array, even if that goes past the last element') succeed for every span inside the storage blocks.", "quantifier": "every IntVector, offset, width up to the block size and index whose span ends within block_len()*block_bits", "why_tests_cant": "The span must end in the unused tail of the last block; ordinary tests access whole elements.", "anchors": ["src/int_vec/int_vector.rs: get_random, set_random (docs)", "src/internal/vector_base.rs: get_bits, set_bits"]}
{"id": "C66", "title": "Capacity covers the contents and is used before reallocating", "statement": "After every operation capacity() is at least len(); no operation other than shrink_to_fit lowers the capacity; pushing while the new length is at most capacity() succeeds and does not reallocate; shrink_to_fit keeps the contents and enough capacity for them.", "quantifier": "every BitVector and IntVector, element width, operation, list of pushed elements, allocation policy", "why_tests_cant": "depends on the allocator's growth policy and on element widths that do not divide the block size", "anchors": ["src/internal/vector_base.rs: capacity, block_capacity, push_bit, push_bits, shrink_to_fit"]}
{"id": "C67", "title": "Integer streams at signed types", "statement": "write_int(n,z) writes the n low two's-complement bits of z, sign-extended above the width; read_int(n) returns z when n is the width of the type and z mod 2^n below it; write_int_be/read_int_be likewise with the bits in the opposite order; a read that meets the end or an error reports it.", "quantifier": "every signed type width, n, value of the type, bit sink and source", "why_tests_cant": "signed masks and arithmetic right shifts differ from unsigned ones only at the full width and for particular values", "anchors": ["src/stream/traits.rs: read_int, read_int_be, write_int, write_int_be"]}
{"id": "C68", "title": "Primitive integers are bit vectors", "statement": "u8/u16/u32/u64/usize as bit vectors: bit_len is the width, one block, get_bit/get_bits read the binary representation, set_bit/set_bits/set_block change exactly the addressed bits, and everything outside the width panics.", "quantifier": "every width, value, position, span, written value, build configuration", "why_tests_cant": "all values and all spans", "anchors": ["src/bit_vec/prim.rs"]}
{"id": "C69", "title": "Derived order and hash depend only on the contents", "statement": "The derived Ord of BitVector/IntVector is a total order in which two vectors compare equal exactly when their contents are equal, shorter ones come first, and equally long ones are ordered by their blocks as numbers (for block-sized elements: lexicographically by element; narrower element widths before wider); the derived Hash feeds the hasher the same input exactly when the contents are equal.", "quantifier": "every pair of vectors reachable by any sequence of API operations, every block type and element width", "why_tests_cant": "stale bits beyond the end would break it only after particular operation sequences", "anchors": ["src/internal/vector_base.rs: derive(PartialOrd, Ord, Hash)", "src/bit_vec/bit_vector.rs: derive", "src/int_vec/int_vector.rs: derive"]}
{"id": "C70", "title": "Binary formatting", "statement": "{:b} of a BitVector emits exactly one character '0' or '1' per bit in order, and stops with the formatter's error at its first failure.", "quantifier": "every reachable BitVector, every formatter", "why_tests_cant": "all contents and all failure points", "anchors": ["src/bit_vec/bit_vector.rs: impl fmt::Binary"]}
{"id": "C71", "title": "Debug formatting of IntVector", "statement": "{:?} of an IntVector emits 'IntVector { element_bits: K, elements: { ' then each element in decimal followed by ', ', then '} }', and stops with the formatter's error at its first failure; the decimal text denotes the element.", "quantifier": "every reachable IntVector, element width and formatter", "why_tests_cant": "all contents and all failure points", "anchors": ["src/int_vec/int_vector.rs: impl fmt::Debug"]}
{"id": "C72", "title": "Code word lengths", "statement": "Encoding v takes exactly: unary v+1 bits; gamma 2*floor(lg v)+1; delta floor(lg v)+2*floor(lg(floor(lg v)+1))+1; omega 1 bit for 1 and floor(lg v)+1 plus the length for floor(lg v) otherwise; Fibonacci one more than the number of Fibonacci numbers 1,2,3,5,.. up to v; comma(n) n bits per digit in base 2^n-1 plus n; Lift0(C) what C takes for v+1.", "quantifier": "every encodable value, comma width, build configuration", "why_tests_cant": "all 64-bit values", "anchors": ["src/coding/unary.rs", "src/coding/elias.rs", "src/coding/fib.rs", "src/coding/comma.rs", "src/coding/trans.rs"]}
{"id": "C73", "title": "Alignment predicates of IntVector", "statement": "is_aligned returns true exactly when no element's bits cross a block boundary of the underlying storage; is_block_sized returns true exactly when the element width is the block width, and then is_aligned is true.", "quantifier": "every reachable IntVector, block type, element width and build configuration", "why_tests_cant": "the meaning ranges over every element position", "anchors": ["src/int_vec/int_vector.rs: is_aligned", "src/int_vec/int_vector.rs: is_block_sized"]}
{"id": "C74", "title": "Sizes of the rank directories", "statement": "RankSupport9 stores floor(blocks/8)+1 cells of 128 bits, at most a quarter of the store's bits and 144 more; JacobsonRank uses large blocks of lg(n)^2 bits rounded up to whole blocks, one large entry of lg(n+1) bits per large block and one more, and one small entry of lg(large+1) bits per block and one more.", "quantifier": "every lawful store of every length, build configuration", "why_tests_cant": "the bound is for all lengths", "anchors": ["src/rank/rank9.rs: new", "src/rank/jacobson.rs: new"]}
{"id": "C75", "title": "Rank and select over slices", "statement": "JacobsonRank and RankSupport9 can be built over any BitSlice and, with BinSearchSelect, answer the ranks and selects of the selected bits.", "quantifier": "every lawful base, range, position, build configuration", "why_tests_cant": "all bases, offsets and lengths", "anchors": ["src/rank/jacobson.rs: new", "src/rank/rank9.rs: new", "src/bit_vec/bit_slice.rs: get_block"]}
{"id": "C76", "title": "A value is decoded only from its own code word", "statement": "If a decoder returns a value, then the bits it has consumed are exactly the bits the encoder of the same code writes for that value. Hence decoding a whole stream and encoding the values again reproduces the stream, and no two bit strings decode to the same value.", "quantifier": "every code of the library, bit source, stream (also malformed ones) and build configuration", "why_tests_cant": "the claim ranges over all bit strings, not only encoded ones", "anchors": ["src/coding/unary.rs: decode", "src/coding/elias.rs: decode", "src/coding/fib.rs: decode", "src/coding/comma.rs: decode", "src/coding/trans.rs: decode"]}
{"id": "C77", "title": "VectorBase holds elements of any width under element and block operations", "statement": "A VectorBase used with element width k (1 <= k <= block bits) behaves like the list of bits of its k-bit elements under every sequence of new, with_capacity, with_fill, block_with_fill, push_bits, pop_bits, push_block, pop_block, get/set_bits, get/set_block, truncate, block_truncate, resize, block_resize, clear, len, block_len and is_empty; after an operation on whole blocks an incomplete last element is dropped; the unused bits of the last block are zero; derived equality is equality of the contents.", "quantifier": "every program, block type, element width and build configuration (spans and sizes as in C13)", "why_tests_cant": "all sequences of operations and all widths", "anchors": ["src/internal/vector_base.rs: push_block", "src/internal/vector_base.rs: pop_block", "src/internal/vector_base.rs: set_len_from_blocks", "src/internal/vector_base.rs: is_empty"]}
{"id": "C78", "title": "The block type and the target cannot be observed", "statement": "A program of operations on bits or elements (not on whole blocks) over a BitVector or IntVector of at most 2^33 bits delivers the same results, panics at the same operation, and leaves the same contents, whatever the block type, the pointer width and whether overflow checks are on.", "quantifier": "every program, every two block types and build configurations", "why_tests_cant": "relates all pairs of configurations on all programs", "anchors": ["src/bit_vec/bit_vector.rs", "src/int_vec/int_vector.rs", "src/internal/vector_base.rs"]}
{"id": "C79", "title": "Mixed messages survive the trip between different machines", "statement": "A message made of single bits, integers of chosen widths in either bit order and of unsigned and signed types (but write_int_be of a signed type at its full width, see C67), and values in any of the codes (unary, gamma, delta, omega, Fibonacci, comma, and Lift0 and Elias over any of these) is written as the same bits by every build; any build reads the same items back from any source that delivers these bits, and leaves what follows. Through a queue, and through a BitBuffer after seeking to the start, which is then at its end.", "quantifier": "every message, every two build configurations, every sink and source", "why_tests_cant": "all messages, all pairs of configurations, all implementations of the stream traits", "anchors": ["src/stream/traits.rs: write_int, write_int_be, read_int, read_int_be", "src/coding/mod.rs", "src/stream/bit_buffer.rs"]}
{"id": "C80", "title": "The crate's own QuickCheck properties hold for every input", "statement": "The properties that the crate's test suite samples with QuickCheck (floor_lg and ceil_lg against powers of two, ceil_div against multiplication, broadword count_ones against u64::count_ones, select1 against a linear count, u_nz8 and u_le8 byte by byte, and encode-then-decode of a list of values for every code) are true for every input on which the property's own arithmetic does not overflow, and for every other input it is known what they do: 2u64.pow, n*m and value+1 overflow, so the properties panic with overflow checks and are false, or true by wrapping, without; Fibonacci refuses large values and the property unwraps the error.", "quantifier": "every u64 argument, every list of u64 values, every build configuration", "why_tests_cant": "QuickCheck draws a hundred small samples of each; these are all of the inputs", "anchors": ["src/storage.rs:453-503", "src/broadword.rs:143-318", "src/coding/mod.rs:28-43", "src/coding/comma.rs:73-95", "src/coding/elias.rs:152-174", "src/coding/fib.rs:120-124"]}
{"id": "C81", "title": "Binary search for any types and any function; number of rank queries; one block per rank query", "statement": "binary_search_function over any signed or unsigned integer type, any type of values with >= and <, and any function, even one that is not monotone or changes its answers: it ends, calls the function at most 1 + 2*(bits of limit-start-1) times and only inside the interval, and returns Some(d) only if f(d) >= value was seen and, unless d = start, f(d-1) < value was seen. For a function with fixed answers None means f(limit-1) < value; for a monotone one into a total preorder it finds the smallest d. So select1, select0 and select of BinSearchSelect over any rank structure that answers all positions below its limit make at most 129 rank queries, all below the limit. JacobsonRank::rank1 and Rank9::rank1 read one block of the store: the answer is unchanged if everything else in the store changes.", "quantifier": "every integer type, every value type and comparison, every stateful function, every interval; every rank structure; every pair of stores", "why_tests_cant": "all functions, including inconsistent ones, and all interval sizes; the tests search slices of ascending numbers", "anchors": ["src/internal/search.rs:4-44", "src/select/bin_search.rs:50-73", "src/rank/jacobson.rs:99-112", "src/rank/rank9.rs:133-149"]}
{"id": "C82", "title": "Codes and integer readers and writers see nothing of a stream but its bits", "statement": "For every code of the library (any parameters, any nesting of Lift0 and Elias) and every value, encodable or not, encode writes one fixed sequence of bits to whatever sink and then has one fixed outcome (success, error, panic, no end), unless the sink fails first; likewise write_int and write_int_be at unsigned and signed types and any width. For every two sources that deliver the same bits, ends, errors and panics, on well-formed and malformed input alike, decode, read_int and read_int_be give the same answer, error, panic or endless loop and leave the sources at the same place; so does every program that reads bits, integers and code words, deciding what to do next from the answers. In particular a BitBuffer over any store, at any position, behaves exactly as a VecDeque holding the remaining bits.", "quantifier": "every code, every value, every sink and source, every malformed input, every adaptive reading program", "why_tests_cant": "quantifies over implementations of the stream traits, over all inputs and over all programs", "anchors": ["src/stream/traits.rs", "src/stream/bit_buffer.rs:109-119", "src/coding/unary.rs", "src/coding/trans.rs", "src/coding/elias.rs", "src/coding/fib.rs", "src/coding/comma.rs"]}
{"id": "C83", "title": "What every decoder answers to every input", "statement": "For Unary, Omega, Fibonacci, Comma(n) for every n, and whatever Lift0 and Elias build from them, a table says for every finite sequence of bits that a source delivers before it ends or fails which value, end, error or panic decode comes out with, and which bits it leaves unread: malformed, truncated, overlong and non-canonical words included, with and without overflow checks, on 32-bit and 64-bit targets. The rows cover every input and do not contradict one another. Hence decode needs no more steps than there are bits, and a value it returns depends only on the bits it has read, not on what follows them or how the source stops.", "quantifier": "every code, every finite input, every way of stopping, every source, every build and target", "why_tests_cant": "complete functional description over all bit strings, including ones longer than memory", "anchors": ["src/coding/unary.rs:20-37", "src/coding/trans.rs:20-25", "src/coding/elias.rs:39-54", "src/coding/elias.rs:75-94", "src/coding/fib.rs:71-94", "src/coding/comma.rs:30-47"]}
{"id": "C84", "title": "What every encoder writes for every value", "statement": "For Unary, Omega, Fibonacci, Comma(n) for every n, and whatever Lift0 and Elias build from them, a table says for every u64 value which bits encode puts into the sink, in order, and what comes after them: success, an error, a panic, or no return at all. The rows cover every value and every parameter, with and without overflow checks, and do not contradict one another. Hence an encoder that does not succeed has written nothing, and Comma(n) reads back every value it writes, also for n of 64 and more, where without overflow checks it uses the base of n modulo 64 in digits of n bits.", "quantifier": "every code, every u64 value, every sink, every build and target", "why_tests_cant": "complete functional description over all values, including calls that never return", "anchors": ["src/coding/unary.rs:9-18", "src/coding/trans.rs:12-18", "src/coding/elias.rs:31-37", "src/coding/elias.rs:58-73", "src/coding/fib.rs:40-69", "src/coding/comma.rs:12-28"]}
{"id": "C85", "title": "What get_bits and set_bits do for every span", "statement": "One table says for every start and every count what get_bits answers and which bits set_bits leaves, or that they panic: inside and outside the sequence, empty, within a block, across a boundary, longer than a block, with an end beyond 2^64. Slices and vectors of blocks, BitVector and IntVector after any program of calls, and Vec<bool> all follow that one table; primitive integers have their own, which differs at the empty span at the end and, without overflow checks, for spans whose end wraps around; slices of a store refuse spans outside them and follow the table of their base otherwise. get_random and set_random of IntVector follow it as well, for every offset, element size (none, beyond a block) and index.", "quantifier": "every store, every start and count, every written value, every build and target", "why_tests_cant": "complete functional description over all spans, including overflowing ones", "anchors": ["src/bit_vec/traits.rs:77-98", "src/bit_vec/traits.rs:159-186", "src/bit_vec/prim.rs:35-39", "src/bit_vec/prim.rs:57-61", "src/bit_vec/bit_slice.rs:103-108", "src/bit_vec/bit_slice.rs:148-153", "src/int_vec/int_vector.rs:125-133", "src/int_vec/int_vector.rs:151-160"]}
{"id": "C86", "title": "A release build answers whatever a debug build answers", "statement": "Whatever a call, or a program of calls, delivers in a debug build, it delivers in a release build as well, down to the kind of a panic and the state of a stream after an error; the one exception is that an overflow check or a debug_assert! stops the debug build, and then the release build has delivered at least as much. In particular the release build panics only where the debug build does, so whatever a test run in debug mode observes without panicking is what release users get. This holds for every function of the library, for all arguments, valid or not, for structures in any state, and over user-supplied stores, sources, sinks, codes, ranked functions and formatters that themselves behave so.", "quantifier": "every function, all arguments and states, both target widths, all user-supplied implementations that agree with themselves", "why_tests_cant": "relates two compilations of the same program on all inputs, including invalid ones", "anchors": ["src/storage.rs:29-236", "src/bit_vec/traits.rs:11-348", "src/internal/vector_base.rs:31-425", "src/bit_vec/bit_vector.rs:17-255", "src/int_vec/int_vector.rs:22-422", "src/rank/jacobson.rs:31-118", "src/rank/rank9.rs:27-166", "src/select/bin_search.rs:33-73", "src/stream/traits.rs:8-109", "src/coding/traits.rs:1-17"]}
{"id": "C87", "title": "A program and its data mean the same on 32-bit and on 64-bit targets", "statement": "A program of BitVector or IntVector operations whose sizes fit a 32-bit address space delivers the same answers and ends in the same vector on a 32-bit and on a 64-bit target. What a coder writes for a value, what it answers on any bit stream, and the integers read from and written to bit streams do not depend on the width of usize, and neither do the bytes of a block of a fixed-width type; so data written on one target are read on the other. Two exceptions are exhibited: Omega accepts some ill-formed streams on a 32-bit target that it rejects on a 64-bit one, and blocks of type usize have different sizes.", "quantifier": "all programs, values, bit streams, sources, sinks; both build modes", "why_tests_cant": "relates two compilations for different targets on all inputs; a test suite runs on one target", "anchors": ["src/bit_vec/bit_vector.rs:17-255", "src/int_vec/int_vector.rs:22-422", "src/coding/elias.rs:1-176", "src/coding/fib.rs:1-126", "src/coding/comma.rs:1-97", "src/stream/traits.rs:8-109", "src/storage.rs:228-330"]}
{"id": "C88", "title": "A caught panic leaves the vector as it was", "statement": "If a mutating method of BitVector, IntVector, a slice of blocks, Vec<bool>, a primitive integer, BitSliceMut or BitBuffer panics and the program catches the panic and goes on, the value is as it was before the call, so that a program that catches every panic delivers what a list does on which the panicking operations have no effect. The exceptions, each described exactly or exhibited: BitVector::resize to ones that does not fit has filled up the last block; align_block and push_block of Vec<bool> keep the bits pushed before memory ran out; Vec<bool>::set_block at a position that overflows u64 has overwritten the front; IntVector::resize in a release build to a size within a block of 2^64 leaves an empty vector that claims the new length.", "quantifier": "all programs of operations, valid and panicking, all states, builds and targets; all underlying vectors of slices and buffers that are themselves unharmed by panics", "why_tests_cant": "concerns the state at every point where any call can panic, including failing allocations", "anchors": ["src/bit_vec/traits.rs:107-348", "src/bit_vec/prim.rs:43-62", "src/internal/vector_base.rs:39-326", "src/bit_vec/bit_vector.rs:78-224", "src/int_vec/int_vector.rs:151-356", "src/bit_vec/bit_slice.rs:143-158", "src/stream/bit_buffer.rs:51-133"]}
{"id": "C89", "title": "Integers of bit streams at every width", "statement": "For every number of bits asked for, none and more than the type has included, read_int, read_int_be, write_int and write_int_be have a known effect at unsigned and signed types. write_int writes the low bits of the value, extended by zeroes or by its sign; reads deliver the number the bits spell, less the bits the type has no room for, and never panic. write_int_be panics with overflow checks if asked for no bits or for more than the type has; without, it writes nothing in the first case, and in the second starts at bit (n-1) mod w of the value and goes on with zeroes, or, at a signed type when it starts at the sign, with ones unless the value is zero. So values written with more bits than their type has survive least significant bit first, and do not survive most significant bit first.", "quantifier": "every width of a request below 2^(width of usize), every type, value, sink, source, build and target", "why_tests_cant": "unbounded widths, all values, and behaviour that differs between builds", "anchors": ["src/stream/traits.rs:15-37", "src/stream/traits.rs:40-61", "src/stream/traits.rs:70-77", "src/stream/traits.rs:80-90"]}
{"id": "C90", "title": "Derived comparisons and texts of addresses, iterators and structures", "statement": "Addresses compare and hash as the bit positions they stand for. Iterators over vectors, after any calls from either end, are equal, and hash alike, exactly when their two ends are at the same positions and the vectors have the same elements and width; their order is total and looks at the front end, the back end, the width and the vector in turn; so exhausted iterators over one vector need not be equal. What {:?} prints of an address, a bit vector, an iterator or an integer vector determines it, and of a bit buffer, a slice or a rank structure determines everything in it if the text of the store determines the store; in particular two bit vectors print the same exactly when they have the same bits, however they were made, and two integer vectors exactly when they have the same width and elements.", "quantifier": "every pair of positions, every pair of programs of vector operations and of iterator calls, every value of every structure, every text following", "why_tests_cant": "pairs of unbounded histories; injectivity of a text is a statement about all pairs of values", "anchors": ["src/storage.rs:336-342", "src/internal/vector_base.rs:329-335", "src/bit_vec/bit_vector.rs:253-255", "src/int_vec/int_vector.rs:359-361", "src/int_vec/int_vector.rs:409-422", "src/stream/bit_buffer.rs:9-13", "src/bit_vec/bit_slice.rs:8-21", "src/rank/rank9.rs:9-24", "src/rank/jacobson.rs:13-19"]}
{"id": "C91", "title": "What the bit-vector traits give to a type that implements as little as it may", "statement": "A type that implements bit_len and either get_bit or get_block gets all reads of a bit vector right: bits, groups of bits and block counts, and panics past the end; with get_block, whatever its last block holds past the end of the vector never shows in a bit or a group of bits, and with get_bit the blocks are padded with zeros. Implementing either set_bit or set_block gives the other and set_bits, touching no other bit, even when get_block shows extra bits; push_bit gives align_block and push_block, which panic exactly when the store has no room for all the bits. Implementing neither of the two reads (or of the two writes) leaves calls that never return in range, at any depth, while reads past the end still panic.", "quantifier": "every type of the user's own with the required methods, every block type, position, width, length and value, both build modes and pointer widths", "why_tests_cant": "the implementing type is arbitrary; a test has one", "anchors": ["src/bit_vec/traits.rs:5-99", "src/bit_vec/traits.rs:102-187", "src/bit_vec/traits.rs:190-220"]}
{"id": "C92", "title": "Rank and select over a store whose last block holds extra bits", "statement": "Over any bit vector whose get_block shows, in its last block, bits that are not part of the vector (as its documentation allows), Rank9 and JacobsonRank, and select by binary search over them, answer exactly as for the vector itself; JacobsonRank can be built whatever the extra bits are.", "quantifier": "every store, length, contents and extra bits, every position and index, both build modes and pointer widths", "why_tests_cant": "the crate's own stores never show extra bits; a user's store may show any", "anchors": ["src/bit_vec/traits.rs:38-50", "src/rank/rank9.rs:76-117", "src/rank/rank9.rs:133-149", "src/rank/jacobson.rs:23-73", "src/rank/jacobson.rs:99-112", "src/select/bin_search.rs:66-73"]}
{"id": "C93", "title": "What is built on a store sees nothing of it but certain answers", "statement": "Give the same wrapper two stores whose methods answer alike (the same values, panics of the same kind, related stores after writes), however ill they behave otherwise, and everything the wrapper answers is alike too. Only some methods matter: the default methods of the bit-vector traits use the lengths and the one method they are derived from; slices use the length when made and then get_bit, get_bits, set_bit, set_bits; a BitBuffer uses the lengths, get_block, set_block and push_bit and never get_bit or set_bit; Rank9 uses block_len and get_block (bit_len only as its limit); JacobsonRank uses the lengths and get_block; BinSearchSelect uses limit and one rank function.", "quantifier": "every two stores, lawful or not, every relation between them, all arguments, states and fuel, both build modes and pointer widths", "why_tests_cant": "quantifies over all user implementations of the traits, including wrong ones", "anchors": ["src/bit_vec/traits.rs:11-220", "src/bit_vec/bit_slice.rs:23-158", "src/stream/bit_buffer.rs:34-133", "src/rank/rank9.rs:76-166", "src/rank/jacobson.rs:23-117", "src/select/bin_search.rs:53-73"]}
{"id": "C94", "title": "An access looks at one block or two, and changes no others", "statement": "Reading a bit depends on the length and on one block; reading a field on the block of its first bit and, only if the field goes beyond that block, on the next. This holds for the default methods over every store, for BitVector (get_bit, get_bits), IntVector (get, get_random, over any element width) and BitBuffer (read_bit). Writing a bit, a field, a block or an element leaves the length, the number of blocks and every other block as they were; push and pop at the end touch only the blocks of the last element, and the number of blocks changes by at most one.", "quantifier": "every store, vector (in any state), position, width and value, both build modes and pointer widths", "why_tests_cant": "needs every pair of vectors that differ elsewhere", "anchors": ["src/bit_vec/traits.rs:31-37", "src/bit_vec/traits.rs:77-98", "src/bit_vec/traits.rs:115-122", "src/bit_vec/traits.rs:159-186", "src/internal/vector_base.rs:104-215", "src/int_vec/int_vector.rs:125-172", "src/int_vec/int_vector.rs:305-333", "src/stream/bit_buffer.rs:109-119"]}
{"id": "C95", "title": "Larger numbers have no shorter code words, and the lengths obey the Kraft inequality", "statement": "For every code of the library (unary, gamma, delta, omega, Fibonacci, Comma(n), and any Lift0 or Elias of them): of two numbers the code can encode, the larger never gets the shorter word; for any distinct numbers with words of lengths n_i, the sum of 2^(-n_i) is at most 1, so at most 2^m numbers have words of at most m bits; and encoding a list of numbers takes exactly the sum of the lengths of their words.", "quantifier": "every provided code (closed under the combinators), every list of encodable numbers, both build modes and pointer widths", "why_tests_cant": "speaks of all sets of 64-bit numbers at once", "anchors": ["src/coding/unary.rs:9-18", "src/coding/elias.rs:31-37", "src/coding/elias.rs:58-73", "src/coding/fib.rs:40-69", "src/coding/comma.rs:12-28", "src/coding/trans.rs:12-18"]}
{"id": "C96", "title": "Structures nested to any depth still count and find", "statement": "Over any lawful store, take slices of whole blocks, bit buffers, JacobsonRank, RankSupport9 and BinSearchSelect on top of one another in any order and to any depth, and types of one's own that use the exported impl_*_adapter! macros: each of them reads as the bits it stands for; a rank structure can be built on each (RankSupport9 over 64-bit blocks; JacobsonRank exactly when there are two bits or more and the directory entries fit the blocks); and what is built counts and finds the zeros and ones of those bits.", "quantifier": "every nesting, every lawful store and contents, every position and rank, build configuration", "why_tests_cant": "the nestings are infinitely many types", "anchors": ["src/macros.rs:35-57", "src/macros.rs:61-75", "src/macros.rs:80-92", "src/macros.rs:97-105", "src/macros.rs:110-118", "src/macros.rs:123-133", "src/select/traits.rs:2-20", "src/select/bin_search.rs:33-73", "src/rank/rank9.rs:164-166", "src/rank/jacobson.rs:115-117"]}
{"id": "C97", "title": "How many steps a call takes, and that the allowance for them does not show", "statement": "The model gives loops that are not bounded by their text an allowance of steps. A call that is over within some allowance gives the same answer and state with any larger one: encoders and decoders of every code over any sink and source, lists of values, bit buffers, select, binary search, default align_block and push_block, formatters, and whole programs on BitVector, IntVector and BitBuffer. An encoder that returns at all needs no more steps than its word has bits, or 93; the binary search and select need at most 65 whatever the function or rank structure answers.", "quantifier": "every code, value, sink, source, store, rank structure, function, program and allowance", "why_tests_cant": "termination bounds and independence of a parameter are claims about all runs", "anchors": ["src/coding/unary.rs:9-37", "src/coding/elias.rs:31-94", "src/coding/fib.rs:40-94", "src/coding/comma.rs:12-47", "src/coding/trans.rs:12-25", "src/internal/search.rs:16-44", "src/select/bin_search.rs:53-73", "src/bit_vec/traits.rs:199-219", "src/stream/bit_buffer.rs:121-133"]}
{"id": "C98", "title": "What a slice of any store whatever does", "statement": "Even if the store obeys no law at all, a slice that came from BitSlice::new or BitSliceMut::new by cutting and writing never reaches past the end its store had when the slice was made; each access within it is exactly one call to the store at start+position, with the store's answer or panic passed on, and each access outside panics without a call to the store; block j is the span at j times the block size modulo 2^64; cutting with a range whose start lies after its end gives an empty slice, or an overflow panic with checks on.", "quantifier": "every store type with arbitrary methods, every slice obtainable from it, every position, count and range", "why_tests_cant": "all store implementations, lawful or not", "anchors": ["src/bit_vec/bit_slice.rs:25-86", "src/bit_vec/bit_slice.rs:93-158", "src/bit_vec/bit_slice.rs:192-206"]}
{"id": "C99", "title": "Blocks through files that work in pieces, are interrupted and fail", "statement": "A file may hand out or take its bytes in pieces of any size, report interruptions, and fail. read_block gives the block at the front of the file and leaves all that follows; it reports UnexpectedEof exactly if there are too few bytes, and any other error is one the file raised. write_block appends all bytes of the block, or after an error of the file the first few of them. A list of blocks of any types and byte orders, written until the first error on one machine and read on another, gives a prefix of what was written, never a wrong or a partial block; without errors everything.", "quantifier": "every block type, byte order, value, list of blocks, file contents and sequence of pieces, interruptions and errors, on both sides", "why_tests_cant": "the behaviours of devices are unbounded in number and depend on timing", "anchors": ["src/storage.rs:231-237", "src/storage.rs:259-332"]}
{"id": "C100", "title": "A vector saved block by block is loaded back equal or not at all", "statement": "Saving a BitVector or IntVector made by any program as its sizes and its blocks (get_block, write_block), on one machine, and loading it (read_block, with_fill, set_block) on another that has room for it, through files as in C99: what is loaded without an error equals what was saved, also under ==; without file errors it is loaded; if saving reported an error then loading reports UnexpectedEof or an error of the file. The same for any two lawful stores of equal length.", "quantifier": "every program, contents, element width, block type, byte order, both build configurations, every behaviour of the files", "why_tests_cant": "all contents and all ways a device can fail", "anchors": ["src/storage.rs:231-237", "src/bit_vec/traits.rs:19-21", "src/bit_vec/traits.rs:59-75", "src/bit_vec/traits.rs:110-133", "src/bit_vec/bit_vector.rs:46-54", "src/int_vec/int_vector.rs:94-97"]}
{"id": "C101", "title": "How much room the rank directories and packed integers take", "statement": "An IntVector takes the least number of blocks that hold its bits. The tables of a JacobsonRank over n bits take at most (lg n + 1)(n / lg(n)^2 + 2) + 12 (n / block + 2) + 126 bits: over 64-bit blocks less than three tenths of the data from 2^16 bits on, but over bytes more than the data itself from 1025 bits on. The cells of a Rank9 take more than a quarter of the data, and at most a quarter and 144 bits.", "quantifier": "every lawful store of every length and contents, build configuration; every IntVector program", "why_tests_cant": "a bound for all lengths up to the memory limit", "anchors": ["src/rank/jacobson.rs:23-73", "src/rank/rank9.rs:75-110", "src/int_vec/int_vector.rs: block_len"]}
{"id": "C102", "title": "An array of code words of different lengths with a directory of their starts", "statement": "A program that encodes a list of numbers into a BitBuffer with any code of the library, marks the start of each word in a BitVector, and puts Rank9 and BinSearchSelect over the marks, can then get the numbers in any order and any number of times by select1, seek and decode: get(i) is the i-th number, and None past the end; the buffer holds exactly the code words.", "quantifier": "every code built from the library's, list of numbers of its domain that fits in memory, block size of the buffer, sequence of accesses, build configuration", "why_tests_cant": "all lists, all access sequences; combines six modules", "anchors": ["src/stream/bit_buffer.rs:18-20", "src/stream/bit_buffer.rs:51-59", "src/rank/rank9.rs: new", "src/select/bin_search.rs:53-63", "src/coding/traits.rs:7-17"]}
{"id": "C103", "title": "Bit vectors and integer vectors, exactly, with nothing left aside", "statement": "Every program of calls on a BitVector or an IntVector, with arguments that are merely values of their Rust types and any element width, delivers the answers of, and panics where, a fixed program on a list does. That program includes the quirks: without overflow checks sizes within a block of 2^64 give an empty vector, spans longer than a block are cut, doubled or refused, the empty span at a block boundary at the very end is refused, elements as wide as a block are found modulo the number of addresses. Programs go on after such calls, and equality remains equality of the contents.", "quantifier": "every program and arguments of the Rust types, element width, block size, with and without overflow checks, 32 and 64-bit targets", "why_tests_cant": "all programs, including sizes near 2^64", "anchors": ["src/bit_vec/bit_vector.rs", "src/int_vec/int_vector.rs", "src/internal/vector_base.rs"]}
{"id": "C104", "title": "Interactive sessions on a BitBuffer, and overwriting a code word in place", "statement": "Any session on a BitBuffer that reads and writes bits, signed and unsigned integers in either order and words of any code of the library, seeks, and asks for position and length, each step chosen from the answers so far, gives the answers of, and panics where, the same session on a list of bits with a cursor: writing replaces the bit under the cursor or adds one at the end, seeking past the end is refused. In particular a number of an encoded list is replaced by seeking to its word and encoding another with a word of the same length: decoding then gives the list with that number replaced.", "quantifier": "every session, growing bit store, contents and position, build configuration; every code of the library, list and replacement", "why_tests_cant": "all adaptive programs over all stores", "anchors": ["src/stream/bit_buffer.rs:10-133", "src/stream/traits.rs", "src/coding/traits.rs:7-29"]}
{"id": "C105", "title": "What every decoder makes of every input", "statement": "For every code built from the library's a function on lists of bits is given (SpecParse) that says what the decoder does with any finite input, however it ends: the value and the bits left, the error and the bits left, end of data, or a panic. It includes the wrapped arithmetic of builds without overflow checks, the truncated lengths of Omega on 32-bit targets, and every parameter of Comma. A value depends on the bits taken only; a value takes at least a bit except with Comma(0); without overflow checks nothing panics.", "quantifier": "every code of the library and composition of them, every input of any length, every source, every end of the input, build configuration and target", "why_tests_cant": "all inputs of all lengths, including ill-formed ones", "anchors": ["src/coding/unary.rs:20-37", "src/coding/elias.rs:39-54", "src/coding/elias.rs:75-94", "src/coding/trans.rs:20-25", "src/coding/fib.rs:71-94", "src/coding/comma.rs:30-47"]}
{"id": "C106", "title": "What every encoder does with every value, and when it is read back", "statement": "For every code built from the library's and every 64-bit value, the encoder writes a known word of bits, or returns an error having written nothing, or panics having written nothing, or never returns (Comma with one-bit digits, positive values); which one is given by rules. A written word is read back as the value written, whatever bits follow, unless somewhere inside the composition Omega was handed 0: then decoding yields no value or a strictly larger one.", "quantifier": "every code of the library and composition of them, every value below 2^64, every following bits, every sink, build configuration and target", "why_tests_cant": "all compositions, all values, all continuations", "anchors": ["src/coding/unary.rs:9-18", "src/coding/elias.rs:31-37", "src/coding/elias.rs:58-73", "src/coding/trans.rs:12-25", "src/coding/fib.rs:40-69", "src/coding/comma.rs:12-28"]}
{"id": "C107", "title": "Messages of values, each in a code of its own", "statement": "A message is a list of values, each with a code of its own. What is sent is the words one after the other. The receiver that knows the codes gets exactly the values, leaving the source right after the message, if and only if no item hands 0 to Omega inside its composition. If the message is cut anywhere, the receiver gets all the values whose words are complete, and then 'no more data' or UnexpectedEof: 'no more data' at the beginning of a word (but not for codes that start with Comma(0)) and within the leading zeros of a word whose code begins with Fibonacci, UnexpectedEof elsewhere; if the source ends with an error, that error.", "quantifier": "every message over every code of the library and composition of them, every point of cutting, every source and sink, build configuration and target", "why_tests_cant": "all messages, all compositions and all cutting points", "anchors": ["src/coding/traits.rs:5-17", "src/coding/unary.rs:9-37", "src/coding/elias.rs:31-94", "src/coding/trans.rs:12-25", "src/coding/fib.rs:40-94", "src/coding/comma.rs:12-47"]}
{"id": "C108", "title": "Losing and finding the place in a stream of code words", "statement": "A stream of code words is damaged at its beginning: bits are lost, or any bits stand before it. A listener decodes on, also after invalid data. In Unary it hears every value after the first word. In Fibonacci it hears every value after a word v with 2 <= v and 2v+1 below the largest Fibonacci number, unless that is the first word; with overflow checks a decoder may panic instead. If only bits of a word are lost, leaving two or more, a smaller value is heard instead of it, and then all the others. In Gamma a stream of any length may never be in step again once the first bit is lost.", "quantifier": "every list of values, every damage, every source, build configuration and target", "why_tests_cant": "all streams and all damages", "anchors": ["src/coding/fib.rs:71-94", "src/coding/unary.rs:20-37", "src/coding/elias.rs:39-54"]}
{"id": "C109", "title": "A sparse array with predecessor and successor search", "statement": "A user marks the positions of some items in a BitVector, pushes their values onto an IntVector and wraps the marks in Rank9 and BinSearchSelect. For items in increasing order of position, with values of the width of the IntVector, construction succeeds, and get(p) is the value of the item at p or None, nth(i) the i-th item or None, floor(p) the last item at or before p or None and ceiling(p) the first item at or after p or None. get(p) at or past the length panics.", "quantifier": "every list of items, every length that can be allocated, every element width and block size, every position and index, every build configuration and target", "why_tests_cant": "all item lists and all positions; the answers combine rank, select, bit and element access", "anchors": ["src/bit_vec/bit_vector.rs:203-205", "src/int_vec/int_vector.rs:164-168", "src/int_vec/int_vector.rs:305-318", "src/rank/rank9.rs:133-150", "src/select/bin_search.rs:49-64"]}
{"id": "C110", "title": "Rank and select over symbols: any RankSupport, and a wavelet tree", "statement": "For any type of symbols and any RankSupport that counts correctly, BinSearchSelect's select(i, v) is the position of the occurrence of v with exactly i before it, or None if there are at most i. A wavelet tree that a user builds from Rank9 over BitVector and the bit access of u64 is such a RankSupport: construction succeeds for symbols of up to 64 bits, rank counts the symbols, access gives them back, and the k-th smallest symbol of any range is found.", "quantifier": "every sequence of symbols, every symbol, position, index and range, every build configuration and target", "why_tests_cant": "all sequences and all symbols; user-supplied rank structures over any type", "anchors": ["src/rank/traits.rs:6-23", "src/select/bin_search.rs:66-73", "src/internal/search.rs", "src/rank/rank9.rs:133-162", "src/bit_vec/prim.rs:22-48"]}
{"id": "C111", "title": "Set operations a block at a time", "statement": "User code that rewrites a bit vector block by block through get_block, the operators of BlockType and set_block computes the bitwise union, intersection, difference, symmetric difference and complement of any lawful stores, bits a shorter last block lacks counting as zeros and surplus bits not counting; an operand with fewer blocks makes it panic. Adding up count_ones of the blocks gives the number of ones and the Hamming distance, and the subset test is right. For BitVectors made by any programs, complementing twice gives an equal vector and De Morgan's law holds for ==.", "quantifier": "every lawful BitVec/BitVecMut, every contents and length, every block type, every build configuration and target", "why_tests_cant": "all stores, lengths and contents", "anchors": ["src/bit_vec/traits.rs:19-69", "src/bit_vec/traits.rs:107-155", "src/storage.rs:23-27", "src/bit_vec/bit_vector.rs:184-211"]}
{"id": "C112", "title": "A compressed sorted sequence with access and rank (Elias-Fano)", "statement": "User code that stores a sorted sequence of u64 as k low bits each in an IntVector and the high parts in unary in a BitVector under Rank9 and BinSearchSelect: construction succeeds whenever the two vectors can be allocated, the vectors have n elements of k bits and at most n + u/2^k bits for values up to u, get(i) is the i-th element or None past the end, and rank(x) is the number of elements smaller than x.", "quantifier": "every sorted sequence (with repetitions), every k from 1 to 63, every index below 2^64 - 1 and every x, every build configuration and target", "why_tests_cant": "all sequences, widths, indices and thresholds", "anchors": ["src/bit_vec/bit_vector.rs:184-225", "src/int_vec/int_vector.rs:57-180", "src/rank/rank9.rs:133-162", "src/select/bin_search.rs:66-73", "src/storage.rs:124-140"]}
{"id": "C113", "title": "What a binary search and a select query cost, exactly, in the worst cases", "statement": "binary_search_function calls f once when the first answer is large enough, exactly 1 + floor(lg n) times when no answer of the n positions is, and exactly 2 + floor(lg n) times when only the last one is, whatever the position and value types and the effects of f. A BinSearchSelect select1, select0 or select makes exactly 1 + floor(lg n) rank queries when it answers None, and 2 + floor(lg n) when the answer is the last of at least two positions.", "quantifier": "every integer type of at least 3 bits, every comparison, every interval, every function with state; every rank structure that answers exactly, every sequence, index and bit", "why_tests_cant": "exact cost for all lengths, also those too long to build", "anchors": ["src/internal/search.rs:11-44", "src/select/bin_search.rs:46-73"]}
{"id": "C114", "title": "Select in O(lg lg n) (as documented)", "statement": "The README and the crate documentation say that select queries take O(lg lg n) time based on binary search over ranks: there are constants a and b such that a search over n positions makes at most a * lg (lg n) + b rank queries.", "quantifier": "every a and b", "why_tests_cant": "an asymptotic bound", "anchors": ["README.md:14", "src/lib.rs:10-12", "src/internal/search.rs:11-44"]}
{"id": "C115", "title": "A tree in two bits per node (balanced parentheses)", "statement": "User code that writes an ordered forest as balanced parentheses into a BitVector under Rank9 and BinSearchSelect (the 'balanced parentheses' of TODO.md): construction succeeds whenever the bits can be allocated and takes exactly two bits per node; node(i) is the i-th node in preorder or None, index its inverse; depth, find_close, enclosing (the parent, and the node of a closing parenthesis), first_child, next_sibling, subtree_size and is_ancestor answer what the forest says, for every node.", "quantifier": "every forest that can be allocated, every index and node, every build configuration and target", "why_tests_cant": "all trees of every shape and size", "anchors": ["src/bit_vec/bit_vector.rs:184-225", "src/rank/rank9.rs:133-162", "src/select/bin_search.rs:66-73", "TODO.md:1-6"]}
{"id": "C116", "title": "Masks, logarithms and addresses, for every argument", "statement": "Beyond the block size low_mask panics with debug assertions; without, the branch-free version of the primitive types gives all ones when k / block size is odd and 2^(k mod block size) - 1 otherwise, and so differs from the trait's default exactly in the first case. nth_mask(i) is 2^i, past the block a panic with overflow checks and 2^(i mod block size) without. floor_lg and ceil_lg differ by at most one, and agree exactly at zero and the powers of two. Address::bit_index of any pair of fields is block_index * block size (modulo 2^64) + bit_offset, a panic or a wrapped number when that sum overflows (never on a 32-bit target). An address is one that Address::new makes, and is what Address::new makes of its bit_index, exactly when its offset is inside the block and its position below 2^64; such addresses are ordered and equal as their positions are, others need not be.", "quantifier": "every block type, every mask width and index of type usize, every number, every pair of address fields, both build modes and pointer widths", "why_tests_cant": "arguments far outside the documented range, at every width and in builds tests are not run in", "anchors": ["src/storage.rs:141-144", "src/storage.rs:209-221", "src/storage.rs:240-257", "src/storage.rs:334-367"]}
{"id": "C117", "title": "The standard adaptors over the iterators", "statement": "Over the iterators of IntVector and BitVector, rev, skip, take, step_by, map, filter, enumerate, zip and chain, in any combination that the types allow, yield what the list functions of the same names make of the elements: every item, in order, without a panic. Calls of next and next_back may be mixed in any order: the ones at the front return the items in order, the ones at the back in reverse, and None once they meet, also for skip and step_by as long as nothing was skipped past the end, and for take, zip and enumerate if the length fits in usize. After an nth beyond the end skip and step_by are wrong: v.iter().skip(10) on three elements returns None from next and then, with overflow checks, panics in next_back; an exhausted v.iter().step_by(2) has a len that panics with overflow checks and is nearly 2^63 without.", "quantifier": "every vector a program builds, every pipeline of the adaptors and all their arguments of type usize, all block types, both build modes and pointer widths", "why_tests_cant": "infinitely many pipelines; the failures need an adaptor that calls nth past the end followed by a call that asks for the length", "anchors": ["src/internal/vector_base.rs:349-427", "src/bit_vec/bit_vector.rs:257-292", "src/int_vec/int_vector.rs:363-399"]}
{"id": "C118", "title": "A labelled tree in level order (LOUDS)", "statement": "User code that writes a tree level by level into a BitVector (a one per child and a zero for every node) and its labels into an IntVector of k bits, and asks Rank9 and BinSearchSelect about it, is right: it uses 2n - 1 bits for n nodes; nodes numbered in level order have their label, their number of children, each child by number, their parent and their number among their siblings; walking down a path of child numbers from the root arrives at the node of that path, or at None if there is none; numbers beyond the nodes answer None. The level order itself is shown to contain every node (every path that exists) exactly once, higher nodes first.", "quantifier": "every tree of any shape and size that fits in memory, labels of any width from 1 to 64, every node, child number and path, both build modes and pointer widths", "why_tests_cant": "infinitely many trees; an off-by-one between inclusive rank and exclusive select shows only at some nodes", "anchors": ["src/bit_vec/bit_vector.rs: push_bit", "src/int_vec/int_vector.rs: push, get", "src/rank/rank9.rs: rank1, rank0", "src/select/bin_search.rs: select0, select1"]}
{"id": "C119", "title": "A code of the user's own among those of the library (Rice)", "statement": "A user's implementation of UniversalCode that writes value >> k in any other code and then the low k bits with write_int, and reads them back with read_int refusing quotients that do not fit, is as good a code as those of the library, whatever sound code its header is: its word is the header's word of the quotient followed by the low bits, written to any sink and read back from any source without touching what follows; words cut short are errors and end of data is None; it panics on no input its header does not panic on, and delivers only u64 values. Elias and Lift0 work over it and it works over them, to any depth: lists of values come back through any stream, and no word is a prefix of another. With a unary header the word has value / 2^k + 1 + k bits.", "quantifier": "every value, every k below 64, every header with sound code words and every tower of Lift0, Elias and Rice over the codes of the library, every sink and source, every malformed input, both build modes and pointer widths", "why_tests_cant": "unbounded values, streams and towers of codes; arbitrary user-supplied sinks, sources and headers", "anchors": ["src/coding/traits.rs: UniversalCode", "src/coding/elias.rs: Elias::encode, Elias::decode", "src/coding/trans.rs: Lift0::encode, Lift0::decode", "src/stream/traits.rs: write_int, read_int"]}
{"id": "C120", "title": "Sorted lists of numbers in a stream, and their intersection", "statement": "A user's program that saves a sorted list as the code words of its differences, in any code of the library or of the user under Elias and Lift0 in any order and to any depth, and loads it until the stream ends, gets the list back through any stream; a list that is not sorted is refused at the first element out of order, after exactly the words of the elements before it; any other differences load as their sums, or as an error when these exceed a u64; a file cut short gives the first elements or an error. A merge of two such streams, each in a code of its own, delivers their intersection: sorted, with every element as often as in the list that has it less often. With Unary the stream is itself an index: its i-th one is at x_i + i, and its v-th zero at v plus the number of elements up to v, as select over any rank structure answers.", "quantifier": "every sorted list of u64 values whose differences the code can encode, every tower of codes, every sink and source, every cut, both build modes and pointer widths", "why_tests_cant": "unbounded lists, values, streams and towers of codes; arbitrary user-supplied sinks, sources and rank structures", "anchors": ["src/coding/traits.rs: UniversalCode", "src/coding/unary.rs: encode, decode", "src/coding/elias.rs: Elias::encode, Elias::decode", "src/coding/trans.rs: Lift0::encode, Lift0::decode", "src/stream/traits.rs: BitRead, BitWrite", "src/select/bin_search.rs: select1, select0"]}
{"id": "C121", "title": "The sieve of Eratosthenes", "statement": "A user's sieve over any BitVecMut, written with bit_len, get_bit and set_bit, terminates and leaves exactly the bits at prime positions set, whatever the store held before. Over a BitVector<u64> with Rank9 and BinSearchSelect, rank1(p) is then the number of primes up to p and select1(i) the i-th prime below the length, None if there are not so many.", "quantifier": "every lawful mutable bit store of every length and contents; every length that fits in memory; every position and index; both build modes and pointer widths", "why_tests_cant": "unbounded lengths and arbitrary user-supplied stores; the correctness of the result is a number-theoretic fact", "anchors": ["src/bit_vec/traits.rs: BitVec::get_bit, BitVecMut::set_bit", "src/bit_vec/bit_vector.rs: with_fill", "src/rank/rank9.rs: rank1", "src/select/bin_search.rs: select1"]}
{"id": "C122", "title": "Full-text search over a wavelet tree (FM-index)", "statement": "A user's full-text index built from the crate's Rank9 and RankSupport: the symbols preceding the sorted suffixes of a text in a wavelet tree, and the number of smaller symbols for each symbol. Searching a pattern backwards with two rank queries a symbol counts exactly the places of the text where the pattern occurs, however often and however overlapping, without looking at the text; and following the preceding symbols from the first row gives back the whole text, so that the index holds it.", "quantifier": "every text and pattern over every alphabet of up to 64 bits that fits in memory; both build modes and pointer widths", "why_tests_cant": "unbounded texts and patterns; the count rests on the order of all suffixes", "anchors": ["src/rank/traits.rs: RankSupport", "src/rank/rank9.rs: rank", "src/bit_vec/bit_vector.rs: push_bit"]}
{"id": "C123", "title": "Finding a pattern in a full-text index with sampled positions", "statement": "A user's index that keeps the positions of every n-th suffix of the text in an IntVector and marks their rows in a Rank9 over a BitVector reports for every pattern exactly the places of the text where it occurs, each once, in the lexicographic order of the rest of the text from there. Each place takes fewer steps than the samples are apart, however long the text is, and only the samples are stored.", "quantifier": "every text and pattern over every alphabet of up to 64 bits that fits in memory, every sampling distance of at least 1 and every element width from 1 to 64 bits that holds the positions; both build modes and pointer widths", "why_tests_cant": "unbounded texts, patterns and parameters; a wrong sample shows only for the texts whose rows lead to it", "anchors": ["src/rank/rank9.rs: rank1", "src/int_vec/int_vector.rs: push, get", "src/bit_vec/bit_vector.rs: push_bit, get_bit", "src/rank/traits.rs: RankSupport"]}
{"id": "C124", "title": "Integers of varying size with direct access", "statement": "A user's list of integers in chunks of k bits by levels (directly addressable codes), each level an IntVector with a Rank9 over a BitVector that marks the numbers that go on, gives every number back from its index. It has no more levels than the greatest number has chunks, and a level holds exactly one chunk, in k bits, of every number long enough to reach it.", "quantifier": "every list of 64-bit integers that fits in memory, every chunk width from 1 to 63 bits; both build modes and pointer widths", "why_tests_cant": "unbounded lists and every chunk width; a number's chunks lie at positions that depend on all numbers before it", "anchors": ["src/int_vec/int_vector.rs: push, get", "src/rank/rank9.rs: rank1", "src/bit_vec/bit_vector.rs: push_bit, get_bit", "src/storage.rs: low_mask"]}
{"id": "C125", "title": "A list with runs of equal numbers", "statement": "A user's list that keeps one number for every run of equal numbers in an IntVector and marks the first position of each run in a Rank9 over a BitVector with BinSearchSelect gives every number back from its index, and for every index the longest run of equal numbers around it. It stores exactly as many numbers as there are runs.", "quantifier": "every list of integers of k bits, every k from 1 to 64, whose marks and runs fit in memory; both build modes and pointer widths", "why_tests_cant": "unbounded lists with every division into runs", "anchors": ["src/select/bin_search.rs: select1", "src/rank/rank9.rs: rank1", "src/int_vec/int_vector.rs: push, get", "src/bit_vec/bit_vector.rs: push_bit"]}
{"id": "C126", "title": "A text as literals and copies in a stream", "statement": "A user's program that writes a text as literals and copies of earlier parts, each as two words of a universal code, writes the same bits to every sink, and reading them back up to the end of the source gives the text that the literals and copies describe, also when a copy overlaps what it adds. A copy from before the beginning of the text is an InvalidData error whatever follows, and a source that ends after the first word of a token is an UnexpectedEof error.", "quantifier": "every provided code and every Lift0, Elias and Rice tower over one; every list of tokens with numbers in the domain of the code, for every text that fits in memory; every sink and source; both build modes and pointer widths", "why_tests_cant": "unbounded texts, every division into literals and copies, every code", "anchors": ["src/coding/traits.rs: UniversalCode", "src/stream/traits.rs: BitRead, BitWrite"]}
