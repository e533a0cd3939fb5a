{
 "C05": "True whenever x + (d-1) is representable; refuted otherwise in builds without overflow checks (witness), detected by a panic with overflow checks. Without overflow checks it is wrong exactly when x + d > 2^w, and the value returned then is proved (C05_without_checks).",
 "C07": "True below the last few u64 values; checked_ceil_div_nbits is refuted near 2^64 without overflow checks and div_nbits truncates on 32-bit targets (witnesses). The values returned on the remaining inputs are proved (C07_top, C07_wrapped).",
 "C11": "True for every start before the end; refuted at the block-aligned end, where the code indexes one block too far (witness). At the end both accessors always panic (C11_at_the_end).",
 "C12": "set_block of a block index >= 2^61 is treated in C63.",
 "C62": "True with overflow checks; refuted without (witness: the sum wraps and the bounds check passes). The result without checks is proved for all wrapping spans (C62_wrapped).",
 "C63": "True on 32-bit targets and whenever the bit position is representable (C12_vecbool_write_out_of_bounds, C63_slice_block_index_partial); refuted on 64-bit targets for Vec<bool> and for slices (witnesses: set_block(2^61, x) overwrites block 0, get_block(2^61) reads it). The aliasing is proved exactly (C63_slice_alias, C63_vec_bool_alias).",
 "C15": "True for every size up to 2^64 - block bits, and with overflow checks for every size; refuted without overflow checks for sizes within a block of 2^64 (witness: with_fill(u64::MAX) is empty, resize(u64::MAX) clears). The empty result is proved for all such sizes and vectors (C15_wrapped).",
 "C64": "True for spans reaching into a third block and, with overflow checks, for aligned spans; refuted otherwise (witnesses: bits silently dropped, both on read and write). What is read and written for all these spans is proved (C64_two_blocks).",
 "C20": "True for every index on 64-bit targets, for every element width below the block size, and for indices below 2^32; refuted on 32-bit targets for block-sized elements (witness: get/set of index 2^32+1 alias element 1). There indices count modulo 2^32 (C20_alias).",
 "C22": "True as long as nth never skips past the end and the count fits usize; refuted after nth past the end (witness: len is u64::MAX, or an overflow panic) and for count() on 32-bit targets (witness: 2^32 bits count as 0). The answers after any calls, with the excess of the skips taken modulo 2^64 or panicking, are proved exactly: C22_int_len_exact and C22_bit_len_exact in terms of the excess as long as the skips sum up to less than 2^64, C22_int_len_always and C22_bit_len_always for any skips, in terms of how far the front end has passed the back end.",
 "C65": "Spans inside the elements succeed; refuted for spans in the unused tail of the last block (witness: both accessors panic). Every span passing the last element panics (C65_tail_panics).",
 "C28": "True for every whole block; refuted for the partial last block of a slice whose length is not a multiple of the block size (witness: get_block and set_block panic for an index below block_len). It panics for every such slice (C28_ragged).",
 "C31": "False for stores of 0 or 1 bits (division by zero): for every longer store, new succeeds if and only if the directory of relative ranks can be allocated (C31_jacobson_new_partial), which is always so for blocks of 16 bits and more and otherwise up to a quarter of the memory limit (C31_room); witness C31_jacobson_new_refuted.",
 "C33": "JacobsonRank: proved in full. Rank9 does not check its bound: proved that it panics from the end of the last word on, refuted for positions in the padding of the last word. Primitive integers only have a debug assertion: proved with debug assertions, refuted without. The value returned without them is proved for all positions (C33_prim_wrapped), and that in the padding (C33_rank9_padding).",
 "C36": "False: index + 1 overflows. Proved what happens instead for every correct rank structure (panic with overflow checks; Some(0) without, unless empty), and a witness.",
 "C39": "True for every word and every r <= 127 (select1, select1_raw, Broadword::select1, and agreement with binary search over rank); false from r = 128 on (witness: Some(0)), and on 32-bit targets Broadword::select1 truncates its u64 index (witness). It never panics for any r; from 128 on the answer can be a position outside the word, and from 192 to 255 it is always Some(0) (C39_never_panics). For which words and r the right None is given, for every r from 64 on: C39_beyond; from 128 to 255 only for r = 128 and odd words (C39_next).",
 "C40": "u_le8 and u_nz8 proved in full. le8 is false for lanes of opposite sign (witness: -128 <= 0); the exact result of every lane is proved, equal to the claim where the signs agree.",
 "C42": "write_int(0, v) writes nothing everywhere, and so does write_int_be(0, v) in builds without overflow checks; with overflow checks write_int_be(0, v) panics (witness). (for all inputs: C42_zero_width_checked).",
 "C45": "True over every bit vector whose last, incomplete block can be read (C45_read_all_partial: Block slices and vectors, Vec<bool>, primitives, BitVector, IntVector); over a BitSlice exactly the bits lying in complete blocks can be read, the others panic (C45_slice_partial, witness).",
 "C49": "Refuted: Omega.encode(0) writes the word of 1, which decodes to 1 (witness). On every sink 0 is written exactly as 1 (C49_zero_as_one).",
 "C52": "True for every parameter but Comma(1) (and, without overflow checks, parameters congruent to 1 modulo 64); Comma(1) never terminates on a positive value (witness, for every amount of fuel). For all these parameters and all positive values it never terminates (C52_base_one).",
 "C56": "True for unary, gamma, delta, omega, comma and what Lift0 and Elias build from them; for Fibonacci true once the prefix contains a one, refuted for prefixes of zeros, which decode as end of data (witness).",
 "C57": "Unary, gamma and delta never panic on streams below 2^64 bits; omega, Fibonacci and comma never panic in builds without overflow checks; with overflow checks each of them panics on some malformed stream (witnesses). Exactly which streams these are is proved for every code, parameter, target and length: C57_unary_gamma_delta_exact (2^64 zeros at the front), C57_comma_exact_all, C57_fibonacci_exact, C57_omega_exact_all (C57_omega_exact says the same in terms of the groups for 64-bit targets and streams below 2^32 bits).",
 "C23": "reserve/reserve_exact keep their promise when the vector is full to its capacity or has the capacity already (C23_reserve_partial), and with an exact allocator only then (C23_exact_partial): the shortage is computed against the capacity but Vec::reserve counts from the length. Witnesses: with_capacity of 10 blocks then reserve of 15 blocks leaves 10; without overflow checks reserve(2^64-1) does nothing. block_reserve always keeps its promise. What they do for every vector and every amount is C23_effect; C23_shortfall says when that is not enough: whatever the allocator, nothing happens when the blocks in use plus those needed are at most twice those allocated.",
 "C24": "True except, in builds without overflow checks, for requests within one block of 2^64 bits, where the block count wraps to 0 and a vector of capacity 0 is returned (witness). That is proved for all such requests (C24_wrapped). C24_effect says what with_capacity does for every request.",
 "C67": "True for every value and width except write_int_be at the full width of the type, where the mask is negative and is shifted arithmetically; refuted there (witness: i8 64 reads back as 127), and what is written instead is proved.",
 "C75": "Holds for slices of whole blocks (C75_rank9_partial, C75_jacobson_partial; Jacobson if its directory can be allocated, see C31). Building over any other slice panics, proved for all such slices (…_ragged), witness C75_refuted: the last block of a ragged slice cannot be read (C28).",
 "C76": "True for unary, gamma, delta and Fibonacci in every build, for omega with overflow checks on 64-bit targets (streams below 2^32 bits), and for what Elias and Lift0 build from these (C76_words_partial, C76_queue_partial); decode-then-encode reproduces whole streams for all of them but Fibonacci (C76_reencode_partial). Comma skips leading zero digits and nothing else (C76_comma_partial, with overflow checks). Refuted, with witnesses, for comma, for omega without overflow checks, for omega on 32-bit targets, and for whole Fibonacci streams that end in zeroes. Streams of 2^64 bits and more are left out. What omega and comma (any number of bits) accept in every build and on every target, wrapping included, is characterised exactly (C76_omega_exact, C76_comma_exact, C76_comma_wide).",
 "C80": "Inputs on which the property functions' own arithmetic overflows are covered by separate exact theorems (C80_floor_lg, C80_ceil_lg, C80_ceil_div_*, C80_max_*, C80_comma_unchecked, C80_omega_unchecked, C80_fibonacci_large).",
 "C87": "Vectors, encoders, integers: in full. Decoders: every code but Omega in full (C87_decoders_partial); Omega agrees unless the 64-bit target reports the end of the input inside a code (C87_omega_partial), while it accepts some ill-formed input on 32-bit targets only (C87_omega_refuted). Blocks: every type but usize (C87_blocks_partial, C87_blocks_refuted).",
 "C88": "What a panic leaves is proved exactly for every operation in every program, with the exceptions named in the statement: resize to ones (spec_bleft, C88_resize_refuted), Vec<bool> push_block (C88_vec_bool_push), Vec<bool>::set_block beyond 2^64 bits (C88_vec_bool_refuted), IntVector::resize within a block of 2^64 in release builds (C88_int_resize_refuted).",
 "C92": "Rank9 and select in full. JacobsonRank: answers in full; it can be built exactly when the ones shown by all blocks fit the number of bits taken from the length (C92_jacobson_partial); otherwise new panics (C92_jacobson_refuted).",
 "C114": "False of the code (C114_lglg_refuted): binary search takes lg n + 2 rank queries when only the last position is large enough. The exact cost is C113, the upper bound C81_select_queries.",
 "C117": "The items are right for all pipelines (C117_collect with one theorem per adaptor, C117_pipeline). False of the code: next_back of skip and len of step_by after the adaptor's nth went beyond the end (C117_skip_back_refuted, C117_step_len_refuted). Not modelled: fold overrides of the standard library."
}