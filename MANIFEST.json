{
 "claims": [
  {
   "property": "C01",
   "status": "proved",
   "theorems": [
    "C01_get_bits",
    "C01_with_bits",
    "C01_with_bits_list",
    "C01_out_of_bounds"
   ],
   "note": ""
  },
  {
   "property": "C02",
   "status": "proved",
   "theorems": [
    "C02_get_bit",
    "C02_with_bit",
    "C02_out_of_bounds"
   ],
   "note": ""
  },
  {
   "property": "C03",
   "status": "proved",
   "theorems": [
    "C03_low_mask"
   ],
   "note": ""
  },
  {
   "property": "C04",
   "status": "proved",
   "theorems": [
    "C04_ceil_lg",
    "C04_floor_lg"
   ],
   "note": ""
  },
  {
   "property": "C05",
   "status": "partial",
   "theorems": [
    "C05_ceil_div_partial",
    "C05_zero_divisor",
    "C05_overflow_detected_with_checks",
    "C05_ceil_div_refuted",
    "C05_without_checks"
   ],
   "note": "True whenever x + (d-1) is representable; refuted otherwise in builds without overflow checks (witness), detected by a panic with overflow checks. Without overflow checks it is wrong exactly when x + d > 2^w, and the value returned then is proved (C05_without_checks)."
  },
  {
   "property": "C06",
   "status": "proved",
   "theorems": [
    "C06_address"
   ],
   "note": ""
  },
  {
   "property": "C07",
   "status": "partial",
   "theorems": [
    "C07_sizes_partial",
    "C07_mul_nbits",
    "C07_checked_ceil_refuted",
    "C07_div_nbits_refuted",
    "C07_top",
    "C07_wrapped"
   ],
   "note": "True below the last few u64 values; checked_ceil_div_nbits is refuted near 2^64 without overflow checks and div_nbits truncates on 32-bit targets (witnesses). The values returned on the remaining inputs are proved (C07_top, C07_wrapped)."
  },
  {
   "property": "C08",
   "status": "proved",
   "theorems": [
    "C08_bytes",
    "C08_roundtrip",
    "C08_short",
    "C08_any_stream"
   ],
   "note": ""
  },
  {
   "property": "C09",
   "status": "proved",
   "theorems": [
    "C09_blocks_read",
    "C09_out_of_bounds"
   ],
   "note": ""
  },
  {
   "property": "C10",
   "status": "proved",
   "theorems": [
    "C10_blocks_write",
    "C10_put_spec",
    "C10_out_of_bounds"
   ],
   "note": ""
  },
  {
   "property": "C11",
   "status": "partial",
   "theorems": [
    "C11_empty_span_partial",
    "C11_empty_span_refuted",
    "C11_at_the_end"
   ],
   "note": "True for every start before the end; refuted at the block-aligned end, where the code indexes one block too far (witness). At the end both accessors always panic (C11_at_the_end)."
  },
  {
   "property": "C12",
   "status": "proved",
   "theorems": [
    "C12_vecbool_read",
    "C12_vecbool_read_out_of_bounds",
    "C12_vecbool_write",
    "C12_vecbool_write_out_of_bounds",
    "C12_vecbool_push"
   ],
   "note": "set_block of a block index >= 2^61 is treated in C63."
  },
  {
   "property": "C13",
   "status": "proved",
   "theorems": [
    "C13_bitvector_is_a_list"
   ],
   "note": ""
  },
  {
   "property": "C14",
   "status": "proved",
   "theorems": [
    "C14_bitvector_eq",
    "C14_unused_bits_are_zero"
   ],
   "note": ""
  },
  {
   "property": "C15",
   "status": "partial",
   "theorems": [
    "C15_with_fill_partial",
    "C15_resize_partial",
    "C15_with_fill_refuted",
    "C15_resize_refuted",
    "C15_wrapped"
   ],
   "note": "True for every size up to 2^64 - block bits, and with overflow checks for every size; refuted without overflow checks for sizes within a block of 2^64 (witness: with_fill(u64::MAX) is empty, resize(u64::MAX) clears). The empty result is proved for all such sizes and vectors (C15_wrapped)."
  },
  {
   "property": "C16",
   "status": "proved",
   "theorems": [
    "C16_intvector_is_a_list"
   ],
   "note": ""
  },
  {
   "property": "C17",
   "status": "proved",
   "theorems": [
    "C17_intvector_eq",
    "C17_different_widths"
   ],
   "note": ""
  },
  {
   "property": "C18",
   "status": "proved",
   "theorems": [
    "C18_invalid_width",
    "C18_push_value",
    "C18_set_value",
    "C18_fill_value"
   ],
   "note": ""
  },
  {
   "property": "C19",
   "status": "proved",
   "theorems": [
    "C19_get_random",
    "C19_set_random"
   ],
   "note": ""
  },
  {
   "property": "C20",
   "status": "partial",
   "theorems": [
    "C20_out_of_range_partial",
    "C20_out_of_range_refuted",
    "C20_alias"
   ],
   "note": "True for every index on 64-bit targets, for every element width below the block size, and for indices below 2^32; refuted on 32-bit targets for block-sized elements (witness: get/set of index 2^32+1 alias element 1). There indices count modulo 2^32 (C20_alias)."
  },
  {
   "property": "C21",
   "status": "proved",
   "theorems": [
    "C21_int_iterator",
    "C21_bit_iterator"
   ],
   "note": ""
  },
  {
   "property": "C22",
   "status": "partial",
   "theorems": [
    "C22_int_len_partial",
    "C22_bit_len_partial",
    "C22_len_after_nth_refuted",
    "C22_count_refuted",
    "C22_int_len_exact",
    "C22_bit_len_exact",
    "C22_int_len_always",
    "C22_bit_len_always"
   ],
   "note": "True as long as nth never skips past the end and the count fits usize; refuted after nth past the end (witness: len is u64::MAX, or an overflow panic) and for count() on 32-bit targets (witness: 2^32 bits count as 0). The answers after any calls, with the excess of the skips taken modulo 2^64 or panicking, are proved exactly: C22_int_len_exact and C22_bit_len_exact in terms of the excess as long as the skips sum up to less than 2^64, C22_int_len_always and C22_bit_len_always for any skips, in terms of how far the front end has passed the back end."
  },
  {
   "property": "C23",
   "status": "partial",
   "theorems": [
    "C23_reserve_partial",
    "C23_bit_vector_partial",
    "C23_int_vector_partial",
    "C23_exact_partial",
    "C23_reserve_refuted",
    "C23_block_reserve",
    "C23_effect",
    "C23_shortfall"
   ],
   "note": "reserve/reserve_exact keep their promise when the vector is full to its capacity or has the capacity already (C23_reserve_partial), and with an exact allocator only then (C23_exact_partial): the shortage is computed against the capacity but Vec::reserve counts from the length. Witnesses: with_capacity of 10 blocks then reserve of 15 blocks leaves 10; without overflow checks reserve(2^64-1) does nothing. block_reserve always keeps its promise. What they do for every vector and every amount is C23_effect; C23_shortfall says when that is not enough: whatever the allocator, nothing happens when the blocks in use plus those needed are at most twice those allocated."
  },
  {
   "property": "C24",
   "status": "partial",
   "theorems": [
    "C24_bit_vector_partial",
    "C24_int_vector_partial",
    "C24_bad_width",
    "C24_with_capacity_refuted",
    "C24_wrapped",
    "C24_effect"
   ],
   "note": "True except, in builds without overflow checks, for requests within one block of 2^64 bits, where the block count wraps to 0 and a vector of capacity 0 is returned (witness). That is proved for all such requests (C24_wrapped). C24_effect says what with_capacity does for every request."
  },
  {
   "property": "C25",
   "status": "proved",
   "theorems": [
    "C25_slice_reads"
   ],
   "note": ""
  },
  {
   "property": "C26",
   "status": "proved",
   "theorems": [
    "C26_slice_write",
    "C26_frame"
   ],
   "note": ""
  },
  {
   "property": "C27",
   "status": "proved",
   "theorems": [
    "C27_nested",
    "C27_outside"
   ],
   "note": ""
  },
  {
   "property": "C28",
   "status": "partial",
   "theorems": [
    "C28_blocks_partial",
    "C28_blocks_refuted",
    "C28_ragged"
   ],
   "note": "True for every whole block; refuted for the partial last block of a slice whose length is not a multiple of the block size (witness: get_block and set_block panic for an index below block_len). It panics for every such slice (C28_ragged)."
  },
  {
   "property": "C29",
   "status": "proved",
   "theorems": [
    "C29_prim_rank"
   ],
   "note": ""
  },
  {
   "property": "C30",
   "status": "proved",
   "theorems": [
    "C30_jacobson_rank"
   ],
   "note": ""
  },
  {
   "property": "C31",
   "status": "partial",
   "theorems": [
    "C31_jacobson_new_partial",
    "C31_room",
    "C31_jacobson_new_small",
    "C31_jacobson_new_refuted"
   ],
   "note": "False for stores of 0 or 1 bits (division by zero): for every longer store, new succeeds if and only if the directory of relative ranks can be allocated (C31_jacobson_new_partial), which is always so for blocks of 16 bits and more and otherwise up to a quarter of the memory limit (C31_room); witness C31_jacobson_new_refuted."
  },
  {
   "property": "C32",
   "status": "proved",
   "theorems": [
    "C32_rank9"
   ],
   "note": ""
  },
  {
   "property": "C33",
   "status": "partial",
   "theorems": [
    "C33_jacobson",
    "C33_rank9_partial",
    "C33_rank9_padding",
    "C33_prim_partial",
    "C33_rank9_refuted",
    "C33_prim_refuted",
    "C33_prim_wrapped"
   ],
   "note": "JacobsonRank: proved in full. Rank9 does not check its bound: proved that it panics from the end of the last word on, refuted for positions in the padding of the last word. Primitive integers only have a debug assertion: proved with debug assertions, refuted without. The value returned without them is proved for all positions (C33_prim_wrapped), and that in the padding (C33_rank9_padding)."
  },
  {
   "property": "C34",
   "status": "proved",
   "theorems": [
    "C34_binary_search",
    "C34_average"
   ],
   "note": ""
  },
  {
   "property": "C35",
   "status": "proved",
   "theorems": [
    "C35_select",
    "C35_rank_structures"
   ],
   "note": ""
  },
  {
   "property": "C36",
   "status": "partial",
   "theorems": [
    "C36_max_index_partial",
    "C36_max_index_refuted"
   ],
   "note": "False: index + 1 overflows. Proved what happens instead for every correct rank structure (panic with overflow checks; Some(0) without, unless empty), and a witness."
  },
  {
   "property": "C37",
   "status": "proved",
   "theorems": [
    "C37_jacobson_inverse",
    "C37_rank9_inverse",
    "C37_bitvector_inverse"
   ],
   "note": ""
  },
  {
   "property": "C38",
   "status": "proved",
   "theorems": [
    "C38_count_ones",
    "C38_broadword_rank",
    "C38_same_as_primitive"
   ],
   "note": ""
  },
  {
   "property": "C39",
   "status": "partial",
   "theorems": [
    "C39_select1_partial",
    "C39_select1_raw_partial",
    "C39_broadword_select_partial",
    "C39_select1_refuted",
    "C39_select1_u64_refuted",
    "C39_never_panics",
    "C39_beyond",
    "C39_next"
   ],
   "note": "True for every word and every r <= 127 (select1, select1_raw, Broadword::select1, and agreement with binary search over rank); false from r = 128 on (witness: Some(0)), and on 32-bit targets Broadword::select1 truncates its u64 index (witness). It never panics for any r; from 128 on the answer can be a position outside the word, and from 192 to 255 it is always Some(0) (C39_never_panics). For which words and r the right None is given, for every r from 64 on: C39_beyond; from 128 to 255 only for r = 128 and odd words (C39_next)."
  },
  {
   "property": "C40",
   "status": "partial",
   "theorems": [
    "C40_u_le8",
    "C40_u_nz8",
    "C40_le8_partial",
    "C40_le8_refuted"
   ],
   "note": "u_le8 and u_nz8 proved in full. le8 is false for lanes of opposite sign (witness: -128 <= 0); the exact result of every lane is proved, equal to the claim where the signs agree."
  },
  {
   "property": "C41",
   "status": "proved",
   "theorems": [
    "C41_write_int",
    "C41_write_int_be",
    "C41_read_int",
    "C41_read_int_be",
    "C41_queue_roundtrip"
   ],
   "note": ""
  },
  {
   "property": "C42",
   "status": "partial",
   "theorems": [
    "C42_zero_width_partial",
    "C42_zero_width_refuted",
    "C42_zero_width_checked"
   ],
   "note": "write_int(0, v) writes nothing everywhere, and so does write_int_be(0, v) in builds without overflow checks; with overflow checks write_int_be(0, v) panics (witness). (for all inputs: C42_zero_width_checked)."
  },
  {
   "property": "C43",
   "status": "proved",
   "theorems": [
    "C43_end_of_stream",
    "C43_queue"
   ],
   "note": ""
  },
  {
   "property": "C44",
   "status": "proved",
   "theorems": [
    "C44_file",
    "C44_bitvector",
    "C44_vec_bool"
   ],
   "note": ""
  },
  {
   "property": "C45",
   "status": "partial",
   "theorems": [
    "C45_read_all_partial",
    "C45_slice_partial",
    "C45_slice_refuted"
   ],
   "note": "True over every bit vector whose last, incomplete block can be read (C45_read_all_partial: Block slices and vectors, Vec<bool>, primitives, BitVector, IntVector); over a BitSlice exactly the bits lying in complete blocks can be read, the others panic (C45_slice_partial, witness)."
  },
  {
   "property": "C46",
   "status": "proved",
   "theorems": [
    "C46_unary"
   ],
   "note": ""
  },
  {
   "property": "C47",
   "status": "proved",
   "theorems": [
    "C47_gamma",
    "C47_delta",
    "C47_elias_generic",
    "C47_zero_panics"
   ],
   "note": ""
  },
  {
   "property": "C48",
   "status": "proved",
   "theorems": [
    "C48_omega",
    "C48_omega_words_exist"
   ],
   "note": ""
  },
  {
   "property": "C49",
   "status": "partial",
   "theorems": [
    "C49_omega_zero_refuted",
    "C49_zero_as_one"
   ],
   "note": "Refuted: Omega.encode(0) writes the word of 1, which decodes to 1 (witness). On every sink 0 is written exactly as 1 (C49_zero_as_one)."
  },
  {
   "property": "C50",
   "status": "proved",
   "theorems": [
    "C50_fibonacci",
    "C50_fibonacci_words",
    "C50_too_large",
    "C50_zero_panics"
   ],
   "note": ""
  },
  {
   "property": "C51",
   "status": "proved",
   "theorems": [
    "C51_comma",
    "C51_comma_words"
   ],
   "note": ""
  },
  {
   "property": "C52",
   "status": "partial",
   "theorems": [
    "C52_comma_terminates_partial",
    "C52_comma_terminates_refuted",
    "C52_base_one"
   ],
   "note": "True for every parameter but Comma(1) (and, without overflow checks, parameters congruent to 1 modulo 64); Comma(1) never terminates on a positive value (witness, for every amount of fuel). For all these parameters and all positive values it never terminates (C52_base_one)."
  },
  {
   "property": "C53",
   "status": "proved",
   "theorems": [
    "C53_lift0",
    "C53_max"
   ],
   "note": ""
  },
  {
   "property": "C54",
   "status": "proved",
   "theorems": [
    "C54_any_stream",
    "C54_queue",
    "C54_bit_buffer"
   ],
   "note": ""
  },
  {
   "property": "C55",
   "status": "proved",
   "theorems": [
    "C55_prefix_free"
   ],
   "note": ""
  },
  {
   "property": "C56",
   "status": "partial",
   "theorems": [
    "C56_truncation_partial",
    "C56_fibonacci_partial",
    "C56_fibonacci_refuted"
   ],
   "note": "True for unary, gamma, delta, omega, comma and what Lift0 and Elias build from them; for Fibonacci true once the prefix contains a one, refuted for prefixes of zeros, which decode as end of data (witness)."
  },
  {
   "property": "C57",
   "status": "partial",
   "theorems": [
    "C57_unary_gamma_delta",
    "C57_unchecked_builds_partial",
    "C57_omega_refuted",
    "C57_fibonacci_refuted",
    "C57_comma_refuted",
    "C57_comma_exact",
    "C57_comma_exact_all",
    "C57_fibonacci_exact",
    "C57_omega_exact",
    "C57_omega_exact_all",
    "C57_unary_gamma_delta_exact"
   ],
   "note": "Unary, gamma and delta never panic on streams below 2^64 bits; omega, Fibonacci and comma never panic in builds without overflow checks; with overflow checks each of them panics on some malformed stream (witnesses). Exactly which streams these are is proved for every code, parameter, target and length: C57_unary_gamma_delta_exact (2^64 zeros at the front), C57_comma_exact_all, C57_fibonacci_exact, C57_omega_exact_all (C57_omega_exact says the same in terms of the groups for 64-bit targets and streams below 2^32 bits)."
  },
  {
   "property": "C58",
   "status": "proved",
   "theorems": [
    "C58_any_sink",
    "C58_failing_sink"
   ],
   "note": ""
  },
  {
   "property": "C59",
   "status": "proved",
   "theorems": [
    "C59_stack_only",
    "C59_heap_bytes",
    "C59_vec",
    "C59_all"
   ],
   "note": ""
  },
  {
   "property": "C60",
   "status": "proved",
   "theorems": [
    "C60_jacobson_store",
    "C60_rank9_store",
    "C60_select_rank"
   ],
   "note": ""
  },
  {
   "property": "C61",
   "status": "proved",
   "theorems": [
    "C61_push_block",
    "C61_align_block"
   ],
   "note": ""
  },
  {
   "property": "C62",
   "status": "partial",
   "theorems": [
    "C62_wrapping_span_partial",
    "C62_wrapping_span_refuted",
    "C62_wrapped"
   ],
   "note": "True with overflow checks; refuted without (witness: the sum wraps and the bounds check passes). The result without checks is proved for all wrapping spans (C62_wrapped)."
  },
  {
   "property": "C63",
   "status": "partial",
   "theorems": [
    "C63_huge_block_index_partial",
    "C63_huge_block_index_refuted",
    "C63_slice_block_index_partial",
    "C63_slice_block_index_refuted",
    "C63_slice_alias",
    "C63_vec_bool_alias"
   ],
   "note": "True on 32-bit targets and whenever the bit position is representable (C12_vecbool_write_out_of_bounds, C63_slice_block_index_partial); refuted on 64-bit targets for Vec<bool> and for slices (witnesses: set_block(2^61, x) overwrites block 0, get_block(2^61) reads it). The aliasing is proved exactly (C63_slice_alias, C63_vec_bool_alias)."
  },
  {
   "property": "C64",
   "status": "partial",
   "theorems": [
    "C64_long_spans_partial",
    "C64_long_spans_refuted",
    "C64_long_write_refuted",
    "C64_two_blocks"
   ],
   "note": "True for spans reaching into a third block and, with overflow checks, for aligned spans; refuted otherwise (witnesses: bits silently dropped, both on read and write). What is read and written for all these spans is proved (C64_two_blocks)."
  },
  {
   "property": "C65",
   "status": "partial",
   "theorems": [
    "C65_random_support_partial",
    "C65_random_support_refuted",
    "C65_tail_panics"
   ],
   "note": "Spans inside the elements succeed; refuted for spans in the unused tail of the last block (witness: both accessors panic). Every span passing the last element panics (C65_tail_panics)."
  },
  {
   "property": "C66",
   "status": "proved",
   "theorems": [
    "C66_any_operation",
    "C66_push_bits",
    "C66_push_ints",
    "C66_shrink_to_fit"
   ],
   "note": ""
  },
  {
   "property": "C67",
   "status": "partial",
   "theorems": [
    "C67_write_int",
    "C67_read_int",
    "C67_read_int_be",
    "C67_read_stops",
    "C67_write_int_be_partial",
    "C67_write_int_be_full",
    "C67_write_int_be_refuted",
    "C67_queue_roundtrip"
   ],
   "note": "True for every value and width except write_int_be at the full width of the type, where the mask is negative and is shifted arithmetically; refuted there (witness: i8 64 reads back as 127), and what is written instead is proved."
  },
  {
   "property": "C68",
   "status": "proved",
   "theorems": [
    "C68_reads",
    "C68_writes",
    "C68_out_of_bounds"
   ],
   "note": ""
  },
  {
   "property": "C69",
   "status": "proved",
   "theorems": [
    "C69_bitvector_order",
    "C69_total_order",
    "C69_intvector_order",
    "C69_block_sized_order",
    "C69_different_widths",
    "C69_bitvector_hash",
    "C69_intvector_hash"
   ],
   "note": ""
  },
  {
   "property": "C70",
   "status": "proved",
   "theorems": [
    "C70_binary",
    "C70_to_string"
   ],
   "note": ""
  },
  {
   "property": "C71",
   "status": "proved",
   "theorems": [
    "C71_debug",
    "C71_decimal"
   ],
   "note": ""
  },
  {
   "property": "C72",
   "status": "proved",
   "theorems": [
    "C72_unary",
    "C72_gamma",
    "C72_delta",
    "C72_omega",
    "C72_comma",
    "C72_fibonacci",
    "C72_lift0"
   ],
   "note": ""
  },
  {
   "property": "C73",
   "status": "proved",
   "theorems": [
    "C73_alignment"
   ],
   "note": ""
  },
  {
   "property": "C74",
   "status": "proved",
   "theorems": [
    "C74_rank9",
    "C74_jacobson"
   ],
   "note": ""
  },
  {
   "property": "C75",
   "status": "partial",
   "theorems": [
    "C75_rank9_partial",
    "C75_rank9_ragged",
    "C75_jacobson_partial",
    "C75_jacobson_ragged",
    "C75_refuted"
   ],
   "note": "Holds for slices of whole blocks (C75_rank9_partial, C75_jacobson_partial; Jacobson if its directory can be allocated, see C31). Building over any other slice panics, proved for all such slices (\u2026_ragged), witness C75_refuted: the last block of a ragged slice cannot be read (C28)."
  },
  {
   "property": "C76",
   "status": "partial",
   "theorems": [
    "C76_words_partial",
    "C76_queue_partial",
    "C76_reencode_partial",
    "C76_comma_partial",
    "C76_comma_refuted",
    "C76_omega_refuted",
    "C76_omega32_refuted",
    "C76_fibonacci_refuted",
    "C76_omega_exact",
    "C76_comma_exact",
    "C76_comma_wide"
   ],
   "note": "True for unary, gamma, delta and Fibonacci in every build, for omega with overflow checks on 64-bit targets (streams below 2^32 bits), and for what Elias and Lift0 build from these (C76_words_partial, C76_queue_partial); decode-then-encode reproduces whole streams for all of them but Fibonacci (C76_reencode_partial). Comma skips leading zero digits and nothing else (C76_comma_partial, with overflow checks). Refuted, with witnesses, for comma, for omega without overflow checks, for omega on 32-bit targets, and for whole Fibonacci streams that end in zeroes. Streams of 2^64 bits and more are left out. What omega and comma (any number of bits) accept in every build and on every target, wrapping included, is characterised exactly (C76_omega_exact, C76_comma_exact, C76_comma_wide)."
  },
  {
   "property": "C77",
   "status": "proved",
   "theorems": [
    "C77_vector_base",
    "C77_equal"
   ],
   "note": ""
  },
  {
   "property": "C78",
   "status": "proved",
   "theorems": [
    "C78_bitvector",
    "C78_intvector"
   ],
   "note": ""
  },
  {
   "property": "C79",
   "status": "proved",
   "theorems": [
    "C79_any_stream",
    "C79_queue",
    "C79_bit_buffer"
   ],
   "note": ""
  },
  {
   "property": "C80",
   "status": "proved",
   "theorems": [
    "C80_floor_lg",
    "C80_ceil_lg",
    "C80_ceil_div_unchecked",
    "C80_ceil_div_checked",
    "C80_count_ones",
    "C80_select1",
    "C80_u_nz8",
    "C80_u_le8",
    "C80_code_decode",
    "C80_max_checked",
    "C80_max_elias",
    "C80_max_fibonacci",
    "C80_comma_unchecked",
    "C80_fibonacci_large",
    "C80_omega_unchecked"
   ],
   "note": "Inputs on which the property functions' own arithmetic overflows are covered by separate exact theorems (C80_floor_lg, C80_ceil_lg, C80_ceil_div_*, C80_max_*, C80_comma_unchecked, C80_omega_unchecked, C80_fibonacci_large)."
  },
  {
   "property": "C81",
   "status": "proved",
   "theorems": [
    "C81_any_function",
    "C81_fixed_function",
    "C81_monotone",
    "C81_instance",
    "C81_select_queries",
    "C81_jacobson_one_block",
    "C81_rank9_one_block"
   ],
   "note": ""
  },
  {
   "property": "C82",
   "status": "proved",
   "theorems": [
    "C82_writers",
    "C82_int_writers",
    "C82_queue_decides",
    "C82_two_sources",
    "C82_two_int_sources",
    "C82_bits_decide",
    "C82_readings",
    "C82_bit_buffer"
   ],
   "note": ""
  },
  {
   "property": "C83",
   "status": "proved",
   "theorems": [
    "C83_unary",
    "C83_lift0",
    "C83_elias",
    "C83_omega",
    "C83_fibonacci",
    "C83_comma",
    "C83_every_code",
    "C83_gamma",
    "C83_delta",
    "C83_rows_agree",
    "C83_terminates",
    "C83_prefix_decides"
   ],
   "note": ""
  },
  {
   "property": "C84",
   "status": "proved",
   "theorems": [
    "C84_unary",
    "C84_lift0",
    "C84_elias",
    "C84_omega",
    "C84_fibonacci",
    "C84_comma",
    "C84_every_code",
    "C84_rows_agree",
    "C84_gamma",
    "C84_delta",
    "C84_comma_reads_back",
    "C84_comma_round_trip",
    "C84_fails_clean"
   ],
   "note": ""
  },
  {
   "property": "C85",
   "status": "proved",
   "theorems": [
    "C85_blocks",
    "C85_bit_vector",
    "C85_int_vector",
    "C85_vec_bool",
    "C85_prim",
    "C85_slice",
    "C85_get_random",
    "C85_set_random"
   ],
   "note": ""
  },
  {
   "property": "C86",
   "status": "proved",
   "theorems": [
    "C86_meaning",
    "C86_panics",
    "C86_bit_vector",
    "C86_int_vector",
    "C86_iterators",
    "C86_stores",
    "C86_wrappers",
    "C86_wrappers_mut",
    "C86_defaults",
    "C86_rank",
    "C86_word_rank",
    "C86_select",
    "C86_search",
    "C86_buffer",
    "C86_read_int",
    "C86_write_int",
    "C86_codes",
    "C86_block_type",
    "C86_capacity",
    "C86_space",
    "C86_format",
    "C86_quickcheck"
   ],
   "note": ""
  },
  {
   "property": "C87",
   "status": "partial",
   "theorems": [
    "C87_bit_vector",
    "C87_int_vector",
    "C87_encoders",
    "C87_decoders_partial",
    "C87_omega_partial",
    "C87_omega_refuted",
    "C87_integers",
    "C87_blocks_partial",
    "C87_blocks_refuted",
    "C87_no_bits"
   ],
   "note": "Vectors, encoders, integers: in full. Decoders: every code but Omega in full (C87_decoders_partial); Omega agrees unless the 64-bit target reports the end of the input inside a code (C87_omega_partial), while it accepts some ill-formed input on 32-bit targets only (C87_omega_refuted). Blocks: every type but usize (C87_blocks_partial, C87_blocks_refuted)."
  },
  {
   "property": "C88",
   "status": "partial",
   "theorems": [
    "C88_same_vectors",
    "C88_same_traits",
    "C88_same_wrappers",
    "C88_bit_vector",
    "C88_int_vector",
    "C88_resize_refuted",
    "C88_int_resize_refuted",
    "C88_blocks",
    "C88_prim",
    "C88_vec_bool",
    "C88_vec_bool_refuted",
    "C88_vec_bool_push",
    "C88_slice",
    "C88_buffer",
    "C88_buffer_stores"
   ],
   "note": "What a panic leaves is proved exactly for every operation in every program, with the exceptions named in the statement: resize to ones (spec_bleft, C88_resize_refuted), Vec<bool> push_block (C88_vec_bool_push), Vec<bool>::set_block beyond 2^64 bits (C88_vec_bool_refuted), IntVector::resize within a block of 2^64 in release builds (C88_int_resize_refuted)."
  },
  {
   "property": "C89",
   "status": "proved",
   "theorems": [
    "C89_write_int",
    "C89_write_int_be",
    "C89_write_sint_be",
    "C89_read_int",
    "C89_read_sint",
    "C89_read_stops",
    "C89_wide_roundtrip",
    "C89_wide_be"
   ],
   "note": ""
  },
  {
   "property": "C90",
   "status": "proved",
   "theorems": [
    "C90_address",
    "C90_iterators_total",
    "C90_bit_iterators",
    "C90_int_iterators",
    "C90_debug_determines",
    "C90_debug_bit_vector",
    "C90_debug_int_vector",
    "C90_exhausted_differ"
   ],
   "note": ""
  },
  {
   "property": "C91",
   "status": "proved",
   "theorems": [
    "C91_get_bit",
    "C91_get_block",
    "C91_set_block",
    "C91_set_bit",
    "C91_push_bit",
    "C91_neither",
    "C91_neither_set"
   ],
   "note": ""
  },
  {
   "property": "C92",
   "status": "partial",
   "theorems": [
    "C92_rank9",
    "C92_jacobson_partial",
    "C92_shown",
    "C92_jacobson_refuted",
    "C92_select"
   ],
   "note": "Rank9 and select in full. JacobsonRank: answers in full; it can be built exactly when the ones shown by all blocks fit the number of bits taken from the length (C92_jacobson_partial); otherwise new panics (C92_jacobson_refuted)."
  },
  {
   "property": "C93",
   "status": "proved",
   "theorems": [
    "C93_defaults",
    "C93_defaults_mut",
    "C93_defaults_push",
    "C93_slice",
    "C93_slice_mut",
    "C93_buffer",
    "C93_buffer_mut",
    "C93_buffer_write",
    "C93_rank9",
    "C93_jacobson",
    "C93_select"
   ],
   "note": ""
  },
  {
   "property": "C94",
   "status": "proved",
   "theorems": [
    "C94_get_bit",
    "C94_get_bits",
    "C94_set_bit",
    "C94_set_bits",
    "C94_bit_vector_reads",
    "C94_int_vector_reads",
    "C94_bit_vector_writes",
    "C94_int_vector_writes",
    "C94_push_pop",
    "C94_buffer"
   ],
   "note": ""
  },
  {
   "property": "C95",
   "status": "proved",
   "theorems": [
    "C95_kraft",
    "C95_count",
    "C95_monotone",
    "C95_total"
   ],
   "note": ""
  },
  {
   "property": "C96",
   "status": "proved",
   "theorems": [
    "C96_reads",
    "C96_builds",
    "C96_ranks",
    "C96_selects",
    "C96_macros"
   ],
   "note": ""
  },
  {
   "property": "C97",
   "status": "proved",
   "theorems": [
    "C97_encode",
    "C97_decode",
    "C97_lists",
    "C97_buffer",
    "C97_select",
    "C97_search",
    "C97_bit_vector_programs",
    "C97_int_vector_programs",
    "C97_file_programs",
    "C97_defaults",
    "C97_formatters",
    "C97_self_check",
    "C97_encode_steps",
    "C97_search_steps",
    "C97_select_steps"
   ],
   "note": ""
  },
  {
   "property": "C98",
   "status": "proved",
   "theorems": [
    "C98_inside",
    "C98_bit",
    "C98_bits",
    "C98_block",
    "C98_new",
    "C98_cut"
   ],
   "note": ""
  },
  {
   "property": "C99",
   "status": "proved",
   "theorems": [
    "C99_read",
    "C99_write",
    "C99_crash",
    "C99_pieces"
   ],
   "note": ""
  },
  {
   "property": "C100",
   "status": "proved",
   "theorems": [
    "C100_store",
    "C100_bit_vector",
    "C100_int_vector"
   ],
   "note": ""
  },
  {
   "property": "C101",
   "status": "proved",
   "theorems": [
    "C101_int_vector",
    "C101_jacobson",
    "C101_jacobson_words",
    "C101_jacobson_bytes",
    "C101_rank9"
   ],
   "note": ""
  },
  {
   "property": "C102",
   "status": "proved",
   "theorems": [
    "C102_archive"
   ],
   "note": ""
  },
  {
   "property": "C103",
   "status": "proved",
   "theorems": [
    "C103_bit_vector",
    "C103_bit_vector_eq",
    "C103_int_vector",
    "C103_int_vector_eq"
   ],
   "note": ""
  },
  {
   "property": "C104",
   "status": "proved",
   "theorems": [
    "C104_sessions",
    "C104_bit_vector",
    "C104_replace"
   ],
   "note": ""
  },
  {
   "property": "C105",
   "status": "proved",
   "theorems": [
    "C105_decoding",
    "C105_every_code",
    "C105_no_lookahead",
    "C105_prefix",
    "C105_progress",
    "C105_unchecked"
   ],
   "note": ""
  },
  {
   "property": "C106",
   "status": "proved",
   "theorems": [
    "C106_encoding",
    "C106_every_value",
    "C106_round_trip",
    "C106_no_round_trip",
    "C106_codes"
   ],
   "note": ""
  },
  {
   "property": "C107",
   "status": "proved",
   "theorems": [
    "C107_sent",
    "C107_received",
    "C107_exactly",
    "C107_cut"
   ],
   "note": ""
  },
  {
   "property": "C108",
   "status": "proved",
   "theorems": [
    "C108_tail",
    "C108_fibonacci",
    "C108_lost",
    "C108_unary",
    "C108_gamma"
   ],
   "note": ""
  },
  {
   "property": "C109",
   "status": "proved",
   "theorems": [
    "C109_sparse"
   ],
   "note": ""
  },
  {
   "property": "C110",
   "status": "proved",
   "theorems": [
    "C110_select",
    "C110_wavelet"
   ],
   "note": ""
  },
  {
   "property": "C111",
   "status": "proved",
   "theorems": [
    "C111_combine",
    "C111_short",
    "C111_complement",
    "C111_size",
    "C111_distance",
    "C111_subset",
    "C111_bit_vector"
   ],
   "note": ""
  },
  {
   "property": "C112",
   "status": "proved",
   "theorems": [
    "C112_elias_fano"
   ],
   "note": ""
  },
  {
   "property": "C113",
   "status": "proved",
   "theorems": [
    "C113_first",
    "C113_absent",
    "C113_last",
    "C113_select_absent",
    "C113_select_last"
   ],
   "note": ""
  },
  {
   "property": "C114",
   "status": "partial",
   "theorems": [
    "C114_lglg_refuted"
   ],
   "note": "False of the code (C114_lglg_refuted): binary search takes lg n + 2 rank queries when only the last position is large enough. The exact cost is C113, the upper bound C81_select_queries."
  },
  {
   "property": "C115",
   "status": "proved",
   "theorems": [
    "C115_tree"
   ],
   "note": ""
  },
  {
   "property": "C116",
   "status": "proved",
   "theorems": [
    "C116_low_mask",
    "C116_nth_mask",
    "C116_logarithms",
    "C116_bit_index",
    "C116_address",
    "C116_order"
   ],
   "note": ""
  },
  {
   "property": "C117",
   "status": "partial",
   "theorems": [
    "C117_int_iter",
    "C117_bit_iter",
    "C117_collect",
    "C117_nth",
    "C117_rev",
    "C117_skip",
    "C117_skip_back",
    "C117_take",
    "C117_step_by",
    "C117_step_back",
    "C117_map",
    "C117_filter",
    "C117_enumerate",
    "C117_zip",
    "C117_chain",
    "C117_pipeline",
    "C117_skip_back_refuted",
    "C117_step_len_refuted",
    "C117_both_ends",
    "C117_int_ends",
    "C117_bit_ends",
    "C117_skip_ends",
    "C117_step_ends",
    "C117_take_ends",
    "C117_zip_ends",
    "C117_chain_ends",
    "C117_filter_ends",
    "C117_ends_pipeline"
   ],
   "note": "The items are right for all pipelines (C117_collect with one theorem per adaptor, C117_pipeline). False of the code: next_back of skip and len of step_by after the adaptor's nth went beyond the end (C117_skip_back_refuted, C117_step_len_refuted). Not modelled: fold overrides of the standard library."
  },
  {
   "property": "C118",
   "status": "proved",
   "theorems": [
    "C118_level_order",
    "C118_louds"
   ],
   "note": ""
  },
  {
   "property": "C119",
   "status": "proved",
   "theorems": [
    "C119_word",
    "C119_truncated",
    "C119_too_large",
    "C119_any_input",
    "C119_any_stream",
    "C119_prefix_free",
    "C119_cut",
    "C119_unary"
   ],
   "note": ""
  },
  {
   "property": "C120",
   "status": "proved",
   "theorems": [
    "C120_loaded",
    "C120_saved",
    "C120_unsorted",
    "C120_cut",
    "C120_intersection",
    "C120_unary"
   ],
   "note": ""
  },
  {
   "property": "C121",
   "status": "proved",
   "theorems": [
    "C121_sieve",
    "C121_primes"
   ],
   "note": ""
  },
  {
   "property": "C122",
   "status": "proved",
   "theorems": [
    "C122_count",
    "C122_extract"
   ],
   "note": ""
  },
  {
   "property": "C123",
   "status": "proved",
   "theorems": [
    "C123_locate"
   ],
   "note": ""
  },
  {
   "property": "C124",
   "status": "proved",
   "theorems": [
    "C124_dac"
   ],
   "note": ""
  },
  {
   "property": "C125",
   "status": "proved",
   "theorems": [
    "C125_runs"
   ],
   "note": ""
  },
  {
   "property": "C126",
   "status": "proved",
   "theorems": [
    "C126_loaded",
    "C126_refused"
   ],
   "note": ""
  }
 ]
}
