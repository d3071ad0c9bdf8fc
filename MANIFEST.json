{
 "claims": [
  {
   "property": "C01",
   "status": "proved",
   "theorems": [
    "find_if_correct",
    "find_if_not_correct",
    "find_correct"
   ],
   "note": ""
  },
  {
   "property": "C02",
   "status": "proved",
   "theorems": [
    "linear_search_depth",
    "linear_search_depth_64bit"
   ],
   "note": "depth of the algorithm's own recursion; calls of next/distance/the predicate are not counted"
  },
  {
   "property": "C03",
   "status": "proved",
   "theorems": [
    "all_of_correct",
    "any_of_correct",
    "none_of_correct",
    "all_any_none_of_equal_correct"
   ],
   "note": ""
  },
  {
   "property": "C04",
   "status": "partial",
   "theorems": [
    "one_of_refuted",
    "one_of_partial"
   ],
   "note": "false of the code: the random-access version accepts [true;true;true;false]; proved for the input version, and for random access when at most one element matches"
  },
  {
   "property": "C05",
   "status": "proved",
   "theorems": [
    "count_if_correct",
    "count_correct",
    "count_if_split"
   ],
   "note": ""
  },
  {
   "property": "C06",
   "status": "proved",
   "theorems": [
    "mismatch_correct",
    "mismatch2_correct",
    "equal_correct",
    "equal2_correct"
   ],
   "note": ""
  },
  {
   "property": "C07",
   "status": "proved",
   "theorems": [
    "adjacent_find_correct"
   ],
   "note": ""
  },
  {
   "property": "C08",
   "status": "proved",
   "theorems": [
    "find_first_of_correct"
   ],
   "note": ""
  },
  {
   "property": "C09",
   "status": "proved",
   "theorems": [
    "search_correct"
   ],
   "note": ""
  },
  {
   "property": "C10",
   "status": "proved",
   "theorems": [
    "find_end_correct",
    "find_end_empty_pattern"
   ],
   "note": ""
  },
  {
   "property": "C11",
   "status": "partial",
   "theorems": [
    "search_n_partial",
    "search_n_refuted"
   ],
   "note": "proved for n >= 1; for n = 0 the code returns last instead of first"
  },
  {
   "property": "C12",
   "status": "proved",
   "theorems": [
    "lower_bound_correct",
    "upper_bound_correct",
    "equal_range_correct",
    "sorted_bounds_correct"
   ],
   "note": ""
  },
  {
   "property": "C13",
   "status": "proved",
   "theorems": [
    "is_partitioned_correct",
    "partition_point_correct"
   ],
   "note": "partition_point: both the C++11 recursion and the C++14 loop"
  },
  {
   "property": "C14",
   "status": "proved",
   "theorems": [
    "is_sorted_correct",
    "is_sorted_until_correct"
   ],
   "note": ""
  },
  {
   "property": "C15",
   "status": "proved",
   "theorems": [
    "is_permutation_correct",
    "is_permutation2_correct"
   ],
   "note": ""
  },
  {
   "property": "C16",
   "status": "proved",
   "theorems": [
    "lexicographical_compare_correct",
    "tristate_lexicographical_compare_correct",
    "lexicographical_compare_strict_weak_order"
   ],
   "note": ""
  },
  {
   "property": "C17",
   "status": "proved",
   "theorems": [
    "min_element_correct",
    "max_element_correct",
    "minmax_element_correct"
   ],
   "note": ""
  },
  {
   "property": "C18",
   "status": "proved",
   "theorems": [
    "includes_correct"
   ],
   "note": ""
  },
  {
   "property": "C19",
   "status": "partial",
   "theorems": [
    "is_heap_refuted",
    "is_heap_partial",
    "is_heap_until_partial",
    "is_heap_until_strict_partial"
   ],
   "note": "false of the code when a child is equivalent to its parent ([5;5]); true is only returned for heaps, and the answer is exact without such ties"
  },
  {
   "property": "C20",
   "status": "proved",
   "theorems": [
    "rotate_correct",
    "rotate_copy_correct"
   ],
   "note": ""
  },
  {
   "property": "C21",
   "status": "proved",
   "theorems": [
    "reverse_correct",
    "reverse_copy_correct",
    "copy_correct",
    "move_correct",
    "copy_n_correct",
    "copy_if_correct",
    "copy_while_correct",
    "copy_until_correct",
    "copy_backward_correct",
    "fill_correct",
    "fill_n_correct",
    "generate_correct",
    "generate_n_correct",
    "transform_correct",
    "transform2_correct",
    "replace_correct",
    "replace_if_correct",
    "replace_copy_if_correct",
    "swap_ranges_correct",
    "for_each_correct"
   ],
   "note": ""
  },
  {
   "property": "C22",
   "status": "partial",
   "theorems": [
    "move_backward_refuted",
    "move_backward_partial"
   ],
   "note": "false of the code on every non-empty range: it decrements first instead of last and runs off the front of the sequence; holds for the empty range only"
  },
  {
   "property": "C23",
   "status": "partial",
   "theorems": [
    "for_each_n_refuted",
    "for_each_n_partial"
   ],
   "note": "false of the code for every n > 0: the counter is never incremented and the loop runs off the end; holds for n = 0 only"
  },
  {
   "property": "C24",
   "status": "proved",
   "theorems": [
    "remove_if_correct",
    "remove_correct",
    "remove_copy_if_correct"
   ],
   "note": ""
  },
  {
   "property": "C25",
   "status": "proved",
   "theorems": [
    "unique_correct",
    "unique_copy_correct"
   ],
   "note": ""
  },
  {
   "property": "C26",
   "status": "proved",
   "theorems": [
    "partition_correct",
    "partition_copy_correct"
   ],
   "note": ""
  },
  {
   "property": "C27",
   "status": "partial",
   "theorems": [
    "stable_partition_refuted",
    "stable_partition_partial",
    "stable_partition_moves_nothing",
    "gather_partial"
   ],
   "note": "false of the code: ranges of length one return first even if the element satisfies the predicate, so nothing is ever moved; holds for ranges already partitioned"
  },
  {
   "property": "C38",
   "status": "proved",
   "theorems": [
    "shuffle_correct",
    "random_shuffle_correct"
   ],
   "note": ""
  },
  {
   "property": "C39",
   "status": "partial",
   "theorems": [
    "random_swap_refuted",
    "random_swap_partial"
   ],
   "note": "false of the code: indices are drawn from 0..d inclusive, d being one past the end; holds when the upper bound is never drawn"
  },
  {
   "property": "C40",
   "status": "proved",
   "theorems": [
    "clamp_correct",
    "clamp_range_correct"
   ],
   "note": ""
  },
  {
   "property": "C28",
   "status": "proved",
   "theorems": [
    "merge_correct",
    "merge_of_perm",
    "merge_set_unique"
   ],
   "note": ""
  },
  {
   "property": "C29",
   "status": "proved",
   "theorems": [
    "set_union_correct",
    "set_intersection_correct",
    "set_difference_correct",
    "set_symmetric_difference_correct",
    "set_counts",
    "merge_set_unique"
   ],
   "note": ""
  },
  {
   "property": "C30",
   "status": "proved",
   "theorems": [
    "inplace_merge_correct",
    "merge_of_perm",
    "merge_set_unique"
   ],
   "note": ""
  },
  {
   "property": "C41",
   "status": "proved",
   "theorems": [
    "find_intersection_correct",
    "find_difference_correct",
    "find_symmetric_difference_correct",
    "merge_range_correct",
    "set_union_range_correct",
    "set_intersection_range_correct",
    "set_difference_range_correct",
    "set_symmetric_difference_range_correct"
   ],
   "note": ""
  },
  {
   "property": "C31",
   "status": "proved",
   "theorems": [
    "push_heap_correct",
    "pop_heap_correct",
    "sort_heap_correct"
   ],
   "note": ""
  },
  {
   "property": "C32",
   "status": "partial",
   "theorems": [
    "make_heap_refuted",
    "make_heap_partial"
   ],
   "note": "false of the code: push_heap_back is given the length i instead of i + 1, so [1;2] stays as it is; the range is always permuted, and descending ranges are left as the heaps they are"
  },
  {
   "property": "C33",
   "status": "partial",
   "theorems": [
    "partial_sort_refuted",
    "partial_sort_partial"
   ],
   "note": "false of the code because of make_heap; holds whenever make_heap makes a heap of [first, middle)"
  },
  {
   "property": "C34",
   "status": "proved",
   "theorems": [
    "sort_correct"
   ],
   "note": ""
  },
  {
   "property": "C35",
   "status": "proved",
   "theorems": [
    "nth_element_correct"
   ],
   "note": ""
  },
  {
   "property": "C36",
   "status": "partial",
   "theorems": [
    "stable_sort_refuted",
    "stable_sort_partial"
   ],
   "note": "false of the code: the insertion sort for short ranges is the unguarded one throughout, so it runs off the front as soon as an element is less than the first ([2;1]); whenever it does not, the result is the stable sort"
  },
  {
   "property": "C37",
   "status": "proved",
   "theorems": [
    "next_permutation_correct",
    "prev_permutation_correct",
    "next_then_prev",
    "prev_then_next",
    "next_permutation_visits_all",
    "next_permutation_visits_once"
   ],
   "note": ""
  },
  {
   "property": "C42",
   "status": "proved",
   "theorems": [
    "popcount_correct",
    "parity_correct"
   ],
   "note": ""
  },
  {
   "property": "C43",
   "status": "partial",
   "theorems": [
    "leading_trailing_zeros",
    "cntl1_refuted",
    "cntl1_partial",
    "cntt1_refuted",
    "cntt1_partial"
   ],
   "note": "clz/ctz/cntl0/cntt0 proved; cntl1 is wrong for unsigned types with the compiler's builtins (clrsb counts redundant sign bits) and for types narrower than int, cntt1 for -1 in signed types narrower than int"
  },
  {
   "property": "C44",
   "status": "proved",
   "theorems": [
    "bit_length_correct",
    "bit_length_negative",
    "bit_reverse_correct",
    "bit_reverse_involutive",
    "bit_reverse_in_correct",
    "bit_reverse_in_zero"
   ],
   "note": ""
  },
  {
   "property": "C45",
   "status": "partial",
   "theorems": [
    "rot_refuted",
    "rot_partial"
   ],
   "note": "a shift of 0 is undefined for types at least as wide as int, and so are rotations of signed operands whose left shift is undefined before C++20; everything else proved"
  },
  {
   "property": "C46",
   "status": "partial",
   "theorems": [
    "single_bit_correct",
    "bit_range_refuted",
    "bit_range_partial"
   ],
   "note": "single-bit operations proved; the range operations shift by the full width (or overflow) at the topmost positions of types at least as wide as int"
  },
  {
   "property": "C47",
   "status": "proved",
   "theorems": [
    "rightmost_correct"
   ],
   "note": ""
  },
  {
   "property": "C48",
   "status": "partial",
   "theorems": [
    "carry_to_exp2_unsigned",
    "carry_to_exp2_signed_refuted",
    "carry_to_exp2_signed_partial"
   ],
   "note": "unsigned proved; signed types at least as wide as int negate MIN for MIN < x < MIN / 2"
  },
  {
   "property": "C62",
   "status": "proved",
   "theorems": [
    "shift_correct"
   ],
   "note": ""
  },
  {
   "property": "C63",
   "status": "proved",
   "theorems": [
    "accumulate_correct",
    "reduce_correct",
    "transform_reduce_correct",
    "transform_reduce2_correct"
   ],
   "note": ""
  },
  {
   "property": "C64",
   "status": "proved",
   "theorems": [
    "partial_sum_correct",
    "adjacent_difference_correct",
    "sum_difference_inverse",
    "iota_correct"
   ],
   "note": ""
  },
  {
   "property": "C65",
   "status": "partial",
   "theorems": [
    "inclusive_scan_correct",
    "transform_inclusive_scan_correct",
    "exclusive_scan_refuted",
    "exclusive_scan_empty",
    "exclusive_scan_partial",
    "transform_exclusive_scan_partial",
    "inclusive_scan_init_refuted",
    "inclusive_scan_init_partial",
    "transform_inclusive_scan_init_partial"
   ],
   "note": "false of the code: exclusive_scan overwrites *result before reading *first, so it is wrong in place, and writes init for an empty range; with an initial value inclusive_scan writes init first and so N + 1 elements; the scans without an initial value are proved, the others for disjoint non-empty ranges"
  },
  {
   "property": "C49",
   "status": "proved",
   "theorems": [
    "make_sha1_correct"
   ],
   "note": ""
  },
  {
   "property": "C50",
   "status": "proved",
   "theorems": [
    "make_md5_correct"
   ],
   "note": ""
  },
  {
   "property": "C51",
   "status": "proved",
   "theorems": [
    "sha1_pieces_correct",
    "sha1_reset_correct",
    "md5_pieces_correct",
    "md5_reset_correct",
    "sum_pieces_correct",
    "xor_pieces_correct"
   ],
   "note": "both interfaces in any mixture; the mutating md5::process_block (and process_bytes, process_range) increments a const& iterator and does not compile when used, so md5 has only the mutating process_bit, process_bits and process_byte; process_bits for at most 32 bits"
  },
  {
   "property": "C52",
   "status": "proved",
   "theorems": [
    "make_sum_correct",
    "make_xor8_correct"
   ],
   "note": ""
  },
  {
   "property": "C66",
   "status": "partial",
   "theorems": [
    "get_byte_partial",
    "set_byte_partial",
    "get_byte_refuted"
   ],
   "note": "false of the code for types wider than int: the mask UCHAR_MAX << n is computed in int, so the shift is undefined for the bytes beyond its width; proved for all types not wider than int"
  },
  {
   "property": "C67",
   "status": "partial",
   "theorems": [
    "bytes_iterator_forward_correct",
    "bytes_iterator_back_partial",
    "bytes_iterator_back_refuted"
   ],
   "note": "false of the code: -- never undoes ++ and - never undoes + across an element boundary (unsigned arithmetic, and the size is added unconditionally); going forward is proved"
  },
  {
   "property": "C53",
   "status": "partial",
   "theorems": [
    "exec_runs_partial",
    "exec_only_partial",
    "exec_minus_partial",
    "exec_refuted"
   ],
   "note": "False as stated: the branch for '-' tests for '+', so exec ignores '-' (exec_refuted, exec_minus_partial). Proved, both directions, for programs without '-'; nothing is proved once input is read to a cell off the tape."
  },
  {
   "property": "C54",
   "status": "proved",
   "theorems": [
    "is_well_formed_correct",
    "balanced_text_correct",
    "jump_end_correct",
    "jump_start_correct",
    "exec_safe_correct"
   ],
   "note": ""
  },
  {
   "property": "C55",
   "status": "proved",
   "theorems": [
    "strlen_correct",
    "strlen_n_correct",
    "strchr_correct",
    "strrchr_correct",
    "memchr_correct"
   ],
   "note": "Results are first_of/last_of/length statements about the characters before the terminator; no assumption about the array after the terminator, so no over-read."
  },
  {
   "property": "C56",
   "status": "partial",
   "theorems": [
    "strcmp_partial",
    "strcmp_compares_plain_char",
    "strcmp_refuted",
    "strncmp_partial",
    "strncmp_compares_plain_char",
    "strncmp_refuted",
    "memcmp_correct"
   ],
   "note": "False in the code for strcmp/strncmp: characters are compared as (signed) char, so strings with characters above 127 compare wrongly; proved for 7-bit characters, memcmp proved in full. strcoll has the text of strcmp."
  },
  {
   "property": "C57",
   "status": "proved",
   "theorems": [
    "strspn_correct",
    "strcspn_correct",
    "strpbrk_correct"
   ],
   "note": ""
  },
  {
   "property": "C58",
   "status": "partial",
   "theorems": [
    "strstr_partial",
    "strstr_refuted"
   ],
   "note": "False in the code when both strings are empty (returns null); proved in all other cases."
  },
  {
   "property": "C59",
   "status": "partial",
   "theorems": [
    "strcpy_correct",
    "strncpy_correct",
    "strcat_refuted",
    "strcat_overrun_refuted",
    "strncat_partial",
    "strncat_refuted"
   ],
   "note": "strcpy and strncpy proved. strcat appends after the terminator (off by one) so it never appends; strncat writes a second terminator when the source is shorter than n."
  },
  {
   "property": "C60",
   "status": "partial",
   "theorems": [
    "memcpy_correct",
    "memmove_refuted",
    "memmove_underrun_refuted",
    "memset_correct"
   ],
   "note": "memcpy and memset proved. memmove calls copy_backward with the start of the destination as its end: it writes the n bytes before the destination."
  },
  {
   "property": "C61",
   "status": "partial",
   "theorems": [
    "str_to_int_signed_partial",
    "str_to_int_minus_max_refuted",
    "str_to_int_zero_x_refuted",
    "str_to_int_unsigned_partial",
    "str_to_int_unsigned_minus_refuted",
    "ascii_to_int_signed_partial",
    "ascii_to_int_minus_max_refuted",
    "ascii_to_int_unsigned_partial"
   ],
   "note": "Proved for all strings, bases and types with three exclusions, each of which is refuted: minus the maximum of a signed type is clamped to the minimum; 0x is skipped in every base, not only 0 and 16; unsigned conversions stop at a minus sign. The overloads with a non-null endptr call the C library and are not modelled."
  },
  {
   "property": "C68",
   "status": "partial",
   "theorems": [
    "isalnum_correct",
    "isalpha_correct",
    "isblank_correct",
    "iscntrl_correct",
    "isdigit_correct",
    "isgraph_correct",
    "islower_correct",
    "isprint_correct",
    "ispunct_correct",
    "isspace_correct",
    "isupper_correct",
    "isxdigit_correct",
    "tolower_correct",
    "toupper_correct",
    "isclassified_refuted"
   ],
   "note": "Everything is proved for all characters except isclassified, which is refuted: it is true of every ASCII character whatever the mask."
  },
  {
   "property": "C69",
   "status": "partial",
   "theorems": [
    "int_to_string_partial",
    "int_to_string_min_refuted",
    "int_to_string_letters_refuted",
    "int_to_string_round_trip_partial",
    "int_to_string_round_trip_refuted"
   ],
   "note": "Proved for the bases 2..10 and all types of at most 64 bits, for the most negative value in base 10 only. Refuted: the most negative value in base 2 and digits above 9 are undefined (failed assertion or overflow), and minus the maximum reads back as the minimum. The most negative value in the bases 3..9 is not covered (it fails in base 8 for 16 and 64 bits too)."
  },
  {
   "property": "C70",
   "status": "partial",
   "theorems": [
    "digits_to_int_partial",
    "digits_to_int_refuted"
   ],
   "note": "True for one and two digits, refuted for more: the digits before the last are all multiplied by ten only."
  },
  {
   "property": "C71",
   "status": "proved",
   "theorems": [
    "gcd_correct",
    "gcd_narrow_correct",
    "gcd_min_undefined",
    "lcm_correct"
   ],
   "note": "For the most negative value of int and wider types gcd is undefined (abs overflows), as the standard allows."
  },
  {
   "property": "C72",
   "status": "proved",
   "theorems": [
    "rational_make_correct",
    "rational_make_zero_correct",
    "rational_of_int_correct",
    "rational_add_correct",
    "rational_sub_correct",
    "rational_mul_correct",
    "rational_div_correct",
    "rational_add_defined",
    "rational_mul_defined",
    "rational_div_defined",
    "rational_neg_correct",
    "rational_abs_correct",
    "rational_inc_correct",
    "rational_dec_correct",
    "rational_inc_defined",
    "rational_dec_defined"
   ],
   "note": "For signed IntType of at least the width of int. Operators with an integer operand convert it (of_int) and are covered by it."
  },
  {
   "property": "C73",
   "status": "partial",
   "theorems": [
    "rational_assign_partial",
    "rational_mul_assign_self_correct",
    "rational_add_assign_self_refuted",
    "rational_sub_assign_self_refuted",
    "rational_div_assign_self_refuted"
   ],
   "note": "Proved for distinct operands and for x *= x. Refuted for x += x, x -= x and x /= x: the operators read rhs after modifying *this."
  },
  {
   "property": "C74",
   "status": "proved",
   "theorems": [
    "rational_eq_correct",
    "rational_less_correct",
    "rational_others_correct"
   ],
   "note": ""
  },
  {
   "property": "C75",
   "status": "partial",
   "theorems": [
    "rational_eq_int_correct",
    "rational_less_int_partial",
    "rational_int_less_partial",
    "rational_others_int_partial",
    "rational_less_int_refuted",
    "rational_int_less_refuted"
   ],
   "note": "False in the code for negative fractions: the recursive call swaps two arguments, so x < n is computed as floor(x) + den < n. Proved to be right outside, and wrong inside, the window floor(x) < n <= floor(x) + den."
  },
  {
   "property": "C76",
   "status": "proved",
   "theorems": [
    "const_mod_add_correct",
    "const_mod_mult_correct",
    "const_mod_mult_add_correct",
    "const_mod_mult_undefined",
    "const_mod_pow_correct"
   ],
   "note": ""
  },
  {
   "property": "C77",
   "status": "proved",
   "theorems": [
    "const_mod_invert_correct",
    "inverse_mod_unique",
    "inversive_step_correct",
    "inversive_step_zero_correct"
   ],
   "note": ""
  },
  {
   "property": "C78",
   "status": "proved",
   "theorems": [
    "lcg_seed_correct",
    "lcg_step_correct",
    "lcg_step_undefined",
    "lcg_run_correct",
    "lcg_range_correct",
    "minstd_correct"
   ],
   "note": "Seeding from seed sequences and streams is not modelled."
  },
  {
   "property": "C79",
   "status": "partial",
   "theorems": [
    "lcg_discard_partial",
    "lcg_discard_one_refuted",
    "lcg_discard_refuted"
   ],
   "note": "Proved for every multiplicative engine and for mixed ones with (a-1)/gcd(a-1,m) prime to m and a^z not a multiple of m. Refuted otherwise: a = 1 divides by zero, and in the other cases a wrong state results."
  },
  {
   "property": "C80",
   "status": "partial",
   "theorems": [
    "rand48_seed_correct",
    "rand48_partial",
    "rand48_refuted"
   ],
   "note": "Seed and state are right; the value is refuted: the state is truncated to 32 bits before the shift, so only 15 of the 31 bits are returned."
  },
  {
   "property": "C81",
   "status": "proved",
   "theorems": [
    "additive_combine_correct",
    "ecuyer1988_correct"
   ],
   "note": ""
  },
  {
   "property": "C82",
   "status": "proved",
   "theorems": [
    "shuffle_order_correct"
   ],
   "note": "For tables with k * (max - min + 1) < 2^64; otherwise the code asserts."
  },
  {
   "property": "C83",
   "status": "proved",
   "theorems": [
    "mt_correct",
    "mt_step_correct",
    "mt_range_correct",
    "mt_r_zero_refuted"
   ],
   "note": "For 1 <= r (for r = 0, which the standard allows, the code is refuted), m < n and shifts below the width; seed sequences are not modelled."
  },
  {
   "property": "C84",
   "status": "partial",
   "theorems": [
    "mt_cxx11_refuted"
   ],
   "note": "False in the code: the shift binds tighter than the or in twist_*, the old instead of the new words are used from index n - m on, and the tempering steps are nested instead of chained."
  },
  {
   "property": "C85",
   "status": "proved",
   "theorems": [
    "mt_equal_correct",
    "mt_equal_future_correct"
   ],
   "note": "C++14 version; for m >= 2 and the top bit of a set, as in all predefined engines."
  },
  {
   "property": "C86",
   "status": "partial",
   "theorems": [
    "mt_stream_refuted"
   ],
   "note": "False in the code: the first word is written twice. Only engines at the end of a block are modelled."
  },
  {
   "property": "C87",
   "status": "partial",
   "theorems": [
    "lfsr_partial",
    "lfsr_wide_partial",
    "lfsr_range_partial",
    "lfsr_range_refuted"
   ],
   "note": "Proved for words as wide as the type, from any word that obeys the recurrence, and from any word at all if w - k <= k - s - q (true of taus88). In a wider type only the lower w bits are right, and the range is refuted."
  },
  {
   "property": "C88",
   "status": "partial",
   "theorems": [
    "lfsr_seed_partial",
    "lfsr_alive_correct",
    "lfsr_seed_refuted"
   ],
   "note": "Proved for w - k <= 30; refuted beyond, where the int literal 1 is shifted into or past its sign bit."
  },
  {
   "property": "C89",
   "status": "partial",
   "theorems": [
    "xor_combine_partial",
    "xor_combine_paths_refuted",
    "xor_combine_range_refuted"
   ],
   "note": "Proved for two engines with the same result type. Refuted: the const operator shifts the second value in its own type, and max() ignores the shifts."
  },
  {
   "property": "C90",
   "status": "proved",
   "theorems": [
    "taus88_correct",
    "taus88_run_correct"
   ],
   "note": "The example checks the 10000th output against the value Boost documents."
  },
  {
   "property": "C91",
   "status": "partial",
   "theorems": [
    "uniform_int_range_partial",
    "uniform_int_negative_refuted",
    "uniform_int_power_refuted"
   ],
   "note": "Proved for all types at least as wide as int, unless a negative bound meets a narrower engine, or the number of results is a power of the number of engine values and lo is not 0. In both cases the claim is refuted: results are not sign-extended, or lo is not added."
  },
  {
   "property": "C92",
   "status": "partial",
   "theorems": [
    "uniform_int_correct_partial",
    "uniform_int_unbiased_partial"
   ],
   "note": "Proved under the conditions of C91: a length-preserving bijection between the sequences of engine values for x and those for y. Where C91 is refuted this fails too."
  },
  {
   "property": "C93",
   "status": "partial",
   "theorems": [
    "uniform_int_paths_partial",
    "uniform_int_paths_refuted"
   ],
   "note": "Proved unless the number of results, or the quotient drawn last, equals the number of engine values; then the non-const overload throws an engine value away."
  },
  {
   "property": "C94",
   "status": "partial",
   "theorems": [
    "smallint_correct_partial",
    "smallint_balanced",
    "smallint_range_refuted",
    "smallint_overflow_refuted"
   ],
   "note": "Proved unless the range of the engine is cut when converted to the result type, or range + 1 overflows in a signed engine type; both are refuted."
  },
  {
   "property": "C95",
   "status": "proved",
   "theorems": [
    "bitset_and",
    "bitset_or",
    "bitset_xor",
    "bitset_flip_all",
    "bitset_set_all",
    "bitset_reset_all"
   ],
   "note": ""
  },
  {
   "property": "C96",
   "status": "proved",
   "theorems": [
    "bitset_left_shift",
    "bitset_right_shift"
   ],
   "note": ""
  },
  {
   "property": "C97",
   "status": "proved",
   "theorems": [
    "bitset_set_bit",
    "bitset_reset_bit",
    "bitset_flip_bit",
    "bitset_test_bit"
   ],
   "note": ""
  },
  {
   "property": "C98",
   "status": "proved",
   "theorems": [
    "bitset_equal",
    "bitset_any",
    "bitset_none",
    "bitset_all",
    "bitset_count"
   ],
   "note": ""
  },
  {
   "property": "C99",
   "status": "partial",
   "theorems": [
    "bitset_to_ulong",
    "bitset_to_ullong",
    "bitset_of_ullong_partial",
    "bitset_of_ullong_refuted"
   ],
   "note": "The constructor is refuted for N > 64 with an unsigned long of 64 bits: it shifts val by 64, which is undefined."
  },
  {
   "property": "C100",
   "status": "proved",
   "theorems": [
    "bitset_of_string",
    "bitset_to_string",
    "bitset_string_round_trip"
   ],
   "note": ""
  },
  {
   "property": "C101",
   "status": "partial",
   "theorems": [
    "string_default_empty",
    "string_widened",
    "string_from_literal",
    "string_from_pointer",
    "string_filled",
    "string_from_range_ra",
    "string_from_range_in",
    "string_from_substring_partial",
    "string_from_substring_refuted"
   ],
   "note": "All constructors are proved, the one from a substring for pos <= str.size(). Beyond it no exception is thrown: size() - pos wraps around, and the new string has a size greater than its capacity."
  },
  {
   "property": "C102",
   "status": "partial",
   "theorems": [
    "append_pointer",
    "append_c_string",
    "append_other_string",
    "append_substring_partial",
    "append_substring_refuted",
    "append_fill_partial",
    "append_fill_refuted",
    "append_random_access_range",
    "push_back_appends"
   ],
   "note": "Sources inside the string included. append(str, str.size(), n) throws out_of_range where it should append nothing; append(n, c) with size() + n beyond the maximum of size_type passes the length check and writes out of bounds."
  },
  {
   "property": "C103",
   "status": "partial",
   "theorems": [
    "assign_pointer_partial",
    "assign_c_string_partial",
    "assign_substring_partial",
    "assign_string_partial",
    "assign_empty_refuted",
    "assign_own_tail_refuted",
    "assign_fill_partial",
    "assign_fill_refuted",
    "assign_random_access_range"
   ],
   "note": "Proved for non-empty strings and sources apart from the string, at its start, or behind the new contents. Refuted: assigning an empty string throws out_of_range; s.assign(s, 1) gives copies of the last character (move always copies backward); assign(n, c) throws out_of_range instead of length_error."
  },
  {
   "property": "C104",
   "status": "partial",
   "theorems": [
    "assign_input_range_partial",
    "assign_input_range_refuted",
    "append_input_range_partial",
    "append_input_range_refuted"
   ],
   "note": "Ranges that fit are proved correct. A range one character too long is accepted and overwrites the terminator; a longer one throws length_error, but the old contents have been overwritten."
  },
  {
   "property": "C105",
   "status": "proved",
   "theorems": [
    "resize_keeps_prefix",
    "clear_empties",
    "pop_back_removes",
    "swap_exchanges",
    "prepend_characters",
    "prepend_one"
   ],
   "note": ""
  },
  {
   "property": "C106",
   "status": "partial",
   "theorems": [
    "at_reads",
    "substr_partial",
    "substr_without_null",
    "substr_refuted",
    "copy_partial",
    "copy_refuted"
   ],
   "note": "substr is computed exactly: it stops at the first null character, so it is right if the rest of the string has none. copy is proved for pos < size(); for pos = size() it throws out_of_range."
  },
  {
   "property": "C107",
   "status": "partial",
   "theorems": [
    "compare_pointer_partial",
    "compare_substrings_partial",
    "compare_strings_partial",
    "compare_c_string_partial",
    "equality_partial",
    "less_than_partial",
    "equality_refuted"
   ],
   "note": "Proved if neither has a null character, or only one and no character is negative. With null characters in both, the characters behind them are not compared."
  },
  {
   "property": "C108",
   "status": "partial",
   "theorems": [
    "find_finds_first_partial",
    "rfind_finds_last_partial",
    "rfind_refuted",
    "find_character",
    "rfind_character"
   ],
   "note": "Proved for every text and every pattern without null characters; a pattern with one is compared only up to it."
  },
  {
   "property": "C109",
   "status": "proved",
   "theorems": [
    "find_first_of_finds",
    "find_first_not_of_finds",
    "find_last_of_finds",
    "find_last_not_of_finds",
    "find_first_not_of_character",
    "find_last_not_of_character"
   ],
   "note": ""
  },
  {
   "property": "C110",
   "status": "proved",
   "theorems": [
    "concatenation",
    "shift_concatenation",
    "shrink_truncates"
   ],
   "note": ""
  },
  {
   "property": "C111",
   "status": "proved",
   "theorems": [
    "fx_copy_correct",
    "fx_copy_n_correct",
    "fx_copy_if_correct",
    "fx_copy_while_correct",
    "fx_copy_until_correct",
    "fx_copy_backward_correct"
   ],
   "note": "For array and sub_array."
  },
  {
   "property": "C112",
   "status": "partial",
   "theorems": [
    "fx_fill_correct",
    "fx_fill_n_correct",
    "fx_generate_correct",
    "fx_generate_n_correct",
    "fx_unfold_correct",
    "fx_iota_correct",
    "fx_partial_sum_partial",
    "fx_partial_sum_refuted",
    "fx_recurrence_partial",
    "fx_recurrence_refuted"
   ],
   "note": "partial_sum of a non-empty range into an empty sub_array overwrites an element outside of it; recurrence with more initial values than elements keeps the last ones instead of the first."
  },
  {
   "property": "C113",
   "status": "proved",
   "theorems": [
    "fx_transform_correct",
    "fx_transform2_correct",
    "fx_replace_copy_correct",
    "fx_replace_copy_if_correct",
    "fx_clamp_range_copy_correct"
   ],
   "note": "For array and sub_array."
  },
  {
   "property": "C114",
   "status": "partial",
   "theorems": [
    "fx_remove_copy_correct",
    "fx_remove_copy_if_correct",
    "fx_remove_correct",
    "fx_remove_if_correct",
    "fx_unique_copy_partial",
    "fx_unique_copy_refuted",
    "fx_unique_correct"
   ],
   "note": "unique_copy of a non-empty range into an empty sub_array overwrites an element outside of it; everything else is proved."
  },
  {
   "property": "C115",
   "status": "proved",
   "theorems": [
    "fx_reverse_copy_correct",
    "fx_reverse_correct",
    "fx_rotate_copy_correct",
    "fx_rotate_correct",
    "fx_swap_element_copy_correct",
    "fx_swap_element_correct"
   ],
   "note": "For array and sub_array."
  },
  {
   "property": "C116",
   "status": "proved",
   "theorems": [
    "fx_partition_copy_correct",
    "fx_partition_correct",
    "fx_stable_partition_copy_correct",
    "fx_stable_partition_correct"
   ],
   "note": "partition_copy takes the first elements of the range that fit; stable_partition_copy the first of the whole result."
  },
  {
   "property": "C117",
   "status": "proved",
   "theorems": [
    "fx_merge_correct",
    "fx_inplace_merge_correct",
    "fx_set_union_correct",
    "fx_set_intersection_correct",
    "fx_set_difference_correct",
    "fx_set_symmetric_difference_correct"
   ],
   "note": "For array and sub_array."
  },
  {
   "property": "C118",
   "status": "partial",
   "theorems": [
    "fx_stable_sort_partial",
    "fx_stable_sort_refuted"
   ],
   "note": "Proved unless the container is an empty sub_array of an array of two or more elements; then the first element is read all the same, and the loop runs off the end. sort calls stable_sort."
  },
  {
   "property": "C119",
   "status": "proved",
   "theorems": [
    "fx_make_heap_correct",
    "fx_push_heap_correct",
    "fx_pop_heap_correct",
    "fx_sort_heap_correct"
   ],
   "note": "For array and sub_array."
  },
  {
   "property": "C120",
   "status": "partial",
   "theorems": [
    "fx_partial_sort_correct",
    "fx_make_partial_heap_correct",
    "fx_nth_element_partial",
    "fx_nth_element_refuted"
   ],
   "note": "nth_element with nth at the end reads past the array."
  },
  {
   "property": "C121",
   "status": "proved",
   "theorems": [
    "fx_next_permutation_correct",
    "fx_prev_permutation_correct"
   ],
   "note": "For array and sub_array."
  },
  {
   "property": "C122",
   "status": "partial",
   "theorems": [
    "fx_shuffle_partial",
    "fx_shuffle_refuted",
    "fx_random_swap_correct"
   ],
   "note": "The result is always a rearrangement, made by exchanging element i with one of all elements for each i. The arrangements are not equally likely: of three elements 4 of the 27 sequences of draws keep the order, 5 exchange the first two."
  },
  {
   "property": "C123",
   "status": "partial",
   "theorems": [
    "make_uuid_partial",
    "make_uuid_cstr_partial",
    "make_uuid_refuted",
    "denotes_a_uuid"
   ],
   "note": "make_uuid accepts exactly the ranges that begin with a text of a uuid: what follows the text is not looked at, so 33 digits are accepted. Everything else of the claim is proved."
  },
  {
   "property": "C124",
   "status": "proved",
   "theorems": [
    "uuid_to_string_correct",
    "uuid_round_trip",
    "denotes_a_uuid"
   ],
   "note": ""
  },
  {
   "property": "C125",
   "status": "proved",
   "theorems": [
    "uuid_compare_correct"
   ],
   "note": ""
  },
  {
   "property": "C126",
   "status": "proved",
   "theorems": [
    "uuid_variant_correct",
    "uuid_version_correct",
    "make_uuid5_correct",
    "make_uuid3_correct",
    "name_uuid_facts",
    "make_uuid4_correct"
   ],
   "note": "A name is the sequence of its bytes; the distribution gives 32-bit words."
  },
  {
   "property": "C127",
   "status": "partial",
   "theorems": [
    "literal_namespace_partial",
    "literal_namespace_rest",
    "literal_namespace_refuted"
   ],
   "note": "The empty string and every beginning of dns, url, oid or x500 name a namespace too (range::equal ignores the length of the second range); strings that are no such beginning are read by make_uuid (C123)."
  },
  {
   "property": "C128",
   "status": "proved",
   "theorems": [
    "hash_range_correct",
    "hash_combine_correct",
    "hash_combine_words",
    "hash_combine_injective",
    "hash_range_last"
   ],
   "note": "For one or more values, given their hashes; std::size_t with 64 bits."
  },
  {
   "property": "C129",
   "status": "partial",
   "theorems": [
    "reverse_iterator_partial",
    "reversed_partial",
    "reverse_less_refuted"
   ],
   "note": "All but the comparisons: <, >, <= and >= compare the base iterators the wrong way round, so begin < end is false."
  },
  {
   "property": "C130",
   "status": "proved",
   "theorems": [
    "filter_iterator_correct",
    "filtered_correct",
    "removed_if_correct"
   ],
   "note": "Going back recurses once per element skipped, so its depth is bounded by the length only."
  },
  {
   "property": "C131",
   "status": "partial",
   "theorems": [
    "uniqued_partial",
    "uniqued_refuted"
   ],
   "note": "Right if some neighbours differ; a range of equal elements, a single one too, is shown as empty. The equality must imply identity."
  },
  {
   "property": "C132",
   "status": "partial",
   "theorems": [
    "steps_partial",
    "steps_forward_partial",
    "steps_loop_refuted",
    "steps_difference_refuted",
    "steps_back_refuted",
    "steps_zero_refuted"
   ],
   "note": "Right for loops that ask is_end(), for + n with n > 0 and [n]. A loop to end() never ends: the iterator stays at the last element visited and end() is behind the base range. -- and prev() from the last element do not move, it + 0 becomes the end, end - begin is one too large if wid divides the length."
  },
  {
   "property": "C133",
   "status": "partial",
   "theorems": [
    "joint_iterator_partial",
    "jointed_partial",
    "joint_difference_refuted"
   ],
   "note": "All but the difference lhs - rhs with lhs in the first range and rhs in the second, which has the wrong sign."
  },
  {
   "property": "C134",
   "status": "partial",
   "theorems": [
    "alternate_iterator_partial",
    "alternated_partial",
    "alternate_plus_refuted",
    "alternate_difference_refuted"
   ],
   "note": "All but: it - n is two too far if the target is in the second range; the difference is 2 too large from the second to the first range, and undefined (limited::multiplies with -1) for neighbouring pairs."
  },
  {
   "property": "C135",
   "status": "partial",
   "theorems": [
    "while_next_partial",
    "while_increment_partial",
    "while_increment_refuted",
    "while_previous_refuted"
   ],
   "note": "++ reads behind the range (undefined if that is the end of the sequence) if no element fails; -- from the end goes to the last element that passes, even behind one that fails."
  },
  {
   "property": "C136",
   "status": "partial",
   "theorems": [
    "insert_range_partial",
    "inserted_partial",
    "insert_range_less_refuted"
   ],
   "note": "All but the comparisons of an inserted element with one behind, which are the wrong way round. operator+ does not compile and is not modelled."
  },
  {
   "property": "C137",
   "status": "proved",
   "theorems": [
    "moves_forward_correct",
    "moves_backward_correct",
    "distance_correct"
   ],
   "note": "Any iterator type given by its own ++, -- and ==; recursion depth log2(n) + 1."
  },
  {
   "property": "C138",
   "status": "partial",
   "theorems": [
    "limited_plus_correct",
    "limited_multiplies_partial",
    "limited_multiplies_refuted"
   ],
   "note": "plus for all operands; multiplies but for a factor -1 (if the second: always; if the first: with a positive second), where the division min / -1 overflows. Operands of the promoted type."
  },
  {
   "property": "C139",
   "status": "proved",
   "theorems": [
    "taken_correct",
    "dropped_correct",
    "taken_end_correct",
    "dropped_end_correct",
    "window_correct",
    "offset_correct",
    "slices_undefined"
   ],
   "note": "taken_end and dropped_end take their argument negated; arguments of the wrong sign are undefined."
  },
  {
   "property": "C140",
   "status": "proved",
   "theorems": [
    "view_of_c_string",
    "view_swap_exchanges",
    "view_at_reads",
    "view_front",
    "view_back",
    "remove_prefix_drops",
    "remove_suffix_drops"
   ],
   "note": ""
  },
  {
   "property": "C141",
   "status": "partial",
   "theorems": [
    "view_substr_partial",
    "view_substr_refuted",
    "view_copy_partial",
    "view_copy_refuted"
   ],
   "note": "substr does not cut n off at the end: for size() - pos < n < npos the new view reaches behind the old one. copy throws out_of_range for pos = size()."
  },
  {
   "property": "C142",
   "status": "partial",
   "theorems": [
    "view_compare_pointer_partial",
    "view_compare_substrings_partial",
    "view_compare_substring_partial",
    "view_operators_partial",
    "view_c_string_operators_partial",
    "view_equality_refuted"
   ],
   "note": "Characters behind a null character are not compared; exact for texts without null characters, or with null characters on one side and no negative ones."
  },
  {
   "property": "C143",
   "status": "partial",
   "theorems": [
    "view_find_partial",
    "view_find_c_string",
    "view_find_character",
    "view_rfind_refuted"
   ],
   "note": "Patterns must not contain null characters; one that starts with a null character matches at every null character."
  },
  {
   "property": "C144",
   "status": "proved",
   "theorems": [
    "view_find_of",
    "view_find_of_character"
   ],
   "note": ""
  },
  {
   "property": "C145",
   "status": "partial",
   "theorems": [
    "view_starts_with_character",
    "view_ends_with_character",
    "view_starts_with_partial",
    "view_ends_with_partial",
    "view_starts_with_refuted"
   ],
   "note": "For texts without null characters; what follows one is not compared."
  },
  {
   "property": "C146",
   "status": "partial",
   "theorems": [
    "view_to_string_partial",
    "view_to_string_null_refuted",
    "view_to_string_unterminated_refuted",
    "view_to_int_partial",
    "view_to_int_refuted"
   ],
   "note": "to_string looks for a null character at or behind the view: undefined if there is none, and cut off there if the view contains one. string_to_int converts up to the terminator, not the end of the view."
  },
  {
   "property": "C147",
   "status": "partial",
   "theorems": [
    "days_apart_defined",
    "to_time_t_counts_partial",
    "to_time_t_year_zero_refuted",
    "to_time_t_late_year_refuted",
    "tm_to_time_t_counts_partial"
   ],
   "note": "For the years 1 to 5883516. Before March of year 0 division rounds the wrong way, later years overflow int. The overload for texts cannot be instantiated and is not modelled."
  },
  {
   "property": "C148",
   "status": "partial",
   "theorems": [
    "to_time_t_orders_partial"
   ],
   "note": "For the years 1 to 5883516 (see C147)."
  },
  {
   "property": "C149",
   "status": "partial",
   "theorems": [
    "hton_memory_partial",
    "ntoh_memory_partial",
    "net_named_partial",
    "net_round_trip_partial",
    "hton_byte_refuted"
   ],
   "note": "For words of 2 to 128 bytes. One-byte words are undefined on little-endian machines; ntoh does not compile on PDP-endian ones."
  },
  {
   "property": "C150",
   "status": "partial",
   "theorems": [
    "static_pow_correct",
    "static_pow2_partial",
    "static_pow2_refuted",
    "static_pow2m1_partial",
    "static_pow2m1_refuted"
   ],
   "note": "static_pow holds in full. static_pow2 shifts an int and fails from the width of int on; static_pow2m1<T, 0> is 1."
  },
  {
   "property": "C151",
   "status": "proved",
   "theorems": [
    "integer_digits_correct"
   ],
   "note": "Types of 1, 2, 4 and 8 bytes."
  },
  {
   "property": "C152",
   "status": "partial",
   "theorems": [
    "varray_holds",
    "ctor_seq_correct",
    "ctor_value_correct",
    "ctor_size_correct",
    "vget_correct",
    "vat_correct",
    "vfront_back_correct",
    "vset_correct",
    "vswap_correct",
    "vempty_refuted"
   ],
   "note": "Everything but empty(), which says the opposite of what it should."
  },
  {
   "property": "C153",
   "status": "proved",
   "theorems": [
    "vfill_correct",
    "vresize_correct",
    "vassign_correct"
   ],
   "note": "Copy and move assignment name members that do not exist and do not compile."
  },
  {
   "property": "C154",
   "status": "proved",
   "theorems": [
    "vmap_correct",
    "vmap2_correct",
    "vmap_to_correct",
    "vmap2_to_correct",
    "vupdate_correct",
    "vsum_correct",
    "vmin_correct",
    "vmax_correct"
   ],
   "note": "Binary operations when the right operand is at least as long."
  },
  {
   "property": "C155",
   "status": "partial",
   "theorems": [
    "vshift_partial",
    "vshift_refuted",
    "vcshift_partial",
    "vshift_large_refuted"
   ],
   "note": "For |i| up to the size; beyond it the behaviour is undefined. shift leaves the old elements in the vacated places instead of value_type()."
  },
  {
   "property": "C156",
   "status": "proved",
   "theorems": [
    "slice_view_correct",
    "gslice_view_correct",
    "mask_view_correct",
    "indirect_view_correct"
   ],
   "note": "Sizes and strides whose products fit std::size_t. A mask that selects more than N elements raises length_error."
  },
  {
   "property": "C157",
   "status": "proved",
   "theorems": [
    "view_read_correct",
    "view_front_back_correct",
    "view_update_correct",
    "view_fill_correct"
   ],
   "note": "Positions within the array; the operand is not part of the array that is written."
  },
  {
   "property": "C158",
   "status": "proved",
   "theorems": [
    "tri_overloads",
    "teval_sound",
    "teval_decides",
    "tri_ops_exact"
   ],
   "note": ""
  },
  {
   "property": "C159",
   "status": "partial",
   "theorems": [
    "orun_correct",
    "observers_correct",
    "constructors_correct",
    "free_get_pointer_refuted"
   ],
   "note": "The members do; the static get and get_pointer and the free functions get and get_pointer do not look at the flag and give the old value after a reset."
  },
  {
   "property": "C160",
   "status": "proved",
   "theorems": [
    "opt_compare_correct",
    "null_compare_correct",
    "option_less_order"
   ],
   "note": ""
  },
  {
   "property": "C161",
   "status": "proved",
   "theorems": [
    "var_of_correct",
    "var_default_correct",
    "apply_visitor_correct",
    "var_get_correct",
    "var_compare_correct",
    "alternatives_order",
    "var_swap_correct"
   ],
   "note": ""
  },
  {
   "property": "C162",
   "status": "partial",
   "theorems": [
    "weed_matches",
    "weed_progress",
    "weed_star_eps_refuted"
   ],
   "note": "Proved when no repeated operand can match the empty text, character sets do not begin or end with -, MinDigits is 0 or 1, limits are as in wf; undefined behaviour is possible only with signed numbers of 32 bits or more (see C164). A repetition of something that matches the empty text never ends."
  },
  {
   "property": "C163",
   "status": "partial",
   "theorems": [
    "weed_attributes",
    "string_attribute_refuted"
   ],
   "note": "Proved for attribute types unused, characters, numbers, strings, arrays of numbers and tuples of these, without string(...) terminals: their attribute is always the empty string. Variants and arrays of arrays are not modelled."
  },
  {
   "property": "C164",
   "status": "partial",
   "theorems": [
    "uint_correct",
    "int_correct",
    "int_minimum_refuted",
    "hex_refuted",
    "min_digits_refuted"
   ],
   "note": "Proved for MinDigits <= 1 except for the least value of a signed type of 32 bits or more, where the code negates it (undefined behaviour). bin, oct and hex ask for size_t(-1) digits and fail on every number shorter than the maximum; MinDigits counts the character behind the number."
  },
  {
   "property": "C165",
   "status": "proved",
   "theorems": [
    "weed_laws"
   ],
   "note": ""
  },
  {
   "property": "C166",
   "status": "partial",
   "theorems": [
    "char_set_correct",
    "set_first_minus_refuted",
    "set_last_minus_refuted"
   ],
   "note": "Proved for sets that neither begin nor end with -. A leading - reads the character before the set; a trailing - is never matched."
  },
  {
   "property": "C167",
   "status": "partial",
   "theorems": [
    "weed_list_partial",
    "list_trailing_refuted",
    "repeat_count_refuted",
    "repeat_any_refuted",
    "stopover_one_refuted"
   ],
   "note": "A list also consumes one separator that no operand follows; repeat(n)[p] reports the starting position when there are exactly n matches, repeat[p] always does; Stopover with limit 1 does not stop. weed_matches covers repeat(0) and repeat(n) with limit n, and Stopover from 2 on."
  },
  {
   "property": "C168",
   "status": "partial",
   "theorems": [
    "floor_partial",
    "ceil_partial",
    "rounding_special_partial",
    "floor_tolerance_refuted",
    "ceil_tolerance_refuted",
    "rounding_undefined_refuted",
    "rounding_limit"
   ],
   "note": "Proved for |x| other than 2^64 (larger only with SPROUT_NOERROR_LARGE_FLOAT_ROUNDING, the default; else it throws), precision at most 64, and x not within the tolerance epsilon * max(|x|, 1) of the integer towards zero: there the code returns that integer, e.g. floor(-1e-300) is -0."
  },
  {
   "property": "C169",
   "status": "partial",
   "theorems": [
    "trunc_partial",
    "round_partial",
    "rounding_special_partial",
    "rounding_undefined_refuted",
    "rounding_limit"
   ],
   "note": "Proved except at |x| = 2^64 (a float or double), where the conversion to uintmax_t is undefined, and above it without SPROUT_NOERROR_LARGE_FLOAT_ROUNDING."
  },
  {
   "property": "C170",
   "status": "partial",
   "theorems": [
    "itrunc_partial",
    "ifloor_partial",
    "iceil_partial",
    "iround_partial",
    "ifloor_iceil_refuted",
    "itrunc_limit"
   ],
   "note": "Proved for all integer types of 32 to 64 bits and numbers between their limits; ifloor and iceil apart from the tolerance of equal_to (ifloor(-1e-300) is 0). 2^31 as a float passes the test for int and is then converted (undefined)."
  },
  {
   "property": "C171",
   "status": "partial",
   "theorems": [
    "parts_partial",
    "integer_part_partial"
   ],
   "note": "Same restriction at 2^64 as C169."
  },
  {
   "property": "C172",
   "status": "partial",
   "theorems": [
    "classify_partial",
    "classify_float_refuted"
   ],
   "note": "Proved when the limit used is that of the type; the code takes that of double for every type, so subnormal floats are classified as normal."
  },
  {
   "property": "C173",
   "status": "partial",
   "theorems": [
    "fabs_correct",
    "signbit_partial",
    "copysign_partial",
    "negative_zero_refuted"
   ],
   "note": "fabs is proved for all values; signbit and copysign are wrong for negative zero (and the sign of a NaN cannot be seen)."
  },
  {
   "property": "C174",
   "status": "partial",
   "theorems": [
    "compare_partial",
    "islessequal_refuted",
    "islessequal_is_less"
   ],
   "note": "islessequal compares with <; the others are proved."
  },
  {
   "property": "C175",
   "status": "proved",
   "theorems": [
    "fmin_correct",
    "fmax_correct",
    "fmin_fmax_nan"
   ],
   "note": ""
  },
  {
   "property": "C176",
   "status": "partial",
   "theorems": [
    "fdim_partial",
    "fma_partial",
    "fdim_infinity_refuted",
    "fma_single_rounding_refuted"
   ],
   "note": "fdim is proved for finite arguments, fdim(inf, inf) is inf. fma is proved when the product is exact; in general it rounds twice."
  },
  {
   "property": "C177",
   "status": "partial",
   "theorems": [
    "equal_to_reflexive",
    "equal_to_symmetric",
    "equal_to_close",
    "equal_to_transitive_refuted"
   ],
   "note": "Not transitive."
  },
  {
   "property": "C178",
   "status": "partial",
   "theorems": [
    "ldexp_exact_partial",
    "ldexp_rounded_partial",
    "ldexp_outside",
    "ldexp_refuted"
   ],
   "note": "Proved when 2^e and 2^-e are numbers of the type computed in; beyond that the result is an infinity or zero, e.g. ldexp(2^1000, -1030) is 0. Correct rounding is proved when the type is the one computed in (double, long double), for float a double rounding is possible."
  },
  {
   "property": "C179",
   "status": "partial",
   "theorems": [
    "ilogb_partial",
    "frexp_partial",
    "frexp_large",
    "ilogb_ends_refuted"
   ],
   "note": "Proved for normal numbers assuming that the logarithm is within one of the exponent (lg_ok; it is not modelled). The correction never ends for the smallest positive double, and frexp of x >= 2^1023 has significand 0."
  },
  {
   "property": "C180",
   "status": "partial",
   "theorems": [
    "fmod_partial",
    "fmod_special_partial",
    "odd_even_correct",
    "fmod_ends_refuted"
   ],
   "note": "fmod is proved for divisors that are normal numbers of the type computed in (every float, normal doubles), assuming lg_ok as in C179; is_odd and is_even for every finite number."
  },
  {
   "property": "C181",
   "status": "partial",
   "theorems": [
    "remquo_partial",
    "remquo_overflow"
   ],
   "note": "Proved for normal arguments (of the type computed in) and quotients that fit in the integer type; the quotient is accumulated in an int, so remainder(2^31, 1) overflows. Assumes lg_ok as in C179."
  },
  {
   "property": "C182",
   "status": "proved",
   "theorems": [
    "clist_runs",
    "clist_runs_seen",
    "clist_unlink_range"
   ],
   "note": "Insertions require the item to be in no list; see C184 for what happens otherwise. The functions taking ranges of items (constructor, assign, push_front, insert_after), operator= and swap do not compile when used."
  },
  {
   "property": "C183",
   "status": "proved",
   "theorems": [
    "clist_walk",
    "clist_iterators",
    "clist_iterators_equal",
    "clist_returned",
    "clist_is_linked"
   ],
   "note": "is_linked is false for the last item of a list."
  },
  {
   "property": "C184",
   "status": "proved",
   "theorems": [
    "clist_misuse_ub",
    "clist_erase_last_ub",
    "clist_erase_range_ub",
    "clist_push_twice",
    "clist_push_shared"
   ],
   "note": ""
  },
  {
   "property": "C185",
   "status": "partial",
   "theorems": [
    "clist_empty_wrong",
    "clist_empty_refuted",
    "clist_cbefore_begin_refuted",
    "clist_move_wrong",
    "clist_move_pop",
    "clist_move_refuted"
   ],
   "note": "False of the code in all three parts: empty() returns the opposite (!!fst.next), cbefore_begin() is begin(), and move construction copies, so that both lists share the items and taking one off the new list cuts the old. What the code does instead is proved."
  },
  {
   "property": "C186",
   "status": "proved",
   "theorems": [
    "cq_complex_ring",
    "cq_complex_mul",
    "cq_complex_div",
    "cq_complex_mixed",
    "cq_complex_eq",
    "cq_complex_values"
   ],
   "note": "Rounding is left aside: the component type is an ordered field."
  },
  {
   "property": "C187",
   "status": "partial",
   "theorems": [
    "cq_complex_assign",
    "cq_complex_assign_t_partial",
    "cq_complex_assign_alias",
    "cq_complex_alias_refuted"
   ],
   "note": "False of the code for z *= z.real() and z /= z.real(): the real part is stored before the imaginary part is multiplied by it. Everything else is proved."
  },
  {
   "property": "C188",
   "status": "partial",
   "theorems": [
    "cq_quaternion_ops",
    "cq_quaternion_algebra",
    "cq_quaternion_mixed_partial",
    "cq_quaternion_reversed",
    "cq_quaternion_reversed_refuted",
    "cq_quaternion_sup"
   ],
   "note": "False of the code for T - quaternion and complex - quaternion, which do not negate the components they have no counterpart for, and T / quaternion, which divides by each component. quaternion * complex, complex * quaternion, and division of or by complex and quaternion do not compile when used."
  },
  {
   "property": "C189",
   "status": "partial",
   "theorems": [
    "cq_quaternion_assign",
    "cq_quaternion_div_assign",
    "cq_quaternion_div_assign_c",
    "cq_quaternion_assign_t_partial",
    "cq_quaternion_special_refuted"
   ],
   "note": "False of the specializations for *= and /= by a component of the quaternion itself. Everything else is proved, for both variants."
  },
  {
   "property": "C190",
   "status": "partial",
   "theorems": [
    "cq_quaternion_special",
    "cq_quaternion_special_ops",
    "cq_quaternion_special_refuted"
   ],
   "note": "False of the code: the constructor stores the first component twice and ignores the second, so every operator that constructs its result is right only if the first two components of the result happen to be equal; quaternion<double>(x) is x + xi."
  },
  {
   "property": "C191",
   "status": "partial",
   "theorems": [
    "cq_component_range_partial",
    "cq_component_crange_refuted"
   ],
   "note": "False of the code for cend(), which returns cbegin()."
  },
  {
   "property": "C192",
   "status": "partial",
   "theorems": [
    "fft_dft_partial"
   ],
   "note": "Proved over the real numbers with exact cos, sin and pi; rounding is left aside."
  },
  {
   "property": "C193",
   "status": "partial",
   "theorems": [
    "ifft_idft_partial",
    "fft_round_trip_partial",
    "dft_inverse"
   ],
   "note": "Proved over the real numbers with exact cos, sin and pi; rounding is left aside."
  },
  {
   "property": "C194",
   "status": "partial",
   "theorems": [
    "dft_element_partial"
   ],
   "note": "Proved over the real numbers with exact cos, sin and pi; rounding is left aside. dft_iterator is left out: moving it does not compile."
  },
  {
   "property": "C195",
   "status": "partial",
   "theorems": [
    "fixed_dft_partial",
    "fixed_dft_random_access_partial",
    "fixed_dft_forward_partial",
    "fixed_dft_forward_refuted"
   ],
   "note": "Proved over the real numbers with exact cos, sin and pi; rounding is left aside. False of the code for iterators without random access if the result has another length than the range: the angles are divided by the size of the result."
  },
  {
   "property": "C196",
   "status": "partial",
   "theorems": [
    "fixed_fft_partial",
    "fixed_ifft_partial",
    "fixed_fft_round_trip_partial",
    "fixed_fft_sign_refuted"
   ],
   "note": "Proved over the real numbers with exact cos, sin and pi; rounding is left aside. False of the code: fixed::fft uses e^(2 pi i j k / n), the sign of the inverse transform. What it computes is proved, and that detail::ifft inverts it; fixed::ifft itself does not compile."
  },
  {
   "property": "C197",
   "status": "partial",
   "theorems": [
    "sub_array_access",
    "sub_array_of_sub_array",
    "sub_array_of_array",
    "sub_array_member_window",
    "sub_array_window_1",
    "sub_array_window_1_refuted"
   ],
   "note": "False of the code for the non-const member window(to_first): it calls size() after moving the begin and so loses elements at the end. The member window takes positions in the array, the function sub_window positions in the sub_array; both are stated."
  },
  {
   "property": "C198",
   "status": "proved",
   "theorems": [
    "sub_array_fill",
    "sub_array_push_back",
    "sub_array_push_front",
    "sub_array_pop_back",
    "sub_array_pop_front",
    "sub_array_swap"
   ],
   "note": ""
  },
  {
   "property": "C199",
   "status": "partial",
   "theorems": [
    "sub_array_equal_partial",
    "sub_array_equal_prefix",
    "sub_array_equal_refuted",
    "sub_array_less"
   ],
   "note": "False of the code for sizes that differ: operator== compares as many elements as the left one has with what follows the begin of the right one, inside or outside its window. What it computes is stated; the order is proved in full."
  },
  {
   "property": "C200",
   "status": "proved",
   "theorems": [
    "fixed_append",
    "fixed_append_ends",
    "fixed_insert",
    "fixed_push",
    "fixed_insert_n",
    "fixed_push_n",
    "fixed_erase",
    "fixed_erase_n",
    "fixed_pop",
    "fixed_pop_back_n",
    "fixed_pop_front_n"
   ],
   "note": ""
  },
  {
   "property": "C201",
   "status": "proved",
   "theorems": [
    "fixed_realign",
    "fixed_resize",
    "fixed_set"
   ],
   "note": ""
  },
  {
   "property": "C202",
   "status": "partial",
   "theorems": [
    "fit_insert_correct",
    "fit_push_correct",
    "fit_insert_n_correct",
    "fit_push_n_correct",
    "fit_append_correct",
    "fit_append_ends_correct",
    "fit_erase_correct",
    "fit_pop_correct",
    "fit_erase_n_partial",
    "fit_erase_n_result",
    "fit_erase_n_refuted",
    "fit_resize_partial",
    "fit_set_correct"
   ],
   "note": "False of the code for erase_n, which subtracts 1 from the end whatever the number of elements, and for realign_to a container smaller than the number of elements, whose end is outside it. What both return is proved."
  },
  {
   "property": "C203",
   "status": "proved",
   "theorems": [
    "fold_while_correct",
    "fold_until_correct"
   ],
   "note": ""
  },
  {
   "property": "C204",
   "status": "proved",
   "theorems": [
    "is_increasing_correct",
    "is_decreasing_correct",
    "is_strictly_increasing_correct",
    "is_strictly_decreasing_correct"
   ],
   "note": ""
  },
  {
   "property": "C205",
   "status": "proved",
   "theorems": [
    "sample_reservoir_correct",
    "sample_selection_correct"
   ],
   "note": ""
  },
  {
   "property": "C206",
   "status": "proved",
   "theorems": [
    "sample_reservoir_uniform",
    "sample_selection_uniform"
   ],
   "note": ""
  },
  {
   "property": "C207",
   "status": "partial",
   "theorems": [
    "bogo_sort_partial",
    "bogo_sort_sorted",
    "bogo_sort_reaches",
    "shuffle_reaches",
    "bozo_sort_partial",
    "bogo_sort_refuted",
    "bozo_sort_refuted"
   ],
   "note": "False of the code: an engine within the interval can keep bogo_sort from terminating, and bozo_sort accesses the position one past the end when random_swap draws its upper bound. Proved: nothing else can go wrong, the outcome is a sorted rearrangement, and every sorted rearrangement is an outcome of bogo_sort."
  },
  {
   "property": "C208",
   "status": "partial",
   "theorems": [
    "fx_bogo_sort_partial",
    "fx_bozo_sort_partial",
    "fx_sorts_sorted"
   ],
   "note": "Termination depends on the draws; whenever they terminate the claim is proved, and they never access anything outside the container."
  },
  {
   "property": "C209",
   "status": "partial",
   "theorems": [
    "join_partial",
    "join_refuted"
   ],
   "note": "False of the code for an outer container that holds fewer containers than its static size (a sub_array): the partial sums are followed by zeros, the binary search is not over a sorted range, and elements are lost. Proved for every other outer container."
  },
  {
   "property": "C210",
   "status": "partial",
   "theorems": [
    "join_separated_partial",
    "join_separated_refuted"
   ],
   "note": "False of the code for inner containers of static size 0 (the result has size 0, the separators are lost) and for an empty outer container with a separator (the size of the result type wraps around). Proved otherwise."
  },
  {
   "property": "C211",
   "status": "partial",
   "theorems": [
    "join_forward",
    "join_forward_separated_partial",
    "join_forward_separated_all",
    "join_forward_separated_refuted"
   ],
   "note": "Proved without a separator. With one it is false: if the containers leave room a separator follows the last one too, and a string literal is inserted with its terminating character. Proved for full containers and separators that are no literals; what it computes otherwise is proved as well."
  },
  {
   "property": "C212",
   "status": "partial",
   "theorems": [
    "join_strings_partial",
    "join_strings_separated_partial",
    "join_strings_refuted"
   ],
   "note": "False of strings with a null character inside: the result ends there. Proved otherwise."
  },
  {
   "property": "C213",
   "status": "partial",
   "theorems": [
    "size_enumed_correct",
    "size_enum_step",
    "size_enum_back",
    "size_enum_equal",
    "size_enum_less",
    "size_enum_plus_partial",
    "size_enum_minus_partial",
    "size_enum_difference_partial",
    "size_enum_index_partial",
    "size_enumed_size_partial",
    "size_enum_refuted"
   ],
   "note": "The enumeration, ++, -- and comparisons are right. False of the code for - n, [], the difference of two iterators and thereby size(); the theorems say exactly for which arguments each is right."
  },
  {
   "property": "C214",
   "status": "proved",
   "theorems": [
    "typ_all_of",
    "typ_any_of",
    "typ_none_of",
    "tpp_all_of_ok",
    "tpp_any_of_ok",
    "tpp_none_of_ok"
   ],
   "note": ""
  },
  {
   "property": "C215",
   "status": "partial",
   "theorems": [
    "typ_one_of_partial",
    "tpp_one_of_partial",
    "typ_one_of_refuted",
    "typ_one_of_empty_refuted"
   ],
   "note": "False of the code: three matches among four types can count as one, and types::one_of of an empty tuple is true. Proved for up to two matches in a tuple that is not empty (tpp: any pack)."
  },
  {
   "property": "C216",
   "status": "proved",
   "theorems": [
    "typ_count_if",
    "typ_find_index_if"
   ],
   "note": ""
  },
  {
   "property": "C217",
   "status": "proved",
   "theorems": [
    "typ_fold",
    "typ_partial_sum",
    "typ_transform2",
    "typ_transform2_short"
   ],
   "note": ""
  },
  {
   "property": "C218",
   "status": "proved",
   "theorems": [
    "typ_lower_bound_index",
    "typ_upper_bound_index"
   ],
   "note": ""
  },
  {
   "property": "C219",
   "status": "proved",
   "theorems": [
    "tpp_max_element_ok",
    "tpp_min_element_ok"
   ],
   "note": ""
  },
  {
   "property": "C220",
   "status": "proved",
   "theorems": [
    "rmk_remake",
    "rmk_stepped"
   ],
   "note": ""
  },
  {
   "property": "C221",
   "status": "partial",
   "theorems": [
    "rmk_order",
    "rmk_plus_partial",
    "rmk_index_partial",
    "rmk_prev_partial",
    "rmk_prev_refuted",
    "rmk_plus_refuted",
    "rmk_plus_over_refuted"
   ],
   "note": "False of the code: -- is wrong for a source shorter than the window; for a longer one + n and - n are wrong from behind the window (another element, or out of the source) and from before it to behind it. Proved: comparisons and differences, -- for sources at least as long as the window, + n, - n and [] in all other cases."
  },
  {
   "property": "C222",
   "status": "partial",
   "theorems": [
    "rmk_backward_refuted"
   ],
   "note": "False of the code: the offsets of the end iterator have the wrong sign, reading backwards shows the old contents and nothing of the source. This is what the theorem says, for all ranges."
  },
  {
   "property": "C223",
   "status": "partial",
   "theorems": [
    "idx_integer_range_partial",
    "idx_integer_range_refuted",
    "idx_integer_range_wide"
   ],
   "note": "Proved if |Last - First| + |Step| is at most the number of non-negative values of the signed type. False otherwise: for an unsigned T the number of elements comes out near the number of values of T, for a signed one the distance overflows and the program is ill-formed."
  },
  {
   "property": "C224",
   "status": "proved",
   "theorems": [
    "idx_make_integer_sequence",
    "idx_integer_n"
   ],
   "note": "For N below half of the number of values of T (all of them for a signed T)."
  },
  {
   "property": "C225",
   "status": "partial",
   "theorems": [
    "ook_translation_partial",
    "ook_translation_refuted"
   ],
   "note": "False as stated: all eight pairs are replaced by '>'. Proved: the pairs are found in the right places, and the result is the right translation with every command changed to '>'."
  },
  {
   "property": "C226",
   "status": "partial",
   "theorems": [
    "misa_translation_partial",
    "misa_plain",
    "misa_translation_refuted"
   ],
   "note": "False for the long vowel mark 0x81 0x5B, which is written \\5B in the code: its second byte is read as '['. Proved for texts without it and without the bytes 0x81 0x05 0x42."
  },
  {
   "property": "C227",
   "status": "proved",
   "theorems": [
    "seed_array_generate",
    "seed_array_generate_range"
   ],
   "note": "For results of 32 bits."
  },
  {
   "property": "C228",
   "status": "proved",
   "theorems": [
    "make_seed_array_values"
   ],
   "note": ""
  },
  {
   "property": "C229",
   "status": "proved",
   "theorems": [
    "generate_array_draws",
    "generate_array_mut_draws",
    "generate_array_split"
   ],
   "note": "generate_array<0> of a const generator does not compile."
  },
  {
   "property": "C230",
   "status": "proved",
   "theorems": [
    "random_range_draws",
    "random_range_endless"
   ],
   "note": ""
  },
  {
   "property": "C231",
   "status": "partial",
   "theorems": [
    "bernoulli_share_partial",
    "bernoulli_ends_partial",
    "bernoulli_monotone_partial"
   ],
   "note": "For rational p with exact arithmetic; the rounding of RealType is missing."
  },
  {
   "property": "C232",
   "status": "proved",
   "theorems": [
    "factorial_integer",
    "factorial_fits",
    "factorial_real"
   ],
   "note": "For the literals; their rounding to the floating type is not modelled."
  },
  {
   "property": "C233",
   "status": "partial",
   "theorems": [
    "factorial_greatest_partial",
    "factorial_limit_refuted"
   ],
   "note": "False of the code for the integers of 4 bytes: the limit is 11 though 12! = 479001600 fits, so factorial<int>(12) is rejected; long double keeps the limit of double; proved for the other types."
  },
  {
   "property": "C234",
   "status": "partial",
   "theorems": [
    "bernoulli_number_partial",
    "bernoulli_number_refuted",
    "bernoulli_number_beyond",
    "bernoulli_numbers_exist"
   ],
   "note": "False of the code for x = 28: the table holds -236364091/870, the numerator of B_24, instead of -23749461029/870, in all three types; proved for every other x. The rounding of the literals to the floating type is not modelled."
  },
  {
   "property": "C235",
   "status": "proved",
   "theorems": [
    "fit_copy_correct",
    "fit_copy_n_correct",
    "fit_copy_if_correct",
    "fit_copy_while_correct",
    "fit_copy_until_correct",
    "fit_copy_backward_correct",
    "fit_remove_copy_if_correct",
    "fit_remove_if_correct"
   ],
   "note": ""
  },
  {
   "property": "C236",
   "status": "proved",
   "theorems": [
    "fit_merge_correct",
    "fit_set_union_correct",
    "fit_set_intersection_correct",
    "fit_set_difference_correct",
    "fit_set_symmetric_difference_correct"
   ],
   "note": ""
  },
  {
   "property": "C237",
   "status": "partial",
   "theorems": [
    "fit_stable_partition_copy_correct",
    "fit_partition_copy_correct",
    "fit_partition_partial",
    "fit_stable_partition_partial",
    "fit_partition_refuted",
    "fit_stable_partition_refuted"
   ],
   "note": "False of the code for partition and stable_partition: the window is as long as there are elements that do not satisfy the predicate, so it is right only if as many do; proved for stable_partition_copy and partition_copy."
  },
  {
   "property": "C238",
   "status": "partial",
   "theorems": [
    "fit_unique_correct",
    "fit_unique_copy_partial"
   ],
   "note": "unique_copy: not for an empty container and a range that is not empty, where fixed::unique_copy writes outside of the container (fx_unique_copy_refuted)."
  },
  {
   "property": "C239",
   "status": "partial",
   "theorems": [
    "fit_fill_n_partial",
    "fit_fill_n_refuted"
   ],
   "note": "False of the code for n greater than the size of a sub_array: fixed::fill_n does not limit n, so the elements of the internal array behind the container are filled too; proved: the window is right for all n, and only the n elements from the start of the container are changed."
  },
  {
   "property": "C240",
   "status": "partial",
   "theorems": [
    "strtod_decimal_partial",
    "strtod_no_digits",
    "strtod_tiny_refuted"
   ],
   "note": "Over exact rationals, without the rounding of the floating type. Proved for texts with no more decimals than -min_exponent; false of the code beyond: the result is HUGE_VAL even for 0.00...0."
  },
  {
   "property": "C241",
   "status": "partial",
   "theorems": [
    "strtod_exponent_opposite",
    "strtod_exponent_partial",
    "strtod_exponent_refuted"
   ],
   "note": "False of the code: the exponent acts with the opposite sign, its first digit is lost if there is no sign, and a final e is read past the terminator. Proved what the code does, and the claim for a signed zero exponent."
  },
  {
   "property": "C242",
   "status": "proved",
   "theorems": [
    "bezier_casteljau",
    "bezier_degree",
    "bezier_ends",
    "bezier_hull"
   ],
   "note": "Over exact rationals."
  },
  {
   "property": "C243",
   "status": "partial",
   "theorems": [
    "spline_correct",
    "spline_start_correct",
    "spline_end_correct",
    "spline_integer_refuted"
   ],
   "note": "Proved over exact rationals. False of the code for integer coordinates: the coefficients are halved by integer division."
  },
  {
   "property": "C244",
   "status": "proved",
   "theorems": [
    "reflect_correct",
    "normalize_correct",
    "resize_correct",
    "is_zero_correct"
   ],
   "note": "Over exact rationals, where the root of the length is exact."
  },
  {
   "property": "C245",
   "status": "proved",
   "theorems": [
    "refract_correct",
    "refract_total"
   ],
   "note": "Over exact rationals, where the root is exact."
  },
  {
   "property": "C246",
   "status": "partial",
   "theorems": [
    "cross_partial",
    "cross_refuted"
   ],
   "note": "False of the code: the second coordinate is y*x' - x*y' in place of z*x' - x*z'. The other coordinates are right."
  },
  {
   "property": "C247",
   "status": "proved",
   "theorems": [
    "sphere_hits",
    "sphere_first",
    "sphere_normal"
   ],
   "note": "Over exact rationals, where the roots taken are exact. A ray that only touches the sphere does not meet it."
  },
  {
   "property": "C248",
   "status": "partial",
   "theorems": [
    "plane_hits_partial",
    "plane_point",
    "plane_inside",
    "plane_start_refuted"
   ],
   "note": "Over exact rationals. Proved for rays that do not start on the plane; false of the code for those that do: they meet it in the positive direction alone."
  },
  {
   "property": "C249",
   "status": "partial",
   "theorems": [
    "triangle_hits_partial",
    "triangle_point_partial",
    "triangle_refuted"
   ],
   "note": "False of the code, since cross is not the vector product (C246): a ray is said to meet a triangle at a point off its plane. Proved: the point is on the plane through the first vertex that the stored normal gives, and the claim about when a ray meets a triangle for triangles in planes on which y - z is constant."
  },
  {
   "property": "C250",
   "status": "proved",
   "theorems": [
    "component_range",
    "component_monotone",
    "component_value",
    "component_outside",
    "component_back",
    "rgb_correct"
   ],
   "note": "Over exact rationals."
  }
 ]
}