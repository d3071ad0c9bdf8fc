#!/usr/bin/env python3
"""Writes MANIFEST.json."""
import json, os
claims = []
def m(prop, status, theorems, note=""):
    claims.append({"property": prop, "status": status, "theorems": theorems.split(), "note": note})

m("C01", "proved", "find_if_correct find_if_not_correct find_correct")
m("C02", "proved", "linear_search_depth linear_search_depth_64bit",
  "depth of the algorithm's own recursion; calls of next/distance/the predicate are not counted")
m("C03", "proved", "all_of_correct any_of_correct none_of_correct all_any_none_of_equal_correct")
m("C04", "partial", "one_of_refuted one_of_partial",
  "false of the code: the random-access version accepts [true;true;true;false]; proved for the input version, and for random access when at most one element matches")
m("C05", "proved", "count_if_correct count_correct count_if_split")
m("C06", "proved", "mismatch_correct mismatch2_correct equal_correct equal2_correct")
m("C07", "proved", "adjacent_find_correct")
m("C08", "proved", "find_first_of_correct")
m("C09", "proved", "search_correct")
m("C10", "proved", "find_end_correct find_end_empty_pattern")
m("C11", "partial", "search_n_partial search_n_refuted",
  "proved for n >= 1; for n = 0 the code returns last instead of first")
m("C12", "proved", "lower_bound_correct upper_bound_correct equal_range_correct sorted_bounds_correct")
m("C13", "proved", "is_partitioned_correct partition_point_correct",
  "partition_point: both the C++11 recursion and the C++14 loop")
m("C14", "proved", "is_sorted_correct is_sorted_until_correct")
m("C15", "proved", "is_permutation_correct is_permutation2_correct")
m("C16", "proved", "lexicographical_compare_correct tristate_lexicographical_compare_correct lexicographical_compare_strict_weak_order")
m("C17", "proved", "min_element_correct max_element_correct minmax_element_correct")
m("C18", "proved", "includes_correct")
m("C19", "partial", "is_heap_refuted is_heap_partial is_heap_until_partial is_heap_until_strict_partial",
  "false of the code when a child is equivalent to its parent ([5;5]); true is only returned for heaps, and the answer is exact without such ties")

m("C20", "proved", "rotate_correct rotate_copy_correct")
m("C21", "proved", "reverse_correct reverse_copy_correct copy_correct move_correct copy_n_correct copy_if_correct copy_while_correct copy_until_correct copy_backward_correct fill_correct fill_n_correct generate_correct generate_n_correct transform_correct transform2_correct replace_correct replace_if_correct replace_copy_if_correct swap_ranges_correct for_each_correct")
m("C22", "partial", "move_backward_refuted move_backward_partial",
  "false of the code on every non-empty range: it decrements first instead of last and runs off the front of the sequence; holds for the empty range only")
m("C23", "partial", "for_each_n_refuted for_each_n_partial",
  "false of the code for every n > 0: the counter is never incremented and the loop runs off the end; holds for n = 0 only")
m("C24", "proved", "remove_if_correct remove_correct remove_copy_if_correct")
m("C25", "proved", "unique_correct unique_copy_correct")
m("C26", "proved", "partition_correct partition_copy_correct")
m("C27", "partial", "stable_partition_refuted stable_partition_partial stable_partition_moves_nothing gather_partial",
  "false of the code: ranges of length one return first even if the element satisfies the predicate, so nothing is ever moved; holds for ranges already partitioned")
m("C38", "proved", "shuffle_correct random_shuffle_correct")
m("C39", "partial", "random_swap_refuted random_swap_partial",
  "false of the code: indices are drawn from 0..d inclusive, d being one past the end; holds when the upper bound is never drawn")
m("C40", "proved", "clamp_correct clamp_range_correct")
m("C28", "proved", "merge_correct merge_of_perm merge_set_unique")
m("C29", "proved", "set_union_correct set_intersection_correct set_difference_correct set_symmetric_difference_correct set_counts merge_set_unique")
m("C30", "proved", "inplace_merge_correct merge_of_perm merge_set_unique")
m("C41", "proved", "find_intersection_correct find_difference_correct find_symmetric_difference_correct merge_range_correct set_union_range_correct set_intersection_range_correct set_difference_range_correct set_symmetric_difference_range_correct")
m("C31", "proved", "push_heap_correct pop_heap_correct sort_heap_correct")
m("C32", "partial", "make_heap_refuted make_heap_partial",
  "false of the code: push_heap_back is given the length i instead of i + 1, so [1;2] stays as it is; the range is always permuted, and descending ranges are left as the heaps they are")
m("C33", "partial", "partial_sort_refuted partial_sort_partial",
  "false of the code because of make_heap; holds whenever make_heap makes a heap of [first, middle)")
m("C34", "proved", "sort_correct")
m("C35", "proved", "nth_element_correct")
m("C36", "partial", "stable_sort_refuted stable_sort_partial",
  "false of the code: the insertion sort for short ranges is the unguarded one throughout, so it runs off the front as soon as an element is less than the first ([2;1]); whenever it does not, the result is the stable sort")
m("C37", "proved", "next_permutation_correct prev_permutation_correct next_then_prev prev_then_next next_permutation_visits_all next_permutation_visits_once")

m("C42", "proved", "popcount_correct parity_correct")
m("C43", "partial", "leading_trailing_zeros cntl1_refuted cntl1_partial cntt1_refuted cntt1_partial",
  "clz/ctz/cntl0/cntt0 proved; cntl1 is wrong for unsigned types with the compiler's builtins (clrsb counts redundant sign bits) and for types narrower than int, cntt1 for -1 in signed types narrower than int")
m("C44", "proved", "bit_length_correct bit_length_negative bit_reverse_correct bit_reverse_involutive bit_reverse_in_correct bit_reverse_in_zero")
m("C45", "partial", "rot_refuted rot_partial",
  "a shift of 0 is undefined for types at least as wide as int, and so are rotations of signed operands whose left shift is undefined before C++20; everything else proved")
m("C46", "partial", "single_bit_correct bit_range_refuted bit_range_partial",
  "single-bit operations proved; the range operations shift by the full width (or overflow) at the topmost positions of types at least as wide as int")
m("C47", "proved", "rightmost_correct")
m("C48", "partial", "carry_to_exp2_unsigned carry_to_exp2_signed_refuted carry_to_exp2_signed_partial",
  "unsigned proved; signed types at least as wide as int negate MIN for MIN < x < MIN / 2")
m("C62", "proved", "shift_correct")

m("C63", "proved", "accumulate_correct reduce_correct transform_reduce_correct transform_reduce2_correct")
m("C64", "proved", "partial_sum_correct adjacent_difference_correct sum_difference_inverse iota_correct")
m("C65", "partial", "inclusive_scan_correct transform_inclusive_scan_correct exclusive_scan_refuted exclusive_scan_empty exclusive_scan_partial transform_exclusive_scan_partial inclusive_scan_init_refuted inclusive_scan_init_partial transform_inclusive_scan_init_partial",
  "false of the code: exclusive_scan overwrites *result before reading *first, so it is wrong in place, and writes init for an empty range; with an initial value inclusive_scan writes init first and so N + 1 elements; the scans without an initial value are proved, the others for disjoint non-empty ranges")

m("C49", "proved", "make_sha1_correct")
m("C50", "proved", "make_md5_correct")
m("C51", "proved", "sha1_pieces_correct sha1_reset_correct md5_pieces_correct md5_reset_correct sum_pieces_correct xor_pieces_correct",
  "both interfaces in any mixture; the mutating md5::process_block (and process_bytes, process_range) increments a const& iterator and does not compile when used, so md5 has only the mutating process_bit, process_bits and process_byte; process_bits for at most 32 bits")
m("C52", "proved", "make_sum_correct make_xor8_correct")
m("C66", "partial", "get_byte_partial set_byte_partial get_byte_refuted",
  "false of the code for types wider than int: the mask UCHAR_MAX << n is computed in int, so the shift is undefined for the bytes beyond its width; proved for all types not wider than int")
m("C67", "partial", "bytes_iterator_forward_correct bytes_iterator_back_partial bytes_iterator_back_refuted",
  "false of the code: -- never undoes ++ and - never undoes + across an element boundary (unsigned arithmetic, and the size is added unconditionally); going forward is proved")

m("C53", "partial", "exec_runs_partial exec_only_partial exec_minus_partial exec_refuted",
  "False as stated: the branch for '-' tests for '+', so exec ignores '-' (exec_refuted, exec_minus_partial). Proved, both directions, for programs without '-'; nothing is proved once input is read to a cell off the tape.")
m("C54", "proved", "is_well_formed_correct balanced_text_correct jump_end_correct jump_start_correct exec_safe_correct")
m("C55", "proved", "strlen_correct strlen_n_correct strchr_correct strrchr_correct memchr_correct",
  "Results are first_of/last_of/length statements about the characters before the terminator; no assumption about the array after the terminator, so no over-read.")
m("C56", "partial", "strcmp_partial strcmp_compares_plain_char strcmp_refuted strncmp_partial strncmp_compares_plain_char strncmp_refuted memcmp_correct",
  "False in the code for strcmp/strncmp: characters are compared as (signed) char, so strings with characters above 127 compare wrongly; proved for 7-bit characters, memcmp proved in full. strcoll has the text of strcmp.")
m("C57", "proved", "strspn_correct strcspn_correct strpbrk_correct", "")
m("C58", "partial", "strstr_partial strstr_refuted",
  "False in the code when both strings are empty (returns null); proved in all other cases.")
m("C59", "partial", "strcpy_correct strncpy_correct strcat_refuted strcat_overrun_refuted strncat_partial strncat_refuted",
  "strcpy and strncpy proved. strcat appends after the terminator (off by one) so it never appends; strncat writes a second terminator when the source is shorter than n.")
m("C60", "partial", "memcpy_correct memmove_refuted memmove_underrun_refuted memset_correct",
  "memcpy and memset proved. memmove calls copy_backward with the start of the destination as its end: it writes the n bytes before the destination.")
m("C61", "partial", "str_to_int_signed_partial str_to_int_minus_max_refuted str_to_int_zero_x_refuted str_to_int_unsigned_partial str_to_int_unsigned_minus_refuted ascii_to_int_signed_partial ascii_to_int_minus_max_refuted ascii_to_int_unsigned_partial",
  "Proved for all strings, bases and types with three exclusions, each of which is refuted: minus the maximum of a signed type is clamped to the minimum; 0x is skipped in every base, not only 0 and 16; unsigned conversions stop at a minus sign. The overloads with a non-null endptr call the C library and are not modelled.")
m("C68", "partial", "isalnum_correct isalpha_correct isblank_correct iscntrl_correct isdigit_correct isgraph_correct islower_correct isprint_correct ispunct_correct isspace_correct isupper_correct isxdigit_correct tolower_correct toupper_correct isclassified_refuted",
  "Everything is proved for all characters except isclassified, which is refuted: it is true of every ASCII character whatever the mask.")
m("C69", "partial", "int_to_string_partial int_to_string_min_refuted int_to_string_letters_refuted int_to_string_round_trip_partial int_to_string_round_trip_refuted",
  "Proved for the bases 2..10 and all types of at most 64 bits, for the most negative value in base 10 only. Refuted: the most negative value in base 2 and digits above 9 are undefined (failed assertion or overflow), and minus the maximum reads back as the minimum. The most negative value in the bases 3..9 is not covered (it fails in base 8 for 16 and 64 bits too).")
m("C70", "partial", "digits_to_int_partial digits_to_int_refuted", "True for one and two digits, refuted for more: the digits before the last are all multiplied by ten only.")
m("C71", "proved", "gcd_correct gcd_narrow_correct gcd_min_undefined lcm_correct", "For the most negative value of int and wider types gcd is undefined (abs overflows), as the standard allows.")
m("C72", "proved", "rational_make_correct rational_make_zero_correct rational_of_int_correct rational_add_correct rational_sub_correct rational_mul_correct rational_div_correct rational_add_defined rational_mul_defined rational_div_defined rational_neg_correct rational_abs_correct rational_inc_correct rational_dec_correct rational_inc_defined rational_dec_defined",
  "For signed IntType of at least the width of int. Operators with an integer operand convert it (of_int) and are covered by it.")
m("C73", "partial", "rational_assign_partial rational_mul_assign_self_correct rational_add_assign_self_refuted rational_sub_assign_self_refuted rational_div_assign_self_refuted",
  "Proved for distinct operands and for x *= x. Refuted for x += x, x -= x and x /= x: the operators read rhs after modifying *this.")
m("C74", "proved", "rational_eq_correct rational_less_correct rational_others_correct", "")
m("C75", "partial", "rational_eq_int_correct rational_less_int_partial rational_int_less_partial rational_others_int_partial rational_less_int_refuted rational_int_less_refuted",
  "False in the code for negative fractions: the recursive call swaps two arguments, so x < n is computed as floor(x) + den < n. Proved to be right outside, and wrong inside, the window floor(x) < n <= floor(x) + den.")
m("C76", "proved", "const_mod_add_correct const_mod_mult_correct const_mod_mult_add_correct const_mod_mult_undefined const_mod_pow_correct", "")
m("C77", "proved", "const_mod_invert_correct inverse_mod_unique inversive_step_correct inversive_step_zero_correct", "")
m("C78", "proved", "lcg_seed_correct lcg_step_correct lcg_step_undefined lcg_run_correct lcg_range_correct minstd_correct", "Seeding from seed sequences and streams is not modelled.")
m("C79", "partial", "lcg_discard_partial lcg_discard_one_refuted lcg_discard_refuted",
  "Proved for every multiplicative engine and for mixed ones with (a-1)/gcd(a-1,m) prime to m and a^z not a multiple of m. Refuted otherwise: a = 1 divides by zero, and in the other cases a wrong state results.")
m("C80", "partial", "rand48_seed_correct rand48_partial rand48_refuted", "Seed and state are right; the value is refuted: the state is truncated to 32 bits before the shift, so only 15 of the 31 bits are returned.")
m("C81", "proved", "additive_combine_correct ecuyer1988_correct", "")
m("C82", "proved", "shuffle_order_correct", "For tables with k * (max - min + 1) < 2^64; otherwise the code asserts.")
m("C83", "proved", "mt_correct mt_step_correct mt_range_correct mt_r_zero_refuted", "For 1 <= r (for r = 0, which the standard allows, the code is refuted), m < n and shifts below the width; seed sequences are not modelled.")
m("C84", "partial", "mt_cxx11_refuted", "False in the code: the shift binds tighter than the or in twist_*, the old instead of the new words are used from index n - m on, and the tempering steps are nested instead of chained.")
m("C85", "proved", "mt_equal_correct mt_equal_future_correct", "C++14 version; for m >= 2 and the top bit of a set, as in all predefined engines.")
m("C86", "partial", "mt_stream_refuted", "False in the code: the first word is written twice. Only engines at the end of a block are modelled.")
m("C87", "partial", "lfsr_partial lfsr_wide_partial lfsr_range_partial lfsr_range_refuted",
  "Proved for words as wide as the type, from any word that obeys the recurrence, and from any word at all if w - k <= k - s - q (true of taus88). In a wider type only the lower w bits are right, and the range is refuted.")
m("C88", "partial", "lfsr_seed_partial lfsr_alive_correct lfsr_seed_refuted", "Proved for w - k <= 30; refuted beyond, where the int literal 1 is shifted into or past its sign bit.")
m("C89", "partial", "xor_combine_partial xor_combine_paths_refuted xor_combine_range_refuted", "Proved for two engines with the same result type. Refuted: the const operator shifts the second value in its own type, and max() ignores the shifts.")
m("C90", "proved", "taus88_correct taus88_run_correct", "The example checks the 10000th output against the value Boost documents.")
m("C91", "partial", "uniform_int_range_partial uniform_int_negative_refuted uniform_int_power_refuted",
  "Proved for all types at least as wide as int, unless a negative bound meets a narrower engine, or the number of results is a power of the number of engine values and lo is not 0. In both cases the claim is refuted: results are not sign-extended, or lo is not added.")
m("C92", "partial", "uniform_int_correct_partial uniform_int_unbiased_partial", "Proved under the conditions of C91: a length-preserving bijection between the sequences of engine values for x and those for y. Where C91 is refuted this fails too.")
m("C93", "partial", "uniform_int_paths_partial uniform_int_paths_refuted", "Proved unless the number of results, or the quotient drawn last, equals the number of engine values; then the non-const overload throws an engine value away.")
m("C94", "partial", "smallint_correct_partial smallint_balanced smallint_range_refuted smallint_overflow_refuted", "Proved unless the range of the engine is cut when converted to the result type, or range + 1 overflows in a signed engine type; both are refuted.")
m("C95", "proved", "bitset_and bitset_or bitset_xor bitset_flip_all bitset_set_all bitset_reset_all", "")
m("C96", "proved", "bitset_left_shift bitset_right_shift", "")
m("C97", "proved", "bitset_set_bit bitset_reset_bit bitset_flip_bit bitset_test_bit", "")
m("C98", "proved", "bitset_equal bitset_any bitset_none bitset_all bitset_count", "")
m("C99", "partial", "bitset_to_ulong bitset_to_ullong bitset_of_ullong_partial bitset_of_ullong_refuted", "The constructor is refuted for N > 64 with an unsigned long of 64 bits: it shifts val by 64, which is undefined.")
m("C100", "proved", "bitset_of_string bitset_to_string bitset_string_round_trip", "")
m("C101", "partial", "string_default_empty string_widened string_from_literal string_from_pointer string_filled string_from_range_ra string_from_range_in string_from_substring_partial string_from_substring_refuted", "All constructors are proved, the one from a substring for pos <= str.size(). Beyond it no exception is thrown: size() - pos wraps around, and the new string has a size greater than its capacity.")
m("C102", "partial", "append_pointer append_c_string append_other_string append_substring_partial append_substring_refuted append_fill_partial append_fill_refuted append_random_access_range push_back_appends", "Sources inside the string included. append(str, str.size(), n) throws out_of_range where it should append nothing; append(n, c) with size() + n beyond the maximum of size_type passes the length check and writes out of bounds.")
m("C103", "partial", "assign_pointer_partial assign_c_string_partial assign_substring_partial assign_string_partial assign_empty_refuted assign_own_tail_refuted assign_fill_partial assign_fill_refuted assign_random_access_range", "Proved for non-empty strings and sources apart from the string, at its start, or behind the new contents. Refuted: assigning an empty string throws out_of_range; s.assign(s, 1) gives copies of the last character (move always copies backward); assign(n, c) throws out_of_range instead of length_error.")
m("C104", "partial", "assign_input_range_partial assign_input_range_refuted append_input_range_partial append_input_range_refuted", "Ranges that fit are proved correct. A range one character too long is accepted and overwrites the terminator; a longer one throws length_error, but the old contents have been overwritten.")
m("C105", "proved", "resize_keeps_prefix clear_empties pop_back_removes swap_exchanges prepend_characters prepend_one", "")
m("C106", "partial", "at_reads substr_partial substr_without_null substr_refuted copy_partial copy_refuted", "substr is computed exactly: it stops at the first null character, so it is right if the rest of the string has none. copy is proved for pos < size(); for pos = size() it throws out_of_range.")
m("C107", "partial", "compare_pointer_partial compare_substrings_partial compare_strings_partial compare_c_string_partial equality_partial less_than_partial equality_refuted", "Proved if neither has a null character, or only one and no character is negative. With null characters in both, the characters behind them are not compared.")
m("C108", "partial", "find_finds_first_partial rfind_finds_last_partial rfind_refuted find_character rfind_character", "Proved for every text and every pattern without null characters; a pattern with one is compared only up to it.")
m("C109", "proved", "find_first_of_finds find_first_not_of_finds find_last_of_finds find_last_not_of_finds find_first_not_of_character find_last_not_of_character", "")
m("C110", "proved", "concatenation shift_concatenation shrink_truncates", "")
m("C111", "proved", "fx_copy_correct fx_copy_n_correct fx_copy_if_correct fx_copy_while_correct fx_copy_until_correct fx_copy_backward_correct", "For array and sub_array.")
m("C112", "partial", "fx_fill_correct fx_fill_n_correct fx_generate_correct fx_generate_n_correct fx_unfold_correct fx_iota_correct fx_partial_sum_partial fx_partial_sum_refuted fx_recurrence_partial fx_recurrence_refuted", "partial_sum of a non-empty range into an empty sub_array overwrites an element outside of it; recurrence with more initial values than elements keeps the last ones instead of the first.")
m("C113", "proved", "fx_transform_correct fx_transform2_correct fx_replace_copy_correct fx_replace_copy_if_correct fx_clamp_range_copy_correct", "For array and sub_array.")
m("C114", "partial", "fx_remove_copy_correct fx_remove_copy_if_correct fx_remove_correct fx_remove_if_correct fx_unique_copy_partial fx_unique_copy_refuted fx_unique_correct", "unique_copy of a non-empty range into an empty sub_array overwrites an element outside of it; everything else is proved.")
m("C115", "proved", "fx_reverse_copy_correct fx_reverse_correct fx_rotate_copy_correct fx_rotate_correct fx_swap_element_copy_correct fx_swap_element_correct", "For array and sub_array.")
m("C116", "proved", "fx_partition_copy_correct fx_partition_correct fx_stable_partition_copy_correct fx_stable_partition_correct", "partition_copy takes the first elements of the range that fit; stable_partition_copy the first of the whole result.")
m("C117", "proved", "fx_merge_correct fx_inplace_merge_correct fx_set_union_correct fx_set_intersection_correct fx_set_difference_correct fx_set_symmetric_difference_correct", "For array and sub_array.")
m("C118", "partial", "fx_stable_sort_partial fx_stable_sort_refuted", "Proved unless the container is an empty sub_array of an array of two or more elements; then the first element is read all the same, and the loop runs off the end. sort calls stable_sort.")
m("C119", "proved", "fx_make_heap_correct fx_push_heap_correct fx_pop_heap_correct fx_sort_heap_correct", "For array and sub_array.")
m("C120", "partial", "fx_partial_sort_correct fx_make_partial_heap_correct fx_nth_element_partial fx_nth_element_refuted", "nth_element with nth at the end reads past the array.")
m("C121", "proved", "fx_next_permutation_correct fx_prev_permutation_correct", "For array and sub_array.")
m("C122", "partial", "fx_shuffle_partial fx_shuffle_refuted fx_random_swap_correct", "The result is always a rearrangement, made by exchanging element i with one of all elements for each i. The arrangements are not equally likely: of three elements 4 of the 27 sequences of draws keep the order, 5 exchange the first two.")
m("C123", "partial", "make_uuid_partial make_uuid_cstr_partial make_uuid_refuted denotes_a_uuid", "make_uuid accepts exactly the ranges that begin with a text of a uuid: what follows the text is not looked at, so 33 digits are accepted. Everything else of the claim is proved.")
m("C124", "proved", "uuid_to_string_correct uuid_round_trip denotes_a_uuid", "")
m("C125", "proved", "uuid_compare_correct", "")
m("C126", "proved", "uuid_variant_correct uuid_version_correct make_uuid5_correct make_uuid3_correct name_uuid_facts make_uuid4_correct", "A name is the sequence of its bytes; the distribution gives 32-bit words.")
m("C127", "partial", "literal_namespace_partial literal_namespace_rest literal_namespace_refuted", "The empty string and every beginning of dns, url, oid or x500 name a namespace too (range::equal ignores the length of the second range); strings that are no such beginning are read by make_uuid (C123).")
m("C128", "proved", "hash_range_correct hash_combine_correct hash_combine_words hash_combine_injective hash_range_last", "For one or more values, given their hashes; std::size_t with 64 bits.")
m("C129", "partial", "reverse_iterator_partial reversed_partial reverse_less_refuted", "All but the comparisons: <, >, <= and >= compare the base iterators the wrong way round, so begin < end is false.")
m("C130", "proved", "filter_iterator_correct filtered_correct removed_if_correct", "Going back recurses once per element skipped, so its depth is bounded by the length only.")
m("C131", "partial", "uniqued_partial uniqued_refuted", "Right if some neighbours differ; a range of equal elements, a single one too, is shown as empty. The equality must imply identity.")
m("C132", "partial", "steps_partial steps_forward_partial steps_loop_refuted steps_difference_refuted steps_back_refuted steps_zero_refuted", "Right for loops that ask is_end(), for + n with n > 0 and [n]. A loop to end() never ends: the iterator stays at the last element visited and end() is behind the base range. -- and prev() from the last element do not move, it + 0 becomes the end, end - begin is one too large if wid divides the length.")
m("C133", "partial", "joint_iterator_partial jointed_partial joint_difference_refuted", "All but the difference lhs - rhs with lhs in the first range and rhs in the second, which has the wrong sign.")
m("C134", "partial", "alternate_iterator_partial alternated_partial alternate_plus_refuted alternate_difference_refuted", "All but: it - n is two too far if the target is in the second range; the difference is 2 too large from the second to the first range, and undefined (limited::multiplies with -1) for neighbouring pairs.")
m("C135", "partial", "while_next_partial while_increment_partial while_increment_refuted while_previous_refuted", "++ reads behind the range (undefined if that is the end of the sequence) if no element fails; -- from the end goes to the last element that passes, even behind one that fails.")
m("C136", "partial", "insert_range_partial inserted_partial insert_range_less_refuted", "All but the comparisons of an inserted element with one behind, which are the wrong way round. operator+ does not compile and is not modelled.")
m("C137", "proved", "moves_forward_correct moves_backward_correct distance_correct", "Any iterator type given by its own ++, -- and ==; recursion depth log2(n) + 1.")
m("C138", "partial", "limited_plus_correct limited_multiplies_partial limited_multiplies_refuted", "plus for all operands; multiplies but for a factor -1 (if the second: always; if the first: with a positive second), where the division min / -1 overflows. Operands of the promoted type.")
m("C139", "proved", "taken_correct dropped_correct taken_end_correct dropped_end_correct window_correct offset_correct slices_undefined", "taken_end and dropped_end take their argument negated; arguments of the wrong sign are undefined.")
m("C140", "proved", "view_of_c_string view_swap_exchanges view_at_reads view_front view_back remove_prefix_drops remove_suffix_drops", "")
m("C141", "partial", "view_substr_partial view_substr_refuted view_copy_partial view_copy_refuted", "substr does not cut n off at the end: for size() - pos < n < npos the new view reaches behind the old one. copy throws out_of_range for pos = size().")
m("C142", "partial", "view_compare_pointer_partial view_compare_substrings_partial view_compare_substring_partial view_operators_partial view_c_string_operators_partial view_equality_refuted", "Characters behind a null character are not compared; exact for texts without null characters, or with null characters on one side and no negative ones.")
m("C143", "partial", "view_find_partial view_find_c_string view_find_character view_rfind_refuted", "Patterns must not contain null characters; one that starts with a null character matches at every null character.")
m("C144", "proved", "view_find_of view_find_of_character", "")
m("C145", "partial", "view_starts_with_character view_ends_with_character view_starts_with_partial view_ends_with_partial view_starts_with_refuted", "For texts without null characters; what follows one is not compared.")
m("C146", "partial", "view_to_string_partial view_to_string_null_refuted view_to_string_unterminated_refuted view_to_int_partial view_to_int_refuted", "to_string looks for a null character at or behind the view: undefined if there is none, and cut off there if the view contains one. string_to_int converts up to the terminator, not the end of the view.")
m("C147", "partial", "days_apart_defined to_time_t_counts_partial to_time_t_year_zero_refuted to_time_t_late_year_refuted tm_to_time_t_counts_partial", "For the years 1 to 5883516. Before March of year 0 division rounds the wrong way, later years overflow int. The overload for texts cannot be instantiated and is not modelled.")
m("C148", "partial", "to_time_t_orders_partial", "For the years 1 to 5883516 (see C147).")
m("C149", "partial", "hton_memory_partial ntoh_memory_partial net_named_partial net_round_trip_partial hton_byte_refuted", "For words of 2 to 128 bytes. One-byte words are undefined on little-endian machines; ntoh does not compile on PDP-endian ones.")
m("C150", "partial", "static_pow_correct static_pow2_partial static_pow2_refuted static_pow2m1_partial static_pow2m1_refuted", "static_pow holds in full. static_pow2 shifts an int and fails from the width of int on; static_pow2m1<T, 0> is 1.")
m("C151", "proved", "integer_digits_correct", "Types of 1, 2, 4 and 8 bytes.")


m("C152", "partial", "varray_holds ctor_seq_correct ctor_value_correct ctor_size_correct vget_correct vat_correct vfront_back_correct vset_correct vswap_correct vempty_refuted", "Everything but empty(), which says the opposite of what it should.")
m("C153", "proved", "vfill_correct vresize_correct vassign_correct", "Copy and move assignment name members that do not exist and do not compile.")
m("C154", "proved", "vmap_correct vmap2_correct vmap_to_correct vmap2_to_correct vupdate_correct vsum_correct vmin_correct vmax_correct", "Binary operations when the right operand is at least as long.")
m("C155", "partial", "vshift_partial vshift_refuted vcshift_partial vshift_large_refuted", "For |i| up to the size; beyond it the behaviour is undefined. shift leaves the old elements in the vacated places instead of value_type().")
m("C156", "proved", "slice_view_correct gslice_view_correct mask_view_correct indirect_view_correct", "Sizes and strides whose products fit std::size_t. A mask that selects more than N elements raises length_error.")
m("C157", "proved", "view_read_correct view_front_back_correct view_update_correct view_fill_correct", "Positions within the array; the operand is not part of the array that is written.")


m("C158", "proved", "tri_overloads teval_sound teval_decides tri_ops_exact", "")
m("C159", "partial", "orun_correct observers_correct constructors_correct free_get_pointer_refuted", "The members do; the static get and get_pointer and the free functions get and get_pointer do not look at the flag and give the old value after a reset.")
m("C160", "proved", "opt_compare_correct null_compare_correct option_less_order", "")
m("C161", "proved", "var_of_correct var_default_correct apply_visitor_correct var_get_correct var_compare_correct alternatives_order var_swap_correct", "")


m("C162", "partial", "weed_matches weed_progress weed_star_eps_refuted", "Proved when no repeated operand can match the empty text, character sets do not begin or end with -, MinDigits is 0 or 1, limits are as in wf; undefined behaviour is possible only with signed numbers of 32 bits or more (see C164). A repetition of something that matches the empty text never ends.")
m("C163", "partial", "weed_attributes string_attribute_refuted", "Proved for attribute types unused, characters, numbers, strings, arrays of numbers and tuples of these, without string(...) terminals: their attribute is always the empty string. Variants and arrays of arrays are not modelled.")
m("C164", "partial", "uint_correct int_correct int_minimum_refuted hex_refuted min_digits_refuted", "Proved for MinDigits <= 1 except for the least value of a signed type of 32 bits or more, where the code negates it (undefined behaviour). bin, oct and hex ask for size_t(-1) digits and fail on every number shorter than the maximum; MinDigits counts the character behind the number.")
m("C165", "proved", "weed_laws", "")
m("C166", "partial", "char_set_correct set_first_minus_refuted set_last_minus_refuted", "Proved for sets that neither begin nor end with -. A leading - reads the character before the set; a trailing - is never matched.")
m("C167", "partial", "weed_list_partial list_trailing_refuted repeat_count_refuted repeat_any_refuted stopover_one_refuted", "A list also consumes one separator that no operand follows; repeat(n)[p] reports the starting position when there are exactly n matches, repeat[p] always does; Stopover with limit 1 does not stop. weed_matches covers repeat(0) and repeat(n) with limit n, and Stopover from 2 on.")


m("C168", "partial", "floor_partial ceil_partial rounding_special_partial floor_tolerance_refuted ceil_tolerance_refuted rounding_undefined_refuted rounding_limit", "Proved for |x| other than 2^64 (larger only with SPROUT_NOERROR_LARGE_FLOAT_ROUNDING, the default; else it throws), precision at most 64, and x not within the tolerance epsilon * max(|x|, 1) of the integer towards zero: there the code returns that integer, e.g. floor(-1e-300) is -0.")
m("C169", "partial", "trunc_partial round_partial rounding_special_partial rounding_undefined_refuted rounding_limit", "Proved except at |x| = 2^64 (a float or double), where the conversion to uintmax_t is undefined, and above it without SPROUT_NOERROR_LARGE_FLOAT_ROUNDING.")
m("C170", "partial", "itrunc_partial ifloor_partial iceil_partial iround_partial ifloor_iceil_refuted itrunc_limit", "Proved for all integer types of 32 to 64 bits and numbers between their limits; ifloor and iceil apart from the tolerance of equal_to (ifloor(-1e-300) is 0). 2^31 as a float passes the test for int and is then converted (undefined).")
m("C171", "partial", "parts_partial integer_part_partial", "Same restriction at 2^64 as C169.")
m("C172", "partial", "classify_partial classify_float_refuted", "Proved when the limit used is that of the type; the code takes that of double for every type, so subnormal floats are classified as normal.")
m("C173", "partial", "fabs_correct signbit_partial copysign_partial negative_zero_refuted", "fabs is proved for all values; signbit and copysign are wrong for negative zero (and the sign of a NaN cannot be seen).")
m("C174", "partial", "compare_partial islessequal_refuted islessequal_is_less", "islessequal compares with <; the others are proved.")
m("C175", "proved", "fmin_correct fmax_correct fmin_fmax_nan", "")
m("C176", "partial", "fdim_partial fma_partial fdim_infinity_refuted fma_single_rounding_refuted", "fdim is proved for finite arguments, fdim(inf, inf) is inf. fma is proved when the product is exact; in general it rounds twice.")
m("C177", "partial", "equal_to_reflexive equal_to_symmetric equal_to_close equal_to_transitive_refuted", "Not transitive.")
m("C178", "partial", "ldexp_exact_partial ldexp_rounded_partial ldexp_outside ldexp_refuted", "Proved when 2^e and 2^-e are numbers of the type computed in; beyond that the result is an infinity or zero, e.g. ldexp(2^1000, -1030) is 0. Correct rounding is proved when the type is the one computed in (double, long double), for float a double rounding is possible.")
m("C179", "partial", "ilogb_partial frexp_partial frexp_large ilogb_ends_refuted", "Proved for normal numbers assuming that the logarithm is within one of the exponent (lg_ok; it is not modelled). The correction never ends for the smallest positive double, and frexp of x >= 2^1023 has significand 0.")
m("C180", "partial", "fmod_partial fmod_special_partial odd_even_correct fmod_ends_refuted", "fmod is proved for divisors that are normal numbers of the type computed in (every float, normal doubles), assuming lg_ok as in C179; is_odd and is_even for every finite number.")
m("C181", "partial", "remquo_partial remquo_overflow", "Proved for normal arguments (of the type computed in) and quotients that fit in the integer type; the quotient is accumulated in an int, so remainder(2^31, 1) overflows. Assumes lg_ok as in C179.")


m("C182", "proved", "clist_runs clist_runs_seen clist_unlink_range", "Insertions require the item to be in no list; see C184 for what happens otherwise. The functions taking ranges of items (constructor, assign, push_front, insert_after), operator= and swap do not compile when used.")
m("C183", "proved", "clist_walk clist_iterators clist_iterators_equal clist_returned clist_is_linked", "is_linked is false for the last item of a list.")
m("C184", "proved", "clist_misuse_ub clist_erase_last_ub clist_erase_range_ub clist_push_twice clist_push_shared", "")
m("C185", "partial", "clist_empty_wrong clist_empty_refuted clist_cbefore_begin_refuted clist_move_wrong clist_move_pop clist_move_refuted", "False of the code in all three parts: empty() returns the opposite (!!fst.next), cbefore_begin() is begin(), and move construction copies, so that both lists share the items and taking one off the new list cuts the old. What the code does instead is proved.")


m("C186", "proved", "cq_complex_ring cq_complex_mul cq_complex_div cq_complex_mixed cq_complex_eq cq_complex_values", "Rounding is left aside: the component type is an ordered field.")
m("C187", "partial", "cq_complex_assign cq_complex_assign_t_partial cq_complex_assign_alias cq_complex_alias_refuted", "False of the code for z *= z.real() and z /= z.real(): the real part is stored before the imaginary part is multiplied by it. Everything else is proved.")
m("C188", "partial", "cq_quaternion_ops cq_quaternion_algebra cq_quaternion_mixed_partial cq_quaternion_reversed cq_quaternion_reversed_refuted cq_quaternion_sup", "False of the code for T - quaternion and complex - quaternion, which do not negate the components they have no counterpart for, and T / quaternion, which divides by each component. quaternion * complex, complex * quaternion, and division of or by complex and quaternion do not compile when used.")
m("C189", "partial", "cq_quaternion_assign cq_quaternion_div_assign cq_quaternion_div_assign_c cq_quaternion_assign_t_partial cq_quaternion_special_refuted", "False of the specializations for *= and /= by a component of the quaternion itself. Everything else is proved, for both variants.")
m("C190", "partial", "cq_quaternion_special cq_quaternion_special_ops cq_quaternion_special_refuted", "False of the code: the constructor stores the first component twice and ignores the second, so every operator that constructs its result is right only if the first two components of the result happen to be equal; quaternion<double>(x) is x + xi.")
m("C191", "partial", "cq_component_range_partial cq_component_crange_refuted", "False of the code for cend(), which returns cbegin().")


m("C192", "partial", "fft_dft_partial", "Proved over the real numbers with exact cos, sin and pi; rounding is left aside.")
m("C193", "partial", "ifft_idft_partial fft_round_trip_partial dft_inverse", "Proved over the real numbers with exact cos, sin and pi; rounding is left aside.")
m("C194", "partial", "dft_element_partial", "Proved over the real numbers with exact cos, sin and pi; rounding is left aside. dft_iterator is left out: moving it does not compile.")
m("C195", "partial", "fixed_dft_partial fixed_dft_random_access_partial fixed_dft_forward_partial fixed_dft_forward_refuted", "Proved over the real numbers with exact cos, sin and pi; rounding is left aside. False of the code for iterators without random access if the result has another length than the range: the angles are divided by the size of the result.")
m("C196", "partial", "fixed_fft_partial fixed_ifft_partial fixed_fft_round_trip_partial fixed_fft_sign_refuted", "Proved over the real numbers with exact cos, sin and pi; rounding is left aside. False of the code: fixed::fft uses e^(2 pi i j k / n), the sign of the inverse transform. What it computes is proved, and that detail::ifft inverts it; fixed::ifft itself does not compile.")


m("C197", "partial", "sub_array_access sub_array_of_sub_array sub_array_of_array sub_array_member_window sub_array_window_1 sub_array_window_1_refuted", "False of the code for the non-const member window(to_first): it calls size() after moving the begin and so loses elements at the end. The member window takes positions in the array, the function sub_window positions in the sub_array; both are stated.")
m("C198", "proved", "sub_array_fill sub_array_push_back sub_array_push_front sub_array_pop_back sub_array_pop_front sub_array_swap", "")
m("C199", "partial", "sub_array_equal_partial sub_array_equal_prefix sub_array_equal_refuted sub_array_less", "False of the code for sizes that differ: operator== compares as many elements as the left one has with what follows the begin of the right one, inside or outside its window. What it computes is stated; the order is proved in full.")
m("C200", "proved", "fixed_append fixed_append_ends fixed_insert fixed_push fixed_insert_n fixed_push_n fixed_erase fixed_erase_n fixed_pop fixed_pop_back_n fixed_pop_front_n", "")
m("C201", "proved", "fixed_realign fixed_resize fixed_set", "")
m("C202", "partial", "fit_insert_correct fit_push_correct fit_insert_n_correct fit_push_n_correct fit_append_correct fit_append_ends_correct fit_erase_correct fit_pop_correct fit_erase_n_partial fit_erase_n_result fit_erase_n_refuted fit_resize_partial fit_set_correct", "False of the code for erase_n, which subtracts 1 from the end whatever the number of elements, and for realign_to a container smaller than the number of elements, whose end is outside it. What both return is proved.")


m("C203", "proved", "fold_while_correct fold_until_correct", "")
m("C204", "proved", "is_increasing_correct is_decreasing_correct is_strictly_increasing_correct is_strictly_decreasing_correct", "")
m("C205", "proved", "sample_reservoir_correct sample_selection_correct", "")
m("C206", "proved", "sample_reservoir_uniform sample_selection_uniform", "")
m("C207", "partial", "bogo_sort_partial bogo_sort_sorted bogo_sort_reaches shuffle_reaches bozo_sort_partial bogo_sort_refuted bozo_sort_refuted", "False of the code: an engine within the interval can keep bogo_sort from terminating, and bozo_sort accesses the position one past the end when random_swap draws its upper bound. Proved: nothing else can go wrong, the outcome is a sorted rearrangement, and every sorted rearrangement is an outcome of bogo_sort.")
m("C208", "partial", "fx_bogo_sort_partial fx_bozo_sort_partial fx_sorts_sorted", "Termination depends on the draws; whenever they terminate the claim is proved, and they never access anything outside the container.")


m("C209", "partial", "join_partial join_refuted", "False of the code for an outer container that holds fewer containers than its static size (a sub_array): the partial sums are followed by zeros, the binary search is not over a sorted range, and elements are lost. Proved for every other outer container.")
m("C210", "partial", "join_separated_partial join_separated_refuted", "False of the code for inner containers of static size 0 (the result has size 0, the separators are lost) and for an empty outer container with a separator (the size of the result type wraps around). Proved otherwise.")
m("C211", "partial", "join_forward join_forward_separated_partial join_forward_separated_all join_forward_separated_refuted", "Proved without a separator. With one it is false: if the containers leave room a separator follows the last one too, and a string literal is inserted with its terminating character. Proved for full containers and separators that are no literals; what it computes otherwise is proved as well.")
m("C212", "partial", "join_strings_partial join_strings_separated_partial join_strings_refuted", "False of strings with a null character inside: the result ends there. Proved otherwise.")
m("C213", "partial", "size_enumed_correct size_enum_step size_enum_back size_enum_equal size_enum_less size_enum_plus_partial size_enum_minus_partial size_enum_difference_partial size_enum_index_partial size_enumed_size_partial size_enum_refuted", "The enumeration, ++, -- and comparisons are right. False of the code for - n, [], the difference of two iterators and thereby size(); the theorems say exactly for which arguments each is right.")


m("C214", "proved", "typ_all_of typ_any_of typ_none_of tpp_all_of_ok tpp_any_of_ok tpp_none_of_ok", "")
m("C215", "partial", "typ_one_of_partial tpp_one_of_partial typ_one_of_refuted typ_one_of_empty_refuted", "False of the code: three matches among four types can count as one, and types::one_of of an empty tuple is true. Proved for up to two matches in a tuple that is not empty (tpp: any pack).")
m("C216", "proved", "typ_count_if typ_find_index_if", "")
m("C217", "proved", "typ_fold typ_partial_sum typ_transform2 typ_transform2_short", "")
m("C218", "proved", "typ_lower_bound_index typ_upper_bound_index", "")
m("C219", "proved", "tpp_max_element_ok tpp_min_element_ok", "")


m("C220", "proved", "rmk_remake rmk_stepped", "")
m("C221", "partial", "rmk_order rmk_plus_partial rmk_index_partial rmk_prev_partial rmk_prev_refuted rmk_plus_refuted rmk_plus_over_refuted", "False of the code: -- is wrong for a source shorter than the window; for a longer one + n and - n are wrong from behind the window (another element, or out of the source) and from before it to behind it. Proved: comparisons and differences, -- for sources at least as long as the window, + n, - n and [] in all other cases.")
m("C222", "partial", "rmk_backward_refuted", "False of the code: the offsets of the end iterator have the wrong sign, reading backwards shows the old contents and nothing of the source. This is what the theorem says, for all ranges.")


m("C223", "partial", "idx_integer_range_partial idx_integer_range_refuted idx_integer_range_wide", "Proved if |Last - First| + |Step| is at most the number of non-negative values of the signed type. False otherwise: for an unsigned T the number of elements comes out near the number of values of T, for a signed one the distance overflows and the program is ill-formed.")
m("C224", "proved", "idx_make_integer_sequence idx_integer_n", "For N below half of the number of values of T (all of them for a signed T).")


m("C225", "partial", "ook_translation_partial ook_translation_refuted", "False as stated: all eight pairs are replaced by '>'. Proved: the pairs are found in the right places, and the result is the right translation with every command changed to '>'.")
m("C226", "partial", "misa_translation_partial misa_plain misa_translation_refuted", "False for the long vowel mark 0x81 0x5B, which is written \\5B in the code: its second byte is read as '['. Proved for texts without it and without the bytes 0x81 0x05 0x42.")


m("C227", "proved", "seed_array_generate seed_array_generate_range", "For results of 32 bits.")
m("C228", "proved", "make_seed_array_values", "")


m("C229", "proved", "generate_array_draws generate_array_mut_draws generate_array_split", "generate_array<0> of a const generator does not compile.")
m("C230", "proved", "random_range_draws random_range_endless", "")
m("C231", "partial", "bernoulli_share_partial bernoulli_ends_partial bernoulli_monotone_partial", "For rational p with exact arithmetic; the rounding of RealType is missing.")


m("C232", "proved", "factorial_integer factorial_fits factorial_real", "For the literals; their rounding to the floating type is not modelled.")
m("C233", "partial", "factorial_greatest_partial factorial_limit_refuted", "False of the code for the integers of 4 bytes: the limit is 11 though 12! = 479001600 fits, so factorial<int>(12) is rejected; long double keeps the limit of double; proved for the other types.")
m("C234", "partial", "bernoulli_number_partial bernoulli_number_refuted bernoulli_number_beyond bernoulli_numbers_exist", "False of the code for x = 28: the table holds -236364091/870, the numerator of B_24, instead of -23749461029/870, in all three types; proved for every other x. The rounding of the literals to the floating type is not modelled.")


m("C235", "proved", "fit_copy_correct fit_copy_n_correct fit_copy_if_correct fit_copy_while_correct fit_copy_until_correct fit_copy_backward_correct fit_remove_copy_if_correct fit_remove_if_correct", "")
m("C236", "proved", "fit_merge_correct fit_set_union_correct fit_set_intersection_correct fit_set_difference_correct fit_set_symmetric_difference_correct", "")
m("C237", "partial", "fit_stable_partition_copy_correct fit_partition_copy_correct fit_partition_partial fit_stable_partition_partial fit_partition_refuted fit_stable_partition_refuted", "False of the code for partition and stable_partition: the window is as long as there are elements that do not satisfy the predicate, so it is right only if as many do; proved for stable_partition_copy and partition_copy.")


m("C238", "partial", "fit_unique_correct fit_unique_copy_partial", "unique_copy: not for an empty container and a range that is not empty, where fixed::unique_copy writes outside of the container (fx_unique_copy_refuted).")


m("C239", "partial", "fit_fill_n_partial fit_fill_n_refuted", "False of the code for n greater than the size of a sub_array: fixed::fill_n does not limit n, so the elements of the internal array behind the container are filled too; proved: the window is right for all n, and only the n elements from the start of the container are changed.")


m("C240", "partial", "strtod_decimal_partial strtod_no_digits strtod_tiny_refuted", "Over exact rationals, without the rounding of the floating type. Proved for texts with no more decimals than -min_exponent; false of the code beyond: the result is HUGE_VAL even for 0.00...0.")
m("C241", "partial", "strtod_exponent_opposite strtod_exponent_partial strtod_exponent_refuted", "False of the code: the exponent acts with the opposite sign, its first digit is lost if there is no sign, and a final e is read past the terminator. Proved what the code does, and the claim for a signed zero exponent.")


m("C242", "proved", "bezier_casteljau bezier_degree bezier_ends bezier_hull", "Over exact rationals.")
m("C243", "partial", "spline_correct spline_start_correct spline_end_correct spline_integer_refuted", "Proved over exact rationals. False of the code for integer coordinates: the coefficients are halved by integer division.")


m("C244", "proved", "reflect_correct normalize_correct resize_correct is_zero_correct", "Over exact rationals, where the root of the length is exact.")
m("C245", "proved", "refract_correct refract_total", "Over exact rationals, where the root is exact.")
m("C246", "partial", "cross_partial cross_refuted", "False of the code: the second coordinate is y*x' - x*y' in place of z*x' - x*z'. The other coordinates are right.")


m("C247", "proved", "sphere_hits sphere_first sphere_normal", "Over exact rationals, where the roots taken are exact. A ray that only touches the sphere does not meet it.")


m("C248", "partial", "plane_hits_partial plane_point plane_inside plane_start_refuted", "Over exact rationals. Proved for rays that do not start on the plane; false of the code for those that do: they meet it in the positive direction alone.")


m("C249", "partial", "triangle_hits_partial triangle_point_partial triangle_refuted", "False of the code, since cross is not the vector product (C246): a ray is said to meet a triangle at a point off its plane. Proved: the point is on the plane through the first vertex that the stored normal gives, and the claim about when a ray meets a triangle for triangles in planes on which y - z is constant.")
m("C250", "proved", "component_range component_monotone component_value component_outside component_back rgb_correct", "Over exact rationals.")


out = os.path.join(os.path.dirname(os.path.abspath(__file__)), "..", "MANIFEST.json")
json.dump({"claims": claims}, open(out, "w"), indent=1)
