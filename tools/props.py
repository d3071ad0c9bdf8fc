#!/usr/bin/env python3
"""Writes properties.jsonl from the table below (kept as a script so that long
statements stay readable)."""
import json, os
P = []
def p(title, statement, quantifier, why, *anchors):
    P.append(dict(id="C%02d" % (len(P)+1), title=title, statement=statement,
                  quantifier=quantifier, why_tests_cant=why, anchors=list(anchors)))
A = "sprout/algorithm/"
X = "sprout/algorithm/cxx14/"
SIZES = "Every length takes a different recursion tree (pivot halving / doubling blocks); tests only sample a few lengths and contents."

p("find, find_if and find_if_not return the first match",
  "For every range and every value/predicate, find, find_if and find_if_not return the first position whose element matches (find: equals the value; find_if: satisfies the predicate; find_if_not: does not satisfy it), or the end position if there is none, and never dereference a position outside the range. This holds both for the random-access implementation and for the input-iterator implementation.",
  "all element types with an equality test, all lists, all predicates, both iterator categories", SIZES,
  A+"find.hpp: find", A+"find_if.hpp: find_if", A+"find_if_not.hpp: find_if_not")
p("Linear searches need only logarithmic recursion depth",
  "The searching and counting algorithms documented as 'recursion depth: O(log N)' complete on every range of length N with a constexpr recursion depth of at most 2*log2(N)+4 calls, for both iterator categories; so a compile-time depth limit of 512 is never the reason a call on any range addressable in 64 bits fails.",
  "all lengths, all contents, all predicates", "A depth bound for every N cannot be observed by running finitely many N.",
  A+"find_if.hpp: find_if_impl_ra, find_if_impl, find_if_impl_1", A+"count_if.hpp: count_if", A+"mismatch.hpp: mismatch")
p("all_of, any_of, none_of and the _equal variants decide their quantifier",
  "all_of/any_of/none_of (and all_of_equal/any_of_equal/none_of_equal) return true exactly when every / some / no element satisfies the predicate (equals the value); on an empty range all_of and none_of are true and any_of is false.",
  "all ranges, all predicates", SIZES, A+"all_of.hpp", A+"any_of.hpp", A+"none_of.hpp", A+"all_of_equal.hpp", A+"any_of_equal.hpp", A+"none_of_equal.hpp")
p("one_of and one_of_equal mean exactly one",
  "one_of(first, last, pred) returns true exactly when precisely one element of the range satisfies pred, whatever the iterator category; in particular the random-access and the input-iterator implementation agree.",
  "all ranges, all predicates, both iterator categories", SIZES + " A wrong answer needs at least four elements with three hits in a particular arrangement.",
  A+"one_of.hpp: one_of", A+"one_of_equal.hpp: one_of_equal")
p("count and count_if count",
  "count(first, last, v) and count_if(first, last, pred) return the number of elements equal to v / satisfying pred, for both iterator categories, so the count of a concatenation is the sum of the counts and never exceeds the length.",
  "all ranges, values, predicates", SIZES, A+"count.hpp: count", A+"count_if.hpp: count_if")
p("mismatch and equal compare element by element",
  "mismatch returns the first pair of positions at which the predicate fails (or the end of the first, respectively the shorter, range), and equal returns true exactly when the ranges have the same length (two-range form) and the predicate holds at every position. Neither reads past the shorter range in the two-range form.",
  "all pairs of ranges, all binary predicates", SIZES, A+"mismatch.hpp: mismatch", A+"equal.hpp: equal")
p("adjacent_find returns the first adjacent pair",
  "adjacent_find returns the first position i such that pred(x[i], x[i+1]) holds, or the end position when no adjacent pair satisfies pred, and never reads past the end.",
  "all ranges, all binary predicates", SIZES, A+"adjacent_find.hpp: adjacent_find")
p("find_first_of returns the first element belonging to the set",
  "find_first_of returns the first position of the first range whose element is related by pred to some element of the second range, or the end position if there is none.",
  "all pairs of ranges, all predicates", SIZES, A+"find_first_of.hpp: find_first_of")
p("search finds the first occurrence of a subsequence",
  "search(first1, last1, first2, last2) returns the first position at which the whole second range occurs contiguously in the first one, or last1 when it does not occur; an empty pattern is found at first1.",
  "all texts, all patterns, both iterator categories", "Correctness of the block-skipping recursion depends on relative lengths, overlaps and alignment of partial matches; the combinations are unbounded.",
  A+"search.hpp: search", "sprout/detail/algorithm/search_one.hpp: search_one")
p("find_end finds the last occurrence of a subsequence",
  "find_end returns the last position at which the whole second range occurs in the first one, and last1 when it does not occur or when the pattern is empty.",
  "all texts, all patterns, all iterator categories", "Same as for search; additionally the reverse scan depends on where partial matches run into the beginning.",
  A+"find_end.hpp: find_end", "sprout/detail/algorithm/search_one_rev.hpp: search_one_rev")
p("search_n finds the first run of n equal elements",
  "search_n(first, last, n, v, pred) returns the first position where n consecutive elements are all related to v, or last when there is none.",
  "all ranges, all n, all values and predicates", "The first run may be cut by any number of shorter runs of any length.",
  A+"search_n.hpp: search_n")
p("Binary searches return the partition points",
  "On every range partitioned with respect to the value, lower_bound returns the first position not less than the value, upper_bound the first position greater than it, equal_range the pair of both, and binary_search says whether the two differ; the number of recursive calls is at most log2(N)+2.",
  "all partitioned ranges of any length, all values, all comparison functions consistent with the partition", "Off-by-one errors at odd/even splits appear only at particular lengths and positions; all lengths are needed.",
  A+"lower_bound.hpp: lower_bound", A+"upper_bound.hpp: upper_bound", A+"equal_range.hpp: equal_range", A+"binary_search.hpp: binary_search")
p("is_partitioned and partition_point",
  "is_partitioned returns true exactly when all elements satisfying pred precede all that do not, and on every partitioned range partition_point returns the position of the first element not satisfying pred.",
  "all ranges, all predicates", SIZES, A+"is_partitioned.hpp: is_partitioned", A+"partition_point.hpp: partition_point")
p("is_sorted and is_sorted_until",
  "is_sorted returns true exactly when no element compares less than its predecessor, and is_sorted_until returns the end of the longest sorted prefix.",
  "all ranges, all comparison functions", SIZES, A+"is_sorted.hpp: is_sorted", A+"is_sorted_until.hpp: is_sorted_until")
p("is_permutation decides being a permutation",
  "is_permutation returns true exactly when the second range (of the same length) is a rearrangement of the first one.",
  "all pairs of ranges over a type with decidable equality", "Multiplicity errors only show for particular multisets; there are unboundedly many.",
  A+"is_permutation.hpp: is_permutation")
p("lexicographical_compare is the lexicographical order",
  "lexicographical_compare returns true exactly when the first range precedes the second in the lexicographical order induced by comp, and tristate_lexicographical_compare returns a negative, zero or positive value accordingly; for a strict weak order comp the result is itself a strict weak order on ranges.",
  "all pairs of ranges, all comparison functions", SIZES, A+"lexicographical_compare.hpp: lexicographical_compare", A+"tristate_lexicographical_compare.hpp", "sprout/detail/algorithm/lexicographical_compare.hpp")
p("min_element, max_element and minmax_element",
  "min_element returns the first smallest element, max_element the first largest, minmax_element the first smallest and the last largest, for every non-empty range and strict weak order; all return the end on an empty range.",
  "all ranges, all strict weak orders", "Which of several equivalent extremes is returned depends on the split tree, which differs for each length.",
  A+"min_element.hpp: min_element", A+"max_element.hpp: max_element", A+"minmax_element.hpp: minmax_element")
p("includes decides sorted-multiset inclusion",
  "For ranges sorted by comp, includes returns true exactly when every element of the second range occurs in the first at least as many times as in the second.",
  "all pairs of sorted ranges", SIZES, A+"includes.hpp: includes")
p("is_heap and is_heap_until recognise heaps",
  "is_heap returns true exactly when no element is less than (by comp) any of its children in the implicit binary tree, and is_heap_until returns the end of the longest prefix that is such a heap.",
  "all ranges, all strict weak orders", "The answer on ranges with equivalent keys differs from the answer on distinct keys at every size.",
  A+"is_heap.hpp: is_heap", A+"is_heap_until.hpp: is_heap_until")
p("rotate rotates",
  "After rotate(first, middle, last) the range holds the old elements of [middle, last) followed by those of [first, middle), nothing outside [first, last) changes, no position outside is accessed, the call terminates, and the returned position is where the old first element now is.",
  "all ranges and all split points", "Termination and order of the swap chain depend on gcd-like relations between the two part lengths.",
  X+"rotate.hpp: rotate", X+"rotate_copy.hpp: rotate_copy")
p("reverse reverses, copy/fill/swap_ranges touch only their target",
  "reverse reverses the range in place; reverse_copy, copy, copy_n, copy_if, copy_backward, fill, fill_n, generate, transform, replace and swap_ranges write exactly the prescribed values to exactly the prescribed destination positions and leave all other elements unchanged.",
  "all ranges and destinations for which the destination range is valid", "Frame conditions (nothing else changes) quantify over all other positions.",
  X+"reverse.hpp", X+"copy.hpp", X+"copy_backward.hpp", X+"fill.hpp", X+"swap_ranges.hpp", X+"transform.hpp", X+"replace.hpp")
p("move_backward moves a range to its destination",
  "move_backward(first, last, d_last) moves the elements of [first, last) to the range ending at d_last, without accessing any element outside the source and destination ranges.",
  "all non-overlapping or right-shifted source and destination ranges", "Must hold for every length and offset, and absence of out-of-range accesses is not observable in a test.",
  X+"move_backward.hpp: move_backward")
p("for_each_n applies the function to exactly the first n elements",
  "for_each_n(first, n, f) applies f to the first n elements, in order, once each, and returns the position n further.",
  "all ranges, all n up to the length", "Termination for every n.", X+"for_each_n.hpp: for_each_n", X+"for_each.hpp: for_each")
p("remove and remove_if keep the other elements in order",
  "remove / remove_if return a position such that the elements before it are exactly the elements not equal to the value / not satisfying the predicate, in their original order; remove_copy writes the same sequence to the output.",
  "all ranges, values, predicates", SIZES, X+"remove.hpp", X+"remove_if.hpp", X+"remove_copy.hpp", X+"remove_copy_if.hpp")
p("unique keeps the first of every run",
  "unique returns a position such that the elements before it are the old sequence with every element dropped that is related by pred to the last element kept; unique_copy writes the same sequence.",
  "all ranges, all binary predicates", SIZES, X+"unique.hpp", X+"unique_copy.hpp")
p("partition separates the range",
  "After partition(first, last, pred) the range is a permutation of the old one, all elements before the returned position satisfy pred and none from it on does.",
  "all ranges, all predicates", SIZES, X+"partition.hpp: partition", X+"partition_copy.hpp: partition_copy")
p("stable_partition and gather separate the range stably",
  "After stable_partition(first, last, pred) the elements satisfying pred come first, the others follow, both groups in their original relative order, and the returned position is the boundary.",
  "all ranges, all predicates", SIZES, X+"stable_partition.hpp: stable_partition", X+"gather.hpp: gather")
p("merge merges stably",
  "On sorted inputs merge writes a sorted sequence containing exactly the elements of both inputs, with equivalent elements of the first input before those of the second and relative orders preserved.",
  "all pairs of sorted ranges, all strict weak orders", SIZES, X+"merge.hpp: merge")
p("Set operations on sorted ranges compute multiset operations",
  "On sorted inputs set_union, set_intersection, set_difference and set_symmetric_difference write sorted sequences in which every element occurs max(m,n), min(m,n), max(m-n,0), |m-n| times when it occurs m times in the first and n times in the second range.",
  "all pairs of sorted ranges", SIZES, X+"set_union.hpp", X+"set_intersection.hpp", X+"set_difference.hpp", X+"set_symmetric_difference.hpp")
p("inplace_merge sorts two consecutive sorted halves",
  "When [first, middle) and [middle, last) are sorted by comp, inplace_merge leaves [first, last) sorted, a permutation of the old contents, stable, and leaves everything outside unchanged.",
  "all pairs of adjacent sorted ranges", "The rotation-based recursion splits differently for every pair of lengths and every interleaving.",
  X+"inplace_merge.hpp: inplace_merge")
p("push_heap, pop_heap and sort_heap maintain heaps",
  "If [first, last-1) is a heap, push_heap makes [first, last) a heap; if [first, last) is a non-empty heap, pop_heap moves a largest element to last-1 and leaves [first, last-1) a heap; sort_heap turns a heap into a sorted range. All three only permute the elements of the range.",
  "all heaps of any size, all strict weak orders", "The sift paths depend on size parity and on the order of all keys.",
  X+"push_heap.hpp", X+"pop_heap.hpp", X+"sort_heap.hpp", X+"detail/heap_tool.hpp")
p("make_heap makes a heap",
  "After make_heap(first, last, comp) the range is a permutation of the old contents in which no element is less than its children.",
  "all ranges, all strict weak orders", SIZES, X+"make_heap.hpp: make_heap")
p("partial_sort puts the smallest elements first in order",
  "After partial_sort(first, middle, last) the elements of [first, middle) are the middle-first smallest ones, in sorted order, and the range is a permutation of the old one.",
  "all ranges and split points, all strict weak orders", SIZES, X+"partial_sort.hpp: partial_sort", X+"partial_sort_copy.hpp")
p("sort sorts",
  "For every strict weak order, sort terminates, accesses only elements of the range, and leaves a sorted permutation of the old contents.",
  "all ranges of any length and content", "The quick-sort partition runs without bounds checks and relies on sentinels chosen by earlier comparisons; only a proof covers all inputs.",
  X+"sort.hpp: sort", X+"detail/sort_tool.hpp: sort3, sort4, sort5")
p("nth_element selects",
  "After nth_element(first, nth, last) the element at nth is the one that would be there after sorting, nothing before it is greater and nothing after it is smaller; the contents are permuted only.",
  "all ranges, all positions, all strict weak orders", "Same unguarded-partition structure as sort.",
  X+"nth_element.hpp: nth_element")
p("stable_sort sorts stably",
  "stable_sort leaves a sorted permutation of the old contents with equivalent elements in their original order, and accesses only elements of the range.",
  "all ranges, all strict weak orders", SIZES, X+"stable_sort.hpp: stable_sort", X+"detail/insertion_sort.hpp: insertion_sort")
p("next_permutation and prev_permutation enumerate",
  "next_permutation replaces the range by the lexicographically next rearrangement and returns true, or, on the last one, by the sorted first one and returns false; prev_permutation is its inverse; hence starting from the sorted sequence every rearrangement is visited exactly once.",
  "all sequences including those with repeated elements", "The set of permutations grows factorially.",
  X+"next_permutation.hpp", X+"prev_permutation.hpp")
p("shuffle and random_shuffle only permute and draw valid indices",
  "For every generator behaviour, shuffle and random_shuffle leave a permutation of the range and access only its elements.",
  "all ranges, all sequences of random numbers within the requested bounds", "Must hold for every random stream.",
  X+"shuffle.hpp", X+"random_shuffle.hpp")
p("random_swap stays inside the range",
  "For every generator behaviour within the requested bounds, random_swap (used by bozo_sort) exchanges two elements of the range and accesses no other position.",
  "all ranges, all random streams", "The out-of-range index has probability about 1/N per draw and is not observable as such.",
  X+"random_swap.hpp: random_swap", X+"bozo_sort.hpp")
p("clamp clamps",
  "clamp(v, lo, hi) returns lo if v < lo, hi if hi < v and v otherwise; clamp_range does so for every element.",
  "all values and bounds with lo <= hi", "Universally quantified over values and orders.", A+"clamp.hpp", X+"clamp_range.hpp")
p("Searches over sorted pairs: find_difference, find_intersection and the next_* stepping functions",
  "On sorted ranges find_intersection returns the first pair of equivalent elements reachable by merging, find_difference the first element of the first range with no partner in the second, and iterating next_union / next_intersection / next_difference visits exactly the elements of the corresponding set operation.",
  "all pairs of sorted ranges", SIZES, A+"find_difference.hpp", A+"find_intersection.hpp", A+"next_union.hpp")

B = "sprout/bit/"
BW = "All 2^W values and all widths cannot be enumerated for 64-bit types, and the claim is for every power-of-two byte width."
p("popcount and parity count one bits",
  "popcount(x) is the number of one bits in the W-bit representation of x (negative values: two's complement) and parity(x) is that number modulo 2.",
  "all widths 8*2^k, all x", BW, B+"popcount.hpp: popcount", B+"parity.hpp: parity")
p("clz, ctz and the cnt* functions count runs of equal bits at the ends",
  "clz/cntl0 returns the number of leading zero bits, ctz/cntt0 the number of trailing zero bits (W for 0), cntl1 the number of leading one bits and cntt1 the number of trailing one bits.",
  "all widths 8*2^k, all x", BW, B+"clz.hpp", B+"ctz.hpp", B+"cntl0.hpp", B+"cntl1.hpp", B+"cntt0.hpp", B+"cntt1.hpp", B+"clrsb.hpp")
p("bit_length and bit_reverse",
  "bit_length(x) is the least n with x < 2^n for non-negative x; bit_reverse moves bit i to bit W-1-i for every i and is therefore an involution; bit_reverse_in(x, n) reverses the low n bits.",
  "all widths, all x, all n in 1..W", BW, B+"bit_length.hpp", B+"bit_reverse.hpp")
p("rotl and rotr rotate",
  "For every shift s with 0 < s < W, bit i of rotl(x, s) is bit (i-s) mod W of x, rotr is its inverse; a shift of 0 should be the identity.",
  "all widths, all x, all shifts", BW, B+"rotl.hpp", B+"rotr.hpp")
p("Single-bit and bit-range operations set exactly the named bits",
  "setbit, rstbit, flipbit, testbit act on bit b only; setbitsge/rstbitsge/flipbitsge act on all bits >= b only; setbitsle/rstbitsle/flipbitsle act on all bits <= b only.",
  "all widths, all x, all bit positions", BW, B+"setbit.hpp", B+"rstbit.hpp", B+"flipbit.hpp", B+"testbit.hpp", B+"setbitsge.hpp", B+"setbitsle.hpp", B+"rstbitsge.hpp", B+"rstbitsle.hpp", B+"flipbitsge.hpp", B+"flipbitsle.hpp")
p("Rightmost-bit manipulations",
  "isols1b isolates the lowest one bit, isols0b the lowest zero bit, rstls1b clears the lowest one bit, setls0b sets the lowest zero bit, rstt1 clears the trailing ones, sett0 sets the trailing zeros, maskt0/maskt1 are masks of the trailing zeros/ones, maskt0ls1b/maskt1ls0b include the bit above.",
  "all widths, all unsigned x", BW, B+"isols1b.hpp", B+"isols0b.hpp", B+"rstls1b.hpp", B+"setls0b.hpp", B+"rstt1.hpp", B+"sett0.hpp", B+"maskt0.hpp", B+"maskt1.hpp", B+"maskt0ls1b.hpp", B+"maskt1ls0b.hpp")
p("carry_to_exp2 rounds up to a power of two",
  "For unsigned x, carry_to_exp2(x) is the least power of two not below x when that is representable, 0 when x exceeds the largest representable power, and 0 for 0; for signed x it is odd-symmetric as documented.",
  "all widths, all x", BW, "sprout/integer/carry_to_exp2.hpp: carry_to_exp2")

K = "sprout/checksum/"
KW = "Messages are unboundedly long and padding behaves differently for each length modulo the block size; only a few digests can be tested."
p("sha1 computes the SHA-1 digest",
  "For every byte sequence shorter than 2^61 bytes, make_sha1 returns the SHA-1 digest defined by FIPS 180 / RFC 3174.",
  "all byte sequences", KW, K+"sha1.hpp: sha1, make_sha1")
p("md5 computes the MD5 digest",
  "For every byte sequence, make_md5 returns the MD5 digest defined by RFC 1321 (bit count modulo 2^64).",
  "all byte sequences", KW, K+"md5.hpp: md5, make_md5")
p("Checksums do not depend on how the input is split",
  "For md5, sha1, sum8/16/32 and xor8, feeding a message in any number of pieces of any sizes (process_byte, process_block, process_bytes, and process_bits for md5) gives the same object state as feeding it at once, and the value-returning and the mutating interfaces agree.",
  "all messages, all ways to split them", "The number of splits is exponential in the length and buffer state carries over between pieces.", K+"sha1.hpp: process_block_impl, c_process_block, process_byte", K+"md5.hpp: c_process_byte, process_byte", K+"sum.hpp", K+"xor.hpp")
p("sum and xor checksums",
  "sum8/16/32 return the sum of all bytes modulo 2^Bits and xor8 the exclusive or of all bytes.",
  "all byte sequences", KW, K+"sum.hpp: sum_basic", K+"xor.hpp: xor8")

F = "sprout/brainfuck/brainfuck.hpp"
p("brainfuck::exec implements the language",
  "For every bracket-balanced program, exec behaves as the standard semantics of > < + - . , [ ]: in particular '-' decrements the current cell, and characters other than the eight commands are ignored.",
  "all programs, all inputs, all run lengths", "Programs and their executions are unbounded.", F+": exec, exec_impl")
p("brainfuck::is_well_formed decides bracket balance and makes execution safe",
  "is_well_formed returns true exactly for sources generated by the balanced-bracket grammar, and on such sources exec never reads the source outside its bounds when jumping between brackets, whatever the data.",
  "all sources, all data", "Unbounded nesting and all data-dependent jump sequences.", F+": is_well_formed, find_scope_end, find_scope_start")

S = "sprout/cstring/"
SW = "Every length and position of the terminator takes a different recursion tree; over-reads beyond the terminator are invisible to tests."
p("strlen, strchr, strrchr and memchr",
  "On every null-terminated string strlen returns the length, strchr/strrchr the first/last position of the character (the terminator counts) or null, memchr the first position within n bytes or null; no character after the terminator (or the n-th) is read.",
  "all strings, all characters", SW, S+"strlen.hpp", S+"strchr.hpp", S+"strrchr.hpp", S+"memchr.hpp")
p("strcmp, strncmp, memcmp and strcoll compare lexicographically",
  "strcmp/strncmp/memcmp return a negative, zero or positive value as the first string is lexicographically less than, equal to or greater than the second when characters are compared as unsigned char (C 7.21.4).",
  "all pairs of strings", SW, S+"strcmp.hpp", S+"strncmp.hpp", S+"memcmp.hpp")
p("strspn, strcspn and strpbrk",
  "strspn (strcspn) returns the length of the longest prefix consisting only of characters (not) in the second string and strpbrk the first character in the second string or null.",
  "all pairs of strings", SW, S+"strspn.hpp", S+"strcspn.hpp", S+"strpbrk.hpp")
p("strstr finds the first occurrence",
  "strstr(s1, s2) returns the first position at which s2 occurs in s1, null if it does not occur, and s1 if s2 is empty.",
  "all pairs of strings, including empty ones", SW, S+"strstr.hpp", "sprout/detail/str.hpp: str_find_check")
p("strcpy, strncpy, strcat, strncat",
  "strcpy copies s2 with its terminator; strncpy writes exactly n characters, padding with nulls; strcat/strncat append s2 (at most n characters) at the terminator of s1 and terminate the result, writing only the positions the C standard allows.",
  "all strings and all sufficiently large destination buffers", "Frame conditions and absence of overruns for every length.", S+"strcpy.hpp", S+"strncpy.hpp", S+"strcat.hpp", S+"strncat.hpp")
p("memcpy, memmove and memset",
  "memcpy and memmove store the old n source bytes at the destination (memmove also when the ranges overlap), memset stores n copies of the byte, and no other byte changes.",
  "all buffers, offsets and n", "All overlaps; frame conditions.", S+"memcpy.hpp", S+"memmove.hpp", S+"memset.hpp")
p("strtol and friends parse integers",
  "For every string and base 0, 2..36, str_to_int / strtol / strtoul / atoi return the value of the longest digit prefix after optional space, sign and base prefix as C 7.20.1.4 prescribes, clamped to the limits of the result type.",
  "all strings, all bases, all integer types", "The limits of every type in every base and all prefix combinations.", "sprout/cstdlib/str_to_int.hpp: str_to_int", "sprout/cstdlib/ascii_to_int.hpp", "sprout/detail/char_conversion.hpp: char_to_int")
p("Logical and arithmetic shifts",
  "For 0 <= s < W, shll and shal move bit i to bit i+s and fill with zeros, shlr moves bit i+s to bit i and fills with zeros, shar does so and fills with copies of the sign bit, for signed and unsigned operands alike and without undefined behaviour.",
  "all widths, all x, all s in 0..W-1", "All 2^W values and all widths cannot be enumerated; absence of undefined behaviour for negative operands is invisible to tests.", "sprout/bit/shll.hpp", "sprout/bit/shlr.hpp", "sprout/bit/shal.hpp", "sprout/bit/shar.hpp")

N = "sprout/numeric/"
p("accumulate, reduce and transform_reduce are left folds with logarithmic depth",
  "accumulate and reduce return op(...op(op(init, x0), x1)..., xn-1), combining the elements strictly from left to right whatever the iterator category; transform_reduce does so with the images u(xi) or op2(xi, yi); the call depth is logarithmic and no element outside the range is read.",
  "all ranges, all operations (not necessarily associative or commutative), all categories", "The divide-and-conquer shape differs for every length, and a wrong grouping is invisible with associative test operations.", N+"accumulate.hpp", N+"reduce.hpp", N+"transform_reduce.hpp")
p("partial_sum, adjacent_difference and iota",
  "partial_sum writes the left folds of the non-empty prefixes, adjacent_difference the first element followed by op(x[i], x[i-1]), iota the successive increments of the value; nothing else changes, the end of the output is returned, the output may start at or before the input, and partial_sum and adjacent_difference with inverse operations undo each other.",
  "all buffers, ranges and operations", "All overlaps and lengths; frame conditions.", N+"cxx14/partial_sum.hpp", N+"cxx14/adjacent_difference.hpp", N+"cxx14/iota.hpp")
p("exclusive_scan and inclusive_scan",
  "For a range of N elements exclusive_scan writes the N folds of init with the elements before each position, inclusive_scan the N folds including the element (starting from init when given), and both return result + N; result may equal first ([exclusive.scan], [inclusive.scan]); the transform_ versions scan the images.",
  "all buffers, ranges (empty included), destinations and operations", "Empty ranges, in-place destinations and frame conditions for all lengths.", N+"cxx14/exclusive_scan.hpp", N+"cxx14/inclusive_scan.hpp", N+"cxx14/transform_exclusive_scan.hpp", N+"cxx14/transform_inclusive_scan.hpp")

p("endian_traits get and set single bytes",
  "For every integer type, get_byte(x, i) of the big (little) endian traits is the i-th byte of x in big (little) endian order, and set_byte(x, i, v) replaces that byte by v and leaves the others, without undefined behaviour.",
  "all integer types, values, byte indices", "All values of all widths; shifts in a narrower type than the operand are invisible on small types.", "sprout/endian_traits.hpp: get_byte, set_byte")
p("bytes_iterator walks over the bytes of a sequence",
  "Incrementing or advancing a bytes_iterator by n visits the n-th byte of the underlying sequence, the difference of two iterators is the number of bytes between them, the end is met exactly after the last byte, and -- and - undo ++ and +.",
  "all sequences, element sizes and offsets", "All element sizes and all offsets across element boundaries; unsigned arithmetic goes wrong only for negative offsets.", "sprout/iterator/bytes_iterator.hpp")

p("Character classification and case conversion",
  "For every character of every character type, isalnum, isalpha, isblank, iscntrl, isdigit, isgraph, islower, isprint, ispunct, isspace, isupper and isxdigit hold exactly of the ASCII characters of that class and of no other value; tolower and toupper map letters to the other case and leave everything else; isclassified(m, c) holds iff c belongs to one of the classes in m.",
  "all characters, also negative and above 127, all masks", "Characters outside 0..127 and all combinations of masks.", "sprout/ctype/ascii.hpp")
p("int_to_string writes numerals that read back",
  "For every integer value and supported base, int_to_string / to_string returns the numeral of the value (no superfluous zeros, minus sign iff negative) without undefined behaviour and within its capacity, and str_to_int / stoi of the result gives the value back.",
  "all integer types, all values including the limits, all bases 2..16", "All values of 64-bit types; the limits in every base.", "sprout/string/int_to_string.hpp", "sprout/detail/math/int.hpp", "sprout/integer/integer_digits.hpp", "sprout/string/string_to_int.hpp")
p("digits_to_int converts the digits of a literal",
  "For every sequence of decimal digits, detail::digits_to_int (used by the literal operators of index_tuple and bind) is the number it denotes.",
  "all digit sequences", "Arbitrarily long literals.", "sprout/detail/digits_to_int.hpp")

p("gcd and lcm of built-in integers",
  "gcd(a, b) is the greatest common divisor of a and b whenever |a| and |b| are representable in the type, and lcm(a, b) the least common multiple whenever it is representable; the recursion depth is linear in the width.",
  "all built-in integer types, all values", "All pairs of 64-bit values; the limits of every type.", "sprout/math/gcd.hpp", "sprout/math/lcm.hpp", "sprout/cstdlib/abs.hpp")
p("rational arithmetic is exact and normalised",
  "A constructed rational has the value n/d, a positive denominator and no common factor (a zero denominator throws); +, -, *, /, unary -, abs, ++ and -- of such rationals give the exact result in lowest terms with positive denominator whenever no intermediate result overflows, division by zero throws, and * and / do not overflow if the result is representable.",
  "all signed types of at least int, all rationals", "All pairs of rationals, including those near the limits, where reduced intermediate results matter.", "sprout/rational/rational.hpp", "sprout/rational/arithmetic.hpp", "sprout/rational/values.hpp")
p("rational compound assignment",
  "x op= y leaves in x the value of x op y, for op among +, -, *, /, also if y is x itself.",
  "all rationals, aliasing included", "Aliased operands are rarely tested and the failure depends on the value.", "sprout/rational/rational.hpp: operator+=, operator-=, operator*=, operator/=")
p("Comparison of rationals",
  "==, !=, <, >, <=, >= of two rationals agree with the order of the rational numbers, for all values of the type and without overflow.",
  "all pairs of rationals", "All continued fraction expansions; the extreme values.", "sprout/rational/comparison.hpp")
p("Comparison of rationals with integers",
  "==, !=, <, >, <=, >= of a rational and an integer (in either order) agree with the order of the rational numbers.",
  "all rationals and integers", "The failing pairs depend on the sign, the denominator and the distance.", "sprout/rational/comparison.hpp")
p("Modular arithmetic of the engines never overflows silently",
  "const_mod<T, m>::add, mult, mult_add and pow return the exact sum, product, a*x+c and power modulo m for all residues, whatever the integer type; where the type is too small for the method an assertion fails, and a wrong number is never returned.",
  "all integer types up to 64 bits, all moduli, all residues", "All triples of 64-bit residues and all moduli; the method depends on m, a and the type.", "sprout/random/detail/const_mod.hpp")
p("Modular inverse and the inversive congruential engine",
  "const_mod::invert(x) is the inverse of x modulo m whenever gcd(x, m) = 1, with a recursion depth bounded by 64; an inversive congruential engine goes from x to a * x^-1 + b modulo p, and from 0 to b.",
  "all types, moduli and residues", "The Euclidean recursion depends on the pair; overflow shows only at the limits of the type.", "sprout/random/detail/const_mod.hpp: invert", "sprout/random/inversive_congruential.hpp")
p("Linear congruential engines follow their recurrence",
  "Seeding puts any value of the type into [min(), max()] as the standard says (x0 mod m, or 1 if c and that are 0); n calls return the first n iterates of x -> (a x + c) mod m, and all stay in [min(), max()] (if c = 0, for a prime to m).",
  "all parameters, seeds and numbers of calls", "Long runs and all parameters.", "sprout/random/linear_congruential.hpp", "sprout/random/detail/const_mod.hpp")
p("discard(z) of a linear congruential engine equals z calls",
  "discard(z) leaves the engine in the state that z calls of operator() would leave it in.",
  "all parameters, states and z below 2^64", "z up to 2^64 cannot be compared with z calls.", "sprout/random/linear_congruential.hpp: discard")
p("rand48 is lrand48",
  "rand48 seeded with s starts from the state s * 2^16 + 0x330E, steps it by 0x5DEECE66D x + 11 modulo 2^48, and returns the upper 31 bits of the new state, as lrand48 does.",
  "all seeds, all states", "2^48 states.", "sprout/random/linear_congruential.hpp: rand48")
p("additive_combine and ecuyer1988",
  "The combined engine steps both engines and returns the number in [1, m1 - 1] congruent to the difference of their outputs modulo m1 - 1; ecuyer1988 has L'Ecuyer's multipliers and moduli and never returns a value outside its range.",
  "all states of the two engines", "About 2^62 states.", "sprout/random/additive_combine.hpp")
p("shuffle_order is the standard's shuffle order engine",
  "Over any base engine, the output sequence is the Bays-Durham shuffle of the base sequence as in the C++ standard: a table of k outputs, index k * (y - min) / (max - min + 1) computed without overflow, the table entry returned and replaced by the next base output.",
  "all base engines, table sizes and lengths of output", "All base sequences.", "sprout/random/shuffle_order.hpp")

p("mersenne_twister_engine follows the standard",
  "For every valid parameter set and seed, the outputs of operator() are the tempered words of the standard's recurrence, for any number of calls, and lie in [0, 2^w - 1]; mt11213b, mt19937 and mt19937_64 are valid parameter sets with the standard's constants.",
  "all parameter sets, seeds and numbers of calls", "The in-place twist is wrong only from some index on; a test sees a prefix of one sequence.", "sprout/random/mersenne_twister.hpp")
p("The constexpr (C++11) path of mersenne_twister_engine agrees with the mutable one",
  "With C++14 constexpr disabled, the const operator() returns the same values as the mutable operator().",
  "all parameter sets, seeds and numbers of calls", "The path is only compiled under a configuration macro.", "sprout/random/mersenne_twister.hpp: twist, generate")
p("Equality of mersenne twister engines",
  "Two engines compare equal exactly if they hold the same last n words of the recurrence, whatever their block boundaries; equal engines return the same values for ever.",
  "all pairs of reachable states", "States with different block boundaries need rewinding, which depends on all words.", "sprout/random/mersenne_twister.hpp: do_equal_impl, do_rewind")
p("Streaming a mersenne twister engine",
  "Writing an engine with operator<< and reading it back with operator>> gives an equal engine.",
  "all states", "All states.", "sprout/random/mersenne_twister.hpp: operator<<, operator>>")


p("linear_feedback_shift_engine is s ticks of the shift register",
  "For every parameter set the class accepts, operator() advances the register with b[i+k] = b[i] xor b[i+q] by exactly s bits: the outputs are the w-bit windows of the bit sequence at multiples of s, for any number of calls, and lie in [min(), max()], whatever unsigned type is used.",
  "all parameter sets, states and numbers of calls", "2^w states; the shortcut of computing s bits at once is only right under side conditions.", "sprout/random/linear_feedback_shift.hpp: operator()")
p("Seeding of linear_feedback_shift_engine, and never falling into the zero state",
  "A seed is reduced to w bits and, if its leading k bits are zero, moved to a state where they are not; from then on the leading k bits are never all zero, so the engine never gets stuck.",
  "all parameter sets, seeds and numbers of calls", "A stuck state is one in 2^k, and may be reached after any number of calls.", "sprout/random/linear_feedback_shift.hpp: init_seed_1")
p("xor_combine",
  "operator() steps both engines and returns (v1 << s1) xor (v2 << s2); the const and the non-const operator agree, and values stay within [min(), max()].",
  "all engines, shifts and states", "All pairs of states.", "sprout/random/xor_combine.hpp")
p("taus88 is L'Ecuyer's generator",
  "taus88 computes the three recurrences published by L'Ecuyer and returns their exclusive or; the components are the shift registers of lengths 31, 29 and 28 read with steps 12, 4 and 17.",
  "all states, any number of calls", "2^88 states.", "sprout/random/taus88.hpp")
p("uniform_int_distribution stays in its range",
  "For every engine whose values lie in [min(), max()] and all bounds lo <= hi of the result type, a value returned by uniform_int_distribution lies in [lo, hi], and no undefined behaviour occurs on the way, whatever the widths and signs of the two types.",
  "all engines, engine states, integral types and bounds", "2^128 pairs of bounds; the branch taken and the overflow depend on the ratio of the ranges and on engine values that occur once in 2^32 calls.", "sprout/random/uniform_int_distribution.hpp: generate_uniform_int", "sprout/random/detail/signed_unsigned_tools.hpp")
p("uniform_int_distribution prefers no value",
  "For any two results x and y in [lo, hi] and every length, exactly as many sequences of engine values of this length lead to x as to y.",
  "all engine ranges, bounds, results and lengths of the sequence of engine values", "Bias below 2^-32 is not measurable by sampling, and the number of rejections is unbounded.", "sprout/random/uniform_int_distribution.hpp: generate_uniform_int")
p("The const and the non-const operator() of uniform_int_distribution agree",
  "From the same engine state both overloads return the same value and leave the engine in the same state.",
  "all engines, states and bounds", "The two overloads are separate code, and tests usually exercise one of them.", "sprout/random/uniform_int_distribution.hpp")
p("uniform_smallint",
  "The result lies in [lo, hi]; it is lo + d or lo + d mod (hi - lo + 1), where d is the offset of the engine's value, so that the numbers of engine values for two results differ by at most one; both overloads agree and no overflow occurs.",
  "all engines, states, types and bounds", "Depends on the relation of three ranges in four integer types.", "sprout/random/uniform_smallint.hpp")
p("Bitset operations on all bits",
  "&, |, ^, ~, set(), reset() and flip() of bitset<N> compute each of the N bits from the bits at the same position, whether the const or the modifying overload is called, and leave the unused bits of the last word zero.",
  "all N, all contents, both overloads, any width of unsigned long", "2^N contents, and three implementations are selected by the number of words.", "sprout/bitset/bitset.hpp: bitset", "sprout/bitset/bitwise.hpp")
p("Bitset shifts",
  "x << p has bit i equal to bit i - p of x, or 0 if i < p; x >> p has bit i equal to bit i + p of x, or 0 if i + p >= N; for every p, also p >= N and multiples of the word size, in both overloads, without undefined behaviour.",
  "all N, contents and shift counts", "Every combination of word shift, bit offset and number of words takes another path.", "sprout/bitset/bitset.hpp: operator<<=, operator>>=, do_left_shift, do_right_shift")
p("Bitset access to one bit",
  "set(pos, v), reset(pos), flip(pos) change exactly the bit pos, and test(pos) reads it; they throw out_of_range if and only if pos >= N; for pos < N operator[] does the same without the check.",
  "all N, contents and positions", "Unbounded N and positions.", "sprout/bitset/bitset.hpp: set, reset, flip, test, reference")
p("Bitset queries",
  "count() is the number of ones among the N bits; any, none and all say whether one, none or all of the N bits are set (also for N = 0 and for N a multiple of the word size); == compares the N bits.",
  "all N and contents", "2^N contents.", "sprout/bitset/bitset.hpp: count, any, none, all, operator==")
p("Bitsets and numbers",
  "to_ulong and to_ullong return the number with the given bits if it fits, and throw overflow_error if it does not; bitset<N>(val) has the lowest N bits of val, and zeros beyond the width of unsigned long long.",
  "all N, contents and values; unsigned long of 32 or 64 bits", "2^64 values; another platform takes another branch.", "sprout/bitset/bitset.hpp: to_ulong, to_ullong, bitset(unsigned long long)")
p("Bitsets and strings",
  "The constructor from a string reads M = min(N, n, size - pos) characters from pos on, the first being bit M - 1, with zeros above; it throws out_of_range iff pos > size and invalid_argument iff one of these characters is neither zero nor one. to_string writes bit N - 1 first, and reading the result back gives the same bitset.",
  "all N, strings, positions and characters", "Unbounded strings.", "sprout/bitset/bitset.hpp: copy_from_ptr, copy_to_string")
p("String construction",
  "A string of capacity N built from a literal, a pointer (with or without a count), n copies of a character, a range of iterators, a shorter string or a substring has exactly those characters, with zeros behind them up to and including the terminator; more than N characters give length_error, a start position beyond the source gives out_of_range.",
  "all capacities, sources, positions and counts", "Unbounded capacities and lengths.", "sprout/string/string.hpp: constructors; sprout/string/char_traits.hpp")
p("String append",
  "append (all overloads), operator+= and push_back put the given characters behind the old ones, with zeros behind them; if the result is longer than N they throw length_error and change nothing, if the start position is beyond the source out_of_range; the source may be part of the string itself.",
  "all capacities, contents, sources and counts", "Aliasing and counts near the maximum of size_type.", "sprout/string/string.hpp: append, operator+=, push_back")
p("String assignment",
  "assign (all overloads) and operator= make the contents equal to the given characters, with zeros behind them, and throw length_error without a change if there are more than N; an empty source and a source inside the string work like any other.",
  "all capacities, contents, sources and counts", "Aliasing; every relation of the lengths.", "sprout/string/string.hpp: assign, operator=")
p("Strings from input iterators",
  "assign and append of a range of input iterators never leave a string longer than its capacity or without a terminator: if the characters do not fit, length_error is thrown and the string still has its old contents.",
  "all capacities, contents and ranges", "The length of the range against the capacity.", "sprout/string/string.hpp: assign_impl, append_impl")
p("String size changes",
  "resize(n, c) keeps the first n characters or adds copies of c; clear removes all; pop_back removes the last; swap exchanges two strings of the same capacity; operator>>= puts characters in front; each leaves zeros behind the contents, touches no other memory, and throws length_error without a change if the result does not fit.",
  "all capacities and contents", "Unbounded capacities and lengths.", "sprout/string/string.hpp: resize, clear, pop_back, swap; operator>>=")
p("String access",
  "at(i) is character i, or out_of_range iff i >= size(); substr(pos, n) is the string of the at most n characters from pos on; copy(s, n, pos) writes these characters to s, returns their number and touches nothing else; both throw out_of_range iff pos > size().",
  "all contents, positions and counts", "Unbounded lengths; embedded null characters.", "sprout/string/string.hpp: at, substr, copy")
p("String comparison",
  "compare (all overloads) is negative, zero or positive as the first (sub)string is lexicographically less than, equal to or greater than the second, and throws out_of_range iff a start position is beyond the end; == and < agree with it, and == holds exactly for equal contents.",
  "all pairs of contents, positions and counts", "Pairs of unbounded strings; embedded null characters.", "sprout/string/string.hpp: compare; sprout/string/detail/compare.hpp; sprout/string/comparison.hpp")
p("Searching in strings",
  "find(t, pos) is the least position from pos on where t occurs, rfind(t, pos) the greatest one up to pos, npos if there is none; the empty string occurs at every position up to size(); likewise for one character.",
  "all texts, patterns and positions", "Pairs of unbounded strings.", "sprout/string/detail/find.hpp: find_impl, rfind_impl, find_c_impl, rfind_c_impl")
p("Character set searches",
  "find_first_of and find_last_of give the least position from pos on, the greatest up to pos, whose character is in the set; find_first_not_of and find_last_not_of whose character is not; npos if there is none; also for an empty set or text, and for a single character.",
  "all texts, sets and positions", "Unbounded texts and sets.", "sprout/string/detail/find.hpp: find_first_of_impl, find_last_of_impl, find_first_not_of_impl, find_last_not_of_impl and the _c variants")
p("Joining strings",
  "x + y has capacity N1 + N2 and the characters of x followed by those of y; operator<< does the same within the capacity of the left string or throws length_error; shrink<M> keeps the first M characters.",
  "all capacities and contents", "Unbounded capacities and lengths.", "sprout/string/concat.hpp; sprout/string/shift_concat.hpp; sprout/string/shrink.hpp")

p("Fixed copies",
  "fixed::copy, copy_n, copy_if, copy_while and copy_until return the given container with the selected elements stored at its front, as many as fit, and copy_backward with the last ones that fit stored at its back; all other elements of the container and of the array around it are those of the argument.",
  "all ranges, containers and predicates; random-access and other iterators", "Every relation of the lengths, sub-arrays at every offset; two implementations for each.", "sprout/algorithm/fixed/copy.hpp, copy_n.hpp, copy_if.hpp, copy_while.hpp, copy_until.hpp, copy_backward.hpp; sprout/detail/container_complate.hpp")
p("Fixed generation",
  "fixed::fill and fill_n store copies of the value, generate, generate_n and unfold the successive values of the generator, iota counts up, partial_sum stores the running sums of a range, and recurrence the initial values followed by the values computed from those before them; as many as fit, with everything else unchanged.",
  "all containers, counts, generators and operators", "Unbounded sizes; sub-arrays at every offset.", "sprout/algorithm/fixed/fill.hpp, fill_n.hpp, generate.hpp, generate_n.hpp, unfold.hpp, recurrence.hpp; sprout/numeric/fixed/iota.hpp, partial_sum.hpp")
p("Fixed transformations",
  "fixed::transform (of one or two ranges), replace_copy, replace_copy_if and clamp_range_copy store the image of each element of the range in order, as many as fit, with everything else unchanged.",
  "all ranges, containers and functions; random-access and other iterators", "Unbounded lengths; two implementations for each.", "sprout/algorithm/fixed/transform.hpp, replace_copy.hpp, replace_copy_if.hpp, clamp_range_copy.hpp")
p("Fixed removal",
  "fixed::remove_copy, remove_copy_if, remove and remove_if store the elements that are not to be removed in order, unique_copy and unique those that differ from the one before them; as many as fit, with everything else unchanged.",
  "all ranges, containers and predicates", "Unbounded lengths and contents.", "sprout/algorithm/fixed/remove_copy.hpp, remove_copy_if.hpp, remove.hpp, remove_if.hpp, unique_copy.hpp, unique.hpp")
p("Fixed rearrangement",
  "fixed::reverse_copy and reverse store the elements in reverse order, rotate_copy and rotate those from middle on followed by those before it, swap_element_copy and swap_element exchange the elements at two positions; as many as fit, with everything else unchanged.",
  "all ranges, containers and positions", "Unbounded lengths; two implementations for each.", "sprout/algorithm/fixed/reverse_copy.hpp, reverse.hpp, rotate_copy.hpp, rotate.hpp, swap_element_copy.hpp, swap_element.hpp")
p("Fixed partitions",
  "fixed::partition stores the elements that satisfy the predicate before those that do not; stable_partition keeps the order within both groups; likewise the _copy versions, as many elements as fit.",
  "all ranges, containers and predicates", "Unbounded lengths; every pattern of the predicate.", "sprout/algorithm/fixed/partition_copy.hpp, partition.hpp, stable_partition_copy.hpp, stable_partition.hpp")
p("Fixed merges and set operations",
  "Of two sorted ranges fixed::merge stores the stable merge, and set_union, set_intersection, set_difference and set_symmetric_difference the sorted multiset result, as many elements as fit; inplace_merge merges the two sorted halves of a container.",
  "all sorted ranges, containers and strict weak orders", "Unbounded lengths; every pattern of ties.", "sprout/algorithm/fixed/merge.hpp, inplace_merge.hpp, set_union.hpp, set_intersection.hpp, set_difference.hpp, set_symmetric_difference.hpp")
p("Fixed sorting",
  "fixed::sort and stable_sort return the container with its elements in sorted order, equivalent ones in their old order, and the array around it unchanged.",
  "all containers and strict weak orders", "Unbounded sizes; every pattern of ties.", "sprout/algorithm/fixed/sort.hpp, stable_sort.hpp")
p("Fixed heaps",
  "fixed::make_heap returns a rearrangement that is a heap; push_heap extends a heap by the last element; pop_heap moves a greatest element to the end and leaves a heap before it; sort_heap sorts a heap; the array around the container is unchanged.",
  "all containers and strict weak orders", "Unbounded sizes; every shape of the implicit tree.", "sprout/algorithm/fixed/make_heap.hpp, push_heap.hpp, pop_heap.hpp, sort_heap.hpp")
p("Fixed partial sorting",
  "fixed::partial_sort returns a rearrangement whose elements before middle are sorted and not greater than those behind, make_partial_heap one where they are a heap; nth_element one where position nth has the element a full sort would put there, with no greater one before it and no lesser one behind it (nth at the end changes nothing).",
  "all containers, positions and strict weak orders", "Unbounded sizes; ties.", "sprout/algorithm/fixed/partial_sort.hpp, make_partial_heap.hpp, nth_element.hpp")
p("Fixed permutations",
  "fixed::next_permutation returns the lexicographically next arrangement of the elements and true, or the sorted one and false if there is none; prev_permutation is its mirror image; no arrangement lies in between.",
  "all containers and strict weak orders", "n! arrangements, fewer with ties.", "sprout/algorithm/fixed/next_permutation.hpp, prev_permutation.hpp")
p("Fixed shuffles",
  "fixed::shuffle returns a rearrangement of the elements, all arrangements equally likely if the draws are, with one draw per element; random_swap exchanges the elements at two drawn positions; neither draws from an engine for fewer than two elements.",
  "all containers, engines and sequences of draws", "A statement about the distribution over all draws.", "sprout/algorithm/fixed/shuffle.hpp, shuffle_result.hpp, random_swap.hpp, random_swap_result.hpp")

p("Reading a uuid",
  "make_uuid of a range or of a terminated string accepts exactly the texts of a uuid - 32 hexadecimal digits of either case, plain or grouped 8-4-4-4-12 by hyphens, bare or in braces - and gives the 16 bytes whose digits these are; any other text is rejected by an exception.",
  "all character sequences", "Unbounded set of texts; 2^128 values times notations.", "sprout/uuid/string_generator.hpp, sprout/uuid/detail/table.hpp")
p("Writing a uuid",
  "to_string gives the 36 characters RFC 4122 prescribes (lower case, hyphens after 8, 12, 16 and 20 digits), and make_uuid reads the same uuid back.",
  "all 2^128 uuids", "2^128 values.", "sprout/uuid/io.hpp, sprout/uuid/string_generator.hpp")
p("Comparing uuids",
  "The six comparisons of uuids are those of the 128-bit big-endian numbers they are; two uuids are equal exactly if all bytes are; is_nil holds exactly of the uuid that is zero.",
  "all pairs of uuids", "2^256 pairs.", "sprout/uuid/uuid.hpp")
p("Variant, version and generators",
  "variant and version read the bits RFC 4122 assigns to them. make_uuid5 and make_uuid3 give the first 16 bytes of the SHA-1 or MD5 digest of the namespace followed by the name, make_uuid4 the big-endian bytes of four draws, in each case with version (5, 3, 4) and variant stamped in, so that variant() and version() of the result say so.",
  "all uuids, namespaces, names of any length, engines", "Unbounded names; 2^128 draws.", "sprout/uuid/uuid.hpp, sha1_name_generator.hpp, md5_name_generator.hpp, random_generator.hpp")
p("Namespace literals",
  "\"s\"_uuid5 and \"s\"_uuid3 give the generator of the namespace s names: dns, url, oid or x500 in any case, or the namespace whose text s is; a string that names no namespace is rejected.",
  "all strings", "Unbounded set of strings.", "sprout/uuid/literals.hpp, sprout/uuid/namespaces.hpp, sprout/range/algorithm/equal.hpp")
p("Hashes of sequences",
  "hash_range folds boost::hash_combine over the hashes of the elements from left to right; hash_combine and hash_values of several values are the same fold; so hashing a sequence piece by piece is hashing it at once, and sequences that differ in the last element only, with different hashes of that element, have different hashes.",
  "all sequences and seeds", "Unbounded lengths; 2^64 seeds and hashes.", "sprout/functional/hash/hash_combine.hpp, hash_range.hpp, hash_values.hpp, sprout/uuid/hash.hpp")

p("Reversed sequences",
  "A reverse_iterator range visits the elements of the base range from last to first; --, + n, - n, [n] and the difference of two iterators agree with it, and the iterators are ordered by <, >, <=, >= along the traversal.",
  "all sequences, positions and offsets", "Unbounded lengths.", "sprout/iterator/reverse_iterator.hpp, sprout/range/adaptor/reversed.hpp")
p("Filtered sequences",
  "filtered(pred) visits exactly the elements that satisfy the predicate, in order, and backwards in reverse order; removed_if(pred) exactly the others; two iterators are equal exactly if they are at the same element.",
  "all sequences, ranges and predicates", "Unbounded lengths.", "sprout/iterator/filter_iterator.hpp, sprout/iterator/remove_if_iterator.hpp, sprout/range/adaptor/filtered.hpp, removed_if.hpp")
p("Uniqued sequences",
  "uniqued visits the first element of every run of equal neighbours.",
  "all sequences", "Unbounded lengths.", "sprout/iterator/adjacent_filter_iterator.hpp, sprout/iterator/unique_iterator.hpp, sprout/range/adaptor/uniqued.hpp")
p("Every n-th element",
  "A loop from begin() to end() of steps(wid, init) visits the elements init, init + wid, init + 2 wid, ... and ends; + n, [n], -- and the difference of two iterators agree with it.",
  "all sequences, widths >= 1 and starts inside", "Unbounded lengths and widths.", "sprout/iterator/step_iterator.hpp, sprout/range/adaptor/steps.hpp")
p("Concatenated sequences",
  "jointed visits the elements of the first range and then those of the second, and backwards in reverse order; + n, - n, [n], the comparisons and the difference of two iterators agree with it.",
  "all pairs of sequences, positions and offsets", "Unbounded lengths.", "sprout/iterator/joint_iterator.hpp, sprout/range/adaptor/jointed.hpp")
p("Alternating sequences",
  "alternated visits the elements of the two ranges in turn, as long as both last, and backwards in reverse order; + n, [n], the comparisons and the difference of two iterators agree with it.",
  "all pairs of sequences, positions and offsets", "Unbounded lengths.", "sprout/iterator/alternate_iterator.hpp, sprout/range/adaptor/alternated.hpp")
p("Elements up to the first failure",
  "A while_iterator range visits the longest initial part whose elements satisfy the predicate, with ++ and with next(); -- and prev() undo ++.",
  "all sequences, ranges and predicates", "Unbounded lengths.", "sprout/iterator/while_iterator.hpp")
p("A range inserted into another",
  "An insert_range_iterator range visits the elements of the base before the position, the inserted range and the rest of the base, and backwards in reverse order; the comparisons and the difference of two iterators agree with it.",
  "all pairs of sequences and positions", "Unbounded lengths.", "sprout/iterator/insert_range_iterator.hpp")
p("next, prev, advance, distance",
  "For any bidirectional iterator next(it, n), prev(it, -n) and advance(it, n) make |n| single steps, forwards for positive n and backwards for negative n; distance(first, last) is the number of increments from first to last; next and prev recurse to a depth logarithmic in n.",
  "all iterator types, n and ranges", "Unbounded n; any iterator type.", "sprout/iterator/next.hpp, prev.hpp, advance.hpp, distance.hpp")
p("Saturating arithmetic",
  "limited::plus and limited::multiplies give the exact sum or product if the type can represent it and otherwise the nearest limit, without undefined behaviour.",
  "all signed and unsigned integer types and operands", "2^128 pairs of operands.", "sprout/utility/limited.hpp")
p("Slices of sequences",
  "taken(n), dropped(n), taken_end(-n), dropped_end(-n), window(a, b) and offset(a, -b) give the first n elements, all but the first n, the last n, all but the last n, those from a to before b, and all but the first a and last b - as many of them as exist.",
  "all sequences, 0 <= n, 0 <= a <= b", "Unbounded lengths and arguments.", "sprout/range/adaptor/taken.hpp, dropped.hpp, taken_end.hpp, dropped_end.hpp, window.hpp, offset.hpp")

p("Views: access and narrowing",
  "A string_view made from a C string shows its characters; at(i) gives the i-th character and throws out_of_range behind the end; front and back give the first and the last; remove_prefix(n) and remove_suffix(n) drop n characters or all of them, for objects and for constants alike.",
  "all texts, views into them, indices and n", "Unbounded lengths.", "sprout/utility/string_view/string_view.hpp")
p("Views: substr and copy",
  "substr(pos, n) shows the at most n characters from pos on, copy(s, n, pos) writes them to s and returns their number; both throw out_of_range exactly if pos > size().",
  "all texts, views, positions and lengths", "Unbounded lengths.", "sprout/utility/string_view/string_view.hpp 359-373")
p("Views: comparison",
  "compare reports the lexicographic order of the two texts (or the parts selected), and ==, !=, <, >, <=, >= agree with it, between views and with C strings.",
  "all texts and views", "Unbounded lengths.", "sprout/utility/string_view/string_view.hpp 374-402, sprout/utility/string_view/comparison.hpp")
p("Views: find and rfind",
  "find gives the first position from pos on, rfind the last position up to pos, where the text looked for occurs inside the view, or npos; no character outside the view matters.",
  "all texts, views, patterns and positions", "Unbounded lengths.", "sprout/utility/string_view/string_view.hpp 263-294, sprout/string/detail/find.hpp")
p("Views: searches for a set of characters",
  "find_first_of, find_last_of, find_first_not_of and find_last_not_of give the first (last) position from (up to) pos of a character that is (is not) in the set, or npos.",
  "all texts, views, sets and positions", "Unbounded lengths.", "sprout/utility/string_view/string_view.hpp 295-358, sprout/string/detail/find.hpp")
p("Views: starts_with and ends_with",
  "starts_with (ends_with) is true exactly if the argument, a character or a text, is a prefix (suffix) of the text shown.",
  "all texts and views", "Unbounded lengths.", "sprout/utility/string_view/string_view.hpp 404-419")
p("Views: conversions",
  "to_string<N> gives a string with exactly the characters shown (length_error if there are more than N), and string_to_int the number they denote; characters behind the view do not matter.",
  "all texts and views", "Unbounded lengths.", "sprout/utility/string_view/string_view.hpp 420-424, sprout/utility/string_view/string_to_int.hpp")

p("Calendar times",
  "to_time_t(year, mon, day, hour, min, sec), also from a std::tm, gives the number of seconds from 1970-01-01 00:00:00 to that moment of the Gregorian calendar, with hours, minutes and seconds out of their range carried over.",
  "all dates and times", "Unbounded range of dates; leap years fall in a pattern of 400 years.", "sprout/ctime/to_time_t.hpp")
p("Calendar times are ordered",
  "Of two moments the earlier one has the smaller to_time_t, and different moments have different ones.",
  "all pairs of moments", "Two unbounded arguments.", "sprout/ctime/to_time_t.hpp")
p("Network byte order",
  "The bytes of hton(x) in memory are those of x, most significant first, whatever the byte order of the machine; ntoh(hton(x)) and hton(ntoh(x)) are x; likewise htonl, htons, ntohl, ntohs.",
  "all unsigned types, values and byte orders", "2^64 values; byte orders the test machine does not have.", "sprout/net/endian.hpp")
p("Static powers",
  "static_pow2<T, X> is 2^X, static_pow2m1<T, X> is 2^X - 1, static_pow<T, X, Y> is X^Y whenever T can represent the result.",
  "all integer types, bases and exponents", "Too many pairs of base and exponent.", "sprout/integer/static_pow.hpp")
p("Digits of a type",
  "integer_digits<T, Base> is the number of digits of the largest value of T in the base, for every base from 2 to 16.",
  "all integer types and bases", "The tests have only a few of the pairs, and the factor of each base is an approximation of a logarithm.", "sprout/integer/integer_digits.hpp")


p("valarray construction and access",
  "A valarray made of a count, a value and a count, or a sequence has exactly these elements, and value_type() behind them; more than N raise length_error. operator[] and at give the i-th element, at raises out_of_range for i >= size() even when i < N; front and back are the first and the last; empty() tells whether there are none.",
  "all element types, capacities, sizes and values", "Unbounded sizes; the boundary between size and capacity moves.", "sprout/valarray/valarray.hpp")
p("valarray assignment",
  "Assigning a value or filling sets every element and keeps the size; resize(n, x) leaves n copies of x; assigning a list or a view leaves exactly its elements; what exceeds N raises length_error and changes nothing.",
  "all capacities, sizes and values", "Unbounded sizes.", "sprout/valarray/valarray.hpp")
p("valarray element-wise operations",
  "The unary and binary operators, comparisons and apply give the valarray of the results element by element, with the size of the (left) operand; the compound assignments change each element accordingly and nothing else; sum is the sum from left to right, min and max are a least and a greatest element.",
  "all operations, sizes and values", "Unbounded sizes and arbitrary operations.", "sprout/valarray/valarray.hpp", "sprout/valarray/arithmetic.hpp", "sprout/valarray/comparison.hpp")
p("valarray shifts",
  "shift(i) gives at each place the element i places further, value_type() where there is none; cshift(i) likewise with the elements in a circle; for every int i.",
  "all sizes, values and distances", "Pairs of size and distance, of either sign and beyond the size.", "sprout/valarray/valarray.hpp")
p("valarray views",
  "A slice (start, size, stride) shows the elements start + k * stride; a gslice those of the grid of its sizes and strides, last index fastest; a mask those whose mask is true; an indirect array those of its indices; in this order and no others.",
  "all starts, sizes, strides, dimensions, masks and index lists", "The gslice has any number of dimensions.", "sprout/valarray/slice_array.hpp", "sprout/valarray/gslice_array.hpp", "sprout/valarray/mask_array.hpp", "sprout/valarray/indirect_array.hpp", "sprout/detail/algorithm/mask_index.hpp")
p("Reading and writing through valarray views",
  "A valarray made of a view has the elements shown; assigning to a view, also with an operator, changes exactly the elements shown, each by the corresponding operand; assigning a value sets them all.",
  "all views without repeated elements, operations and operands", "Any set of positions.", "sprout/valarray/slice_array.hpp", "sprout/valarray/gslice_array.hpp", "sprout/valarray/mask_array.hpp", "sprout/valarray/indirect_array.hpp")


p("tribool is three-valued logic",
  "However indeterminate operands are replaced by truth values, a tribool expression that is true (false) stays true (false); each operator is indeterminate only when both results are possible; an operator with a bool or the keyword indeterminate gives what it gives with the tribool made of it.",
  "all expressions over tribools and all assignments", "Expressions are unbounded and there are many overloads.", "sprout/logic/tribool/tribool.hpp")
p("optional behaves as a value or nothing",
  "After any sequence of assignments, conditional constructions, copies, swaps and resets of any number of optionals each of them holds exactly the value a plain variant-or-nothing would hold; value, value_or, operator*, get_pointer, get, size, empty and at show this value, and value throws bad_optional_access, at out_of_range and get_pointer is null when there is none.",
  "all value types and all sequences of operations", "Sequences of operations are unbounded.", "sprout/optional/optional.hpp", "sprout/optional/get.hpp")
p("Comparison of optionals",
  "Nothing equals nothing and precedes every value; two values compare as the values do; <=, >, >=, != are derived accordingly; comparing with nullopt is comparing with an empty optional; if < on values is a strict weak order then so it is on optionals.",
  "all value types, orders and optionals, also those that were reset", "The values are arbitrary, and an optional that was reset keeps its old value inside.", "sprout/optional/comparison.hpp", "sprout/utility/compare_pointees.hpp")
p("variant holds exactly one alternative",
  "A variant made of a value has the first alternative of its type and this value; apply_visitor calls the visitor once with it; get gives it back and refuses other types; comparison looks at the number of the alternative first and then at the value, never at the unused alternatives, and < is a strict weak order if it is one on each type; swap exchanges.",
  "all lists of types, values and visitors", "Any number of alternatives; unused ones hold values as well.", "sprout/variant/variant.hpp")


p("A weed parser matches what its parsing expression matches",
  "For every parser built from terminals, sequence, alternative, repetition, list, predicates, difference, option, limits and directives and every text, parse terminates, never reads outside the text, and succeeds up to position j exactly when the corresponding parsing expression (ordered choice, greedy repetition) matches up to j; on failure it reports the starting position.",
  "all expressions, all texts and starting positions", "Expressions and texts are unbounded.",
  "sprout/weed/context/parse_context/operator/shift_left.hpp", "sprout/weed/context/parse_context/operator/bitwise_or.hpp", "sprout/weed/context/parse_context/operator/unary_plus.hpp", "sprout/weed/parse.hpp")
p("The attribute of a weed parser is what was matched",
  "When a parser succeeds its attribute has the type that attribute_of announces and contains, in order, the characters and numbers its parts matched: sequences concatenate strings and arrays or make tuples, limited repetition keeps the first (discard) or last (circular) n, omit drops and replace substitutes.",
  "all expressions with modelled attribute types, all texts", "Attribute conversion depends on types of all parts, nested to any depth.",
  "sprout/weed/attr_cnv/shift_left.hpp", "sprout/weed/attr_cnv/bitwise_or.hpp", "sprout/weed/attr_cnv/times.hpp")
p("Number parsers read the number that is written",
  "uint_p and int_p of any integer type, radix 2, 8, 10 or 16, read the longest run of at most MaxDigits digits with an optional sign; if the number is a value of the type the attribute is this number and the position is behind its last digit; bin, oct, hex read any number with at least one digit; MinDigits is the least number of digits accepted.",
  "all types, radices and texts", "There are as many texts as numbers, and overflow is at the ends only.",
  "sprout/weed/parser/numeric/uint_p.hpp", "sprout/weed/parser/numeric/int_p.hpp", "sprout/weed/parser/numeric/hex.hpp")
p("Laws of weed parsers",
  "Sequence and alternative are associative, alternative is idempotent and can be factored on the left, !!a is &a, !(a|b) is !a << !b, a - b is !b << a, -a is a | eps and *a is +a | eps: both sides succeed on the same texts up to the same position.",
  "all expressions without wide signed numbers, all texts", "The laws speak of all expressions.", "sprout/weed/operator.hpp", "sprout/weed/context/parse_context/operator.hpp")
p("Character sets of weed",
  "char_(set) accepts exactly the characters that are in the set or in one of its ranges a-b.",
  "all sets and characters", "A binary search over a set of any length.", "sprout/weed/detail/find_character_set.hpp", "sprout/weed/parser/char/char.hpp")
p("Lists and counted repetition of weed",
  "a % b matches a (b a)* and stops behind the last a; repeat(n)[p] matches p at least n times and stops behind the last match; repeat[p] is *p; a limited repetition with Stopover tries at most n times.",
  "all expressions and texts", "Expressions and texts are unbounded.", "sprout/weed/context/parse_context/operator/modulus.hpp", "sprout/weed/parser/directive/repeat.hpp", "sprout/weed/limited.hpp")


p("floor and ceil round to the neighbouring integer",
  "For every floating-point type and finite x, floor(x) is the greatest integer not above x and ceil(x) the least not below, with the sign of x, for float, double and long double; NaN, infinities and zeros are returned unchanged.",
  "all types, all values", "There are 2^64 doubles; the deviations are where the tolerance of equal_to and the limits of uintmax_t bite.",
  "sprout/math/floor.hpp", "sprout/math/ceil.hpp", "sprout/math/equal_to.hpp")
p("trunc and round",
  "trunc(x) is x with its fraction dropped and round(x) the nearest integer, halfway cases away from zero, with the sign of x, and neither is ever undefined.",
  "all types, all values", "Correctness depends on every intermediate subtraction being exact.",
  "sprout/math/trunc.hpp", "sprout/math/round.hpp")
p("Rounding to an integer type",
  "itrunc, ifloor, iceil and iround of a number within the limits of the integer type To give the integer the rounding rule demands.",
  "all floating-point types, all integer types of 32 to 64 bits, all values", "The limits of To are not representable in all floating-point types.",
  "sprout/math/itrunc.hpp", "sprout/math/ifloor.hpp", "sprout/math/iceil.hpp", "sprout/math/iround.hpp")
p("Integer and fractional part",
  "integer_part and fractional_part (modf) have the sign of x, the first is an integer, the second below one in magnitude, and their sum is x exactly; is_integer tells whether the second is zero.",
  "all types, all values", "Exactness for all values.", "sprout/math/integer_part.hpp", "sprout/math/fractional_part.hpp", "sprout/math/frac_int.hpp", "sprout/math/is_integer.hpp")
p("Floating-point classification",
  "fpclassify, isnormal and issubnormal put every number in the class IEEE 754 does for its type.",
  "all types, all values", "Boundaries differ from type to type.", "sprout/math/fpclassify.hpp", "sprout/math/issubnormal.hpp", "sprout/math/isnormal.hpp")
p("Sign functions",
  "fabs clears the sign; signbit tells the sign; copysign(x, y) is x with the sign of y; for zeros and infinities as well.",
  "all types, all values other than the sign of a NaN", "Signed zeros are equal, so == in tests does not see the difference.", "sprout/math/fabs.hpp", "sprout/math/signbit.hpp", "sprout/math/copysign.hpp")
p("Quiet comparisons",
  "isless, islessequal, isgreater, isgreaterequal, islessgreater and isunordered decide the order of the extended reals and are false (isunordered true) if an argument is a NaN.",
  "all pairs", "All pairs of values.", "sprout/math/isless.hpp", "sprout/math/islessequal.hpp", "sprout/math/isgreaterequal.hpp", "sprout/math/islessgreater.hpp", "sprout/math/isunordered.hpp")
p("fmin and fmax",
  "fmin (fmax) returns one of its arguments and neither argument is below (above) it; if one argument is a NaN the other is returned.",
  "all pairs", "All pairs of values.", "sprout/math/fmin.hpp", "sprout/math/fmax.hpp")
p("fdim and fma",
  "fdim(x, y) is x - y correctly rounded if x > y and +0 if not; fma(x, y, z) is x * y + z rounded once.",
  "all arguments", "Double rounding shows up for few of 2^192 triples.", "sprout/math/fdim.hpp", "sprout/math/fma.hpp")
p("The tolerant comparison equal_to",
  "equal_to is reflexive, symmetric and transitive; it holds if |x - y| is at most epsilon * max(|x|, |y|, 1) and not if it is more than twice that.",
  "all pairs of finite values", "Depends on rounding of the difference and the product.", "sprout/math/equal_to.hpp")
p("ldexp and scalbn",
  "ldexp(x, e) and scalbn(x, e) are x * 2^e, exactly if it is a number of the type and correctly rounded if not.",
  "all types, values and exponents", "All values and exponents.", "sprout/math/ldexp.hpp", "sprout/math/scalbn.hpp", "sprout/detail/pow.hpp")
p("ilogb and frexp",
  "ilogb(x) is the binary exponent of x; float2_sig_exp (frexp) returns a significand in [1/2, 1) with the sign of x and an exponent whose product is x.",
  "all types, all finite values other than zero", "The logarithm the code starts from is approximate; the correction must work at all powers of two.", "sprout/math/logb.hpp", "sprout/math/ilogb.hpp", "sprout/math/float2_sig_exp.hpp")
p("fmod, is_odd, is_even",
  "fmod(x, y) is x - n*y exactly, n the quotient truncated, with the sign of x; is_odd and is_even decide whether x is an odd or even integer.",
  "all types, all pairs", "Long division of up to 2000 steps in which no step may round.", "sprout/math/fmod.hpp", "sprout/math/is_odd.hpp", "sprout/math/is_even.hpp")
p("remainder and remquo",
  "rem_quo(x, y) returns x - n*y exactly, n the nearest integer to x/y and even if two are nearest, and n modulo 8 with the sign of x/y.",
  "all types, all pairs", "As for fmod; ties occur for few pairs.", "sprout/math/rem_quo.hpp", "sprout/math/remainder.hpp", "sprout/math/quotient.hpp")


p("Any program over intrusive lists",
  "Starting from any set of disjoint forward_clists, after any sequence of push_front, pop_front, insert_after, erase_after (one item or a range), clear and unlink whose preconditions hold, every list consists of exactly the items a sequence with the same operations would hold, in order; the lists are still disjoint; items in no list are unlinked; no value has changed.",
  "all sets of lists of any length, all sequences of calls, all values", "Pointer manipulation errors corrupt other lists or only show after further calls.",
  "sprout/forward_clist.hpp", "sprout/utility/value_holder/value_holder.hpp")
p("Iterators of an intrusive list",
  "Going from begin() to end() visits the values of all the items in order; before_begin() is followed by begin(); front() is the first value; iterators are equal exactly if they denote the same item or both the end; insert_after returns the inserted item, erase_after the one behind the erased; is_linked tells whether another item follows.",
  "all lists, all positions", "All shapes of the heap.", "sprout/forward_clist.hpp")
p("Misuse of an intrusive list",
  "front and pop_front of an empty list, erase_after at the last item, a range whose end is not behind its beginning, and the end as a position are undefined; pushing an item to the list it is in makes traversal endless; pushing it to a second list makes the first continue into the second.",
  "all lists, all items", "States the preconditions the other properties need are necessary.", "sprout/forward_clist.hpp")
p("Observers and move construction of an intrusive list",
  "empty() tells whether a list has no items; cbefore_begin() is the position before the first; a list constructed from another by move takes its items and leaves it empty.",
  "all lists", "All lists.", "sprout/forward_clist.hpp")

p("complex is a field",
  "The operators + - * of complex<T>, also with one operand a T, satisfy the laws of a commutative ring containing T with i * i = -1, division inverts multiplication by everything but zero, == and != decide equality; conj is an automorphism, norm multiplicative, x * conj(x) = norm(x) and perp(x) = i * x.",
  "all component types with the operations of an ordered field, all values", "Algebraic identities over all values.",
  "sprout/complex/arithmetic_operators.hpp", "sprout/complex/complex.hpp", "sprout/complex/conj.hpp", "sprout/complex/norm.hpp", "sprout/complex/perp.hpp")
p("Compound assignment of complex",
  "x op= y leaves in x the value of x op y, also if y is x itself or a component of x.",
  "all values, all aliasings of the argument", "Aliasing is rarely tested.", "sprout/complex/complex.hpp")
p("quaternion is Hamilton's algebra",
  "For component types other than the floating-point types: the product of quaternions is the one given by the multiplication table of 1, i, j, k, associative and distributive, conj reverses products, norm(q) = q * conj(q) is multiplicative and zero only for zero; operators with a T or complex operand agree with the operand converted to a quaternion; == decides equality; sup and l1 are the largest and the sum of the magnitudes of the components.",
  "all component types with the operations of an ordered field, all values", "Algebraic identities over all values.",
  "sprout/math/quaternion/arithmetic_operators.hpp", "sprout/math/quaternion/conj.hpp", "sprout/math/quaternion/norm.hpp", "sprout/math/quaternion/sup.hpp", "sprout/math/quaternion/l1.hpp")
p("Compound assignment of quaternion",
  "q op= r leaves in q the value of q op r (r a quaternion, complex or T, /= such that multiplying by r gives q back), also if r is q itself or a component of q.",
  "all component types including the specializations, all values, all aliasings", "Aliasing and scaling by the largest component.", "sprout/math/quaternion/quaternion.hpp")
p("quaternion of a floating-point type",
  "quaternion<float>, <double> and <long double> constructed from four components have these components, and the operators of C188 hold for them up to rounding.",
  "all values", "The specializations are separate code.", "sprout/math/quaternion/quaternion.hpp")
p("Components as a range",
  "Going from begin() to end(), or from cbegin() to cend(), of a complex or quaternion visits its components in order.",
  "all values", "Only the const versions differ.", "sprout/complex/complex.hpp", "sprout/math/quaternion/quaternion.hpp")

p("fft computes the Fourier transform",
  "sprout::fft(first, last) on a range whose length n is a power of two terminates, stays inside the range and replaces element k by the sum of x_j e^(-2 pi i j k / n).",
  "all powers of two, all contents", "The split-radix butterflies and the bit-reversal pattern at every size; tests can try only some sizes and compare approximately.",
  "sprout/numeric/fft/cxx14/fft.hpp")
p("ifft inverts fft",
  "sprout::ifft(first, last) replaces element k by 1/n times the sum of x_j e^(2 pi i j k / n); fft followed by ifft, and ifft followed by fft, restores the range.",
  "all powers of two, all contents", "Inversion for every size.",
  "sprout/numeric/fft/cxx14/ifft.hpp")
p("dft_element computes a coefficient of the transform",
  "dft_element(first, last, k) is the sum of x_j e^(-2 pi i j k / n) over the range, idft_element(first, last, k) is 1/n times the sum of x_j e^(2 pi i j k / n), for every iterator category; the recursion depth is logarithmic for random access iterators.",
  "all non-empty ranges, all k", "Sums over ranges of every length, two recursion schemes.",
  "sprout/numeric/dft/dft_element.hpp", "sprout/numeric/dft/idft_element.hpp", "sprout/numeric/dft/detail/dft_element_gen.hpp")
p("fixed::dft and fixed::idft",
  "fixed::dft(first, last, result) returns the result with its first n elements replaced by the coefficients of the transform of the range of n elements; fixed::idft likewise with the inverse transform.",
  "all ranges and results, every iterator category", "The result may be longer or shorter than the range.",
  "sprout/numeric/dft/fixed/dft.hpp", "sprout/numeric/dft/fixed/idft.hpp")
p("fixed::fft computes the Fourier transform",
  "fixed::fft on a power-of-two size computes the same transform as fft and dft, of the input padded with zeros; fixed::ifft inverts it.",
  "all powers of two, all contents", "Every size; sign of the exponent.",
  "sprout/numeric/fft/fixed/fft.hpp", "sprout/numeric/fft/fixed/ifft.hpp", "sprout/numeric/fft/coefficients.hpp")

p("A sub_array shows the elements between its positions",
  "size, empty, begin, end, operator[], at, front, back, nth and index_of of a sub_array refer to exactly the elements of its window; at and nth throw past it; sub, csub, sub_copy, sub_window, sub_offset and the members window and offset give the window asked for.",
  "all arrays, all windows, all sub-windows of sub_arrays", "Every combination of surrounding elements and window; positions relative to the window or to the array.",
  "sprout/sub_array/sub_array.hpp", "sprout/sub_array/sub.hpp", "sprout/sub_array/sub_window.hpp", "sprout/sub_array/sub_offset.hpp")
p("Changing a sub_array leaves the rest of its array alone",
  "fill, push_back, push_front, pop_back, pop_front, drop_back, drop_front and swap of a sub_array change only the window and the one element they are about.",
  "all arrays and windows with room for the change", "Frame property over all surroundings.",
  "sprout/sub_array/sub_array.hpp")
p("Comparison of sub_arrays",
  "sub_arrays are equal iff they show equal sequences, and ordered lexicographically by what they show; nothing outside the windows is looked at.",
  "all pairs of sub_arrays", "Pairs of windows of every size.",
  "sprout/sub_array/comparison.hpp")
p("The fixed operations insert and remove",
  "fixed::append, append_back, append_front, insert, insert_n, push_back, push_front, push_back_n, push_front_n, erase, erase_n, pop_back, pop_front, pop_back_n, pop_front_n return a container with the elements inserted or removed at the position, everything else in order.",
  "all arrays and sub_arrays, all positions, all numbers of values", "Index arithmetic at every position and size; containers with elements outside the window.",
  "sprout/operation/fixed/append.hpp", "sprout/operation/fixed/insert.hpp", "sprout/operation/fixed/insert_n.hpp", "sprout/operation/fixed/erase.hpp", "sprout/operation/fixed/erase_n.hpp", "sprout/operation/fixed/push_back.hpp", "sprout/operation/fixed/pop_back.hpp")
p("realign, resize, resize_backward and set",
  "fixed::realign moves the elements to the front of a container of the same static size, resize and realign_to keep the first elements and resize_backward the last ones, filling with the value given; fixed::set replaces one element.",
  "all containers, all new sizes", "Growing and shrinking by every amount.",
  "sprout/operation/fixed/realign.hpp", "sprout/operation/fixed/realign_to.hpp", "sprout/operation/fixed/resize.hpp", "sprout/operation/fixed/resize_backward.hpp", "sprout/operation/fixed/set.hpp")
p("The fit operations show exactly the result",
  "The operations of sprout::fit return a sub_array that shows exactly the elements of the result of the operation, whatever the static size of its array.",
  "all arrays and sub_arrays, all positions and counts", "The end of the window has to be computed from the operands in every case.",
  "sprout/operation/fit/append.hpp", "sprout/operation/fit/insert.hpp", "sprout/operation/fit/erase_n.hpp", "sprout/operation/fit/pop_back_n.hpp", "sprout/operation/fit/realign_to.hpp", "sprout/operation/fit/resize.hpp", "sprout/operation/fit/set.hpp")

p("fold_while and fold_until stop in time",
  "fold_while returns the fold of the shortest prefix of the range whose fold fails the predicate, or of the whole range; fold_until that of the shortest prefix whose fold satisfies it; the initial value counts as the fold of nothing, and no element behind the prefix is read.",
  "all ranges, operations, predicates and initial values; logarithmic recursion depth", "The doubling recursion meets the stop condition at any level.",
  "sprout/algorithm/fold_while.hpp", "sprout/algorithm/fold_until.hpp")
p("The monotonicity predicates",
  "is_increasing, is_decreasing, is_strictly_increasing and is_strictly_decreasing hold iff any two elements of the range, not only neighbours, stand in <=, >=, < or >.",
  "all integer ranges", "The code compares neighbours only and negates the comparison; the claim is about all pairs.",
  "sprout/algorithm/is_increasing.hpp", "sprout/algorithm/is_decreasing.hpp", "sprout/algorithm/is_strictly_increasing.hpp", "sprout/algorithm/is_strictly_decreasing.hpp")
p("sample draws without replacement",
  "sample stores min(n, size) elements at the destination and nothing elsewhere, no element of the population twice; from a forward population in their order; if n is at least the size, an input population is copied without a draw.",
  "all populations, sizes and engines that stay in the interval asked for", "Depends on every sequence of draws.",
  "sprout/algorithm/cxx14/sample.hpp")
p("sample is fair",
  "With uniform draws every element of a population of N is in a sample of n with probability n / N.",
  "all N, n <= N and elements; counted over all sequences of draws", "A statement about the whole probability space.",
  "sprout/algorithm/cxx14/sample.hpp")
p("bogo_sort and bozo_sort sort",
  "bogo_sort and bozo_sort end with the range sorted and its elements rearranged; a sorted range is left alone with the engine untouched.",
  "all ranges, orders and engines", "Depends on every sequence of draws; the number of turns is not bounded.",
  "sprout/algorithm/cxx14/bogo_sort.hpp", "sprout/algorithm/cxx14/bozo_sort.hpp", "sprout/algorithm/cxx14/shuffle.hpp", "sprout/algorithm/cxx14/random_swap.hpp")
p("The fixed bogo_sort and bozo_sort sort",
  "fixed::bogo_sort, bozo_sort and their _result versions end with a sorted rearrangement of the container; a sorted container is returned as it is with the engine untouched.",
  "all arrays and sub_arrays, orders and engines", "Depends on every sequence of draws.",
  "sprout/algorithm/fixed/bogo_sort_result.hpp", "sprout/algorithm/fixed/bozo_sort_result.hpp", "sprout/algorithm/fixed/bogo_sort.hpp", "sprout/algorithm/fixed/bozo_sort.hpp")

p("join concatenates",
  "join(conts) with random access holds the elements of all the containers one after the other, each in its order, and T() behind them up to (static size of the inner) * (static size of the outer).",
  "all element types, outer and inner containers, inner containers of any size up to their static size", "The position of every element is found by a binary search in the partial sums of the sizes, which may repeat.",
  "sprout/algorithm/string/join.hpp", "sprout/numeric/fixed/partial_sum.hpp", "sprout/algorithm/lower_bound.hpp")
p("join puts the separator between any two containers",
  "join(conts, sep) with random access holds the containers in order with the separator, a string literal without its terminating character, between any two of them and nowhere else, and T() behind.",
  "all outer and inner containers and separators, empty ones included", "The separators share the binary search with the containers; even and odd positions must alternate for every number of containers.",
  "sprout/algorithm/string/join.hpp", "sprout/range/adaptor/size_enumed.hpp")
p("join does not depend on the iterator category",
  "join of containers without random access has the same result as with.",
  "all outer and inner containers and separators", "Two unrelated implementations must agree everywhere.",
  "sprout/algorithm/string/join.hpp")
p("join of strings is their concatenation",
  "The join of strings is the string of all their characters, with the separators between them, and its size is the sum of the sizes.",
  "all strings and separators", "The size of the result is not computed from the sizes of the arguments.",
  "sprout/algorithm/string/join.hpp", "sprout/string/string.hpp")
p("size_enumed enumerates the sizes",
  "conts | size_enumed(sep, omit_last) enumerates the size of each container followed by sep, the last sep left out on demand; its iterators are random access iterators over this sequence: ++, --, +, -, [], differences and comparisons agree with the position.",
  "all sequences of sizes, iterators and offsets", "Every pair of iterators and every offset, negative ones included.",
  "sprout/iterator/size_enum_iterator.hpp", "sprout/range/adaptor/size_enumed.hpp")

p("all_of, any_of and none_of over types",
  "types::all_of<Tuple, Pred>, any_of and none_of (and all_of_same, any_of_same, none_of_same, contains, contains_if), and tpp::all_of, any_of, none_of of a pack, are true exactly if all, some, none of the types satisfy the predicate; the instantiation depth is logarithmic in the number of types.",
  "all type lists and predicates", "The recursion splits the index range at a pivot; every length gives a different tree.",
  "sprout/type/algorithm/all_of.hpp", "sprout/type/algorithm/any_of.hpp", "sprout/type/algorithm/none_of.hpp", "sprout/tpp/algorithm/all_of.hpp", "sprout/tpp/algorithm/any_of.hpp", "sprout/tpp/algorithm/none_of.hpp")
p("one_of over types",
  "types::one_of<Tuple, Pred>, one_of_same and tpp::one_of are true exactly if exactly one of the types satisfies the predicate.",
  "all type lists and predicates", "Whether a second or third match is noticed depends on the halves they lie in.",
  "sprout/type/algorithm/one_of.hpp", "sprout/type/algorithm/one_of_same.hpp", "sprout/tpp/algorithm/one_of.hpp")
p("count and find_index over types",
  "types::count_if (count) is the number of types that satisfy the predicate; find_index_if (find_index) is the index of the first that does, the size if none does, and is_found says which.",
  "all type lists and predicates", "All lengths and positions; the found index is threaded through the recursion by comparing it with the start of the range.",
  "sprout/type/algorithm/count_if.hpp", "sprout/type/algorithm/count.hpp", "sprout/type/algorithm/find_index_if.hpp", "sprout/type/algorithm/find_index.hpp", "sprout/type/algorithm/detail/find_index_result.hpp")
p("fold, partial_sum and transform over types",
  "types::fold (accumulate) is the left fold in order for any operation, associative or not; partial_sum holds the folds of all prefixes; transform of two tuples applies the operation to the types at equal positions and needs the second to be at least as long.",
  "all type lists and operations", "The fold is computed by halves; only for all operations is its order determined.",
  "sprout/type/algorithm/fold.hpp", "sprout/type/algorithm/accumulate.hpp", "sprout/type/algorithm/partial_sum.hpp", "sprout/type/algorithm/transform.hpp")
p("lower_bound_index and upper_bound_index over types",
  "For a tuple partitioned with respect to the comparison, types::lower_bound_index is the number of types that come before T, upper_bound_index the number of those T does not come before.",
  "all partitioned type lists, comparisons and T", "The binary search keeps the middle element in the upper half; termination and the boundary need all lengths.",
  "sprout/type/algorithm/lower_bound_index.hpp", "sprout/type/algorithm/upper_bound_index.hpp")
p("tpp min_element and max_element",
  "tpp::max_element and min_element of a non-empty pack are the first of the types with the greatest, the least value.",
  "all packs and values", "Stability among equal values over every shape of the recursion.",
  "sprout/tpp/algorithm/max_element.hpp", "sprout/tpp/algorithm/min_element.hpp")

p("remake of a container without a static size",
  "remake<Container>(cont, size, first, last) of a container without a static size holds the internal range of cont with [begin, end) replaced by the elements of [first, last), as many as there are and fit, and everything else unchanged.",
  "all internal ranges, windows in them and sources of any length", "The iterator keeps two positions and two offsets in step through three phases; the source may end before, with or after the window.",
  "sprout/iterator/remake_iterator.hpp", "sprout/container/container_construct_traits.hpp")
p("remake_iterator is a random access iterator",
  "For a remake_iterator it at position i, it + n and it - n are the iterators that ++ leads to, it[n] is the element at i + n, -- undoes ++, and comparisons and differences are those of the positions.",
  "all ranges, windows, sources, positions and offsets", "advance computes the position in the source by case distinctions that must agree with step-by-step movement for every start and offset.",
  "sprout/iterator/remake_iterator.hpp")
p("a remade range read backwards",
  "Going from the end iterator that remake constructs back to the begin iterator with -- reads the same elements as going forward, in reverse.",
  "all ranges, windows and sources", "Every step from the end depends on the offsets the end iterator starts with.",
  "sprout/iterator/remake_iterator.hpp", "sprout/container/container_construct_traits.hpp", "sprout/container/internal_begin_offset_backward.hpp", "sprout/container/internal_end_offset_backward.hpp")

p("integer_range is an arithmetic progression",
  "integer_range<T, First, Last, Step>, and index_range and uindex_range with it, is the sequence First, First + Step, ... of all terms before Last, for either direction and with an instantiation depth logarithmic in its length.",
  "all integer types T, bounds and steps in the direction from First to Last", "The sequence is doubled and shifted; its length comes from a truncating division in the signed type, the shifts from products in the unsigned one.",
  "sprout/index_tuple/integer_range.hpp", "sprout/index_tuple/index_range.hpp")
p("make_index_tuple counts from 0, integer_n repeats",
  "make_integer_sequence<T, N> (make_index_tuple, make_index_sequence) is 0, 1, ..., N - 1; integer_n<T, I, N> is N times I.",
  "all N that are values of T", "Every pack expansion of the library uses these sequences; each length is another tree of instantiations.",
  "sprout/index_tuple/make_integer_sequence.hpp", "sprout/index_tuple/make_index_tuple.hpp", "sprout/index_tuple/integer_n.hpp")

p("Ook! programs are translated to Brainfuck",
  "ook::to_brainfuck replaces each pair of the words Ook. Ook? Ook! by the Brainfuck command it stands for, from left to right, and every other character by a space; it succeeds for every text and fills the result as far as it reaches.",
  "all texts, spacings and sizes of the result", "A text can interleave pairs, broken words and spaces in any way.",
  "sprout/brainfuck/ook.hpp", "sprout/brainfuck/detail/convert.hpp")
p("Misa programs are translated to Brainfuck",
  "misa::to_brainfuck replaces each Misa letter by the Brainfuck command it stands for and every other byte by a space; Brainfuck commands stay as they are, so that a Brainfuck program runs unchanged as a Misa program.",
  "all texts and sizes of the result", "The letters are two bytes that overlap with the one byte commands; only the order of reading decides.",
  "sprout/brainfuck/misa.hpp", "sprout/brainfuck/detail/convert.hpp")

p("seed_array generates like seed_seq",
  "seed_array::generate gives the numbers that the C++ standard prescribes for std::seed_seq with the same seeds, in the version that returns an array and in the version that writes to a range; what the range held before does not matter.",
  "all seeds and all numbers of results", "Every seed influences every number; a wrong index or a step in the wrong order gives other numbers that look as random.",
  "sprout/random/seed_array.hpp")
p("seeds are taken modulo 2^32",
  "make_seed_array and the constructors of seed_array keep each value modulo 2^32, for values of every integer type.",
  "all integers of up to 64 bits", "The remainder is taken modulo 2^33 and then converted.",
  "sprout/random/seed_array.hpp")

p("generate_array gives successive numbers",
  "generate_array<N>(rng) gives the first N numbers of rng in order; the const version also returns the generator after N calls, the other version leaves rng in that state. Continuing from the generator that was returned continues the sequence.",
  "all generators, all N from 1 on (from 0 on for the version with side effects)", "A generator advanced once too often or too little still gives numbers that look random.",
  "sprout/random/generate_array.hpp")
p("a random range holds count numbers",
  "The range from random::begin(engine, count) to random::end(engine) holds exactly the first count numbers of the engine, and its length is count; with a negative count it goes on until the index runs out.",
  "all generators and counts", "An off by one in the index drops or repeats a number, which no test of randomness notices.",
  "sprout/random/iterator.hpp", "sprout/iterator/generator_iterator.hpp")
p("bernoulli_distribution is true with probability p",
  "Over the numbers that the engine can give, bernoulli_distribution(p) is true for a share of p up to the resolution of the engine: never for 0, always for 1; a greater p keeps every true; the engine is called once when p is not 0.",
  "all ranges of the engine, all p from 0 to 1", "A share that is off by one number in 2^32 cannot be measured.",
  "sprout/random/bernoulli_distribution.hpp")

p("factorial gives factorials",
  "factorial<T>(x) is x! exactly for the integer types and fits the type; for the floating types the literal is x! up to the precision of the literals.",
  "all types with a table, all x up to factorial_limit<T>()", "The tables hold hundreds of literals of up to 40 digits; a wrong digit is only found by computing the whole table again.",
  "sprout/math/factorial.hpp")
p("factorial_limit is the greatest possible",
  "factorial<T>(x) accepts exactly those x whose factorial is representable in T.",
  "all types with a table, all x", "A limit that is too small is invisible to tests of values.",
  "sprout/math/factorial.hpp")
p("bernoulli_number gives the Bernoulli numbers",
  "bernoulli_number<T>(x) is the Bernoulli number B_x, defined by B_0 = 1 and the recurrence with binomial coefficients, up to the precision of the literals; it is exact where the table holds fractions.",
  "all floating types, all x up to bernoulli_number_limit<T>()", "The values are literals; a wrong entry only shows as a small error of log and tan.",
  "sprout/math/bernoulli.hpp")

p("fit copies and filters show exactly the elements produced",
  "fit::copy, copy_n, copy_if, copy_while, copy_until, copy_backward, remove_copy_if and remove_if return a sub_array that holds exactly the elements the algorithm produced, as many as fit in the given container, at the front of it (copy_backward: at its end); elements of the underlying array outside of it are as the fixed algorithm leaves them.",
  "all element types, ranges, predicates, and containers that are arrays or sub_arrays at any offset", "The size of the window is computed apart from the elements (count_if, find_if, distance); the two must agree for every range, and for containers too small for the output.",
  "sprout/algorithm/fit/copy.hpp", "sprout/algorithm/fit/copy_if.hpp", "sprout/algorithm/fit/remove_if.hpp", "sprout/container/container_fitness_traits.hpp")
p("fit merge and set operations show exactly the merged elements",
  "fit::merge, set_union, set_intersection, set_difference and set_symmetric_difference of sorted ranges return a sub_array that holds exactly the merge or the set operation, as many elements as fit in the given container.",
  "all strict weak orders, sorted ranges with repeated elements, and containers", "The size of the window comes from a separate count of the common elements; with repeated elements the count and the merge have to pair them in the same way.",
  "sprout/algorithm/fit/set_union.hpp", "sprout/detail/algorithm/set_overlap_count.hpp")
p("fit partitions show the elements that satisfy the predicate",
  "fit::partition, stable_partition, partition_copy and stable_partition_copy return a sub_array that holds exactly the elements that satisfy the predicate (of those that fit in the given container).",
  "all containers, ranges and predicates", "A size that counts the wrong half is right whenever both halves have the same size.",
  "sprout/algorithm/fit/partition.hpp", "sprout/algorithm/fit/stable_partition.hpp", "sprout/algorithm/fit/stable_partition_copy.hpp")

p("fit unique shows one element of each group",
  "fit::unique and unique_copy return a sub_array that holds exactly the first element of each group of equal neighbours, as many as fit in the given container.",
  "all symmetric and transitive predicates, ranges, containers, and both kinds of iterators", "The size comes from a separate count of related neighbours, by halving for random access iterators and with the arguments of the predicate swapped for others; it must agree with the elements kept.",
  "sprout/algorithm/fit/unique.hpp", "sprout/algorithm/fit/unique_copy.hpp", "sprout/detail/algorithm/overlap_count.hpp")

p("fit fill_n stays in the container",
  "fit::fill_n(cont, n, value) returns a sub_array with min(n, size) elements equal to value, and changes nothing outside of the container.",
  "all containers that are arrays or sub_arrays at any offset, all n", "With a whole array nothing lies outside of the container, so tests on arrays cannot show it.",
  "sprout/algorithm/fit/fill_n.hpp", "sprout/algorithm/fixed/fill_n.hpp", "sprout/algorithm/fixed/fill.hpp")

p("strtod and atof read decimal numbers",
  "strtod and atof skip white space, take an optional sign and return the value of the digits with an optional decimal point that follow (up to the accuracy of the type), zero if there are no digits, and zero or a tiny number if the value is too small to represent.",
  "all texts: any white space, sign, numbers of digits before and behind the point, and whatever follows", "Digits are counted in three places and the number is scaled by repeated squaring; a test reads a few short numbers.",
  "sprout/cstdlib/str_to_float.hpp", "sprout/cstdlib/strtod.hpp", "sprout/cstdlib/atof.hpp")
p("strtod and atof read exponents",
  "A number followed by e or E, an optional sign and digits is read as the number times ten to that power; an e without digits behind it is not part of the number.",
  "all numbers, signs and digits of the exponent", "The exponent, its sign and the count of decimals are combined; zero exponents hide a wrong sign.",
  "sprout/cstdlib/str_to_float.hpp", "sprout/cstdlib/strtod.hpp", "sprout/cstdlib/atof.hpp")

p("Bezier curves follow de Casteljau's construction",
  "bezier(t, points) is the point that repeated linear interpolation of neighbouring points at t arrives at. The curve begins at the first point, ends at the last, and for t from 0 to 1 lies in the convex hull of the points. With a degree given, the first points alone count.",
  "all parameters and all points, for each number of points supported (3 to 6), up to rounding", "The formulas are written out for each degree and each coordinate; a wrong binomial coefficient shows only inside of the curve.",
  "sprout/math/curve/bezier.hpp", "sprout/detail/pow.hpp")
p("Catmull-Rom segments pass through the points and join smoothly",
  "catmull_rom_spline leads from the second point to the third; at both its tangent is half of the way between the neighbours, so that segments join with equal tangents. catmull_rom_spline_start and _end lead from the first point to the second and from the second to the third with the same tangents at the inner point. This holds for every coordinate type.",
  "all points, for rational and integer coordinates", "Smoothness is a property of derivatives at the joints, which no finite number of values settles.",
  "sprout/math/curve/catmull_rom_spline.hpp", "sprout/math/curve/curve_point.hpp")

p("darkroom vectors: reflect, normalize and resize",
  "reflect(incid, nor) with a unit normal keeps the length and every component along the surface and turns the component along the normal round; reflecting twice gives the vector back. normalize gives the unit vector of the same direction and resize the vector of the given length. is_zero holds exactly for the vector of length zero.",
  "all vectors, unit normals and lengths, up to rounding", "The laws hold between all vectors in space; images drawn by the ray tracer look plausible without them.",
  "sprout/darkroom/coords/vector.hpp")
p("darkroom vectors: refract obeys Snell's law",
  "refract(incid, nor, eta) of a unit vector and a unit normal is a unit vector on the far side of the surface whose components along the surface are those of the incident vector divided by eta; it is zero exactly if there is none (total reflection).",
  "all unit vectors, unit normals and positive indices of refraction, up to rounding", "The branch and the root depend on angle and index; tests try a few angles.",
  "sprout/darkroom/coords/vector.hpp")
p("darkroom vectors: cross is orthogonal to both vectors",
  "cross(lhs, rhs) is the vector product: it is orthogonal to both vectors and not zero for vectors that are orthogonal and not zero.",
  "all pairs of vectors", "A wrong coordinate shows only for vectors for which it does not vanish.",
  "sprout/darkroom/coords/vector.hpp")

p("darkroom: a ray meets a sphere at the first point on it",
  "basic_sphere::intersect reports an intersection exactly if the ray passes through the inside of the sphere; the distance and the point are those of the first point of the ray on the sphere, also if the ray starts inside; the normal is the unit normal of the sphere there, turned against the ray, and is_from_inside holds exactly if the ray starts inside.",
  "all spheres and rays with unit directions, up to rounding", "Which of two roots is taken depends on where the ray starts; a picture tests it at the pixels it shows.",
  "sprout/darkroom/objects/sphere.hpp", "sprout/darkroom/rays/ray.hpp", "sprout/darkroom/coords/vector.hpp")

p("darkroom: a ray meets a plane at the point ahead",
  "basic_aa_plane::intersect reports an intersection exactly if the ray has a point on the plane ahead of its start; the distance leads to that point, and the normal is the unit normal of the plane that points against the ray. A ray that starts on the plane behaves in the same way in both directions. is_from_inside follows the face given.",
  "all planes, axes, faces and rays", "The cases depend on the signs of two coordinates and on equality at the plane.",
  "sprout/darkroom/objects/aa_plane.hpp", "sprout/darkroom/rays/ray.hpp")

p("darkroom: a ray meets a triangle at a point of the triangle",
  "basic_triangle::intersect reports an intersection exactly if the ray passes through the triangle; the distance and the point are those where it does, and the normal is that of the plane of the triangle.",
  "all triangles and rays", "A wrong normal moves the plane of the triangle; whether a picture shows it depends on the scene.",
  "sprout/darkroom/objects/polygon/triangle.hpp", "sprout/darkroom/coords/vector.hpp")
p("darkroom: colours are converted to the range of the integer type",
  "rgb_f_to_rgb converts each component apart: an intensity from 0 to 1 becomes the fraction of the greatest value of the type rounded down, one outside a limit of the type; for unsigned types the result grows with the intensity, and every integer colour is given back by its fractions.",
  "all intensities and integer types", "The laws hold for all intensities and types; tests try a few bytes.",
  "sprout/darkroom/colors/rgb.hpp")

out = os.path.join(os.path.dirname(os.path.abspath(__file__)), "..", "properties.jsonl")
with open(out, "w") as f:
    for q in P: f.write(json.dumps(q) + "\n")
print(len(P))
