# Formal model of Sprout (bolero-MURAKAMI/Sprout)

## 1. What is here

`rocq/theories` contains a Rocq (Coq 8.16.1) model of parts of the header library
in `/repo/sprout`, written function by function from the source text, and machine
checked theorems about that model.  Each subject has four kinds of file:

| file          | contents |
|---------------|----------|
| `*Model.v`    | executable Gallina definitions, each citing file and lines in `/repo`; no proofs |
| `*Spec.v`     | small specifications, independent of the model (written from the C/C++ standard, RFC 1321, FIPS 180, ...) |
| `*Proof.v`    | lemmas |
| `*Props.v`    | the property theorems only, each `Proof. exact lemma. Qed.` followed by `Print Assumptions`, and `Example`s showing that the hypotheses are satisfiable |

`MANIFEST.json` maps each property of `properties.jsonl` to its theorems.

## 2. Modelling decisions (apply everywhere)

* **Outcomes.**  A model function returns `res A := Ok a | UB | Fuel` (some add
  `Throw`).  `UB` is returned when the code dereferences a position outside the
  object, writes outside it, or (bit operations) shifts by an out-of-range
  amount.  `Fuel` is a distinct "recursion limit reached" outcome; no theorem
  identifies it with a normal result.
* **Fuel is call depth.**  Sprout's C++11 functions are recursive and evaluated at
  compile time, where compilers limit the nesting depth of calls.  The models of
  recursive functions take a depth argument decremented on *each nested call*
  (siblings share it).  `f d x = Ok y` for every `d >= bound` therefore says:
  terminates, without undefined behaviour, with nesting depth at most `bound`.
  For loops of the C++14 algorithms fuel counts iterations.
* **Ranges and iterators.**  A range is a `list A`, an iterator a `nat` index into
  it; `*it` is a checked read (`UB` when out of range), `*it = v` a checked write.
  The model does not distinguish iterator *types*; where the code selects an
  implementation by iterator category, both implementations are modelled.
  Iterator copies cannot fail, `next`/`distance` are index arithmetic
  (`sprout/iterator/operation.hpp`, `next.hpp`, `distance.hpp` are trusted to be
  that).
* **Values.**  Predicates and comparison functions are pure total functions
  `A -> bool`, `A -> A -> bool`.  `sprout::move` is modelled as copying, so
  moved-from states are not modelled.  Exceptions thrown by element operations are
  not modelled.
* **Integers.**  Sizes and differences are unbounded naturals (no overflow of
  `difference_type`) unless the property is about overflow.  Where the values of C
  integers matter (bits, checksums, characters, rationals, random numbers, bitsets)
  an integer is a `Z` with a type `Ity sgn lg` of `8 * 2^lg` bits, two's complement.
  The integer promotions and the usual arithmetic conversions are written out;
  `il` is the `lg` of `int`.  Signed overflow and shifts by the width or more are
  `UB`; `md` selects the rule for signed left shifts (before or since C++20); `bi`
  says whether the compiler's bit builtins are used.
* **Letters.**  `c` is the iterator category (true: random access), `cst` the const
  or C++11 overload, `d`, `d2` call depths, `k` a cap on the turns of a loop, `r` a
  recursion depth.
* **Engines.**  A random engine is a state with a step function; the functions that
  take an engine are proved for every engine that meets the stated range.
* **Template metaprogramming** (SFINAE selection, `enable_if`, container traits)
  is resolved by hand: the model contains the functions that the selection picks.

## 3. Trusted base

* Coq 8.16.1 kernel; `vm_compute` is used for closed computations.
* No axioms of our own.  The theorems of `FftProps.v` are about real numbers and rest on the three
  axioms of the standard library listed in section 6; all others are closed.  `Print Assumptions` under every property theorem is part
  of the build; section 6 records its output.
* The reading of the C++ source described by the comments of the `*Model.v` files.
  Not modelled: the C++ type system, overload resolution, implicit conversions
  other than those mentioned in comments, exceptions thrown by user types,
  transcendental functions, I/O, locale.

## 4. Plan per property

Section "plan": what is modelled and how it is proved.

### Non-mutating algorithms (C01-C19, C40, C41)
Model: `*_impl_ra` (pivot recursion) and `*_impl`/`*_impl_1` (doubling recursion) of
each algorithm, over a list with checked reads.
* C01, C03, C05-C08, C13, C14: both recursions proved equal to a one-line list
  specification (first index satisfying ..., `forallb`, `filter` length ...), by
  induction on the size; the doubling scheme is handled by one general theorem about
  iterating a step function.
* C02: the same theorems with explicit depth bounds.
* C04: RA version is expected to be wrong (left half with two hits followed by a right
  half with one): `_refuted` with a witness; input version proved; a `_partial`
  for the RA version.
* C09, C10, C11: specification "first/last index where the pattern is a prefix of the
  remaining list".
* C12: specification by partition index.
* C15: equivalence with `Permutation`.
* C16: inductive lexicographic order.
* C17: extremal element and position.
* C18: multiset inclusion by `count`.
* C19: expected false for equivalent keys (`_refuted`), `_partial` for the direction
  that holds.

### Mutating algorithms (C20-C39)
Model: state-passing over the list (the memory), loops with iteration fuel.  Each
theorem gives the final memory *of the whole list* (so also the frame), the returned
position and absence of `UB`.
* C22 (`move_backward`), C23 (`for_each_n`), C27 (`stable_partition`), C32
  (`make_heap`), C33 (`partial_sort`), C36 (`stable_sort`), C39 (`random_swap`): reading the
  code suggests they are wrong; `_refuted` theorems with witnesses and `_partial`
  theorems for what holds.
* C34, C35: the libc++-style sort and selection, unguarded scans proved in-bounds by
  sentinel invariants.

### Bits (C42-C48)
Model: `W`-bit words as `N`/`Z` with explicit masks; specification by `testbit`.
The generic (non-builtin) code paths are modelled.

### Checksums (C49-C52)
Model: object states of `md5`, `sha1`, `sum_basic`, `xor8` and all processing
functions.  Specification: RFC 1321 / FIPS 180 written as padding + block list + fold,
with the sine-derived constants of MD5 as literals.

### Brainfuck (C53, C54)
Model: `exec_impl` on index states.  C53 is expected to be false (`'-'` is
tested as `'+'` in the source): `_refuted`, with a `_partial` for programs without
`'-'` refined to a structured semantics.

### C strings and conversions (C55-C61)
Model: strings as lists with checked reads; doubling recursion as above; writers as
memory transformers.  Several deviations expected (`strcat`, `strncat`, `memmove`,
`strstr`, `strcmp` signedness, `str_to_int` limits and prefix).

### Numeric (C62-C65), endianness and byte iterators (C66, C67)
Model: as the algorithms; bytes by the C shift expressions of `endian_traits.hpp`.
`numeric/inner_product.hpp` does not compile (its overloads call a function that does
not exist) and is not modelled.

### Characters, integers as text (C68-C70)
Model: the tables and range tests of `ctype/ascii.hpp`, digit conversions,
`int_to_string`; specification: positional notation over `Z`.

### gcd, lcm, rational (C71-C75)
Model: the loops and the object as a pair; specification: `Z.gcd`, `Q`.

### Random engines (C76-C90) and uniform distributions (C91-C94)
Model: `const_mod`, linear and inversive congruential, rand48, additive_combine,
shuffle_order, Mersenne twister (both language versions), linear feedback shift,
xor_combine, taus88; uniform_int_distribution and uniform_smallint over any engine.
Specification: the recurrences over `Z` or over bits; "no value is preferred" as a
length-preserving bijection between sequences of engine values.

### bitset (C95-C100)
Model: the words and both overloads, three specialisations.  Specification: a
function from positions to bits (`bits_are`), which also fixes the unused bits.

### basic_string (C101-C110)
Model: an object is the `N + 1` elements at a position of a memory, and its length, so
that sources inside the string can be expressed; `M` is the number of values of
`size_type`.  Constructors and the non-member functions return the new elements.
Specification: lists of characters; `image N cs` also fixes the zeros behind them.

### Fixed containers (C111-C122)
`FixModel`: the algorithms of `sprout::fixed`, which return a new container.  A container
is the internal array (`cbase`), the offset of the first element (`coff`) and the number
of elements (`csize`): this covers `array` and `sub_array`.  A parameter pack is a list,
`remake` with the wrong number of arguments is `UB` (the code would not compile), and the
pack recursion has the depth `d`.  `ra` selects the overload for random-access iterators.
The specification (`FixSpec`) says which elements are stored (`with_front`, `with_back`)
and that nothing else changes.  Not covered: `basic_string` as the result, `recurrence_n`,
`unfold_n`, the scans of `numeric/fixed`, `bogo_sort`, `bozo_sort`; the counter that
limits the template depth of `make_heap`; sizes beyond the maximum of size_type.

### uuid and hashes of sequences (C123-C128)
`UuidModel`: reading (`string_generator`), writing (`to_string`), comparisons, variant and
version, the nil, name and random generators, the namespace literals, `hash_combine`,
`hash_values`, `hash_range`.  An exception is a value (`Throw`).  The digests are those of
`ShaModel` and `MdModel`; a name enters as its bytes.  The specification (`UuidSpec`) has
the texts of a uuid, the 128-bit number, the bits of RFC 4122 and the namespaces.  Not
covered: stream operators, the hashes of single values other than bytes, 32-bit
`std::size_t`.

### Iterator and range adaptors (C129-C139)
`ItModel`: `reverse`, `joint`, `alternate`, `insert_range`, `step`, `filter`, `remove_if`,
`adjacent_filter`, `unique` and `while` iterators, the range adaptors built from them, the
slicing adaptors, `next`/`prev`/`advance`/`distance` for iterators without random access,
and `limited::plus`/`multiplies`.  A random-access base iterator is an integer position;
leaving 0 to the length is undefined.  Loops over an adapted range are written out (`walk`,
`walk_back`) so that "never ends" can be stated.  The specification (`ItSpec`) says what a
traversal is for any type with its increments.  Not covered: `operator+` of
`insert_range_iterator` (does not compile), adaptors over adaptors, the remaining
iterators (`flatten`, `clamp`, `valued`, `indexed`, ...).

### String views (C140-C146)
`SvModel`: `basic_string_view` as a position and a length in an array, on top of the search
and comparison functions of `BstrModel`; the lemmas of `BstrProof2`/`BstrProof3` about these
are stated for a text anywhere in an array (`text`) and used for strings and views.  Not
covered: the null view, iterators, `std::string`, stream output, `string_to_float`.

### Calendar times, network byte order, static powers (`Date*.v`, `Word*.v`; C147-C151)

`DateModel.v`: ctime/to_time_t.hpp, the overloads for numbers and for std::tm, with 32-bit int and
64-bit time_t and a check of every operation. The specification (`DateSpec.v`) knows only what day
follows a day; the number of days between two dates is defined by stepping. The overload for texts
calls char_to_int without the template argument it needs, so it cannot be instantiated; not
modelled. `WordModel.v`: net/endian.hpp with the three byte orders as a parameter,
integer/static_pow.hpp and integer/integer_digits.hpp (a template argument that does not fit its
type is the outcome UB). hash values, ctime/difftime.hpp and math/factorial.hpp are not modelled.

### Valarrays (`Val*.v`; C152-C157)

`ValModel.v`: sprout/valarray. A valarray is a container of `FixModel.v` without offset; the remake
of valarrays resets what lies behind the size, which is applied to the results of the fixed
algorithms. The operators are parameters (any function on the element type). A view is an index
function and a length; slices, general slices (with fixed::partial_sum, which is modelled here),
masks (with mask_index) and index lists are built as in the code, and reading, assigning and
compound assignment through a view are written once for all four. Not modelled: copy assignment
(does not compile), iterators of views beyond operator[], wrap-around of std::size_t, at and nth of
the views, assignment from an overlapping view, io and hash.

### tribool, optional and variant (`Opt*.v`; C158-C161)

`OptModel.v`: sprout/logic/tribool, sprout/optional, sprout/variant. tribool with every overload, and
expressions that choose the overload by the operands. An optional is its flag and its holder: reset
clears the flag and keeps the value, as in the code. A failed SPROUT_ASSERT is undefined behaviour.
A variant holds a value for every alternative; types are numbers and values of all types share one
Coq type. Not modelled: conversions between optionals and variants of different types, nested
variants, io, hash.

### weed (`Weed*.v`; C162-C167)

`WeedModel.v`: sprout/weed. A parser expression is a value of `pexp`; the types of attributes are
computed from it as the metafunctions do. All operators, lim, omit, replace, repeat, as_tuple, the
terminals of auxiliary, char, string and numeric, and literals as operands. Characters are integers,
the predicates of char_class are parameters, the member operator `->*` is an arbitrary function on
attributes. Attribute types are unused, char, integers, string, array of integers and tuples of
these; all others (and what does not compile) are one type `TOther`. Capacities of strings are not
modelled. `WeedSpec.v` gives the meaning as a parsing expression grammar (`peg`), a relation that
does not mention the evaluator. Not modelled: as_array, attributes of variant type, parse with a
user-defined context.

### Floating point (`Flt*.v`; C168-C181)

`FltModel.v`: the functions of sprout/math that need no transcendental function, as compiled when
built-in mathematical functions are not used: classification, sign, comparison, fmin, fmax, fdim,
fma, equal_to, floor, ceil, round, trunc, itrunc, ifloor, iceil, iround, integer and fractional
part, ldexp, scalbn, logb, ilogb, frexp, fmod, is_odd, is_even, rem_quo. A number is a NaN, an
infinity, or a sign and an integer magnitude in units of 2^-u; a type (`fmt`) is its precision,
smallest and largest exponent, so float, double and the x87 long double are instances (`b32`, `b64`,
`b80`) and theorems hold for every type with the shape `ieee`. The operators + - * / and conversions
are IEEE 754 round to nearest even, part of the trusted base, defined in the first hundred lines;
`mk_rounded` (FltProof5.v) shows that the rounding is to a nearest representable number and
overflows only above them all. FLT_EVAL_METHOD is 0, there is no fused contraction. The sign of a
NaN from an invalid operation is as on x86. `lg` stands for the truncated approximate logarithm in
logb; the theorems assume only that it is within one of the true exponent. Not modelled: exp, log,
sqrt, the trigonometric functions and what uses them.

### forward_clist (`Clist*.v`; C182-C185)

`ClistModel.v`: the intrusive singly linked list of sprout/forward_clist.hpp over a heap that maps
the address of an item to its value and next pointer; using a null pointer is UB and loops carry
fuel. A list is the address of its member fst. `ClistSpec.v` describes all lists of a program as
disjoint sequences of addresses (`holds`) and each call by a function on sequences (`effect`).
Every address is taken to be that of a live item: lifetimes are not modelled. Functions that do not
compile when instantiated are listed at the head of the model.

### complex and quaternion (`Cq*.v`; C186-C191)

`CqModel.v`: arithmetic, comparison, compound assignment, conj, norm, perp, sup and l1 of
sprout/complex and sprout/math/quaternion, over a component type given by its operations (`ops`).
Compound assignments are modelled store by store with an argument that may refer to the object
itself. `sp` selects the specializations of quaternion for floating-point types. The theorems assume
the laws of an ordered field (`ofield`, instance `Qc_ofield`), so they ignore rounding and
infinities; the products are specified by multiplication tables of the basis. Operators that do not
compile when instantiated are listed at the head of the model; functions that need sqrt or
transcendental functions are not modelled.

### Fourier transforms (`Fft*.v`; C192-C196)

`FftModel.v`: the split-radix fft and ifft of numeric/fft/cxx14, dft_element and idft_element with
both recursion schemes, fixed::dft and fixed::idft, and the Stockham transform of fixed::fft, over
the complex numbers of `CqModel.v` and a record of cos, sin and constants. `FftSpec.v` takes both
records to be those of Coq's real numbers and writes the transform as a sum of reals. The theorems
are therefore about exact arithmetic. The split-radix loops are proved by describing the array
between two passes as partial transforms by decimation in frequency of the blocks the loops have
visited; bit reversal is a function on bits. Not modelled: wave generators, spectra, bitrev_table,
dft_iterator (advancing it calls a constructor that does not exist). Also seen: fixed::ifft passes
two arguments to make_input, and the cxx14 square and triangle generators call functions with the
wrong number of arguments; none of these compiles when instantiated.

### sub_array and operations on containers (`Sarr*.v`; C197-C202)

`SarrModel.v`: all of sub_array.hpp except iterators as such, data and c_array, the functions sub,
sub_window and sub_offset, the comparisons, remake for arrays and sub_arrays, and every operation of
sprout/operation/fixed and sprout/operation/fit for arrays and sub_arrays. `SarrSpec.v` describes a
sub_array by three lists, what precedes the window, the window and what follows, and states every
operation on such lists. Left out: containers with other traits (strings, which override remake),
sub_arrays that refer to their array as far as they differ, and overflow of the index type. The
static assertion on the size is a run-time check of the model.

### Folds, monotonicity, sampling and random sorts (`Smp*.v`; C203-C208)

`SmpModel.v`: fold_while, fold_until, the four monotonicity predicates, both versions of sample,
bogo_sort and bozo_sort in place and fixed. Draws come from a function `dist` as in `MutModel.v`;
fairness of sample is stated by counting all sequences of draws (`SmpSpec.all_draws`), each draw
uniform in its interval. The random sorts need not terminate; the model gives them a number of turns
and the theorems say what holds if they do. Left out: the fit versions, and overflow of Distance.

### join and size_enumed (`Join*.v`; C209-C213)

`JoinModel.v`: both overloads of algorithm::join with and without random access, the result sizes,
size_enum_iterator and size_enumed with separators, and the size make<basic_string> computes. Partial
sums and the binary search are those of `FixModel.v` and `OrderModel.v`. partial_sum uses only next,
!= and * of the iterators, so its input is the list that `se_walk` reads. A result size below zero (it
wraps around in C++ and no such type exists) is UB. Left out: size_enum_iterator without separators,
which forwards to the base iterator.

### Algorithms over lists of types (`Typ*.v`; C214-C219)

`TypModel.v`: sprout/type/algorithm and sprout/tpp/algorithm. A tuple of types is a list, a metafunction a
function, `types::apply<Pred, T>::type::value` a bool; `*_same`, `contains`, `count` and `find_index` are the
versions with the predicate "is the same type". Recursion depth is the depth of template instantiation; the
theorems bound it by `deep l d`, logarithmic in the length. An index outside of the tuple is ill-formed: UB.
Left out: rebind_types and map_types (the result is a tuple of the same template), tpp's `_c` variants,
which wrap values in integral_constant.

### remake_iterator (`Rmk*.v`; C220-C222)

`RmkModel.v`: all operations of remake_iterator and default_remake_container for containers without a static
size. The iterators it is made of are positions (Z) in two lists; one that leaves its list is UB, also where
the result would not be read. The constructor from two iterators is taken to read and increment until the
iterators are equal; `rmk_read_back` is a client that goes back from the end. Overflow of difference_type is
left out.

### Index sequences (`Idx*.v`; C223, C224)

`IdxModel.v`: integer_range, make_integer_sequence and integer_n for an integer type of any width of at least
the rank of int, signed or unsigned; the model tracks in which type each template argument is computed. Signed
overflow and division by zero are UB (the program is ill-formed). Conversion of an unsigned value to a signed
template parameter is taken modulo 2^n; a compiler may reject it as narrowing. The argument lists over
container_indexes in the other models (`expand`) rest on these sequences.

### Translations into Brainfuck (`Ook*.v`; C225, C226)

`OokModel.v`: ook::to_brainfuck and misa::to_brainfuck as expressions of `WeedModel.v`, evaluated by its
evaluator, with the result an array of at least one element. Bytes of Misa are unsigned numbers; the code
compares plain char with plain char, so that the sign does not matter. The exec functions, which pass the
translation on to `BfModel.v`, are not modelled.

### seed_array (`Seed*.v`; C227, C228)

`SeedModel.v`: both versions of seed_array::generate, with results of type std::uint_least32_t of exactly 32
bits. Sizes are natural numbers; the sums of sizes in the code do not reach 2^64. The specification is the text
of [rand.util.seedseq] on a memory with indices modulo n. A range of seeds shorter than the array (the rest
is 0) is not covered.

### Random numbers in sequence (`Draw*.v`; C229-C231)

`DrawModel.v`: generate_array, generator_iterator with random::begin and random::end, bernoulli_distribution.
A generator is a function from a state to a number and the next state, so the theorems hold for every engine
and for an engine bound to a distribution. In bernoulli_distribution the probability is rational and the
arithmetic exact. Seen while reading: `random::make_range(engine, count)` (random/range.hpp) names an undeclared
`distribution` in its return type, and variate_generator.hpp 50 hands the distribution and the engine to
random_result in swapped order; as read, neither compiles when used (not checked with a compiler), and neither is modelled.

### Tables of factorials and Bernoulli numbers (`Tbl*.v`; C232-C234)

`TblModel.v` holds every literal of the tables in factorial.hpp and bernoulli.hpp as an exact integer or
fraction, and the functions that read them; a failed SPROUT_ASSERT is `UB`. The rounding of a literal to float,
double or long double is not modelled; long double is taken to have 64 bits of mantissa. `TblData.v` holds
the Bernoulli numbers to B_100 for the proofs; the theorems do not mention it, they are about every sequence
that satisfies the recurrence.

### Algorithms that return a window (`Fit*.v`; C235-C239)

`FitModel.v` builds on `FixModel.v`: sprout/algorithm/fit/ calls the fixed algorithm and cuts the result with
sub_copy to a window whose size is computed apart. Modelled: copy, copy_n, copy_if, copy_while, copy_until,
copy_backward, remove_copy_if, remove_if, unique, unique_copy, fill_n, the four partitions, merge, the four set
operations, overlap_count, set_overlap_count and count_n_if. Positions are naturals; a window outside of the array is `UB`. Not modelled:
the other algorithms of fit (remove and remove_copy, which are remove_if with ==, those whose window is the
whole container or as long as the range, and generate_n and the like), and results that are not arrays or sub_arrays.

### Reading floating-point numbers (`Stf*.v`; C240, C241)

`StfModel.v` models every function of sprout/cstdlib/str_to_float.hpp for a null endptr. Numbers are exact
rationals in place of floating-point values, so rounding and overflow of the mantissa are outside of the model, and
long is unbounded; min_exponent and max_exponent are parameters. Characters come from `CharModel.v`;
reading past the end of the array is `UB`. Each recursion has a depth limit, shared by all. Not modelled: endptr (the code
calls the C library then).

### Curves (`Crv*.v`; C242, C243)

`CrvModel.v` models sprout/math/curve/bezier.hpp, catmull_rom_spline.hpp and pow2 to pow5 of sprout/detail/pow.hpp, for
any arithmetic of coordinates and parameter (one type for both). The theorems take exact rationals, so rounding is
outside of the model; the integer instance serves a refutation. The code repeats each formula for the two
coordinates; the model applies one definition twice. Not modelled: the overloads that gather points into a tuple.

### Vectors of darkroom (`Vec*.v`; C244-C246)

`VecModel.v` models sprout/darkroom/coords/vector.hpp with exact rationals in place of double; sqrt is a parameter, and the
theorems that need it take a hypothesis that it is exact at the one value it is applied to. A vector is a record of three
coordinates; further elements of the tuple, which remake keeps, are not modelled.

### Objects and colours of darkroom (`Sph*.v`, `Pln*.v`, `Tri*.v`; C247-C250)

`SphModel.v` models basic_sphere::intersect of sprout/darkroom/objects/sphere.hpp and point_of_intersection of
sprout/darkroom/rays/ray.hpp, on the vectors of `VecModel.v` and with the same reading of sqrt. The material (and the angles
computed for it) is left out. `PlnModel.v` models basic_aa_plane::intersect of sprout/darkroom/objects/aa_plane.hpp in the same
way, and `TriModel.v` basic_triangle::intersect of sprout/darkroom/objects/polygon/triangle.hpp (a ray parallel to the
plane divides by zero: `UB`) and rgb_f_to_rgb of sprout/darkroom/colors/rgb.hpp. Not modelled: the rest of darkroom.

### Not modelled
Everything not named above, in particular: transcendental functions of `math` and
`complex`, real distributions other than those named, `tuple`, the range
versions of the algorithms (they forward to the iterator versions), `darkroom` (but for its vectors, objects and colours),
`compost` and `wave`, `type_traits`, the operations on type lists (`type/operation`),
insert and move iterators, I/O.

## 5. Findings

Each of these is a theorem `*_refuted` (or a precise `*_partial`) about the model; the
notes are those of `MANIFEST.json`.

* **C04** false of the code: the random-access version accepts [true;true;true;false];
  proved for the input version, and for random access when at most one element matches
* **C11** proved for n >= 1; for n = 0 the code returns last instead of first
* **C19** false of the code when a child is equivalent to its parent ([5;5]); true is
  only returned for heaps, and the answer is exact without such ties
* **C22** false of the code on every non-empty range: it decrements first instead of
  last and runs off the front of the sequence; holds for the empty range only
* **C23** false of the code for every n > 0: the counter is never incremented and the
  loop runs off the end; holds for n = 0 only
* **C27** false of the code: ranges of length one return first even if the element
  satisfies the predicate, so nothing is ever moved; holds for ranges already
  partitioned
* **C39** false of the code: indices are drawn from 0..d inclusive, d being one past the
  end; holds when the upper bound is never drawn
* **C32** false of the code: push_heap_back is given the length i instead of i + 1, so
  [1;2] stays as it is; the range is always permuted, and descending ranges are left as
  the heaps they are
* **C33** false of the code because of make_heap; holds whenever make_heap makes a heap
  of [first, middle)
* **C36** false of the code: the insertion sort for short ranges is the unguarded one
  throughout, so it runs off the front as soon as an element is less than the first
  ([2;1]); whenever it does not, the result is the stable sort
* **C43** clz/ctz/cntl0/cntt0 proved; cntl1 is wrong for unsigned types with the
  compiler's builtins (clrsb counts redundant sign bits) and for types narrower than
  int, cntt1 for -1 in signed types narrower than int
* **C45** a shift of 0 is undefined for types at least as wide as int, and so are
  rotations of signed operands whose left shift is undefined before C++20; everything
  else proved
* **C46** single-bit operations proved; the range operations shift by the full width (or
  overflow) at the topmost positions of types at least as wide as int
* **C48** unsigned proved; signed types at least as wide as int negate MIN for MIN < x <
  MIN / 2
* **C65** false of the code: exclusive_scan overwrites *result before reading *first, so
  it is wrong in place, and writes init for an empty range; with an initial value
  inclusive_scan writes init first and so N + 1 elements; the scans without an initial
  value are proved, the others for disjoint non-empty ranges
* **C66** false of the code for types wider than int: the mask UCHAR_MAX << n is
  computed in int, so the shift is undefined for the bytes beyond its width; proved for
  all types not wider than int
* **C67** false of the code: -- never undoes ++ and - never undoes + across an element
  boundary (unsigned arithmetic, and the size is added unconditionally); going forward
  is proved
* **C53** False as stated: the branch for '-' tests for '+', so exec ignores '-'
  (exec_refuted, exec_minus_partial). Proved, both directions, for programs without '-';
  nothing is proved once input is read to a cell off the tape.
* **C56** False in the code for strcmp/strncmp: characters are compared as (signed)
  char, so strings with characters above 127 compare wrongly; proved for 7-bit
  characters, memcmp proved in full. strcoll has the text of strcmp.
* **C58** False in the code when both strings are empty (returns null); proved in all
  other cases.
* **C59** strcpy and strncpy proved. strcat appends after the terminator (off by one) so
  it never appends; strncat writes a second terminator when the source is shorter than
  n.
* **C60** memcpy and memset proved. memmove calls copy_backward with the start of the
  destination as its end: it writes the n bytes before the destination.
* **C61** Proved for all strings, bases and types with three exclusions, each of which
  is refuted: minus the maximum of a signed type is clamped to the minimum; 0x is
  skipped in every base, not only 0 and 16; unsigned conversions stop at a minus sign.
  The overloads with a non-null endptr call the C library and are not modelled.
* **C68** Everything is proved for all characters except isclassified, which is refuted:
  it is true of every ASCII character whatever the mask.
* **C69** Proved for the bases 2..10 and all types of at most 64 bits, for the most
  negative value in base 10 only. Refuted: the most negative value in base 2 and digits
  above 9 are undefined (failed assertion or overflow), and minus the maximum reads back
  as the minimum. The most negative value in the bases 3..9 is not covered (it fails in
  base 8 for 16 and 64 bits too).
* **C70** True for one and two digits, refuted for more: the digits before the last are
  all multiplied by ten only.
* **C73** Proved for distinct operands and for x *= x. Refuted for x += x, x -= x and x
  /= x: the operators read rhs after modifying *this.
* **C75** False in the code for negative fractions: the recursive call swaps two
  arguments, so x < n is computed as floor(x) + den < n. Proved to be right outside, and
  wrong inside, the window floor(x) < n <= floor(x) + den.
* **C79** Proved for every multiplicative engine and for mixed ones with
  (a-1)/gcd(a-1,m) prime to m and a^z not a multiple of m. Refuted otherwise: a = 1
  divides by zero, and in the other cases a wrong state results.
* **C80** Seed and state are right; the value is refuted: the state is truncated to 32
  bits before the shift, so only 15 of the 31 bits are returned.
* **C84** False in the code: the shift binds tighter than the or in twist_*, the old
  instead of the new words are used from index n - m on, and the tempering steps are
  nested instead of chained.
* **C86** False in the code: the first word is written twice. Only engines at the end of
  a block are modelled.
* **C87** Proved for words as wide as the type, from any word that obeys the recurrence,
  and from any word at all if w - k <= k - s - q (true of taus88). In a wider type only
  the lower w bits are right, and the range is refuted.
* **C88** Proved for w - k <= 30; refuted beyond, where the int literal 1 is shifted
  into or past its sign bit.
* **C89** Proved for two engines with the same result type. Refuted: the const operator
  shifts the second value in its own type, and max() ignores the shifts.
* **C91** Proved for all types at least as wide as int, unless a negative bound meets a
  narrower engine, or the number of results is a power of the number of engine values
  and lo is not 0. In both cases the claim is refuted: results are not sign-extended, or
  lo is not added.
* **C92** Proved under the conditions of C91: a length-preserving bijection between the
  sequences of engine values for x and those for y. Where C91 is refuted this fails too.
* **C93** Proved unless the number of results, or the quotient drawn last, equals the
  number of engine values; then the non-const overload throws an engine value away.
* **C94** Proved unless the range of the engine is cut when converted to the result
  type, or range + 1 overflows in a signed engine type; both are refuted.
* **C99** The constructor is refuted for N > 64 with an unsigned long of 64 bits: it
  shifts val by 64, which is undefined.
* **C101** All constructors are proved, the one from a substring for pos <= str.size().
  Beyond it no exception is thrown: size() - pos wraps around, and the new string has a
  size greater than its capacity.
* **C102** Sources inside the string included. append(str, str.size(), n) throws
  out_of_range where it should append nothing; append(n, c) with size() + n beyond the
  maximum of size_type passes the length check and writes out of bounds.
* **C103** Proved for non-empty strings and sources apart from the string, at its start,
  or behind the new contents. Refuted: assigning an empty string throws out_of_range;
  s.assign(s, 1) gives copies of the last character (move always copies backward);
  assign(n, c) throws out_of_range instead of length_error.
* **C104** Ranges that fit are proved correct. A range one character too long is
  accepted and overwrites the terminator; a longer one throws length_error, but the old
  contents have been overwritten.
* **C106** substr is computed exactly: it stops at the first null character, so it is
  right if the rest of the string has none. copy is proved for pos < size(); for pos =
  size() it throws out_of_range.
* **C107** Proved if neither has a null character, or only one and no character is
  negative. With null characters in both, the characters behind them are not compared.
* **C108** Proved for every text and every pattern without null characters; a pattern
  with one is compared only up to it.
* **C112** partial_sum of a non-empty range into an empty sub_array overwrites an
  element outside of it; recurrence with more initial values than elements keeps the
  last ones instead of the first.
* **C114** unique_copy of a non-empty range into an empty sub_array overwrites an
  element outside of it; everything else is proved.
* **C118** Proved unless the container is an empty sub_array of an array of two or more
  elements; then the first element is read all the same, and the loop runs off the end.
  sort calls stable_sort.
* **C120** nth_element with nth at the end reads past the array.
* **C122** The result is always a rearrangement, made by exchanging element i with one
  of all elements for each i. The arrangements are not equally likely: of three elements
  4 of the 27 sequences of draws keep the order, 5 exchange the first two.
* **C123** make_uuid accepts exactly the ranges that begin with a text of a uuid: what
  follows the text is not looked at, so 33 digits are accepted. Everything else of the
  claim is proved.
* **C127** The empty string and every beginning of dns, url, oid or x500 name a
  namespace too (range::equal ignores the length of the second range); strings that are
  no such beginning are read by make_uuid (C123).
* **C129** All but the comparisons: <, >, <= and >= compare the base iterators the wrong
  way round, so begin < end is false.
* **C131** Right if some neighbours differ; a range of equal elements, a single one too,
  is shown as empty. The equality must imply identity.
* **C132** Right for loops that ask is_end(), for + n with n > 0 and [n]. A loop to
  end() never ends: the iterator stays at the last element visited and end() is behind
  the base range. -- and prev() from the last element do not move, it + 0 becomes the
  end, end - begin is one too large if wid divides the length.
* **C133** All but the difference lhs - rhs with lhs in the first range and rhs in the
  second, which has the wrong sign.
* **C134** All but: it - n is two too far if the target is in the second range; the
  difference is 2 too large from the second to the first range, and undefined
  (limited::multiplies with -1) for neighbouring pairs.
* **C135** ++ reads behind the range (undefined if that is the end of the sequence) if
  no element fails; -- from the end goes to the last element that passes, even behind
  one that fails.
* **C136** All but the comparisons of an inserted element with one behind, which are the
  wrong way round. operator+ does not compile and is not modelled.
* **C138** plus for all operands; multiplies but for a factor -1 (if the second: always;
  if the first: with a positive second), where the division min / -1 overflows. Operands
  of the promoted type.
* **C141** substr does not cut n off at the end: for size() - pos < n < npos the new
  view reaches behind the old one. copy throws out_of_range for pos = size().
* **C142** Characters behind a null character are not compared; exact for texts without
  null characters, or with null characters on one side and no negative ones.
* **C143** Patterns must not contain null characters; one that starts with a null
  character matches at every null character.
* **C145** For texts without null characters; what follows one is not compared.
* **C146** to_string looks for a null character at or behind the view: undefined if
  there is none, and cut off there if the view contains one. string_to_int converts up
  to the terminator, not the end of the view.
* **C147** For the years 1 to 5883516. Before March of year 0 division rounds the wrong
  way, later years overflow int. The overload for texts cannot be instantiated and is
  not modelled.
* **C148** For the years 1 to 5883516 (see C147).
* **C149** For words of 2 to 128 bytes. One-byte words are undefined on little-endian
  machines; ntoh does not compile on PDP-endian ones.
* **C150** static_pow holds in full. static_pow2 shifts an int and fails from the width
  of int on; static_pow2m1<T, 0> is 1.
* **C152** Everything but empty(), which says the opposite of what it should.
* **C155** For |i| up to the size; beyond it the behaviour is undefined. shift leaves
  the old elements in the vacated places instead of value_type().
* **C159** The members do; the static get and get_pointer and the free functions get and
  get_pointer do not look at the flag and give the old value after a reset.
* **C162** Proved when no repeated operand can match the empty text, character sets do
  not begin or end with -, MinDigits is 0 or 1, limits are as in wf; undefined behaviour
  is possible only with signed numbers of 32 bits or more (see C164). A repetition of
  something that matches the empty text never ends.
* **C163** Proved for attribute types unused, characters, numbers, strings, arrays of
  numbers and tuples of these, without string(...) terminals: their attribute is always
  the empty string. Variants and arrays of arrays are not modelled.
* **C164** Proved for MinDigits <= 1 except for the least value of a signed type of 32
  bits or more, where the code negates it (undefined behaviour). bin, oct and hex ask
  for size_t(-1) digits and fail on every number shorter than the maximum; MinDigits
  counts the character behind the number.
* **C166** Proved for sets that neither begin nor end with -. A leading - reads the
  character before the set; a trailing - is never matched.
* **C167** A list also consumes one separator that no operand follows; repeat(n)[p]
  reports the starting position when there are exactly n matches, repeat[p] always does;
  Stopover with limit 1 does not stop. weed_matches covers repeat(0) and repeat(n) with
  limit n, and Stopover from 2 on.
* **C168** Proved for |x| other than 2^64 (larger only with
  SPROUT_NOERROR_LARGE_FLOAT_ROUNDING, the default; else it throws), precision at most
  64, and x not within the tolerance epsilon * max(|x|, 1) of the integer towards zero:
  there the code returns that integer, e.g. floor(-1e-300) is -0.
* **C169** Proved except at |x| = 2^64 (a float or double), where the conversion to
  uintmax_t is undefined, and above it without SPROUT_NOERROR_LARGE_FLOAT_ROUNDING.
* **C170** Proved for all integer types of 32 to 64 bits and numbers between their
  limits; ifloor and iceil apart from the tolerance of equal_to (ifloor(-1e-300) is 0).
  2^31 as a float passes the test for int and is then converted (undefined).
* **C171** Same restriction at 2^64 as C169.
* **C172** Proved when the limit used is that of the type; the code takes that of double
  for every type, so subnormal floats are classified as normal.
* **C173** fabs is proved for all values; signbit and copysign are wrong for negative
  zero (and the sign of a NaN cannot be seen).
* **C174** islessequal compares with <; the others are proved.
* **C176** fdim is proved for finite arguments, fdim(inf, inf) is inf. fma is proved
  when the product is exact; in general it rounds twice.
* **C177** Not transitive.
* **C178** Proved when 2^e and 2^-e are numbers of the type computed in; beyond that the
  result is an infinity or zero, e.g. ldexp(2^1000, -1030) is 0. Correct rounding is
  proved when the type is the one computed in (double, long double), for float a double
  rounding is possible.
* **C179** Proved for normal numbers assuming that the logarithm is within one of the
  exponent (lg_ok; it is not modelled). The correction never ends for the smallest
  positive double, and frexp of x >= 2^1023 has significand 0.
* **C180** fmod is proved for divisors that are normal numbers of the type computed in
  (every float, normal doubles), assuming lg_ok as in C179; is_odd and is_even for every
  finite number.
* **C181** Proved for normal arguments (of the type computed in) and quotients that fit
  in the integer type; the quotient is accumulated in an int, so remainder(2^31, 1)
  overflows. Assumes lg_ok as in C179.
* **C185** False of the code in all three parts: empty() returns the opposite
  (!!fst.next), cbefore_begin() is begin(), and move construction copies, so that both
  lists share the items and taking one off the new list cuts the old. What the code does
  instead is proved.
* **C187** False of the code for z *= z.real() and z /= z.real(): the real part is
  stored before the imaginary part is multiplied by it. Everything else is proved.
* **C188** False of the code for T - quaternion and complex - quaternion, which do not
  negate the components they have no counterpart for, and T / quaternion, which divides
  by each component. quaternion * complex, complex * quaternion, and division of or by
  complex and quaternion do not compile when used.
* **C189** False of the specializations for *= and /= by a component of the quaternion
  itself. Everything else is proved, for both variants.
* **C190** False of the code: the constructor stores the first component twice and
  ignores the second, so every operator that constructs its result is right only if the
  first two components of the result happen to be equal; quaternion<double>(x) is x +
  xi.
* **C191** False of the code for cend(), which returns cbegin().
* **C192** Proved over the real numbers with exact cos, sin and pi; rounding is left
  aside.
* **C193** Proved over the real numbers with exact cos, sin and pi; rounding is left
  aside.
* **C194** Proved over the real numbers with exact cos, sin and pi; rounding is left
  aside. dft_iterator is left out: moving it does not compile.
* **C195** Proved over the real numbers with exact cos, sin and pi; rounding is left
  aside. False of the code for iterators without random access if the result has another
  length than the range: the angles are divided by the size of the result.
* **C196** Proved over the real numbers with exact cos, sin and pi; rounding is left
  aside. False of the code: fixed::fft uses e^(2 pi i j k / n), the sign of the inverse
  transform. What it computes is proved, and that detail::ifft inverts it; fixed::ifft
  itself does not compile.
* **C197** False of the code for the non-const member window(to_first): it calls size()
  after moving the begin and so loses elements at the end. The member window takes
  positions in the array, the function sub_window positions in the sub_array; both are
  stated.
* **C199** False of the code for sizes that differ: operator== compares as many elements
  as the left one has with what follows the begin of the right one, inside or outside
  its window. What it computes is stated; the order is proved in full.
* **C202** False of the code for erase_n, which subtracts 1 from the end whatever the
  number of elements, and for realign_to a container smaller than the number of
  elements, whose end is outside it. What both return is proved.
* **C207** False of the code: an engine within the interval can keep bogo_sort from
  terminating, and bozo_sort accesses the position one past the end when random_swap
  draws its upper bound. Proved: nothing else can go wrong, the outcome is a sorted
  rearrangement, and every sorted rearrangement is an outcome of bogo_sort.
* **C208** Termination depends on the draws; whenever they terminate the claim is
  proved, and they never access anything outside the container.
* **C209** False of the code for an outer container that holds fewer containers than its
  static size (a sub_array): the partial sums are followed by zeros, the binary search
  is not over a sorted range, and elements are lost. Proved for every other outer
  container.
* **C210** False of the code for inner containers of static size 0 (the result has size
  0, the separators are lost) and for an empty outer container with a separator (the
  size of the result type wraps around). Proved otherwise.
* **C211** Proved without a separator. With one it is false: if the containers leave
  room a separator follows the last one too, and a string literal is inserted with its
  terminating character. Proved for full containers and separators that are no literals;
  what it computes otherwise is proved as well.
* **C212** False of strings with a null character inside: the result ends there. Proved
  otherwise.
* **C213** The enumeration, ++, -- and comparisons are right. False of the code for - n,
  [], the difference of two iterators and thereby size(); the theorems say exactly for
  which arguments each is right.
* **C215** False of the code: three matches among four types can count as one, and
  types::one_of of an empty tuple is true. Proved for up to two matches in a tuple that
  is not empty (tpp: any pack).
* **C221** False of the code: -- is wrong for a source shorter than the window; for a
  longer one + n and - n are wrong from behind the window (another element, or out of
  the source) and from before it to behind it. Proved: comparisons and differences, --
  for sources at least as long as the window, + n, - n and [] in all other cases.
* **C222** False of the code: the offsets of the end iterator have the wrong sign,
  reading backwards shows the old contents and nothing of the source. This is what the
  theorem says, for all ranges.
* **C223** Proved if |Last - First| + |Step| is at most the number of non-negative
  values of the signed type. False otherwise: for an unsigned T the number of elements
  comes out near the number of values of T, for a signed one the distance overflows and
  the program is ill-formed.
* **C225** False as stated: all eight pairs are replaced by '>'. Proved: the pairs are
  found in the right places, and the result is the right translation with every command
  changed to '>'.
* **C226** False for the long vowel mark 0x81 0x5B, which is written \5B in the code:
  its second byte is read as '['. Proved for texts without it and without the bytes 0x81
  0x05 0x42.
* **C231** For rational p with exact arithmetic; the rounding of RealType is missing.
* **C233** False of the code for the integers of 4 bytes: the limit is 11 though 12! =
  479001600 fits, so factorial<int>(12) is rejected; long double keeps the limit of
  double; proved for the other types.
* **C234** False of the code for x = 28: the table holds -236364091/870, the numerator
  of B_24, instead of -23749461029/870, in all three types; proved for every other x.
  The rounding of the literals to the floating type is not modelled.
* **C237** False of the code for partition and stable_partition: the window is as long
  as there are elements that do not satisfy the predicate, so it is right only if as
  many do; proved for stable_partition_copy.
* **C238** unique_copy: not for an empty container and a range that is not empty, where
  fixed::unique_copy writes outside of the container (fx_unique_copy_refuted).
* **C239** False of the code for n greater than the size of a sub_array: fixed::fill_n
  does not limit n, so the elements of the internal array behind the container are
  filled too; proved: the window is right for all n, and only the n elements from the
  start of the container are changed.
* **C240** Over exact rationals, without the rounding of the floating type. Proved for
  texts with no more decimals than -min_exponent; false of the code beyond: the result
  is HUGE_VAL even for 0.00...0.
* **C241** False of the code: the exponent acts with the opposite sign, its first digit
  is lost if there is no sign, and a final e is read past the terminator. Proved what
  the code does, and the claim for a signed zero exponent.
* **C243** Proved over exact rationals. False of the code for integer coordinates: the
  coefficients are halved by integer division.
* **C246** False of the code: the second coordinate is y*x' - x*y' in place of z*x' -
  x*z'. The other coordinates are right.
* **C248** Over exact rationals. Proved for rays that do not start on the plane; false
  of the code for those that do: they meet it in the positive direction alone.
* **C249** False of the code, since cross is not the vector product (C246): a ray is
  said to meet a triangle at a point off its plane. Proved: the point is on the plane
  through the first vertex that the stored normal gives. Not proved: what the tests of
  the edges decide.

Seen while reading, not stated as theorems because the code does not compile when used:
`numeric/inner_product.hpp`; `numeric/fixed/adjacent_difference.hpp` (a call of the
misspelt `adjacent_difference_impl_1`); the mutating `md5::process_block`; `bitset::find_first` and
`find_next` (the functions of the base are hidden, and a recursive call lacks an
argument); the constructor of `bitset` from `Char const*` (it names `size_typeype`);
`basic_string::rbegin`, `rend` (the non-const ones return const_reverse_iterator).  The
overloads of `basic_string::find_last_of` and `find_first_not_of` that return index
iterators pass a wrong default position and wrong arguments.  `hash_combine(seed)` and
`hash_values()` without values (nothing to deduce the type from).

## 6. Assumptions printed

`Print Assumptions` answers "Closed under the global context" for every theorem of every
`*Props.v` file except those of `FftProps.v`. Those are about Coq's real numbers and list some or
all of the standard library axioms behind them:

* `ClassicalDedekindReals.sig_not_dec`
* `ClassicalDedekindReals.sig_forall_dec`
* `FunctionalExtensionality.functional_extensionality_dep`
