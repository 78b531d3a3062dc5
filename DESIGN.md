# A machine-checked model of kevinchannon/wite

`/repo/wite` is a header-only C++20 library: byte buffers and views, files and
streams, UUIDs, hex conversion, string helpers, a fragmented string, small
collections, result/scope/index helpers, numeric ranges and points.  This
directory holds a model of that code in Coq 8.16.1 and proofs of the properties in
`properties.jsonl`.  `MANIFEST.json` maps each property to theorem names.
`seeded/LOG.jsonl` records wrong programs the theorems were tried against.

## Layout

Each area has these kinds of file in `rocq/theories/`:

* `X_Model.v` - the code, function by function, as total computable Gallina.
  Every definition cites the file and lines it models, or says that it models the
  language or the standard library, or that it exists in the model only.  No proofs.
* `X_Spec.v` - what the documentation promises, written without the model's
  helpers (list concatenation, positional notation, predicates on text, ...).
* `X_Proofs.v`, `X_PropLemmas.v` - lemmas.
* `X_Props.v` - the property theorems only, each closed by `exact`, each with
  `Print Assumptions` and an `Example` that a non-trivial case meets its
  hypotheses.

`Base.v` holds what all areas share.

## Modelling conventions

* **Outcomes.**  A call ends in `Ok v`, `Throw e` (a C++ exception, by class),
  `UB` (undefined behaviour: out-of-bounds access, null dereference, signed
  overflow, a contract of the standard library broken), `Terminate`
  (`std::terminate`, or a debug assertion) or `Diverge` (does not return).
  A function with effects returns the new state beside the outcome, so a theorem
  can say what a failed call left behind.
* **Builds.**  `_WITE_DEBUG_ASSERT` does nothing, aborts or throws, depending on the
  configuration; the build is a parameter and theorems hold for all three or say which.
* **size_t** is `N` and every addition / multiplication the code performs in
  `size_t` is reduced `mod 2^64` in the model.  Buffers are lists; their length
  is a natural number, and where the code relies on `size() < 2^64` the theorem
  says so.
* **Memory order.**  The machine's byte order and the byte order wite is
  configured with (`system_native_endianness`) are two separate parameters.
* **Templates.**  A type parameter is modelled by a descriptor (size, signedness,
  encoding) or by an abstract type with its operations; a parameter pack is a list.
  Compile-time rejections (concepts, static_assert) are preconditions.
* **Loops** are structural recursion or fuelled recursion whose exhaustion is the
  separate outcome `Diverge`; the proofs show that the fuel suffices.
* **Histories.**  Objects with state (views, vectors, collections, results, guards,
  files) have an inductive type of calls; properties over histories are proved by
  induction over lists of calls of any length.

## Properties

Each row: the property, the model it is stated over, how it is proved, and the result.
"Proved" is the whole property; "partial" means the property as stated is false of the
code (a `_refuted` theorem gives the witness) or only a part is proved (`_partial`).

| id | property | model | proof | result |
|----|----------|-------|-------|--------|
| C01 | Endian wire format is machine independent | Io_Model | object representation by digits; equality with positional notation, induction on the size | proved |
| C02 | Overriding the native byte order swaps the wire format | Io_Model | same, with machine and configured order different | proved: The property says the documented format fails under misconfiguration; the _refuted theorem is that part of the claim. |
| C03 | Write/read round trip at any position | Io_Model | round trip, induction over the type list | proved |
| C04 | Throwing writes are all-or-nothing | Io_Model | exact result and buffer, against list concatenation | proved |
| C05 | Reads never go out of bounds and see exactly the addressed bytes | Io_Model | exact result; independence of the other bytes | proved: Types whose every representation is a value; C112 has the others. |
| C06 | Throwing and non-throwing single reads agree | Io_Model | case analysis on both overloads | proved |
| C07 | Throwing and non-throwing range reads agree | Io_Model | case analysis; counterexample | partial: False for an empty range at position = size (read succeeds, try_read reports insufficient_buffer): refuted there, proved for every non-empty range, and C07_empty_range_partial gives both results for an empty range at every position. |
| C08 | Multi-value try_read is a prefix read | Io_Model | induction over the type list | proved |
| C09 | Multi-value try_read_at never succeeds past the buffer | Io_Model | induction with a no-wrap hypothesis; counterexample | partial: Refuted: position + i-th offset wraps past 2^64 and a later element reads the front of the buffer. Proved when position + total size < 2^64; C09_try_read_at_exact_partial gives every result for every position. |
| C10 | Non-throwing writes are all-or-nothing | Io_Model | case analysis; counterexamples | partial: Refuted for several values (partial write before the error) and for an empty range at the end; proved for one value, and success is equivalent to the throwing write for any number. |
| C11 | What a failed multi-value try_write leaves behind | Io_Model | induction over the values; exact prefix written | proved |
| C12 | Huge byte counts cannot defeat the write bounds check | Io_Model | arithmetic mod 2^64; counterexample | partial: Refuted: a range of 2^61 8-byte elements has byte_count 0. Proved safe when the exact total is below 2^64, and C12_write_exact, C12_write_at_exact, C12_try_write_many_exact and C12_try_write_at_exact say for every list of values and ranges which outcome occurs and what has been written, so the overruns are exactly the totals that wrap to something that fits. |
| C13 | to_bytes / from_bytes are inverse | Io_Model | instances of the round trip | proved |
| C14 | Range write/read round trip | Io_Model | induction over the elements | proved |
| C15 | Read view position stays inside the buffer | IoView_Model | invariant by induction over histories | proved |
| C16 | Read view reads consecutively | IoView_Model | each call equated with a positional read; induction over histories | proved |
| C17 | A failed try_read does not consume bytes | IoView_Model | counterexample; exact position afterwards | partial: Refuted: a failed try_read moves the position. The exact position after every try_read / try_read_range is proved. |
| C18 | Write view is an append log | IoView_Model | refinement to an append log, induction over histories | proved |
| C19 | Failed try_write through a view leaves the view unchanged | IoView_Model | counterexample; exact effect | partial: Refuted for several values. Proved for one value; exact effect proved for any number. |
| C20 | File write then read returns the bytes | File_Model | file system as a map; induction over histories | proved |
| C21 | A successful file write is complete | File_Model | operating system as oracle; prefix invariant | partial: Refuted: a write the OS cuts short is not noticed, the call returns normally. Proved: whatever the OS accepts is a prefix of the data, and other files are untouched. |
| C22 | File overwrite is crash-atomic | File_Model | all intermediate states; prefix invariant at each | partial: Refuted: the file is truncated before writing, so a crash loses the old contents. Proved: at every crash point the file is old, or a prefix of the new data, and other files are untouched. |
| C23 | File writes stay inside the source range | File_Model | reads past the range are UB; exact condition | partial: Refuted: count beyond the range reads past it, and ranges of wide elements write only size() bytes. Proved safe and exact when count is at most the byte length. |
| C24 | Stream round trip and short streams | File_Model | induction over the values; short streams characterised | proved |
| C25 | to_integer recovers the unsigned byte value | File_Model | modular arithmetic for every width | proved |
| C26 | UUID text round trip | Uuid_Model | printing and parsing composed; memory behind the digit array explicit | partial: Refuted by the language rules: every successful parse runs strlen past an unterminated 32-character array. Proved for every UUID, format and letter case under the assumption that a NUL follows the array in readable memory. |
| C27 | UUID text is canonical | Uuid_Model | text against a digit-by-digit specification; injectivity | proved |
| C28 | UUID parser accepts exactly the format (N, D, B, P) | Uuid_Model | loop invariants; acceptance iff the text matches the specification | partial: Proved exactly for every text, given a NUL behind the digit array: text isxdigit is defined for is accepted exactly if well formed; other text (wide characters above 255) is undefined if the delimiters are right and rejected otherwise. Refuted for accepted text in the standard's view, and for those wide characters. |
| C29 | UUID X-format parser is memory safe | Uuid_Model | loop invariant counting kept digits; exact dangerous set | partial: Refuted twice: digit array overflow, and a read past the text. Proved: the exact set of dangerous inputs among all texts, and that all others are rejected or parsed. |
| C30 | UUID X-format parser accepts only X-format text | Uuid_Model | counterexample; acceptance of well-formed text | partial: Refuted: delimiters are not checked. Proved: well-formed X text is accepted with its value; C29_exact_condition_partial says what else is accepted. |
| C31 | UUID unknown format letters are rejected | Uuid_Model | case analysis on the letter | proved |
| C32 | UUID to_c_str never overruns the caller's buffer | Uuid_Model | contract of snprintf; memory outside the buffer unchanged | proved |
| C33 | UUID field constructor and text agree | Uuid_Model | write round trip composed with printing | proved |
| C34 | Random UUIDs are version 4, variant 1 | Uuid_Model | bit arithmetic for both byte orders | partial: Refuted: the version nibble goes into byte 6, which is the second half of the third group. Proved: variant digit, where the 4 does appear, and that all other bits are the engine's. |
| C35 | UUID ordering, equality and hashing are consistent | Uuid_Model | order laws by induction; hash by congruence | proved |
| C36 | hexlify / unhexlify round trip | Hex_Model | finite sweep over bytes, induction over the list | proved |
| C37 | unhexlify rejects anything that is not hex text | Hex_Model | exact result by parity; counterexample | partial: Refuted: the dynamic unhexlify accepts odd-length text and drops the last character. Proved exactly for even and odd lengths. |
| C38 | Fixed-size unhexlify rejects exactly malformed input | Hex_Model | acceptance iff hex text of that length | proved |
| C39 | from_hex_chars is exact | Hex_Model | same, for the value types | proved |
| C40 | split keep_empty is inverse to join | String_Model | loop invariant; both inverses | proved |
| C41 | split drop_empty removes exactly the empty tokens | String_Model | loop invariant; filter | proved |
| C42 | split terminates and its tokens are delimiter-free | String_Model | fuel shown sufficient; views shown inside the text | proved |
| C43 | trim removes exactly the surrounding whitespace | String_Model | exact characterisation; exact undefined set | partial: Refuted for signed char text with codes 128-254 (isspace on a negative value). Proved exactly otherwise, with the exact set of dangerous texts. |
| C44 | strip removes the whitespace at both ends and nothing else | String_Model | same for strip | partial: Same domain restriction as C43, proved to be exact; the full statement is proved for all text inside it, and the order of trims and idempotence for every text. |
| C45 | join concatenates with separators | String_Model | size arithmetic mod 2^64; loop invariant | partial: Proved whenever the exact size is below 2^64 (always true of strings that exist in memory together); for larger totals the size wraps and join writes out of bounds. |
| C46 | fragment_string concatenation is string concatenation | Frag_Model | trees of +; induction over the tree | partial: Proved for every tree of + over C strings (texts, lengths, shared views, associativity). Refuted for default-constructed fragment strings: to_str appends a null C string. |
| C47 | fragment_string iteration visits the characters in order | Frag_Model | iterator position as index; induction; converse for empty fragments | partial: Proved in all three builds when no fragment but the last is empty; proved to fail for every other fragment string, backwards even in debug builds without an assertion. ++ and -- as inverses are settled position by position for every fragment string. |
| C48 | fragment_string iterator arithmetic matches index arithmetic | Frag_Model | seek loops equal index arithmetic | partial: Proved when no fragment but the last is empty and the length is below 2^63; for every other fragment string begin()+i is proved to exist, to be usable exactly where no empty fragment starts, and to have the differences and order of the indices, while going back gives an equal iterator exactly where no empty fragment starts. begin()+n past the end is shown never to return in a release build. |
| C49 | fragment_string indexed access matches the string | Frag_Model | from C48 | partial: The out_of_range condition of at is proved for all fragment strings; the values are proved for all indices at which no empty fragment starts, and at the others the outcome in each build is proved (refuted). |
| C50 | fragment_string comparison is lexicographic | Frag_Model | loop invariant against lexicographic order | partial: Proved for the order of characters as values of the type and without empty fragments; refuted against std::string order for signed char, with empty fragments (C50_compare_any_partial gives the result for every pair of fragment strings, C50_trailing_empty_refuted an unequal result for equal texts), and for starts_with/ends_with on an empty string. starts_with and ends_with are settled for every pair of fragment strings: they fail exactly if the comparison gets to an empty fragment. |
| C51 | fragment_string find returns the first match at or after pos | Frag_Model | loop invariants; exact domains | partial: find(c) from 0 proved for all; find(c,pos) refuted (searches from the start of the fragment of pos), exact behaviour proved. find(s,pos) proved on its exact domain, undefined outside of it (find("",length()), wrap). With empty fragments find(s,pos) is settled exactly by C51_find_string_any_partial. |
| C52 | fragment_string contains agrees with find | Frag_Model | from find; exact behaviour of the third overload | partial: contains(c) proved for all; contains(s) proved without empty fragments; contains(fragment_string) refuted (a string does not contain itself), exact behaviour proved. With empty fragments contains(s) and contains(fragment_string) are settled exactly by the _any_ theorems. |
| C53 | fragment_string substr and copy match std::string | Frag_Model | from C48; exact wrap condition | partial: Proved when pos+count does not wrap and no empty fragment is passed, and proved to fail otherwise (refuted for wrapping counts). copy overruns a short destination as std::string::copy does. Wrapping counts and short destinations are settled for every fragment string. |
| C54 | static_vector behaves like a bounded list | Sv_Model, Iter_Model | refinement to bounded lists over programs on a pool of vectors | proved: For programs over any number of vectors. operator[] at or beyond size() is outside the statement, a throwing copy assignment is C78. A move from itself leaves every element as its own move assignment from itself leaves it, taken to be the moved-from value. There is no pop_back in the class. |
| C55 | static_vector(size) holds size elements | Sv_Model | exact behaviour; counterexample | partial: Refuted: the sized constructor creates no element and ignores the capacity; its exact behaviour is proved for every size. |
| C56 | static_vector destroys every element exactly once | Sv_Model | lifetime history of every slot; invariant over programs | proved: Exactly-once destruction proved for all histories including throwing copies. Also shown: clear() destroys nothing until the vector is destroyed or the slot is reused. |
| C57 | static_lookup returns the first match | Lookup_Model | induction over the table | proved |
| C58 | identifiable_item_collection is an insertion-ordered map | Ident_Model | refinement to a list with distinct ids over programs; heap without leaks | proved: Histories: all operations, all map/item allocation failures. Not covered: changing an id through emplace's reference (C59) and a vector allocation failing after the map's (C60), where it is refuted. |
| C59 | emplace cannot break the collection | Ident_Model | counterexamples; refinement under id-preserving assignment | partial: Refuted by assigning a different id through the reference emplace returns; proved for histories whose assignments keep the id. |
| C60 | Failed inserts are all-or-nothing | Ident_Model | counterexamples; exact prefix | partial: Refuted for several items and for a failing vector allocation; proved: which prefix is inserted, and atomicity of single inserts otherwise. |
| C61 | dereferencing_iterator is a faithful view | Iter_Model | exact arithmetic in three builds | partial: Proved for release builds, ++/--, comparison and iteration. Refuted in debug builds for reaching end() by arithmetic and for negative indices; exact behaviour proved. |
| C62 | make_vector applies its arguments | Lookup_Model | fold over the arguments; std::vector contract | partial: Proved for at most one size argument and any number of reserves; refuted for two size arguments (the last one decides the size but the first decides the values). C62_succeeds and C62_failures say exactly when it throws. |
| C63 | result holds exactly one of value or error | Result_Model | invariant over programs; counterexample | partial: Proved for every history if element moves are noexcept; refuted otherwise: a throwing copy assignment makes the variant valueless, is_error() is true and error() terminates. |
| C64 | result combinators obey the monad laws | Result_Model | equations for functions with state and exceptions | proved: All laws, with functions that may throw and have side effects. The or_else right identity needs a result that is not valueless. C64_valueless says what the combinators do with one that is. |
| C65 | scope guards run exactly once in the right case | Scope_Model | equality with a try/finally semantics, induction over programs | partial: Proved equal to try/finally semantics for all nestings, except scope_success/scope_fail inside functions that may run during unwinding, where it is refuted (the guards test uncaught_exceptions() against 0). At-most-once, release and scope_exit completeness are proved for all of them. |
| C66 | scope guards cannot be duplicated | Scope_Model | event history; counterexample | partial: Refuted: WITE_MOVABLE_ONLY defaults the assignments. Proved for programs without assignment between guards. For all programs: never more functions run than guards were created, only functions of created guards run, and with scope_exit guards that are not released as many as guards. |
| C67 | index arithmetic detects overflow and never wraps silently | Index_Model | arithmetic; exact condition | partial: Proved for release builds and for every offset but INT64_MIN in debug builds, where evaluating the assertion is undefined even if the result fits. |
| C68 | value_range membership | Range_Model | any total order; instances for integers and floats | proved: For every total order; instances for the integer types and for binary floating point without NaN (see C81 for NaN). |
| C69 | value_range overlap is intersection | Range_Model | any total order; algebraic laws | partial: Members of the overlap are exact for all boundary kinds, and nullopt implies no common value. The converse is proved for closed ranges and refuted for open ones: (0,1) and (1,2) overlap in (1,1). Laws hold for all kinds. |
| C70 | clamp returns the nearest contained value | Range_Model | any total order; nearest value for integers | partial: Proved for closed ranges. Refuted for open ones: clamp returns an end, which is not contained. C70_any_ends_partial gives the result for every kind of ends. |
| C71 | value_range size and mid do not overflow | Range_Model | integer types of any width; exact condition | partial: Proved whenever max - min is a value of the type (always for unsigned types). Refuted otherwise: signed overflow for int and wider, wrap-around for narrower types. C71_too_wide gives the exact wrapped size for the narrower types. |
| C72 | envelope and variadic min / max | Range_Model | induction over the arguments; permutation invariance | proved: An empty collection given to envelope is undefined behaviour. |
| C73 | next_value / prev_value are neighbours | Range_Model, Float_Model | Flocq successor and predecessor; any format | partial: next_value and integers proved. prev_value is the predecessor exactly above the smallest positive normal number; for all others it moves up, because it steps toward numeric_limits::min(). |
| C74 | interpolate and fraction are inverse | Float_Model | field arithmetic in R; rounding lemmas for double | partial: Laws in exact arithmetic proved. Machine arithmetic: integers proved for widths that fit the type and 2^53; refuted beyond, where C74_any_width_partial gives the exact outcome (undefined, up to 1024 beyond the end, or wrapped past it: interpolate(1.0, 2^63, 2^64 - 1) is 0) and C74_fraction_any_width_partial the exact fraction. Doubles: monotone and exact at 0; end point, containment, finiteness and inverse refuted. Doubles: inside and exact at both ends when max - min is exact; fraction is 0 at min, 1 at max, in [0, 1] and monotone when max - min is finite. |
| C75 | point construction and access | Point_Model | indeterminate values explicit; induction over the values | partial: Exactly D values, reads and assignments proved. Refuted for other counts: more than D values write out of bounds, after fewer the rest is indeterminate (the README shows such a case). |
| C76 | point and range printing determines the value | Print_Model | text given outright; injectivity by parsing prefixes | proved: Any dimension count below 2^32 (the loop index is an unsigned int). Element printing is a parameter; integers and bytes are shown to meet its hypotheses. |
| C77 | streaming a fragment_string writes its text | Frag_Model | exact output for every width | partial: Proved for field width 0; refuted for other widths, exact output proved. |
| C78 | a throwing element copy leaves a static_vector valid | Sv_Model | throwing copy at any point; counterexample | partial: Proved for every operation except copy assignment. There, a throw while copying an element below the source's size() leaves a mixture of both contents, all existing (C78_copy_assignment_partial); a throw while copying a left-over element beyond it is the refutation. |
| C79 | setting an end of a range is accepted exactly when a value stays inside | Range_Model, Float_Model | order reasoning; neighbours | partial: Integers: proved except where the neighbour of the new end does not exist. Every floating-point format: proved except the largest value as open minimum and an open maximum at or below the smallest normal number. The exceptions are refuted, and what happens there is given exactly. |
| C80 | bounded_value can be clamped into its bounds | Range_Model, Float_Model | order reasoning | partial: Closed bounds and integer defaults proved. Refuted for open bounds and for floating-point default bounds, which start at the smallest positive normal number. C80_clamp_any_partial gives the result for every kind of bounds. |
| C81 | a NaN is in no range | Float_Model | comparison with NaN | partial: Refuted for NaN: every range contains it. Exact for all other values. |
| C82 | the middle of a floating-point range is inside | Float_Model | rounding lemmas | partial: Proved when max - min does not overflow; otherwise the middle is minus infinity (C82_mid_overflow_partial), as for [-max, max]. |
| C83 | comparing points | Point_Model | induction over the coordinates | proved: Points of equal dimension with every coordinate initialised. |
| C84 | streaming ids, indices and UUIDs | Print_Model | decimal and hexadecimal text; injectivity | proved: Index: unless padded with digits as fill character. Padding is the default (right) adjustment. |
| C85 | several views of one buffer: safety, isolation, queue | IoView_Model | state shared by all views; log invariant by induction over interleavings; simulation for isolation | proved: Queue: the writer uses write and write_with_endian, the reader read, read_range and read_with_endianness; reader never ahead of the writer (a hypothesis on every prefix of the history). Buffers under 2^63 bytes. |
| C86 | fields at fixed positions are independent | Io_Model | commutation of splices, induction on permutations | proved: Throwing write_at; buffers under 2^64 bytes. |
| C87 | file functions close what they open | FileProc_Model | handle count in the state; induction over histories; counterexamples | partial: Refuted: read(path) leaks the FILE when allocating the result throws (memory, or ftell reporting a huge size); enough of these and no file can be opened. Partial: exact number of leaked handles; all other calls close. |
| C88 | a file read delivers what it reports | FileProc_Model | fread as oracle; exact memory afterwards; counterexamples | partial: Refuted: a short fread is not noticed (zeros or old contents returned as data); a vector of wide elements reads size() bytes and reports size() elements. Partial: exact contents delivered; correct for byte ranges when fread delivers everything. |
| C89 | streams and buffers hold the same bytes | File_Model, Io_Model | both sides equated with the concatenated encodings | proved: Native (unencoded) values, the only ones streams accept. |
| C90 | saved data loads on another machine | File_Model, Io_Model | encodings independent of the machine, composed with round trips | proved: Plain-old-data counts as portable as opaque bytes. File functions as in C20: nothing fails. |
| C91 | UUID text: case and format conversion | Uuid_Model | parser and printer characterisations composed; validity invariant under recasing | partial: Given a NUL behind the parser's array, as in C28: case independence is proved for every format, and conversion for every format (for X, the digits outside "0x"). Refuted: in format X other delimiters are accepted, so the same text need not come back; it does for well formed text and for N, D, B, P. |
| C92 | UUIDs sort as their texts | Uuid_Model | comparison of digit pairs equals comparison of bytes; counterexample | partial: Refuted: the first three fields are compared lowest byte first, so the order of texts can be the reverse. Partial: exact order of texts; equal first three fields order alike. |
| C93 | moving identifiable collections | `IdentMove_Model.v`: named collections, calls, moves, end of life | each name refines a list, or is unspecified until cleared or moved to; simulation by induction over programs; items nobody owns are counted and shown to be none | proved: For programs of any length over any number of collections, under the conditions of C58. What a move leaves in the source's map and vector, and what a self-move leaves, are oracles; the refuted theorem is the last clause about the source: with some libraries that the standard allows, reading a moved-from collection before clear() is undefined. |
| C94 | interpolate, fraction and mid of floats | `Single_Model.v`: float operations and conversions over Flocq, converting an over-large double to float is undefined | rounding is monotone and keeps the formats; the float format lies in the double format | partial: Proved where max - min is a finite float: interpolate is defined on [0, 1], gives min at 0, is monotone; inside the range and max at 1 if max - min is exact; fraction and mid as stated. Refuted otherwise: interpolate(1, a, b) can exceed b or be infinite, mid() of [-max, max] is minus infinity. |
| C95 | unchecked conversion of hex text | `Hex_Model.v`: the unchecked functions | induction over the pairs; the nibble tables are checked for the 128 low codes and by a bound beyond | proved: Proved for every text and N; the C++ loop counter is a 32-bit unsigned, so N below 2^32. |
| C96 | laws of hex text | `Hex_Model.v`: hexlify, unhexlify | induction over the pairs of digits | proved: Proved for every byte sequence and text. |
| C97 | equality and emptiness of ranges | `Range_Model.v`: vr_eq, vr_empty | over an abstract total order; doubles by Flocq's lemma that a non-zero sum does not round to zero | partial: Refuted: the closed range [3, 3] is empty() though it contains 3, the open integer range (1, 2) has no member though it is not empty(), two such open ranges differ without differing in members, and a range with a NaN is not equal to itself. Partial: exact meaning for half-open, closed and open ranges; empty() is size() == 0 for integers and finite doubles. |
| C98 | constructing fragment strings | `FragMake_Model.v`: from_ptr_n, from_parts, literal, fs_size, fs_max_size, fs_capacity | induction over the copied views; iteration from the results of C47 | partial: Refuted: with a fragment count above what the arguments need, length() is right but to_str() appends a null C string, which is undefined; with a count below, the copy runs past the array; a literal stops at its first NUL, since the length the compiler passes is ignored. Partial: exact behaviour for every count and literal. |
| C99 | writing between two iterators | `IoIter_Model.v`: write_iter, try_write_iter, write_with_endian_iter; `Io_Model.v`: unchecked_write, unchecked_read | the bytes of the buffer split at begin and end; induction over the values | proved |
| C100 | references to items stay valid | IdentRef_Model, Ident_Model | addresses as observations; a preorder on states preserved by every call; induction over histories | proved: Under the conditions of C58 (vector allocation succeeds, assignments keep ids). The model never reuses an address; reading a reference to a destroyed item is undefined in C++ whether or not the address is reused. |
| C101 | streams that stop taking bytes | StreamFail_Model, File_Model | device as oracle; induction on the values for the prefix, again for reading the cut | proved: Native values, default exceptions() mask. A program that does not check the stream takes values that were never written (see C101_nonvacuous). |
| C102 | interpolate, fraction and mid of long double | `Long_Model.v`: operations and conversions of long double over Flocq, for every precision from 53 and every exponent range from 1024; converting an over-large long double to double is undefined | rounding is monotone and keeps the formats; the double format lies in the long double format; relative error of rounding the distance; subtraction is exact near underflow | partial: Proved where max - min is finite: interpolate is min at 0 and monotone, and inside the range and max at 1 if max - min is exact; fraction is 0 at min, monotone, at most 1 if the width is between the smallest normal and the largest double, and undefined if the distance exceeds the largest double; mid() is inside. Refuted otherwise, with x87's format: interpolate(1, a, b) can exceed b, fraction(max) can be 1 - 2^-53 or 4/3, mid() of [-max, max] is minus infinity, and value_range::interpolate drops bits of its fraction. |
| C103 | kept iterators of static_vectors | `SvIter_Model.v`: programs over vectors and iterators, on top of `Sv_Model.v` and `Iter_Model.v` | simulation by lists and indices, extending the one for C54; induction over the program | partial: Proved for release builds in full, and for debug builds with exactly the operations whose assertions fail. Refuted in debug builds: an iterator remembers the size from when it was made, so ++ past the old end, a jump to an element pushed since, or any jump onto the end fails an assertion although it is valid. |
| C104 | debug builds compute what release builds compute | the models of all of these, which take the build as an argument | composition: sequencing, branching, loops (induction) and noexcept keep the relation `agrees`; for programs, induction over the operations | partial: Proved for everything listed except three cases, each refuted and excluded exactly: index += and -= PTRDIFF_MIN (wraps in release, undefined in debug because the assertion negates the offset), an open end of a signed range of at least 32 bits moved to the extreme value (the assertion overflows), and it[n] on an element that is gone (std::terminate in release, std::bad_optional_access with throwing assertions). |
| C105 | an iterator of a collection keeps its item while the collection changes | `IdentIter_Model.v`: programs over a collection and kept iterators, on top of `Ident_Model.v` and `Iter_Model.v` | simulation by a list and indices; the vector of addresses is the image of the ids, so the two validity rules agree | partial: True exactly while the rules of std::vector allow it: after an insertion that does not move the vector (except end()), after removals of later items only, and after any other call. Proved for all such programs. Refuted otherwise: an insertion may move the vector, erasing an item invalidates iterators to it, to every later item and end(); and, in debug builds, an iterator made before an insertion cannot be moved past the old end. Calls as in C58. |
| C106 | UUID format objects stand for format letters | `UuidObj_Model.v`: the ten objects and try_make_uuid with one, on top of `Uuid_Model.v` | comparison of the two validity checks; round trip from C26 | partial: Proved for nine of the ten objects and, for uuid_format::x, for every text in braces or of a length other than 68; refuted otherwise: uuid_format::x requires the braces, uuid_format::X (used for both letters) does not, so the object rejects texts that the letter accepts. The round trip needs the NUL of C26. |
| C107 | kept iterators of fragment strings | `FragKeep_Model.v`: programs over fragment strings and kept iterators, on top of `Frag_Model.v` | simulation by positions in the texts | proved: Programs over numbered strings and iterators, simulated by positions. An iterator of a destroyed string or of one that shows other texts now is covered for reading in release builds and for == with a new begin() only; otherwise, and for the order and the distance of iterators of two strings in release builds, C++ leaves the result open. Offsets fit ptrdiff_t and are not its least value. |
| C108 | what the hash of a UUID tells apart | `Uuid_Model.v`: `uuid_hash` | xor cancels; the integer of eight bytes determines them | proved: std::hash<uint64_t> is a function given by the caller of the model; its injectivity is a hypothesis of the first theorem only. |
| C109 | random UUIDs of threads and engines do not depend on the schedule | `UuidGen_Model.v`: `uuid_from_engine`, std::mt19937_64, `make_uuid` as steps of threads | every schedule projects to the steps of one thread; the engine's window slides along the sequence of the standard | proved: The engine is modelled from the C++ standard (its 10000th word agrees); std::uniform_int_distribution over all of uint64_t is taken to be one call of a 64-bit engine. |
| C110 | UUIDs made on different threads or in different runs are distinct | `UuidGen_Model.v`, `Uuid_Model.v`: `uuid_random` | pigeonhole on the 32-bit seeds; bytes of a word by their bits; the difference of two engines is linear over bits and must vanish | partial: Refuted: the engine is seeded with one 32-bit value, so among more than 2^32 threads two make the same UUIDs in every schedule. Proved: threads given the same value make the same UUIDs, threads given different values differ within their first 312 UUIDs (so there are exactly 2^32 sequences); two UUIDs are equal exactly when the words agree on 122 bits. |
| C111 | ranges of bytes of the buffer itself | `IoAlias_Model.v`: the loops of range writes and reads on windows of one buffer | the buffer after each step by induction; strong induction for the repeated bytes | proved: The elements are bytes. The whole range is inside the buffer. C111_own_bytes_moved_refuted shows that the call need not move the bytes as they were. |
| C112 | reading values of types with invalid representations | `IoBool_Model.v`: reads of types with a set of valid representations, on top of `Io_Model.v` | from C03, C05 and C06 by cases on validity | proved: bool_type is the instance for bool; the set of valid representations is arbitrary otherwise. C112_reading_is_defined_refuted shows that C05 does not extend to bool. Range reads and views of such types are not covered. |
| C113 | views of a vector whose length changes | `IoGrow_Model.v`: a vector with its capacity and the iterators of its views, on top of `IoView_Model.v` | what each call on the vector keeps, by cases; histories by induction | proved: Iterator invalidation as in the C++ standard ([vector.capacity], [vector.modifiers]); the growth policy is a parameter. The two refuted theorems show that appending can make a view unusable. swap and moves of the vector are not covered. |
| C114 | threads that share a buffer | `IoThread_Model.v`: calls as sequences of accesses to single bytes, threads interleaved by a schedule; refines `Io_Model.v` | an invariant of the steps: the accesses made so far are those of the calls made, and each thread's bytes are those of a run of it alone; progress by a measure | proved: A call is the sequence of its accesses to single bytes; a data race is two accesses of different threads to one byte, one of them a store, since the threads do not synchronise. The buffer's size and the arguments are not shared state that changes. The refuted theorem shows the last sentence. try_write_at and try_read_at are covered for one value or range. |
| C115 | splitting into a static_vector | `SplitInto_Model.v`: the loop of split_to over a container, with the static_vector of `Sv_Model.v` | the loop pushes exactly the tokens of the loop of `String_Model.v`; pushes by induction with the representation invariant of the static_vector | proved: The result is returned in place (copy elision) or moved element by element, which keeps the elements. |
| C116 | file functions used at the same time | `FileConc_Model.v`: the calls as sequences of system operations, threads, schedules | projection to the turns of one thread; invariant and measure for one thread alone; invariants over all schedules for the origin of bytes and for one writer | proved: One operation of the system at a time; ranges of bytes; files are not removed or renamed meanwhile; allocation succeeds. The refuted theorems are the last sentence: read measures the file, then fills a zeroed vector of that size and ignores how much was read, so a truncation in between gives zeros. |
| C117 | views of text that changes or dies | `TextLife_Model.v`: arrays with lifetimes, views as (array, start, length), over `String_Model.v` and `Frag_Model.v` | refinement to a world of texts and places, step by step; the places of the tokens by induction on the loop of split_to; invariants: views lie inside their arrays, fragments end at a NUL | proved: Texts are arrays of characters; a string that gets a new buffer ends one array and starts another. Memory for vectors is always there. The refuted theorem shows the last part of the last sentence: to_str appends the C string at data() and ignores the view's length. |
| C118 | a log saved in part gives back whole records | `IoView_Model.v`, `File_Model.v` together | induction on the records for writing and for reading from a prefix; the prefix comes from the crash states of C22 and the short writes of C21 | proved: Buffers and records below 2^63 bytes; records fit in the buffer; the file is read without failure. The refuted theorem shows the last sentence. |
| C119 | threads with their own views of one buffer | `IoViewThread_Model.v`: calls of views as sequences of accesses, programs that decide by what was returned; refines `IoView_Model.v` | each call refines the whole-call model; an invariant ties every thread to a prefix of its run alone; progress by counting the turns each call costs | proved: Calls as sequences of accesses to single bytes, as in C114. Buffers and calls below 2^63 bytes. What is asked of the programs is about each thread's run by itself. |
| C120 | a UUID works wherever it lies | `UuidPlace_Model.v`: memory by addresses, stores and loads through uint64_t pointers; refines `Uuid_Model.v` | the four stores of the constructor followed on the object's 16 bytes; layout of structs and arrays | partial: Refuted: the code uses the bytes through uint64_t pointers, which is undefined where the address is not a multiple of alignof(uint64_t), e.g. for a uuid after a bool in a struct. Proved: at multiples of it the statement holds; everywhere else both are undefined; elements of an array are all as well placed as the array. Aliasing is taken to be allowed. |
| C121 | hexadecimal text of numbers | `Hex_Model.v`, `Io_Model.v` | bytes of a number as digits of base 256 and 16; induction on the text from its end; order by induction on the bytes | proved: On machines whose byte order wite was configured with. |
| C122 | receiving messages whose length is in the data | `IoView_Model.v`; the receivers are programs over its calls, in `Msg_Spec.v` | induction on the rounds of the receiver; the encoding is a prefix code | proved: Buffers below 2^63 bytes; every length the prefix can hold is a size below 2^63 bytes. Allocating the vector for a length that was read is the caller's and taken to succeed. |
| C123 | lists of values in a line of text | `String_Model.v`, `Hex_Model.v`, `Uuid_Model.v`; the writer and the reader are programs over them, in `ListText_Spec.v` | composition of C36, C26, the exact results of split and join, and uniqueness of the stripped text | proved: The joined text must fit the string type. The theorem about UUIDs assumes, as C26_roundtrip_partial does, that a NUL follows the parser's array. |
| C124 | it does not matter how values are grouped into calls | `IoView_Model.v`, `Io_Model.v`; the sequences of calls are programs over them, in `Group_Spec.v` | induction on the groups; the values that fit in front of a group's end are those of the groups before it | proved: Groups of at least one value, buffers below 2^63 bytes for writing. |
| C125 | A collection of identifiable items that is saved through a view and loaded again is the same collection | `IoView_Model.v`, `Ident_Model.v`; saving and loading are programs over them, in `CollSave_Spec.v` | loading: induction on the rounds with the collection's refinement invariant; saving: the lemma on writing logs of records, the failing writes at the end separately | proved: Ids and data are modelled as unsigned integers; data types that are not numbers are outside. |
| C126 | searching a fragment string again and again | `Frag_Model.v`, `String_Model.v`; the loops are programs over them, in `FragLoop_Spec.v` | induction on the rounds from the exact behaviour of one find (C51) and substr (C53); for a character: a boundary of fragments is never inside one, so a find from behind a match that is not at the end of its fragment finds the same match again | partial: Strings: proved (step 1 up to the length of the string; no empty fragment before the last). Characters: refuted, the loop never ends if some occurrence is not the last character of its fragment, and proved to be right exactly otherwise. Splitting: refuted, substr(length()) throws where std::string gives an empty string, so text that is empty or ends with the character fails; proved for all other text, and for all text if that call is guarded. |
| C127 | Rolling back with scope guards | `Scope_Model.v`; transactions are programs over it, in `Rollback_Spec.v` | induction on the steps of a transaction for every number of exceptions in flight (the guard made by each step still holds its function when the rest has run, unless released), then on the transactions; the state from undo after do being the identity | partial: scope_exit with release: proved, while an exception passes too. scope_fail: proved for transactions that run while no exception is in flight; refuted for one in a destructor while an exception passes, since the guard asks whether any exception is in flight rather than whether there is one more than when it was made: a transaction that succeeds there is undone, and C127_scope_fail_unwinding_partial says exactly what happens. |
| C128 | Messages of any form, from bytes that arrive in pieces | `IoView_Model.v`; readers are trees of calls over it, in `Chunk_Spec.v` | induction on the reader (a call that succeeds decodes only bytes before the new position), then on the rounds of the receiver: draining d ++ x is draining d, then what was left ++ x | proved: Proved for total lengths below 2^64, for readers whose every message takes at least one byte (it begins with a read call) and whose calls are such as C++ allows. |
| C129 | Many ranges: what they have in common, and merging | `Range_Model.v`; the loops are programs over it, in `Merge_Spec.v` | induction on the list: the running overlap has the greatest start and the least end seen so far, one of which is in the way of the range that does not overlap; the envelope of two ranges that touch adds at most the point where they meet | partial: Common part: proved for all kinds of ends. Merging: proved if at least one kind of end is closed; with both open refuted, since (0, 2) and (2, 4) overlap in (2, 2) and are merged to (0, 4), which contains 2. C129_merge_any_partial says that nothing else is ever added, and nothing lost. |
| C130 | Writing into a buffer that is made larger until everything fits | `IoView_Model.v`; the attempts and the loop are programs over it, in `Grow_Spec.v` | induction on the calls: the bytes an attempt may touch do not depend on the buffer, a failed attempt changes no others, a successful one overwrites all of them; then induction on the sizes | proved: Proved for buffers shorter than 2^63 bytes and calls such as C++ allows (at least one value, arguments of their types). |
| C131 | Clamping a value into one range after the other | `Range_Model.v`; the loop is a program over it, in `ClampAll_Spec.v` | two clamps are one clamp (order reasoning by saturation), hence any number; with a common value every further clamp stays inside the earlier ranges and moves towards each common value | proved: C131_order_matters shows that the order does matter if no value is in all of the ranges. Over orders in which distinct values may compare equal (such as -0.0 and 0.0) equality of results is up to that. |
| C132 | Stepping through values with next_value and prev_value | `Range_Model.v`, `Float_Model.v`; the loops are programs over them, in `Walk_Spec.v` | integers: induction on the distance; floating point: induction on the number of multiples of the least subnormal number between the two values, every step going to the neighbour | partial: Integers and ascending floating point in full. Descending floating point is refuted: prev_value goes towards numeric_limits::min(), the smallest positive normal number, so a loop down to any smaller value (0.0, negative numbers) never ends; proved exactly (C132_floats_down_never_ends) and for last values that are not below it (_partial). |
| C133 | Changing the byte order of data through views | `IoView_Model.v`; the conversion is a program over it, in `Convert_Spec.v` | induction on the fields with what has been written so far; in place: the written bytes always lie before those still to be read | proved: Proved for buffers shorter than 2^63 bytes and fields of the sizes the types have. |
| C134 | Binary search through the library's iterators | `Iter_Model.v`, `Frag_Model.v`; the search is a program over them, in `Bisect_Spec.v` | one proof by induction on the number of rounds for any iterators that know their index, instantiated with C61's and C47/C48's iterators | partial: In full for static_vector. For fragment strings whose pieces, but for the last, are not empty, and of fewer than 2^63 characters (_partial); with an empty piece between others the search can read an iterator that cannot be read (_refuted), the defect C47 and C48 describe. |
| C135 | Tables of text: rows and cells | `String_Model.v`; writer and reader are programs over it, in `Table_Spec.v` | from the exact results of split and join (C40, C42, C45), twice; the text around an item of a joined list does not depend on the item, by induction | proved: Proved for texts not longer than std::string allows (C45). |
| C136 | Values sent as hexadecimal text | `Io_Model.v`, `Hex_Model.v`; sender and receiver are programs over them, in `HexData_Spec.v` | composition of the exact results of write and read (C03, C05, C90) and of hexlify and unhexlify (C36, C37, C96) | partial: Partial only because unhexlify ignores the last character of a text of odd length (C37): C136_odd_refuted. For texts of even length everything is proved. |
| C137 | A lookup table over a history of writes, and translating with it | `Lookup_Model.v`; histories and translation are programs over it, in `LookupHist_Spec.v` | induction on the history and on the table | proved: The equality of the keys (and for translating back of the values) is taken to be a true equality, as for C57. |
| C138 | An index over a sequence of steps, and loops over it | `Index_Model.v`; sequences of steps and loops are programs over it, in `IndexHist_Spec.v` | induction on the sequence and on the number of rounds | partial: Partial: in debug builds the offset -2^63 is left out, for which the operators are undefined although the exact value fits (C138_most_negative_refuted, see C67). The comparison of indices is that of their values. |
| C139 | Chains of results: which functions are called, and what comes out | `Result_Model.v`; chains are programs over it that note each call, in `ResultChain_Spec.v` | induction on the chain | proved: For or_else the functions are taken not to return a valueless result (one that lost its element to an exception, see C63): error() of it terminates. |
| C140 | Algorithms run on the iterators of a static_vector | `Iter_Model.v`, `Sv_Model.v`, `SvIter_Model.v`; algorithms are trees of steps in `Algo_Spec.v`, with a meaning on iterators and one on lists | simulation, by induction on the algorithm | partial: Partial: in debug builds += may not move to the end (C140_to_end_refuted, see C61): C140_leaving_is_reported says that this and leaving the range fail an assertion. Everything else is proved for every build. |
| C141 | Halving a range of integers with mid() until two neighbours are left | `Range_Model.v`; the loops are programs over it, in `Halve_Spec.v` | induction on the rounds, from C71 and C79 | partial: Partial: ranges wider than the largest value of their type (see C71_too_wide) and, in debug builds, ranges open at both ends (C141_open_refuted) are left out. The usual search is refuted (C141_usual_search_refuted). |
| C142 | Sorting a static_vector through its iterators | as C140; the algorithm is in `Sort_Spec.v` | C140, and induction on the sorted part of the list | proved: The vectors are those C54 speaks of (see C140_after_history_partial). |

## What is modelled

| code | model |
|------|-------|
| io/encoding.hpp, io/byte_utilities.hpp, io/byte_buffer_read.hpp, io/byte_buffer_write.hpp | `Io_Model.v`, every function; `IoIter_Model.v`, `IoAlias_Model.v`, `IoBool_Model.v`: iterator pairs, ranges inside the buffer, bool; `IoThread_Model.v`: several threads |
| io/byte_read_buffer_view.hpp, io/byte_write_buffer_view.hpp | `IoView_Model.v`, every member; `IoGrow_Model.v`: views of vectors that change length; `IoViewThread_Model.v`: views of one buffer on several threads |
| io/byte_buffer_file.hpp, io/byte_stream.hpp, io/types.hpp (to_integer) | `File_Model.v`; `FileProc_Model.v` adds open handles, allocation, ftell and wide elements; `FileConc_Model.v`: several threads or processes |
| binascii/hexlify.hpp | `Hex_Model.v`, every function, both character types; tables copied |
| core/uuid.hpp, core/uuid/*.hpp | `UuidPlace_Model.v`: the places of objects in memory; `UuidObj_Model.v`: parsing with format objects; `Uuid_Model.v`: printing, parsing, construction, order, hash, all ten formats, both character types; `UuidGen_Model.v`: make_uuid on interleaved threads, std::mt19937_64 |
| string/split.hpp, join.hpp, trim.hpp, strip.hpp | `String_Model.v` |
| string/fragment_string.hpp | `Frag_Model.v`; `FragKeep_Model.v`: kept iterators; `FragMake_Model.v`: constructors for any fragment count, literals; `TextLife_Model.v`: texts that change or die, with split_to |
| collections/dereferencing_iterator.hpp | `Iter_Model.v`; kept iterators: `SvIter_Model.v`, `IdentIter_Model.v` |
| collections/static_vector.hpp | `Sv_Model.v` |
| collections/static_lookup.hpp, make_vector.hpp | `Lookup_Model.v` |
| collections/identifiable_item_collection.hpp | `Ident_Model.v`; `IdentMove_Model.v` has several collections that move into one another |
| core/result.hpp | `Result_Model.v` |
| core/scope.hpp, common/constructor_macros.hpp | `Scope_Model.v` |
| core/index.hpp, core/id.hpp | `Index_Model.v` |
| maths/value_range.hpp, bounded_value.hpp, numeric.hpp | `Range_Model.v`, `Float_Model.v` (any binary format), `Single_Model.v` (`float` with `double` conversions), `Long_Model.v` (`long double`) |
| geometry/point.hpp | `Point_Model.v` |
| core/io.hpp, maths/io.hpp, geometry/io.hpp | `Print_Model.v` |
| core/assert.hpp | `dassert` in `Base.v` |

## What is not modelled

* core/overload.hpp (overload resolution is the compiler's), env/*.hpp (preprocessor
  configuration; the choices that matter are parameters), common/concepts.hpp and
  io/concepts.hpp (compile-time only, preconditions here), the umbrella headers.
* The compiler, `constexpr` evaluation, overload resolution and template
  instantiation, except where a comment says which overload is meant.
* Threads, except make_uuid (the only function with state of its own, `thread_local`), reads and writes of a
  shared buffer (C114, by views C119) and of files (C116): the library has no other shared state and no synchronisation.
* Heap exhaustion, except where an allocator or a throwing copy is an argument
  (split, collections, make_vector, result).
* Aliasing in `uuid(engine)` and `std::hash<uuid>` (core/uuid.hpp:66-75 writes through a
  `uint64_t*` into a byte array); alignment is modelled (C120).
* NaN payloads, signalling NaNs, rounding modes other than to nearest even.
* Locales: `isspace` is an arbitrary predicate, `isxdigit` is the C one.
* Streams with non-default adjustment or exceptions(), and the text the standard
  library prints for an element other than integers and bytes (a parameter `show`).
* `std::swap` on iterators (its definition in
  dereferencing_iterator.hpp does not compile when instantiated, `b.ptr`).
* `unsafe_uuid_from_string` (core/uuid.hpp): it assigns an array to a uuid whose
  constructor is explicit, so it cannot be instantiated.
* Writing ranges of encoded elements (little_endian<T>, big_endian<T>), which does not compile;
  reading them is modelled.

## Oracles (arguments that stand for things outside the code)

* `os`: which files can be opened, how many bytes each fread / fwrite moves, where
  a crash interrupts a write.  `world`: `os`, the limit on open files, what ftell reports,
  which allocations succeed.
* `after`: the memory that follows the 32-character digit array of the UUID parser.
* `takes`: how many bytes the device behind an output stream takes in each call.
* `h`: `std::hash<uint64_t>`; `w1`, `w2`: the words the random engine returns;
  what std::random_device gives at each step of a schedule (a value or an exception).
* `white`: the locale's whitespace.
* `alloc`, `allocs`, `avail`, `grow`: allocation success and capacity growth.
* `fail`, `throws`: which copy of a user type throws; `moved`: a moved-from value.
* `show`: what the stream prints for an element.
* Functions passed by the user (`fn` of result combinators) are arbitrary functions
  with a state, which may throw.

## What the log of wrong programs shows

Each line of `seeded/LOG.jsonl` is one edit of one model definition in a scratch copy.
`theorems_failed` lists the property theorems that rest on a lemma whose proof no longer
checks after the edit.  A proof script can break for reasons other than the statement
having become false, so this is weaker than a proof that the edited program violates the
theorem.  Where a theorem's negation was proved in the edited copy, the line has
`"refuted": true`.  `properties` are the claims expected to break, written down before
the run; a property listed there without a theorem in `theorems_failed` was missed.

To see how often a broken script hides a statement that is still true, 30 lines were
drawn at random (of 221 at the time) and the negation of one failing theorem was attempted for
each, importing only the model and specification files of the edited copy.  29 were
refuted as they stood.  The other, `char_value`, was a false detection: C50 was stated with that function.
C50 was restated with a separate definition and is now refuted too.
C24, C34, C63 and C65 had been restated without model helpers just before that run, so the
sample says nothing about their earlier form.  For the edit of `is_error` the refuted theorem
is `C63_valueless_refuted`, which describes the code as it is and not as it should be.

## Findings

Differences between the code and its documentation or the evident intention.  Each
has a theorem; see the row of the property.

* C07: try_read_at of an empty range at the end fails where the throwing read succeeds.
* C09, C12, C45, C53: sums and products of sizes wrap mod 2^64 past the bounds checks.
* C10, C19: a failed try_write of several values has written some of them.
* C17: a failed try_read on a view consumes bytes.
* C21, C22, C23: short writes are not reported, overwriting is not crash-safe, writing a
  range of wide elements writes size() bytes, a count beyond the range reads past it.
* C26, C28: parsing a UUID calls strlen on a 32-character array without a NUL.
* C28: wide characters above 255 go to `isxdigit`, outside its domain.
* C29, C30: the X-format parser overflows its digit array, reads past the text and
  ignores delimiters.
* C106: uuid_format::x requires braces, uuid_format::X does not; parsing with either letter uses X.
* C34: the version digit of random UUIDs is in the wrong byte.
* C37: unhexlify of odd-length text drops the last character.
* C43, C44: `isspace` is called with negative values.
* C46 - C53, C77: empty fragments break iteration and everything built on it; a default
  constructed fragment string cannot be converted; find(c, pos) searches before pos;
  a fragment string does not contain itself; field widths pad only the first fragment.
* C98: a fragment count above what the arguments need makes to_str undefined, one below writes
  past the array; a literal stops at its first NUL.
* C55: static_vector(n) has no elements.  C78: a throwing copy assignment leaves a vector
  whose size disagrees with its elements.
* C59, C60: the reference emplace returns can change an id; failed inserts can leave a
  half-inserted item.
* C61: in debug builds end() cannot be reached by iterator arithmetic.
* C103, C105: debug iterators remember the size from when they were made, so a valid ++ or + after an
  insertion fails an assertion; iterators of a collection do not survive what references survive (C100).
* C62: of two size arguments the last gives the size, the first the values.
* C63: result can become valueless.
* C65, C66: guards test uncaught_exceptions() against 0; guards can be assigned, running
  a function twice.
* C67: evaluating the debug assertion for the offset INT64_MIN is undefined.
* C69, C70, C80: open ranges: overlaps that contain nothing, clamping to values outside.
* C71, C82: size() and mid() overflow.  C73: prev_value moves up for values at or below the
  smallest normal number.  C74: interpolate(1, min, max) is not always max
  (for uint64_t, interpolate(1.0, 2^63, 2^64 - 1) is 0).
* C75: too many values write out of bounds, too few leave coordinates indeterminate (the
  README constructs a 4-D point from three values).
* C81: every range contains NaN.  C97: `empty()` compares the ends only: [3, 3] is empty although it
  contains 3, and (1, 2) is not although it contains no integer.
* C110: make_uuid seeds a 64-bit engine with one 32-bit value of random_device, so there are only 2^32
  sequences of UUIDs: of any 2^32 + 1 threads (or runs) two make the same UUIDs throughout.
* C120: uuid(engine) and std::hash<uuid> are undefined for a uuid that lies at an address that is not a
  multiple of alignof(uint64_t), where the type's own alignment of 1 lets compilers put it.
* C108: UUIDs with swapped halves have the same hash, and all UUIDs with equal halves hash to 0.
* C94: `float` interpolation to 1 can miss, exceed or overflow the maximum; the fraction in an empty
  range is NaN; the middle of [-max, max] is minus infinity.
* C87: read(path) leaks the FILE when allocating the result throws (on Linux a directory can be
  opened and reports a size of 2^63 - 1).
* C116: a read while the file is written can return zeros or a mixture; two writers can leave what neither wrote.
* C93: a moved-from collection is only usable after clear(), unless the standard library leaves moved-from containers empty.
* C88: short reads are returned as data; try_read into wide elements reads size() bytes.

Smaller observations without a property: common/concepts.hpp:20 `byte_like` constrains
nothing (`sizeof(t) == 1` is only checked to be well-formed); the README's `envelope(values)`
on an lvalue vector does not compile; `trim_left`, `trim_right` and `strip` of an lvalue string do
not compile either (`String_T` is deduced as a reference), and of a null pointer they are undefined;
fragment strings do not own their text, lifetimes are not modelled; minmax of rvalues of non-POD type returns dangling
references; the README prints a range as "[0.1,2.0]", the code as "[ 0.1, 2 ]"; fraction of
an empty integer range is 0, not NaN; `operator[]` of iterators of an
identifiable_item_collection does not compile when instantiated.

## Trusted base

* Coq's kernel (8.16.1) and, for the final commit, `coqchk`.
* The reading of `/repo` recorded in the citations.  Nothing ties the model to
  the code mechanically; the code was not built or run.
* The contracts of the C++ standard library as written in the definitions marked
  "Standard library" or `std::`.
* The oracles above.
* The axioms below.

## What `Print Assumptions` lists

* **Nothing** (closed under the global context): 636 of the 695 property theorems, all that are not named below.
* `Coq.Logic.FunctionalExtensionality.functional_extensionality_dep`, `Coq.Reals.ClassicalDedekindReals.sig_forall_dec`: 1 theorems: `C74_exact_arithmetic`.
* `Coq.Logic.Classical_Prop.classic`, `Coq.Logic.FunctionalExtensionality.functional_extensionality_dep`, `Coq.Reals.ClassicalDedekindReals.sig_forall_dec`, `Coq.Reals.ClassicalDedekindReals.sig_not_dec`: 58 theorems: `C102_fraction_empty`, `C102_fraction_monotone_partial`, `C102_fraction_partial`, `C102_fraction_refuted`, `C102_fraction_undefined`, `C102_fraction_unit_partial`, `C102_interpolate_partial`, `C102_interpolate_refuted`, `C102_mid_overflow_partial`, `C102_mid_partial`, `C102_mid_refuted`, `C102_monotone_partial`, `C102_range`, `C104_floats_partial`, `C132_floats_down_never_ends`, `C132_floats_down_partial`, `C132_floats_down_refuted`, `C132_floats_up`, `C132_floats_up_never_ends`, `C68_floats_ordered`, `C73_next_float`, `C73_prev_float_partial`, `C73_prev_float_refuted`, `C73_prev_float_wrong_way`, `C74_any_width_partial`, `C74_double_at_0_partial`, `C74_double_exact_width_partial`, `C74_double_fraction_partial`, `C74_double_monotone_partial`, `C74_double_refuted`, `C74_fraction_any_width_partial`, `C74_fraction_partial`, `C74_integers_partial`, `C74_members_double_partial`, `C74_members_int_partial`, `C74_round_trip_refuted`, `C74_wide_refuted`, `C79_refuted`, `C79_set_max_float_partial`, `C79_set_max_wrong_way_partial`, `C79_set_min_float_partial`, `C79_set_min_largest_partial`, `C80_default_float`, `C80_default_float_refuted`, `C81_other_values_partial`, `C82_mid_inside_partial`, `C82_mid_overflow_partial`, `C82_overflow_refuted`, `C94_endpoint_refuted`, `C94_fraction_empty`, `C94_fraction_partial`, `C94_interpolate_partial`, `C94_mid_overflow_partial`, `C94_mid_partial`, `C94_mid_refuted`, `C94_monotone_partial`, `C94_range_partial`, `C97_empty_size_double`.

These are axioms of the standard library's real numbers, reached through Flocq. No other
axiom is used, and none is declared here.
